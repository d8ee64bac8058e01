(** What is logged (feature logs). Statements only: the proofs are the lemmas of ClaimsLogLines.v, ClaimsLogRest.v. *)
From Verif Require Import Base Char Spec RustStd RustIter RustOrd ModelError Model ModelArgs RustFmt SpecFmt ModelImpl ModelDrain ModelCache
  ModelIntegration Layout TextOps SpecOps ModelOps ModelCacheOps StringSpec TestSuite IterSpec Obs ObsCache Cases ModelLogs ObsLogs CasesLogs ModelLogsRest ObsLogLines
  ClaimsLogLines ClaimsLogRest.

(** With a logger that keeps the messages, every call answers as on texts, and the log grows at its end by exactly the debug messages of the specification, in their order and with their arguments, if that level is on, and by no others; messages of level trace stand between them only if that level is on. *)
Theorem C74_debug : forall (c : cfg) (tr db : bool) (o : op) (s : astring) (t : text) (l : list event),
  valid_cfg c -> shows c s t -> typed_op o ->
  exists s' l', l_run_op c tr db record o (s, l) = (fst (t_op (usize_max c) (cap c) o t), (s', l')) /\
    shows c s' (snd (t_op (usize_max c) (cap c) o t)) /\
    log_grew tr db l (debug_lines (usize_max c) (cap c) o t) l'.
Proof. exact (@c74_debug). Qed.
Print Assumptions C74_debug.
Example C74_debug_case :
  filter debug_level (snd (snd (l_run_op c5 true true record (ORemove 1) (s_he, [EvClear])))) = [EvRemove 1; EvReplace 3 1 3 0 []] /\
  debug_lines 65535 5 (ORemove 1) [h_; e_] = [EvRemove 1; edit_line [h_; e_] 1 3 []] /\
  debug_lines 65535 5 (ORemove 2) [h_; e_] = [EvRemove 2].
Proof. solve_case. Qed.
Example C74_debug_case2 :
  l_run_op c5r false true record (OPushStrTruncate [i_; i_; i_]) (s_he, [EvClear]) =
    (Ret RUnit, (mkastring [104; 195; 169; 105; 105] 5, [EvClear; EvReplace 3 3 3 2 [105; 105]])) /\
  debug_lines 65535 5 (OPushStrTruncate [i_; i_; i_]) [h_; e_] = [push_line [h_; e_] [i_; i_]].
Proof. solve_case. Qed.
Example C74_debug_case3 :
  l_run_op c5r false true record (ODrain (Included 1) Unbounded) (s_he, []) =
    (Ret (RPart (Ok [195; 169])), (mkastring [104; 195; 169; 7; 9] 1, [EvDrain 3 1 3; EvReplace 0 0 0 2 [195; 169]; EvReplace 3 1 3 0 []])) /\
  debug_lines 65535 5 (ODrain (Included 1) Unbounded) [h_; e_] = [EvDrain 3 1 3; push_line [] [e_]; edit_line [h_; e_] 1 3 []].
Proof. solve_case. Qed.
Example C74_debug_case4 :
  debug_lines 65535 5 (OInsertStrTruncate 4 [h_]) [h_; e_] = [] /\
  debug_lines 65535 5 OTrim [sp_; h_; sp_] = [edit_line [sp_; h_; sp_] 2 3 []; edit_line [sp_; h_] 0 1 []] /\
  debug_lines 65535 5 OTrim [sp_; sp_] = [].
Proof. solve_case. Qed.
Example C74_debug_case5 :
  ~ log_grew false true [] [EvPop] [EvPop; EvLen] /\ ~ log_grew true true [] [EvPop; EvSplitOff] [EvSplitOff; EvPop] /\
  log_grew true true [EvLen] [EvPop; EvSplitOff] [EvLen; EvPop; EvLen; EvSplitOff] /\ ~ log_grew true true [EvLen] [EvPop] [EvPop].
Proof.
  repeat split.
  - intros (m & E & F & G). cbn in E. subst m. discriminate (G eq_refl).
  - intros (m & E & F & G). cbn in E. subst m. discriminate F.
  - exists [EvPop; EvLen; EvSplitOff]. repeat split. intros H. discriminate H.
  - intros (m & E & F & G). discriminate E.
Qed.

(** The same for every history of calls: the logs of the calls follow each other. *)
Theorem C74_history : forall (c : cfg) (tr db : bool) (h : list op) (s : astring) (t : text) (l : list event),
  valid_cfg c -> shows c s t -> Forall typed_op h ->
  exists s' l', l_run_ops c tr db record h s l = (fst (t_ops (usize_max c) (cap c) h t), s', l') /\
    shows c s' (snd (t_ops (usize_max c) (cap c) h t)) /\
    log_grew tr db l (history_lines (usize_max c) (cap c) h t) l'.
Proof. exact (@c74_history). Qed.
Print Assumptions C74_history.
Example C74_history_case :
  l_run_ops c5r false true record [OPop; OTryPushStr [i_; i_; i_; i_; i_]; OLen; OTryPush h_] s_he [] =
    ([Ret (ROptChar (Some e_)); Ret (ROob (Err mkOutOfBounds)); Ret (RNum 1); Ret (ROob (Ok tt))], mkastring [104; 104; 169; 7; 9] 2,
     [EvPop; EvReplace 1 1 1 5 [105; 105; 105; 105; 105]; EvReplace 1 1 1 1 [104]]) /\
  history_lines 65535 5 [OPop; OTryPushStr [i_; i_; i_; i_; i_]; OLen; OTryPush h_] [h_; e_] =
    [EvPop; push_line [h_] [i_; i_; i_; i_; i_]; push_line [h_] [h_]].
Proof. solve_case. Qed.

(** The same for every constructor, which makes what it makes without logs. *)
Theorem C74_build : forall (c : cfg) (tr db : bool) (k : ctor) (l : list event),
  valid_cfg c -> typed_ctor k ->
  exists l', l_build c tr db record k l = (build c k, l') /\ log_grew tr db l (build_lines (cap c) k) l'.
Proof. exact (@c74_build). Qed.
Print Assumptions C74_build.
Example C74_build_case :
  l_build c5r false true record (CTryFromUtf16 [104; 233; 55296]) [] =
    (build c5r (CTryFromUtf16 [104; 233; 55296]), [EvUtf16 false [104; 233; 55296]; EvReplace 0 0 0 1 [104]; EvReplace 1 1 1 2 [195; 169]]) /\
  build_lines 5 (CTryFromUtf16 [104; 233; 55296]) = [EvUtf16 false [104; 233; 55296]; push_line [] [h_]; push_line [h_] [e_]].
Proof. solve_case. Qed.
Example C74_build_case2 :
  build_lines 5 (CFromUtf16Lossy [104; 55296; 233]) =
  [EvUtf16 true [104; 55296; 233]; push_line [] [h_]; push_line [h_] [replacement_char]; push_line [h_; replacement_char] [e_]].
Proof. solve_case. Qed.

(** With both levels on a call begins with its first message, which carries its arguments: a logger that panics on that message sees no other, and the string is untouched. *)
Theorem C74_announce : forall (c : cfg) (W : Type) (log : event -> ST W unit) (o : op) (s : astring) (e : event)
    (w w' : W),
  announces s o = Some e -> log e w = (Panic, w') ->
  l_run_op c true true log o (s, w) = (Panic, (s, w')).
Proof. exact (@c74_announce). Qed.
Print Assumptions C74_announce.
Example C74_announce_case :
  announces s_he (OTryPush h_) = Some (EvPush h_) /\
  l_run_op c5 true true (fun e l => (match e with EvPush _ => Panic | _ => Ret tt end, l ++ [e])) (OTryPush h_) (s_he, []) =
    (Panic, (s_he, [EvPush h_])).
Proof. solve_case. Qed.
Example C74_announce_case2 :
  announces s_he (OInsertStrTruncate 1 [i_]) = Some (EvInsertStrTruncate 1 [105] s_he) /\ announces s_he OCapacity = None.
Proof. solve_case. Qed.

(** So does a constructor. *)
Theorem C74_announce_new : forall (c : cfg) (W : Type) (log : event -> ST W unit) (k : ctor) (e : event) (w w' : W),
  announces_new k = Some e -> log e w = (Panic, w') -> l_build c true true log k w = (Panic, w').
Proof. exact (@c74_announce_new). Qed.
Print Assumptions C74_announce_new.
Example C74_announce_new_case :
  announces_new (CTryFromStr [h_]) = Some (EvTryFromStr [104]) /\
  l_build c5 true true (fun e l => (match e with EvTryFromStr _ => Panic | _ => Ret tt end, l ++ [e])) (CTryFromStr [h_]) [] =
    (Panic, [EvTryFromStr [104]]).
Proof. solve_case. Qed.

(** The same for histories of calls on a [CacheString]. *)
Theorem C74_cache : forall (c0 : cfg) (tr db : bool) (h : list op) (s : CacheString) (t : text) (l : list event),
  valid_cfg c0 -> cache_shows c0 s t -> Forall typed_op h ->
  exists s' l', l_cache_run_ops c0 tr db record h s l = (fst (t_ops (usize_max c0) 63 h t), s', l') /\
    cache_shows c0 s' (snd (t_ops (usize_max c0) 63 h t)) /\
    log_grew tr db l (history_lines (usize_max c0) 63 h t) l'.
Proof. exact (@c74_cache). Qed.
Print Assumptions C74_cache.
Example C74_cache_case :
  l_cache_run_ops c5r false true record [OPop; OTryPush i_] k_he [] =
    ([Ret (ROptChar (Some e_)); Ret (ROob (Ok tt))], mkCache (mkastring ([104; 105; 169] ++ repeat 7 60) 2),
     [EvPop; EvReplace 1 1 1 1 [105]]) /\
  history_lines 65535 63 [OPop; OTryPush i_] [h_; e_] = [EvPop; push_line [h_] [i_]].
Proof. solve_case. Qed.

(** And for its constructors. *)
Theorem C74_cache_build : forall (c0 : cfg) (tr db : bool) (k : ctor) (l : list event),
  valid_cfg c0 -> typed_ctor k ->
  exists l', l_cache_build c0 tr db record k l = (cache_build c0 k, l') /\ log_grew tr db l (build_lines 63 k) l'.
Proof. exact (@c74_cache_build). Qed.
Print Assumptions C74_cache_build.
Example C74_cache_build_case :
  l_cache_build c5r false true record (CFrom [h_; e_]) [] = (cache_build c5r (CFrom [h_; e_]), [EvReplace 0 0 0 3 [104; 195; 169]]) /\
  build_lines 63 (CFrom [h_; e_]) = [push_line [] [h_; e_]].
Proof. solve_case. Qed.
