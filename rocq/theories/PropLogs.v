(** The feature logs. Statements only: the proofs are the lemmas of ClaimsLogs.v, ClaimsLogArgs.v, ClaimsLogRest.v. *)
From Coq Require Import String.
From Verif Require Import Base Char Spec RustStd RustIter RustOrd ModelError Model ModelArgs RustFmt SpecFmt ModelImpl ModelDrain ModelCache
  ModelIntegration Layout TextOps SpecOps ModelOps ModelCacheOps StringSpec TestSuite IterSpec Obs ObsCache Cases ModelLogs ObsLogs CasesLogs ModelLogsRest
  ClaimsLogs ClaimsLogArgs ClaimsLogRest.

(** A logger that returns from every message whose level is enabled, whatever it does with its own state, changes nothing: every constructor and every history of calls has the results it has without logs. With both levels off this is every logger. *)
Theorem C71_quiet : forall (c : cfg) (tr db : bool) (W : Type) (log : event -> ST W unit),
  quiet tr db log ->
  (forall k w, exists w', l_build c tr db log k w = (build c k, w')) /\
  (forall l s w, exists w', l_run_ops c tr db log l s w = (fst (run_ops c l s), snd (run_ops c l s), w')).
Proof. exact (@c71_quiet). Qed.
Print Assumptions C71_quiet.
Example C71_quiet_case :
  quiet true true recorder /\ l_run_ops c5r true true recorder [OTryInsertStr 1 [i_]; OLen] s_he [] =
    (fst (run_ops c5r [OTryInsertStr 1 [i_]; OLen] s_he), snd (run_ops c5r [OTryInsertStr 1 [i_]; OLen] s_he),
     [EvTryInsertStr 1 [105] s_he; EvLen; EvInside 1 3; EvLen; EvReplace 3 1 1 1 [105];
      EvInside 1 1; EvLen; EvInside 1 3; EvInside 1 5; EvAsStr; EvLen;
      EvBoundary [104; 195; 169] 1; EvAsStr; EvLen; EvAsStr; EvLen;
      EvBoundary [104; 195; 169] 1; EvAsStr; EvLen; EvLen; EvInside 4 5; EvLen; EvLen; EvLen]).
Proof. split; [intros e w _; reflexivity|vm_compute; reflexivity]. Qed.
Example C71_quiet_case2 :
  quiet false false len_logger /\ l_run_ops c5r false false len_logger [OTryInsertStr 1 [i_]; OPop] s_he 0 =
    (fst (run_ops c5r [OTryInsertStr 1 [i_]; OPop] s_he), snd (run_ops c5r [OTryInsertStr 1 [i_]; OPop] s_he), 0).
Proof. split; [intros e w H; destruct e; discriminate H|vm_compute; reflexivity]. Qed.

(** With a logger that may panic a single call does what it does without logs, or leaves the string untouched, byte for byte, or (an edit whose last [len] message made the logger panic) leaves the new bytes with the old length. *)
Theorem C71_panic : forall (c : cfg) (tr db : bool) (W : Type) (log : event -> ST W unit) (o : op) (s : astring)
    (w : W),
  a_logger tr db log ->
  several_steps o = false ->
  as_without (l_run_op c tr db log o) (run_op c o) s w \/
  (can_panic tr db log /\ panicked (l_run_op c tr db log o) s w s) \/
  (panics_on tr db log EvLen /\ (inner_edit o = true \/ appends o = true) /\
   panicked (l_run_op c tr db log o) s w (torn s (snd (run_op c o s)))).
Proof. exact (@c71_panic). Qed.
Print Assumptions C71_panic.
Example C71_panic_case :
  panicked (l_run_op c5 true true pop_logger OPop) s_he 0 s_he /\
  panicked (l_run_op c5r true true len_logger (OTryPush h_)) s_he 9 (torn s_he (snd (run_op c5r (OTryPush h_) s_he))).
Proof. split; eexists; vm_compute; reflexivity. Qed.

(** A constructor makes what it makes without logs, or the panic of the logger is passed on. *)
Theorem C71_build : forall (c : cfg) (tr db : bool) (W : Type) (log : event -> ST W unit) (k : ctor),
  a_logger tr db log ->
  answers tr db log (l_build c tr db log k) (build c k).
Proof. exact (@c71_build). Qed.
Print Assumptions C71_build.
Example C71_build_case :
  l_build c5 true true len_logger (CTryFromStr [h_; e_]) 3 = (Panic, 0) /\
  l_build c5 true true len_logger (CTryFromStr [h_; e_]) 99 = (build c5 (CTryFromStr [h_; e_]), 77).
Proof. split; vm_compute; reflexivity. Qed.

(** So a call that does not edit inside the string, and any single edit when the logger accepts [len] messages or the level trace is off, leaves the old text when the logger panics. *)
Theorem C71_text : forall (c : cfg) (tr db : bool) (W : Type) (log : event -> ST W unit) (o : op) (s : astring)
    (t : text) (w : W),
  valid_cfg c -> a_logger tr db log ->
  shows c s t -> typed_op o -> several_steps o = false ->
  inner_edit o = false \/ ~ panics_on tr db log EvLen ->
  as_without (l_run_op c tr db log o) (run_op c o) s w \/
  (can_panic tr db log /\ exists s', panicked (l_run_op c tr db log o) s w s' /\ shows c s' t).
Proof. exact (@c71_text). Qed.
Print Assumptions C71_text.
Example C71_text_case :
  shows c5r (torn s_he (snd (run_op c5r (OTryPush h_) s_he))) [h_; e_] /\
  torn s_he (snd (run_op c5r (OTryPush h_) s_he)) = mkastring [104; 195; 169; 104; 9] 3.
Proof. solve_case. Qed.
Example C71_text_case2 :
  as_without (l_run_op c5 true true pop_logger (ORemove 1)) (run_op c5 (ORemove 1)) s_he 0.
Proof. eexists; vm_compute; reflexivity. Qed.
Example C71_text_case3 :
  ~ panics_on false true len_logger EvLen /\
  as_without (l_run_op c5r false true len_logger (ORemove 0)) (run_op c5r (ORemove 0)) s_he 0.
Proof. split; [intros [H _]; discriminate H|eexists; vm_compute; reflexivity]. Qed.

(** When the logger panics, [write!] has added those of its first pieces that fitted, up to some piece. *)
Theorem C71_write_fmt : forall (c : cfg) (tr db : bool) (W : Type) (log : event -> ST W unit) (p : formatting)
    (s : astring) (t : text) (w : W),
  valid_cfg c -> a_logger tr db log ->
  shows c s t ->
  as_without (l_run_op c tr db log (OWriteFmt p)) (run_op c (OWriteFmt p)) s w \/
  (can_panic tr db log /\ exists s' u, panicked (l_run_op c tr db log (OWriteFmt p)) s w s' /\
   so_far (cap c) p t u /\ shows c s' u).
Proof. exact (@c71_write_fmt). Qed.
Print Assumptions C71_write_fmt.
Example C71_write_fmt_case :
  panicked (l_run_op c5 true true len_logger (OWriteFmt (FPiece [h_] (fun _ => FPiece [i_] FStop)))) s_he 27 (mkastring [104; 195; 169; 104; 9] 4) /\
  shows c5 (mkastring [104; 195; 169; 104; 9] 4) ([h_; e_] ++ [h_]) /\
  so_far 5 (FPiece [h_] (fun _ => FPiece [i_] FStop)) [h_; e_] ([h_; e_] ++ [h_]) /\
  ~ so_far 5 (FPiece [h_] (fun _ => FPiece [i_] FStop)) [h_; e_] ([h_; e_] ++ [i_]).
Proof.
  split; [eexists; vm_compute; reflexivity|]. split; [solve_case|]. split.
  - apply sf_added; [vm_compute; discriminate|apply sf_here].
  - intros H. inversion H as [|? ? ? ? _ H1|? ? ? ? H1 _]; subst; [|discriminate H1].
    inversion H1 as [|? ? ? ? _ H2|? ? ? ? H2 _]; subst; [|discriminate H2]. inversion H2.
Qed.

(** [trim] may have cut the end only, or have been interrupted at the last [len] message of the cut at the front: the new bytes with the length after the first cut. *)
Theorem C71_trim : forall (c : cfg) (tr db : bool) (W : Type) (log : event -> ST W unit) (s : astring)
    (t : text) (w : W),
  valid_cfg c -> a_logger tr db log ->
  shows c s t ->
  as_without (l_run_op c tr db log OTrim) (run_op c OTrim) s w \/
  (can_panic tr db log /\ exists s', panicked (l_run_op c tr db log OTrim) s w s' /\
   exists s1 t' m, shows c s1 t' /\ t = t' ++ m /\ Forall (fun x => white_space x = true) m /\
     (s' = s1 \/ panics_on tr db log EvLen /\ s' = torn s1 (snd (run_op c OTrim s)))).
Proof. exact (@c71_trim). Qed.
Print Assumptions C71_trim.
Example C71_trim_case :
  panicked (l_run_op c5r true true len_logger OTrim) (mkastring [32; 104; 32; 0; 0] 3) 20 (mkastring [32; 104; 32; 0; 0] 2) /\
  shows c5r (mkastring [32; 104; 32; 0; 0] 2) [sp_; h_] /\
  panicked (l_run_op c5r true true len_logger OTrim) (mkastring [32; 104; 32; 0; 0] 3) 22
    (torn (mkastring [32; 104; 32; 0; 0] 2) (mkastring [104; 104; 32; 0; 0] 1)).
Proof. split; [eexists; vm_compute; reflexivity|split; [solve_case|eexists; vm_compute; reflexivity]]. Qed.

(** So a program that catches the panics is safe if its logger accepts the [len] messages, or if it does not edit inside the string: calls return or panic, and the string always shows a text. *)
Theorem C71_history : forall (c : cfg) (tr db : bool) (W : Type) (log : event -> ST W unit) (l : list op)
    (s : astring) (t : text) (w : W),
  valid_cfg c -> a_logger tr db log ->
  shows c s t -> Forall typed_op l -> Forall harmless l -> no_torn tr db log l ->
  exists rs s' w' t', l_run_ops c tr db log l s w = (rs, s', w') /\ shows c s' t' /\
    Forall (fun o => o = Panic \/ exists r, o = Ret r) rs.
Proof. exact (@c71_history). Qed.
Print Assumptions C71_history.
Example C71_history_case :
  no_torn true true pop_logger [OTryPush h_; OPop; OTrim; OAsStr] /\
  l_run_ops c5 true true pop_logger [OTryPush h_; OPop; OTrim; OAsStr] s_he 0 =
    ([Ret (ROob (Ok tt)); Panic; Ret RUnit; Ret (RBytes [104; 195; 169; 104])], mkastring [104; 195; 169; 104; 9] 4, 58).
Proof.
  split; [right; intros (_ & w & H); discriminate H|vm_compute; reflexivity].
Qed.
Example C71_history_case2 :
  no_torn true true len_logger [OTryPush h_; OPop; OTruncate 1] /\
  l_run_ops c5r true true len_logger [OTryPush h_; OPop; OTruncate 1] s_he 9 =
    ([Panic; Panic; Panic], mkastring [104; 195; 169; 104; 9] 3, 0) /\
  shows c5r (mkastring [104; 195; 169; 104; 9] 3) [h_; e_].
Proof. split; [left; repeat constructor|split; [vm_compute; reflexivity|solve_case]]. Qed.

(** [==], [cmp] and [hash] answer as without logs, or pass on the panic of the logger. *)
Theorem C71_compare : forall (c : cfg) (tr db : bool) (W : Type) (log : event -> ST W unit) (s o : astring)
    (h : hasher) (st : hstate h),
  a_logger tr db log ->
  answers tr db log (l_partial_eq c tr log s o) (partial_eq c s o) /\
  answers tr db log (l_ord_cmp c tr log s o) (ord_cmp c s o) /\
  answers tr db log (l_hash c tr log h s st) (hash c h s st).
Proof. exact (@c71_compare). Qed.
Print Assumptions C71_compare.
Example C71_compare_case :
  l_partial_eq c5 true recorder s_he s_he' [] = (Ret true, [EvAsStr; EvLen; EvLen; EvLen; EvLen; EvAsStr; EvLen; EvLen; EvLen; EvLen]) /\
  l_ord_cmp c5r true len_logger s_he s_full 0 = (Panic, 0).
Proof. split; vm_compute; reflexivity. Qed.

(** So do [Drain::next] and [next_back], or the panic leaves the drain as it was; only [next] can leave a drain with the new bytes and the old length. *)
Theorem C71_drain : forall (c : cfg) (tr db : bool) (W : Type) (log : event -> ST W unit) (front : bool)
    (d : Drain) (w : W),
  a_logger tr db log ->
  let g := if front : bool then l_drain_next c tr db log else l_drain_next_back c tr db log in
  let p := if front then drain_next c else drain_next_back c in
  (exists w', g (drained d, w) = (fst (p d), (drained (snd (p d)), w'))) \/
  (can_panic tr db log /\ panicked g (drained d) w (drained d)) \/
  (front = true /\ panics_on tr db log EvLen /\ panicked g (drained d) w (torn (drained d) (drained (snd (p d))))).
Proof. exact (@c71_drain). Qed.
Print Assumptions C71_drain.
Example C71_drain_case :
  l_drain_next_back c5 true true pop_logger (s_he, 0) = (Panic, (s_he, 0)) /\
  l_drain_next c5r true true len_logger (s_he, 14) = (Panic, (mkastring [195; 169; 169; 7; 9] 3, 0)).
Proof. split; vm_compute; reflexivity. Qed.

(** With foreign code as the string argument, a call does what it does without logs with one of the answers of that code, or the panic of the logger or of that code leaves the string as it was, or a [len] message leaves the new bytes with the old length. *)
Theorem C71_args :
  forall (c : cfg) (tr db : bool) (W : Type) (log : event -> ST W unit) (a : ST W (list N)) (k : str_call)
    (s : astring) (w : W),
  a_logger tr db log -> str_arg a -> asks k s ->
  (exists u, may_answer a u /\ as_without (l_str_call c tr db log k a) (run_op c (call_op k u)) s w) \/
  ((can_panic tr db log \/ may_panic a) /\ panicked (l_str_call c tr db log k a) s w s) \/
  (panics_on tr db log EvLen /\ exists u, may_answer a u /\
   panicked (l_str_call c tr db log k a) s w (torn s (snd (run_op c (call_op k u) s)))).
Proof. exact (@c71_args). Qed.
Print Assumptions C71_args.
Example C71_args_case :
  str_arg moody /\ may_answer moody [e_; i_] /\
  fst (l_str_call c5 true true recorder KPush moody (s_he, [])) = Ret (ROob (Err mkOutOfBounds)) /\
  fst (l_str_call c5 false true recorder KPush moody (s_he, [])) = Ret (ROob (Ok tt)).
Proof.
  split; [|split; [exists [EvClear]; eexists; reflexivity|split; vm_compute; reflexivity]].
  split; [intros w; split; discriminate|]. intros w b w' H. injection H as <- _. eexists. reflexivity.
Qed.
Example C71_args_case2 :
  l_str_call c5r true true recorder (KReplace (Included 1) Unbounded) moody (s_he, []) =
    (Ret (RErr (Ok tt)), (mkastring [104; 104; 169; 7; 9] 2,
     [EvClear; EvLen; EvLen; EvClear; EvClear; EvReplace 3 1 3 3 [104]; EvInside 1 3; EvLen; EvInside 3 3; EvInside 1 5;
      EvAsStr; EvLen; EvBoundary [104; 195; 169] 1; EvAsStr; EvLen; EvAsStr; EvLen; EvBoundary [104; 195; 169] 3; EvAsStr;
      EvLen; EvLen; EvInside 2 5; EvLen; EvLen])).
Proof. vm_compute. reflexivity. Qed.

(** [try_insert_str] past the end fails without looking at an answer. *)
Theorem C71_args_index :
  forall (c : cfg) (tr db : bool) (W : Type) (log : event -> ST W unit) (a : ST W (list N)) (i : N)
    (s : astring) (w : W),
  a_logger tr db log -> str_arg a -> len s < i ->
  exists w', l_str_call c tr db log (KInsert i) a (s, w) = (Ret (RErr (Err EOutOfBounds)), (s, w')) \/
    (can_panic tr db log \/ may_panic a) /\ l_str_call c tr db log (KInsert i) a (s, w) = (Panic, (s, w')).
Proof. exact (@c71_args_index). Qed.
Print Assumptions C71_args_index.
Example C71_args_index_case :
  l_str_call c5 true true recorder (KInsert 4) moody (s_he, []) =
    (Ret (RErr (Err EOutOfBounds)),
     (s_he, [EvClear; EvTryInsertStr 4 [104] s_he; EvLen; EvInside 4 3; EvFromOutOfBounds])).
Proof. vm_compute. reflexivity. Qed.

(** So do the constructors from a string. *)
Theorem C71_args_build :
  forall (c : cfg) (tr db : bool) (W : Type) (log : event -> ST W unit) (a : ST W (list N)) (w : W),
  a_logger tr db log -> str_arg a ->
  ((exists u w', may_answer a u /\ l_try_from_str c tr db log a w = (try_from_str c (enc u), w')) \/
   (can_panic tr db log \/ may_panic a) /\ exists w', l_try_from_str c tr db log a w = (Panic, w')) /\
  ((exists u w', may_answer a u /\ l_from_str_truncate c tr db log a w = (from_str_truncate c (enc u), w')) \/
   (can_panic tr db log \/ may_panic a) /\ exists w', l_from_str_truncate c tr db log a w = (Panic, w')).
Proof. exact (@c71_args_build). Qed.
Print Assumptions C71_args_build.
Example C71_args_build_case :
  fst (l_try_from_str c5 true true recorder moody []) = try_from_str c5 (enc [e_; i_]) /\
  fst (l_from_str_truncate c5 true true recorder moody [EvClear]) = from_str_truncate c5 (enc [e_; i_]) /\
  l_try_from_str c5 true true len_logger (fun w => (Ret (enc [h_]), w)) 1 = (Panic, 0).
Proof. repeat split; vm_compute; reflexivity. Qed.

(** [CacheString]: a logger that returns changes no constructor and no history. *)
Theorem C71_cache : forall (c0 : cfg) (tr db : bool) (W : Type) (log : event -> ST W unit),
  quiet tr db log ->
  (forall k w, exists w', l_cache_build c0 tr db log k w = (cache_build c0 k, w')) /\
  (forall l s w, exists w', l_cache_run_ops c0 tr db log l s w =
     (fst (cache_run_ops c0 l s), snd (cache_run_ops c0 l s), w')).
Proof. exact (@c71_cache). Qed.
Print Assumptions C71_cache.
Example C71_cache_case :
  l_cache_run_ops c5r true true recorder [OPop; OLen] k_he [] =
    (fst (cache_run_ops c5r [OPop; OLen] k_he), snd (cache_run_ops c5r [OPop; OLen] k_he), [EvPop; EvAsStr; EvLen; EvLen]).
Proof. vm_compute. reflexivity. Qed.

(** A program that calls a [CacheString] and catches the panics of the logger always finds a text in it, under the same condition as for [ArrayString]. *)
Theorem C71_cache_history : forall (c0 : cfg) (tr db : bool) (W : Type) (log : event -> ST W unit) (l : list op)
    (s : CacheString) (t : text) (w : W),
  valid_cfg c0 -> a_logger tr db log ->
  cache_shows c0 s t -> Forall typed_op l -> Forall harmless l -> no_torn tr db log l ->
  exists rs s' w' t', l_cache_run_ops c0 tr db log l s w = (rs, s', w') /\ cache_shows c0 s' t' /\
    Forall (fun o => o = Panic \/ exists r, o = Ret r) rs.
Proof. exact (@c71_cache_history). Qed.
Print Assumptions C71_cache_history.
Example C71_cache_history_case :
  a_logger true true pop_logger /\ no_torn true true pop_logger [OTryPush h_; OPop; ORemove 0] /\
  fst (fst (l_cache_run_ops c5 true true pop_logger [OTryPush h_; OPop; ORemove 0] k_he 0)) =
    [Ret (ROob (Ok tt)); Panic; Ret (RChar (Ok h_))] /\
  cache_shows c5 (snd (fst (l_cache_run_ops c5 true true pop_logger [OTryPush h_; OPop; ORemove 0] k_he 0))) [e_; h_].
Proof.
  split; [intros e _ w; split; destruct e; discriminate|]. split; [right; intros [_ [w H]]; discriminate H|].
  split; [vm_compute; reflexivity|solve_case].
Qed.

(** serde and diesel: reading and writing a value gives what it gives without logs, or the panic of the logger is passed on. *)
Theorem C71_serde : forall (c : cfg) (tr db : bool) (W : Type) (log : event -> ST W unit) (s : astring),
  a_logger tr db log ->
  (forall R (ser : list N -> R), answers tr db log (l_serialize c tr log ser s) (serialize c ser s)) /\
  (forall E (v : visit E), answers tr db log (l_deserialize c tr db log v) (deserialize c v)) /\
  (forall V E (f : V -> result str_ptr E) v, answers tr db log (l_from_sql c tr db log f v) (from_sql c f v)).
Proof. exact (@c71_serde). Qed.
Print Assumptions C71_serde.
Example C71_serde_case :
  l_serialize c5 true recorder (fun b => 34 :: b ++ [34]) s_he [] =
    (serialize c5 (fun b => 34 :: b ++ [34]) s_he, [EvAsStr; EvLen; EvLen; EvLen; EvLen]) /\
  l_deserialize c5 true true len_logger (VBorrowedStr (E := unit) (enc [h_; e_])) 0 = (Panic, 0) /\
  fst (l_from_sql c5r true true recorder (fun v => Ok (E := unit) (At v)) (enc [h_; e_]) []) =
    from_sql c5r (fun v => Ok (E := unit) (At v)) (enc [h_; e_]).
Proof. repeat split; vm_compute; reflexivity. Qed.

(** The same for storing a value; if the logger panics, nothing was written. *)
Theorem C71_to_sql : forall (c : cfg) (tr db : bool) (W : Type) (log : event -> ST W unit) (s : astring)
    (O R : Type) (f : list N -> ST O R) (x : O) (w : W),
  a_logger tr db log ->
  (exists w', l_to_sql c tr log f s (x, w) = (fst (to_sql c f s x), (snd (to_sql c f s x), w'))) \/
  (can_panic tr db log /\ exists w', l_to_sql c tr log f s (x, w) = (Panic, (x, w'))).
Proof. exact (@c71_to_sql). Qed.
Print Assumptions C71_to_sql.
Example C71_to_sql_case :
  l_to_sql c5 true len_logger (fun b o => (Ret tt, o ++ b)) s_he ([33], 9) = (Ret tt, ([33; 104; 195; 169], 5)) /\
  l_to_sql c5 true len_logger (fun b o => (Ret tt, o ++ b)) s_he ([33], 3) = (Panic, ([33], 0)).
Proof. split; vm_compute; reflexivity. Qed.

(** The same for [{:?}]; if the logger panics, the name of the type was written. *)
Theorem C71_debug : forall (c : cfg) (tr db : bool) (W : Type) (log : event -> ST W unit) (s : astring)
    (str_debug : list N -> debug_impl) (u8_debug : N -> debug_impl) (O : Type)
    (k : sink O) (alt : bool) (x : O) (w : W),
  a_logger tr db log ->
  let p := debug_fmt c str_debug u8_debug s O k alt x in
  (exists w', l_debug_fmt c tr log str_debug u8_debug s k alt (x, w) = (fst p, (snd p, w'))) \/
  (can_panic tr db log /\ exists w', l_debug_fmt c tr log str_debug u8_debug s k alt (x, w) =
     (Panic, (snd (debug_start k (lit "ArrayString") x), w'))).
Proof. exact (@c71_debug). Qed.
Print Assumptions C71_debug.
Example C71_debug_case :
  fst (l_debug_fmt c5 true recorder str_debug digit_debug s_he buffer false ([], [])) = Ret (Ok tt) /\
  l_debug_fmt c5 true len_logger str_debug digit_debug s_he buffer false ([], 3) = (Panic, (lit "ArrayString", 0)).
Proof. split; vm_compute; reflexivity. Qed.

(** The same for [Drain]: if the logger panics, what was written is what a field that wrote its name and panicked leaves. *)
Theorem C71_debug_drain : forall (c : cfg) (tr db : bool) (W : Type) (log : event -> ST W unit) (d : Drain)
    (str_debug : list N -> debug_impl) (u8_debug : N -> debug_impl) (O : Type)
    (k : sink O) (alt : bool) (x : O) (w : W),
  a_logger tr db log ->
  let p := drain_debug c str_debug u8_debug d O k alt x in
  (exists w', l_drain_debug c tr log str_debug u8_debug d k alt (x, w) = (fst p, (snd p, w'))) \/
  (can_panic tr db log /\ exists w', l_drain_debug c tr log str_debug u8_debug d k alt (x, w) =
     (Panic, (snd ((b <~ debug_start k (lit "Drain") ;; tuple_field k alt b named_panic) x), w'))).
Proof. exact (@c71_debug_drain). Qed.
Print Assumptions C71_debug_drain.
Example C71_debug_drain_case :
  fst (l_drain_debug c5 true recorder str_debug digit_debug (mkDrain s_he) buffer true ([], [])) = Ret (Ok tt) /\
  l_drain_debug c5 true len_logger str_debug digit_debug (mkDrain s_he) buffer false ([33], 3) = (Panic, (33 :: lit "Drain(ArrayString", 0)) /\
  l_drain_debug c5 true len_logger str_debug digit_debug (mkDrain s_he) buffer true ([], 3) = (Panic, (lit "Drain(" ++ [10] ++ lit "    ArrayString", 0)).
Proof. solve_case. Qed.

(** And for [CacheString]. *)
Theorem C71_debug_cache : forall (c0 : cfg) (tr db : bool) (W : Type) (log : event -> ST W unit) (s : CacheString)
    (str_debug : list N -> debug_impl) (u8_debug : N -> debug_impl) (O : Type)
    (k : sink O) (alt : bool) (x : O) (w : W),
  a_logger tr db log ->
  let p := cache_debug c0 str_debug u8_debug s O k alt x in
  (exists w', l_cache_debug c0 tr log str_debug u8_debug s k alt (x, w) = (fst p, (snd p, w'))) \/
  (can_panic tr db log /\ exists w', l_cache_debug c0 tr log str_debug u8_debug s k alt (x, w) =
     (Panic, (snd ((b <~ debug_start k (lit "CacheString") ;; tuple_field k alt b named_panic) x), w'))).
Proof. exact (@c71_debug_cache). Qed.
Print Assumptions C71_debug_cache.
Example C71_debug_cache_case :
  fst (l_cache_debug c5 true recorder str_debug digit_debug k_he buffer true ([], [])) = Ret (Ok tt) /\
  l_cache_debug c5 true len_logger str_debug digit_debug k_he buffer false ([], 3) = (Panic, (lit "CacheString(ArrayString", 0)).
Proof. solve_case. Qed.
