(** Printing the log messages (feature logs). Statements only: the proofs are the lemmas of ClaimsLogText.v. *)
From Coq Require Import String.
From Verif Require Import Base Char Spec RustStd RustIter RustOrd ModelError Model ModelArgs RustFmt SpecFmt ModelImpl ModelDrain ModelCache
  ModelIntegration Layout TextOps SpecOps ModelOps ModelCacheOps StringSpec TestSuite IterSpec Obs ObsCache Cases ModelLogs ObsLogs CasesLogs ModelLogsRest ObsLogText ObsLogLines CasesLogText
  ClaimsLogText.

(** The messages of a call are sent at a level that is on, the strings in them are UTF-8, and the [self] they show is the string as it was before the call, whatever the call does to it. *)
Theorem C75_messages : forall (c : cfg) (tr db : bool) (o : op) (s : astring) (l : list event),
  exists r s' m, l_run_op c tr db record o (s, l) = (r, (s', l ++ m)) /\
    Forall (fun e => level_on tr db e = true /\ about s e) m.
Proof. exact (@c75_messages). Qed.
Print Assumptions C75_messages.
Example C75_messages_case :
  List.nth_error (snd (snd (l_run_op c5 true true record OTrim (s_sp, [])))) 0 = Some (EvTrim s_sp) /\
  fst (snd (l_run_op c5r true true record (OInsertStrTruncate 1 [i_]) (s_he, [EvLen]))) = mkastring [104; 105; 195; 169; 9] 4 /\
  List.firstn 5 (snd (snd (l_run_op c5r true true record (OInsertStrTruncate 1 [i_]) (s_he, [EvLen])))) =
    [EvLen; EvInsertStrTruncate 1 [105] s_he; EvLen; EvTruncateStr [105] 2; EvTryInsertStr 1 [105] s_he].
Proof. solve_case. Qed.
Example C75_messages_case2 :
  about s_sp (EvTrim s_sp) /\ ~ about s_he (EvTrim s_sp) /\ ~ about s_he (EvPushStr [255]) /\ about s_he (EvPushStr [195; 169]).
Proof.
  split; [reflexivity|]. split; [discriminate|]. split; [apply not_text; reflexivity|]. exists [e_]. reflexivity.
Qed.

(** So every message of a history of calls on a string with a text can be shown. *)
Theorem C75_history_messages : forall (c : cfg) (tr db : bool) (h : list op) (s : astring) (t : text) (l : list event),
  valid_cfg c -> shows c s t -> Forall typed_op h ->
  exists rs s' m, l_run_ops c tr db record h s l = (rs, s', l ++ m) /\
    Forall (fun e => level_on tr db e = true /\ legible c e) m.
Proof. exact (@c75_history_messages). Qed.
Print Assumptions C75_history_messages.
Example C75_history_messages_case :
  legible c5 (EvTrim s_sp) /\ ~ legible c5 (EvTrim s_bad) /\ legible c5 EvLen.
Proof.
  split; [|split].
  - exists s_sp. split; [reflexivity|]. right. exists [sp_; h_; sp_; i_; sp_]. solve_case.
  - intros (s & E & [N|(t & _ & S)]); [discriminate N|]. cbn in E. subst s. vm_compute in S. discriminate S.
  - exists s_bad. split; [exact Logic.I|left; reflexivity].
Qed.

(** The messages of a constructor can be shown too, and show no [self]. *)
Theorem C75_build_messages : forall (c : cfg) (tr db : bool) (k : ctor) (l : list event),
  typed_ctor k ->
  exists r m, l_build c tr db record k l = (r, l ++ m) /\
    Forall (fun e => level_on tr db e = true /\ legible c e /\ self_of e = None) m.
Proof. exact (@c75_build_messages). Qed.
Print Assumptions C75_build_messages.
Example C75_build_messages_case :
  List.firstn 4 (snd (l_build c5r true false record (CTryFromStr [h_; e_]) [])) = [EvTryFromStr [104; 195; 169]; EvPushStr [104; 195; 169]; EvLen; EvInside 0 0].
Proof. solve_case. Qed.

(** If a logger returns from the enabled messages about the string, the state it is in after a call is the one it reaches by handling, one after the other, the messages that another logger records for the same call. No message is lost, added or changed by who listens. *)
Theorem C75_state : forall (c : cfg) (tr db : bool) (W : Type) (log : event -> ST W unit) (f : event -> W -> W)
    (o : op) (s : astring) (l : list event) (w : W),
  (forall e w, level_on tr db e = true -> about s e -> log e w = (Ret tt, f e w)) ->
  exists r s' m, l_run_op c tr db record o (s, l) = (r, (s', l ++ m)) /\
    l_run_op c tr db log o (s, w) = (r, (s', fold_left (fun w e => f e w) m w)) /\
    Forall (fun e => level_on tr db e = true /\ about s e) m.
Proof. exact (@c75_state). Qed.
Print Assumptions C75_state.
Example C75_state_case :
  l_run_op c5 true true (fun e (w : N) => (Ret tt, match e with EvLen => w + 1 | _ => w * 2 end)) OLen (s_he, 5) = (Ret (RNum 3), (s_he, 6)) /\
  l_run_op c5r true true (fun e (w : N) => (Ret tt, match e with EvPop => w + 1 | _ => w * 2 end)) OPop (s_he, 5) =
    (Ret (ROptChar (Some e_)), (mkastring [104; 195; 169; 7; 9] 1, 24)) /\
  snd (snd (l_run_op c5r true true record OPop (s_he, []))) = [EvPop; EvAsStr; EvLen].
Proof. solve_case. Qed.

(** The same for histories of calls, if it returns from the messages that can be shown. *)
Theorem C75_state_history : forall (c : cfg) (tr db : bool) (W : Type) (log : event -> ST W unit) (f : event -> W -> W)
    (h : list op) (s : astring) (t : text) (l : list event) (w : W),
  valid_cfg c -> shows c s t -> Forall typed_op h ->
  (forall e w, level_on tr db e = true -> legible c e -> log e w = (Ret tt, f e w)) ->
  exists rs s' m, l_run_ops c tr db record h s l = (rs, s', l ++ m) /\
    l_run_ops c tr db log h s w = (rs, s', fold_left (fun w e => f e w) m w) /\
    Forall (fun e => level_on tr db e = true /\ legible c e) m.
Proof. exact (@c75_state_history). Qed.
Print Assumptions C75_state_history.
Example C75_state_history_case :
  l_run_ops c5r false true (fun e (w : N) => (Ret tt, match e with EvPop => w + 1 | _ => w * 2 end)) [OPop; OTryPush h_; OPop] s_he 0 =
    ([Ret (ROptChar (Some e_)); Ret (ROob (Ok tt)); Ret (ROptChar (Some h_))], mkastring [104; 104; 169; 7; 9] 1, 3) /\
  snd (l_run_ops c5r false true record [OPop; OTryPush h_; OPop] s_he []) = [EvPop; EvReplace 1 1 1 1 [104]; EvPop].
Proof. solve_case. Qed.

(** And for constructors. *)
Theorem C75_state_build : forall (c : cfg) (tr db : bool) (W : Type) (log : event -> ST W unit) (f : event -> W -> W)
    (k : ctor) (l : list event) (w : W),
  typed_ctor k ->
  (forall e w, level_on tr db e = true -> legible c e -> log e w = (Ret tt, f e w)) ->
  exists r m, l_build c tr db record k l = (r, l ++ m) /\
    l_build c tr db log k w = (r, fold_left (fun w e => f e w) m w) /\
    Forall (fun e => level_on tr db e = true /\ legible c e /\ self_of e = None) m.
Proof. exact (@c75_state_build). Qed.
Print Assumptions C75_state_build.
Example C75_state_build_case :
  l_build c5r false true (fun e (w : N) => (Ret tt, match e with EvReplace n _ _ _ _ => w + n | _ => w * 2 end)) (CTryFromUtf16 [104; 105; 104]) 7 =
    (build c5r (CTryFromUtf16 [104; 105; 104]), 17) /\
  List.map (fun e => match e with EvReplace n _ _ _ _ => n | _ => 9 end) (snd (l_build c5r false true record (CTryFromUtf16 [104; 105; 104]) [])) = [9; 0; 1; 2].
Proof. solve_case. Qed.

(** Two loggers that treat the enabled messages about a string alike make no difference for a call on it, also if one of them cannot show other messages. *)
Theorem C75_agree : forall (c : cfg) (tr db : bool) (W : Type) (log log' : event -> ST W unit) (o : op)
    (s : astring) (w : W),
  (forall e w, level_on tr db e = true -> about s e -> log e w = log' e w) ->
  l_run_op c tr db log o (s, w) = l_run_op c tr db log' o (s, w).
Proof. exact (@c75_agree). Qed.
Print Assumptions C75_agree.
Example C75_agree_case :
  fst (l_run_op c5 true true picky OTrim (s_he, [])) = UB /\
  l_run_op c5 true true picky OTrim (s_sp, []) = l_run_op c5 true true record OTrim (s_sp, []) /\
  (forall e w, level_on true true e = true -> about s_sp e -> picky e w = record e w).
Proof.
  split; [reflexivity|]. split; [reflexivity|]. intros e w _ A. destruct e; try reflexivity; cbn in A; [|subst; reflexivity].
  cbn [picky]. destruct (N.eqb_spec (hd 0 s) 255) as [E|E]; [|reflexivity].
  exfalso. apply (not_text s); [|exact A]. destruct s as [|b s]; [discriminate E|]. cbn in E. subst b. reflexivity.
Qed.

(** Nor for a constructor. *)
Theorem C75_agree_build : forall (c : cfg) (tr db : bool) (W : Type) (log log' : event -> ST W unit) (k : ctor)
    (w : W),
  typed_ctor k ->
  (forall e w, level_on tr db e = true -> legible c e -> log e w = log' e w) ->
  l_build c tr db log k w = l_build c tr db log' k w.
Proof. exact (@c75_agree_build). Qed.
Print Assumptions C75_agree_build.
Example C75_agree_build_case :
  l_build c5 true true picky (CTryFromStr [h_]) [] = l_build c5 true true record (CTryFromStr [h_]) [].
Proof. solve_case. Qed.

(** Nor for a call whose string argument is foreign code. *)
Theorem C75_agree_arg : forall (c : cfg) (tr db : bool) (W : Type) (log log' : event -> ST W unit)
    (a : ST W (list N)) (k : str_call) (s : astring) (w : W),
  str_arg a ->
  (forall e w, level_on tr db e = true -> about s e -> log e w = log' e w) ->
  l_str_call c tr db log k a (s, w) = l_str_call c tr db log' k a (s, w).
Proof. exact (@c75_agree_arg). Qed.
Print Assumptions C75_agree_arg.
Example C75_agree_arg_case :
  l_str_call c5 true true picky KPush moody (s_he, []) = l_str_call c5 true true record KPush moody (s_he, []).
Proof. solve_case. Qed.

(** A logger that returns from every message that can be shown changes no result and no byte of any history: a hypothesis that printing loggers meet, unlike that of C71. *)
Theorem C75_quiet : forall (c : cfg) (tr db : bool) (W : Type) (log : event -> ST W unit),
  valid_cfg c -> quiet_reader c tr db log ->
  (forall k w, typed_ctor k -> exists w', l_build c tr db log k w = (build c k, w')) /\
  (forall l s t w, shows c s t -> Forall typed_op l ->
     exists w', l_run_ops c tr db log l s w = (fst (run_ops c l s), snd (run_ops c l s), w')).
Proof. exact (@c75_quiet). Qed.
Print Assumptions C75_quiet.
Example C75_quiet_case :
  ~ quiet true true lines.
Proof.
  intros Q. specialize (Q (EvTrim s_bad) [] eq_refl). vm_compute in Q. discriminate Q.
Qed.
Example C75_quiet_case2 :
  quiet_reader c5 true true lines /\
  fst (l_run_ops c5 true true lines [OTrim; OPop] s_sp []) = ([Ret RUnit; Ret (ROptChar (Some i_))], mkastring [104; 32; 105; 105; 32] 2).
Proof.
  split; [|reflexivity].
  exact (proj2 (c75_print c5 true true str_debug line_printer lines str_debug_safe (proj1 (c75_nesting c5 true str_debug line_printer))) line_printer_quiet).
Qed.

(** The alternatives of C71 if the logger panics on messages that can be shown. *)
Theorem C75_panic : forall (c : cfg) (tr db : bool) (W : Type) (log : event -> ST W unit) (o : op) (s : astring)
    (t : text) (w : W),
  reader_logger c tr db log -> shows c s t ->
  several_steps o = false ->
  as_without (l_run_op c tr db log o) (run_op c o) s w \/
  (can_panic tr db log /\ panicked (l_run_op c tr db log o) s w s) \/
  (panics_on tr db log EvLen /\ (inner_edit o = true \/ appends o = true) /\
   panicked (l_run_op c tr db log o) s w (torn s (snd (run_op c o s)))).
Proof. exact (@c75_panic). Qed.
Print Assumptions C75_panic.
Example C75_panic_case :
  fst (l_run_op c5 true true picky OTrim (s_sp, [])) = Ret RUnit /\
  l_run_op c5 true true (fun e w => match e with EvTrim x => (if size x =? 5 then Panic else UB, w) | _ => (Ret tt, w) end) OTrim (s_sp, tt) =
    (Panic, (s_sp, tt)).
Proof. solve_case. Qed.

(** Whatever the program does and however often such a logger panics and is caught, the string shows a text and every call returns or panics, unless an edit in the middle is interrupted at a [len] message. *)
Theorem C75_history : forall (c : cfg) (tr db : bool) (W : Type) (log : event -> ST W unit) (l : list op)
    (s : astring) (t : text) (w : W),
  valid_cfg c -> reader_logger c tr db log ->
  shows c s t -> Forall typed_op l -> Forall harmless l -> no_torn tr db log l ->
  exists rs s' w' t', l_run_ops c tr db log l s w = (rs, s', w') /\ shows c s' t' /\
    Forall (fun o => o = Panic \/ exists r, o = Ret r) rs.
Proof. exact (@c75_history). Qed.
Print Assumptions C75_history.
Example C75_history_case :
  l_run_ops c5 true true (fun e w => match e with EvTrim x => (if size x =? 5 then Panic else Ret tt, w) | _ => (Ret tt, w) end)
    [OTrim; OPop; OTrim] s_sp tt =
  ([Panic; Ret (ROptChar (Some sp_)); Ret RUnit], mkastring [104; 32; 105; 105; 32] 3, tt).
Proof. solve_case. Qed.

(** A constructor with such a logger does what it does without, or passes the panic on. *)
Theorem C75_build : forall (c : cfg) (tr db : bool) (W : Type) (log : event -> ST W unit) (k : ctor),
  reader_logger c tr db log -> typed_ctor k ->
  answers tr db log (l_build c tr db log k) (build c k).
Proof. exact (@c75_build). Qed.
Print Assumptions C75_build.
Example C75_build_case :
  l_build c5 true true (fun e (w : unit) => match e with EvPushStr _ => (Panic, w) | EvTrim _ => (UB, w) | _ => (Ret tt, w) end) (CTryFromStr [h_]) tt = (Panic, tt).
Proof. solve_case. Qed.

(** Printing [self] logs while the logger runs. Of every printer there is exactly one logger, and it is never active more than twice at a time. *)
Theorem C75_nesting : forall (c : cfg) (tr : bool) (str_debug : list N -> debug_impl) (W : Type) (p : printer W),
  prints c tr str_debug p (print_log c tr str_debug 2 p) /\
  forall log, prints c tr str_debug p log -> forall e w, log e w = print_log c tr str_debug 2 p e w.
Proof. exact (@c75_nesting). Qed.
Print Assumptions C75_nesting.
Example C75_nesting_case :
  print_log c5 true str_debug 1 line_printer (EvTrim s_he) [] = (Diverge, lit "Trim: ArrayString") /\
  print_log c5 true str_debug 1 line_printer EvLen [] = (Ret tt, lit "Len" ++ [10]).
Proof. solve_case. Qed.

(** A logger that prints with safe code returns or panics whenever the message can be shown, and returns if its parts do. *)
Theorem C75_print : forall (c : cfg) (tr db : bool) (str_debug : list N -> debug_impl) (W : Type)
    (p : printer W) (log : event -> ST W unit),
  safe_debug str_debug -> prints c tr str_debug p log ->
  (safe_printer p -> reader_logger c tr db log) /\ (quiet_printer p -> quiet_reader c tr db log).
Proof. exact (@c75_print). Qed.
Print Assumptions C75_print.
Example C75_print_case :
  safe_debug str_debug /\ quiet_printer line_printer /\ prints c5 true str_debug line_printer lines.
Proof.
  exact (conj str_debug_safe (conj line_printer_quiet (proj1 (c75_nesting c5 true str_debug line_printer)))).
Qed.

(** So no program sees a difference if its log is printed. *)
Theorem C75_printed : forall (c : cfg) (tr db : bool) (str_debug : list N -> debug_impl) (W : Type)
    (p : printer W) (log : event -> ST W unit),
  valid_cfg c -> safe_debug str_debug ->
  quiet_printer p -> prints c tr str_debug p log ->
  (forall k w, typed_ctor k -> exists w', l_build c tr db log k w = (build c k, w')) /\
  (forall l s t w, shows c s t -> Forall typed_op l ->
     exists w', l_run_ops c tr db log l s w = (fst (run_ops c l s), snd (run_ops c l s), w')).
Proof. exact (@c75_printed). Qed.
Print Assumptions C75_printed.
Example C75_printed_case :
  fst (l_run_ops c5 true true lines [OTryInsertStr 1 [i_]; OTrim] s_he []) = run_ops c5 [OTryInsertStr 1 [i_]; OTrim] s_he /\
  fst (l_build c5 true true lines (CTryFromStr [h_]) []) = build c5 (CTryFromStr [h_]).
Proof. solve_case. Qed.

(** A printer of lines writes each message with its arguments on a line; in front of the text of [self] stand, in the same line, the lines of the messages that reading it sends. *)
Theorem C75_lines : forall (c : cfg) (tr : bool) (str_debug : list N -> debug_impl) (q : list N -> list N)
    (log : event -> ST (list N) unit) (e : event) (s : astring) (t : text) (w : list N),
  prints c tr str_debug line_printer log ->
  (forall b w, str_debug b (list N) buffer false w = (Ret (Ok tt), w ++ q b)) -> about s e -> shows c s t ->
  log e w = (Ret tt, w ++ printed c tr q t e).
Proof. exact (@c75_lines). Qed.
Print Assumptions C75_lines.
Example C75_lines_case :
  lines (EvInsertStrTruncate 1 [105] s_he) [33] =
    (Ret tt, [33] ++ lit "Insert str at 1: i to As str" ++ [10] ++ lit "Len" ++ [10] ++ lit "Len" ++ [10] ++ lit "Len" ++ [10] ++ lit "Len" ++ [10] ++
             [104; 195; 169; 10]) /\
  print_log c5r true str_debug 2 line_printer (EvTrim s_sp) [] =
    (Ret tt, lit "Trim: ArrayStringAs str" ++ [10] ++ lit "Len" ++ [10] ++ lit " { array: "" h i "", size: 5 }" ++ [10]) /\
  print_log c5r false str_debug 2 line_printer (EvReplace 12 1 0 3 [104; 105]) [] =
    (Ret tt, lit "Replace range (len: 12) (1..0) with (len: 3) hi" ++ [10]) /\
  print_log c5r false str_debug 2 line_printer (EvUtf16 true [104; 55296]) [] = (Ret tt, lit "From utf16 lossy: [104, 55296]" ++ [10]).
Proof. solve_case. Qed.

(** So what a call prints is one line for every message that is recorded for it, in order. *)
Theorem C75_log : forall (c : cfg) (tr db : bool) (str_debug : list N -> debug_impl) (q : list N -> list N)
    (log : event -> ST (list N) unit) (o : op) (s : astring) (t : text) (l : list event)
    (w : list N),
  prints c tr str_debug line_printer log ->
  (forall b w, str_debug b (list N) buffer false w = (Ret (Ok tt), w ++ q b)) -> shows c s t ->
  exists r s' m, l_run_op c tr db record o (s, l) = (r, (s', l ++ m)) /\
    l_run_op c tr db log o (s, w) = (r, (s', w ++ concat (map (printed c tr q t) m))).
Proof. exact (@c75_log). Qed.
Print Assumptions C75_log.
Example C75_log_case :
  l_run_op c5r true true (print_log c5r true str_debug 2 line_printer) OPop (s_he, [33; 10]) =
  (Ret (ROptChar (Some e_)), (mkastring [104; 195; 169; 7; 9] 1, [33; 10] ++ lit "Pop" ++ [10] ++ lit "As str" ++ [10] ++ lit "Len" ++ [10])).
Proof. solve_case. Qed.
Example C75_log_case2 :
  snd (snd (l_run_op c5r false true (print_log c5r false str_debug 2 line_printer) (ORemove 1) (s_he, []))) =
  lit "Remove: 1" ++ [10] ++ lit "Replace range (len: 3) (1..3) with (len: 0) " ++ [10].
Proof. solve_case. Qed.
Example C75_log_case3 :
  forall b w, str_debug b (list N) buffer false w = (Ret (Ok tt), w ++ [34] ++ b ++ [34]).
Proof.
  intros b w. transitivity (Ret (Ok tt) : outcome (result unit FmtError), ((w ++ [34]) ++ b) ++ [34]); [reflexivity|].
  rewrite <- !app_assoc. reflexivity.
Qed.

(** The same for a [CacheString] with a logger that returns from the messages that can be shown. *)
Theorem C75_cache : forall (c0 : cfg) (tr db : bool) (W : Type) (log : event -> ST W unit),
  valid_cfg c0 -> quiet_reader (c63 c0) tr db log ->
  (forall k w, typed_ctor k -> exists w', l_cache_build c0 tr db log k w = (cache_build c0 k, w')) /\
  (forall l s t w, cache_shows c0 s t -> Forall typed_op l ->
     exists w', l_cache_run_ops c0 tr db log l s w = (fst (cache_run_ops c0 l s), snd (cache_run_ops c0 l s), w')).
Proof. exact (@c75_cache). Qed.
Print Assumptions C75_cache.
Example C75_cache_case :
  fst (l_cache_run_ops c5r true true (print_log (c63 c5r) true str_debug 2 line_printer) [OTrim; OPop] k_he []) = cache_run_ops c5r [OTrim; OPop] k_he /\
  cache_run_ops c5r [OTrim; OPop] k_he = ([Ret RUnit; Ret (ROptChar (Some e_))], mkCache (mkastring ([104; 195; 169] ++ repeat 7 60) 1)).
Proof. solve_case. Qed.

(** And with one that may panic. *)
Theorem C75_cache_history : forall (c0 : cfg) (tr db : bool) (W : Type) (log : event -> ST W unit) (l : list op)
    (s : CacheString) (t : text) (w : W),
  valid_cfg c0 -> reader_logger (c63 c0) tr db log ->
  cache_shows c0 s t -> Forall typed_op l -> Forall harmless l -> no_torn tr db log l ->
  exists rs s' w' t', l_cache_run_ops c0 tr db log l s w = (rs, s', w') /\ cache_shows c0 s' t' /\
    Forall (fun o => o = Panic \/ exists r, o = Ret r) rs.
Proof. exact (@c75_cache_history). Qed.
Print Assumptions C75_cache_history.
Example C75_cache_history_case :
  l_cache_run_ops c5r true true (fun e (w : unit) => match e with EvTrim x => (if size x =? 3 then Panic else Ret tt, w) | _ => (Ret tt, w) end)
    [OTrim; OPop; OTrim] k_he tt =
  ([Panic; Ret (ROptChar (Some e_)); Ret RUnit], mkCache (mkastring ([104; 195; 169] ++ repeat 7 60) 1), tt).
Proof. solve_case. Qed.

(** Numbers are written with decimal digits and without leading zeros. *)
Theorem C75_decimal : forall n : N,
  is_decimal n (decimal n).
Proof. exact (@c75_decimal). Qed.
Print Assumptions C75_decimal.
Example C75_decimal_case :
  decimal 65535 = lit "65535" /\ decimal 0 = lit "0" /\ ~ is_decimal 7 (lit "07") /\ ~ is_decimal 12 (lit "2") /\ ~ is_decimal 0 [].
Proof.
  split; [reflexivity|]. split; [reflexivity|]. split; [|split].
  - intros (_ & _ & _ & H). discriminate (H eq_refl).
  - intros (_ & H & _). discriminate H.
  - intros (_ & _ & H & _). exact (H eq_refl).
Qed.
