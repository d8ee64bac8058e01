(** Parity with String, undo laws and idempotence (C43, C48, C49). Statements only: the proofs are the lemmas of ClaimsString.v, ClaimsLaws.v. *)
From Verif Require Import Base Char Spec RustStd RustIter RustOrd ModelError Model ModelArgs RustFmt SpecFmt ModelImpl ModelDrain ModelCache
  ModelIntegration Layout TextOps SpecOps ModelOps ModelCacheOps StringSpec TestSuite IterSpec Obs ObsCache Cases
  ClaimsString ClaimsLaws.

(** One call on texts that fit: the same text and the corresponding answer as [String], an error where [String] panics. *)
Theorem C43_call : forall (c : cfg) (s : astring) (t : text) (o : sop),
  valid_cfg c -> shows c s t ->
  blen (snd (string_step (usize_max c) o t)) <= cap c -> ~ quirk (usize_max c) (cap c) o t ->
  exists r, returns c (run_op c (to_op o) s) r (snd (string_step (usize_max c) o t)) /\
    answer (fst (string_step (usize_max c) o t)) r.
Proof. exact (@c43_call). Qed.
Print Assumptions C43_call.
Example C43_call_case :
  valid_cfg c5 /\ shows c5 s_he [h_; e_] /\
  string_step (usize_max c5) (SInsertStr false 1 [i_]) [h_; e_] = (Some VUnit, [h_; i_; e_]) /\
  returns c5 (run_op c5 (to_op (SInsertStr false 1 [i_])) s_he) (RErr (Ok tt)) [h_; i_; e_] /\
  string_step (usize_max c5) (SRemove 2) [h_; e_] = (None, [h_; e_]) /\
  run_op c5 (to_op (SRemove 2)) s_he = (Ret (RChar (Err EUtf8)), s_he).
Proof. solve_case. Qed.

(** Whole histories. *)
Theorem C43_history : forall (c : cfg) (l : list sop),
  valid_cfg c -> forall s t, shows c s t -> stays_within (usize_max c) (cap c) l t ->
  exists rs s', run_ops c (map to_op l) s = (map Ret rs, s') /\
    shows c s' (snd (string_ops (usize_max c) l t)) /\
    Forall2 answer (fst (string_ops (usize_max c) l t)) rs.
Proof. exact (@c43_history). Qed.
Print Assumptions C43_history.
Example C43_history_case :
  valid_cfg c5 /\ shows c5 s_he [h_; e_] /\ stays_within (usize_max c5) (cap c5) [SPush i_; SDrain (Included 1) (Excluded 3); SPop] [h_; e_] /\
  string_ops (usize_max c5) [SPush i_; SDrain (Included 1) (Excluded 3); SPop] [h_; e_] =
    ([Some VUnit; Some (VText [e_]); Some (VOptChar (Some i_))], [h_]) /\
  run_ops c5 (map to_op [SPush i_; SDrain (Included 1) (Excluded 3); SPop]) s_he =
    ([Ret (ROob (Ok tt)); Ret (RPart (Ok (enc [e_]))); Ret (ROptChar (Some i_))], mkastring [104; 105; 169; 105; 9] 1).
Proof.
  split; [solve_case | split; [solve_case | split; [|solve_case]]].
  split; [solve_case | split; [intros [] |]]. split; [solve_case | split; [intros [] |]].
  split; [solve_case | split; [intros [] | exact Logic.I]].
Qed.

(** The calls left out above really differ: [String] panics, [ArrayString] answers [Ok]. *)
Theorem C43_quirks : forall (c : cfg) (s : astring) (t : text) (o : sop),
  valid_cfg c -> shows c s t -> quirk (usize_max c) (cap c) o t ->
  string_op (usize_max c) o t = None /\
  returns c (run_op c (to_op o) s) (RErr (Ok tt)) t.
Proof. exact (@c43_quirks). Qed.
Print Assumptions C43_quirks.
Example C43_quirks_case :
  valid_cfg c5 /\ shows c5 s_he [h_; e_] /\ quirk (usize_max c5) (cap c5) (SInsertStr false 2 []) [h_; e_] /\
  run_op c5 (to_op (SInsertStr false 2 [])) s_he = (Ret (RErr (Ok tt)), s_he).
Proof. solve_case. Qed.

(** Pushing back what [pop] returned restores the text. *)
Theorem C48_pop_push : forall (c : cfg) (s : astring) (t : text) (x : char) (s1 : astring),
  valid_cfg c -> shows c s t -> pop c s = (Ret (Some x), s1) ->
  returns c (try_push c x s1) (Ok tt) t.
Proof. exact (@c48_pop_push). Qed.
Print Assumptions C48_pop_push.
Example C48_pop_push_case :
  valid_cfg c5 /\ shows c5 s_he [h_; e_] /\ pop c5 s_he = (Ret (Some e_), mkastring [104; 195; 169; 7; 9] 1) /\
  returns c5 (try_push c5 e_ (mkastring [104; 195; 169; 7; 9] 1)) (Ok tt) [h_; e_].
Proof. solve_case. Qed.

(** Popping after a successful push restores the text. *)
Theorem C48_push_pop : forall (c : cfg) (s : astring) (t : text) (x : char) (s1 : astring),
  valid_cfg c -> shows c s t -> try_push c x s = (Ret (Ok tt), s1) ->
  returns c (pop c s1) (Some x) t.
Proof. exact (@c48_push_pop). Qed.
Print Assumptions C48_push_pop.
Example C48_push_pop_case :
  valid_cfg c5 /\ shows c5 s_he [h_; e_] /\ try_push c5 e_ s_he = (Ret (Ok tt), mkastring [104; 195; 169; 195; 169] 5) /\
  returns c5 (pop c5 (mkastring [104; 195; 169; 195; 169] 5)) (Some e_) [h_; e_].
Proof. solve_case. Qed.

(** Appending what [split_off] returned restores the text. *)
Theorem C48_split_off : forall (c : cfg) (s : astring) (t : text) (i : N) (d s1 : astring),
  valid_cfg c -> shows c s t -> split_off c i s = (Ret (Ok d), s1) ->
  exists b, as_str c d = Ret b /\ returns c (try_push_str c b s1) (Ok tt) t.
Proof. exact (@c48_split_off). Qed.
Print Assumptions C48_split_off.
Example C48_split_off_case :
  valid_cfg c5 /\ shows c5 s_full [euro; e_] /\
  split_off c5 3 s_full = (Ret (Ok (mkastring [195; 169; 0; 0; 0] 2)), mkastring [226; 130; 172; 195; 169] 3) /\
  returns c5 (try_push_str c5 [195; 169] (mkastring [226; 130; 172; 195; 169] 3)) (Ok tt) [euro; e_].
Proof. solve_case. Qed.

(** Inserting what [drain] returned where it was restores the text. *)
Theorem C48_drain : forall (c : cfg) (s : astring) (t : text) (lo hi : bound) (d : Drain) (s1 : astring),
  valid_cfg c -> shows c s t -> drain_iter c lo hi s = (Ret (Ok d), s1) ->
  exists b, drain_as_str c d = Ret b /\
    returns c (try_insert_str c (range_from (usize_max c) lo) b s1) (Ok tt) t.
Proof. exact (@c48_drain). Qed.
Print Assumptions C48_drain.
Example C48_drain_case :
  valid_cfg c5 /\ shows c5 s_full [euro; e_] /\
  drain_iter c5 Unbounded (Excluded 3) s_full =
    (Ret (Ok (mkDrain (mkastring [226; 130; 172; 0; 0] 3))), mkastring [195; 169; 172; 195; 169] 2) /\
  returns c5 (try_insert_str c5 0 (enc [euro]) (mkastring [195; 169; 172; 195; 169] 2)) (Ok tt) [euro; e_].
Proof. solve_case. Qed.

(** Inserting what [remove] returned restores the text. *)
Theorem C48_remove_insert : forall (c : cfg) (s : astring) (t : text) (i : N) (x : char) (s1 : astring),
  valid_cfg c -> shows c s t -> remove c i s = (Ret (Ok x), s1) ->
  returns c (try_insert c i x s1) (Ok tt) t.
Proof. exact (@c48_remove_insert). Qed.
Print Assumptions C48_remove_insert.
Example C48_remove_insert_case :
  valid_cfg c5 /\ shows c5 s_he [h_; e_] /\ remove c5 0 s_he = (Ret (Ok h_), mkastring [195; 169; 169; 7; 9] 2) /\
  returns c5 (try_insert c5 0 h_ (mkastring [195; 169; 169; 7; 9] 2)) (Ok tt) [h_; e_].
Proof. solve_case. Qed.

(** Draining what was inserted gives it back and restores the text. An empty [w] can be "inserted" inside a character (C23), where draining is an error: hence the third hypothesis. *)
Theorem C48_insert_drain : forall (c : cfg) (s : astring) (t : text) (i : N) (w : list char) (s1 : astring),
  valid_cfg c -> shows c s t -> w <> [] \/ boundary t i ->
  try_insert_str c i (enc w) s = (Ret (Ok tt), s1) ->
  exists d s2, drain_iter c (Included i) (Excluded (i + blen w)) s1 = (Ret (Ok d), s2) /\
    shows c (drained d) w /\ shows c s2 t.
Proof. exact (@c48_insert_drain). Qed.
Print Assumptions C48_insert_drain.
Example C48_insert_drain_case :
  valid_cfg c5 /\ shows c5 s_he [h_; e_] /\
  try_insert_str c5 1 (enc [i_; i_]) s_he = (Ret (Ok tt), mkastring [104; 105; 105; 195; 169] 5) /\
  drain_iter c5 (Included 1) (Excluded 3) (mkastring [104; 105; 105; 195; 169] 5) =
    (Ret (Ok (mkDrain (mkastring [105; 105; 0; 0; 0] 2))), mkastring [104; 195; 169; 195; 169] 3).
Proof. solve_case. Qed.

(** Removing the character inserted gives it back and restores the text. *)
Theorem C48_insert_remove : forall (c : cfg) (s : astring) (t : text) (i : N) (x : char) (s1 : astring),
  valid_cfg c -> shows c s t ->
  try_insert c i x s = (Ret (Ok tt), s1) -> returns c (remove c i s1) (Ok x) t.
Proof. exact (@c48_insert_remove). Qed.
Print Assumptions C48_insert_remove.
Example C48_insert_remove_case :
  valid_cfg c5 /\ shows c5 s_he [h_; e_] /\ try_insert c5 1 e_ s_he = (Ret (Ok tt), mkastring [104; 195; 169; 195; 169] 5) /\
  returns c5 (remove c5 1 (mkastring [104; 195; 169; 195; 169] 5)) (Ok e_) [h_; e_].
Proof. solve_case. Qed.

(** [trim] twice is [trim] once. *)
Theorem C49_trim : forall (c : cfg) (s : astring) (t : text),
  valid_cfg c -> shows c s t ->
  exists s1 u, trim c s = (Ret tt, s1) /\ shows c s1 u /\ returns c (trim c s1) tt u.
Proof. exact (@c49_trim). Qed.
Print Assumptions C49_trim.
Example C49_trim_case :
  valid_cfg c5 /\ shows c5 s_sp [sp_; h_; sp_; i_; sp_] /\ returns c5 (trim c5 s_sp) tt [h_; sp_; i_].
Proof. solve_case. Qed.

(** The same for [clear], *)
Theorem C49_clear : forall (c : cfg) (s : astring) (t : text),
  valid_cfg c -> shows c s t ->
  exists s1 u, clear s = (Ret tt, s1) /\ shows c s1 u /\ returns c (clear s1) tt u.
Proof. exact (@c49_clear). Qed.
Print Assumptions C49_clear.
Example C49_clear_case :
  valid_cfg c5 /\ shows c5 s_he [h_; e_] /\ returns c5 (clear s_he) tt [].
Proof. solve_case. Qed.

(** [truncate], errors included, *)
Theorem C49_truncate : forall (c : cfg) (s : astring) (t : text) (n : N),
  valid_cfg c -> shows c s t ->
  exists r s1 u, truncate c n s = (Ret r, s1) /\ shows c s1 u /\ returns c (truncate c n s1) r u.
Proof. exact (@c49_truncate). Qed.
Print Assumptions C49_truncate.
Example C49_truncate_case :
  valid_cfg c5 /\ shows c5 s_he [h_; e_] /\ truncate c5 2 s_he = (Ret (Err mkUtf8), s_he) /\
  returns c5 (truncate c5 1 s_he) (Ok tt) [h_].
Proof. solve_case. Qed.

(** and [retain] with a closure that looks at the character only. *)
Theorem C49_retain : forall (c : cfg) (p : char -> bool) (s : astring) (t : text),
  valid_cfg c -> shows c s t ->
  exists s1 s2 u, retain c (fun a u => (Ret (p a), u)) tt s = (Ret tt, s1, tt) /\ shows c s1 u /\
    retain c (fun a u => (Ret (p a), u)) tt s1 = (Ret tt, s2, tt) /\ shows c s2 u.
Proof. exact (@c49_retain). Qed.
Print Assumptions C49_retain.
Example C49_retain_case :
  valid_cfg c5 /\ shows c5 s_sp [sp_; h_; sp_; i_; sp_] /\
  retain c5 (fun a u => (Ret (33 <=? code a), u)) tt s_sp = (Ret tt, mkastring [104; 105; 0; 0; 0] 2, tt).
Proof. solve_case. Qed.
