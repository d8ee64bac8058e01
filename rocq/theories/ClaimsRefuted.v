(** Where the crate does less or other than its documentation, or the standard
    library, would lead one to expect: each is a concrete witness. *)
From Coq Require Import ZArith ZifyBool ZifyN ZifyNat Arith.
From Verif Require Import Base Char Spec RustStd ModelError Model RustFmt ModelImpl ModelDrain ModelCache
  ModelIntegration RustJson Layout TextOps SpecOps ModelOps StringSpec IterSpec Obs ObsCache ModelLogs ObsLogs Cases CasesLogs ClaimsCache.

Lemma c15_late_surrogate_refuted :
  exists c us items s, valid_cfg c /\ utf16_items us items /\ In None items /\
    from_utf16_truncate c us = Ret (Ok s).
Proof.
  exists c5, [8364; 8364; 55357], [Some euro; Some euro; None], (mkastring [226; 130; 172; 0; 0] 3).
  split; [solve_case | split; [solve_case | split; [|solve_case]]]. right. right. left. reflexivity.
Qed.

Lemma c23_empty_text_refuted :
  exists c s t i, valid_cfg c /\ shows c s t /\ i <= blen t /\ ~ boundary t i /\
    try_insert_str c i (enc []) s = (Ret (Ok tt), s).
Proof. exists c5, s_he, [h_; e_], 2. solve_case. Qed.

Lemma c24_no_room_refuted :
  exists c s t i w, valid_cfg c /\ shows c s t /\ i <= blen t /\ ~ boundary t i /\ w <> [] /\
    insert_str_truncate c i (enc w) s = (Ret (Ok tt), s).
Proof. exists c5, s_full, [euro; e_], 1, [h_]. solve_case. Qed.

Lemma c25_empty_range_refuted :
  (exists c s t lo hi, valid_cfg c /\ shows c s t /\ blen t < range_from (usize_max c) lo /\
     replace_range c lo hi (enc []) s = (Ret (Ok tt), s)) /\
  (exists c s t lo hi, valid_cfg c /\ shows c s t /\ range_to (usize_max c) (blen t) hi <= blen t /\
     ~ boundary t (range_from (usize_max c) lo) /\
     replace_range c lo hi (enc []) s = (Ret (Ok tt), s)).
Proof.
  split.
  - exists c5, s_he, [h_; e_], (Included 9), (Excluded 9). solve_case.
  - exists c5, s_he, [h_; e_], (Included 2), (Excluded 2). solve_case.
Qed.

Lemma c36_flags_refuted :
  exists c s t sp, valid_cfg c /\ shows c s t /\
    fst (display c buffer sp s []) = Ret (Ok tt) /\ fst (str_display buffer sp (enc t) []) = Ret (Ok tt) /\
    snd (display c buffer sp s []) <> snd (str_display buffer sp (enc t) []).
Proof.
  exists c5, s_he, [h_; e_], (mkspec space None (Some 4) (Some 1)). solve_case.
Qed.

Lemma c37_exhausted_refuted :
  exists c s t r, valid_cfg c /\ shows c s t /\ range_u8 r /\
    index c s r = Ret (enc [h_]) /\ str_index_range (usize_max c) (enc t) r = Ret (enc []).
Proof.
  exists c5, s_he, [h_; e_], (RIncl 0 0 true). split; [solve_case | split; [solve_case | split]].
  - split; vm_compute; reflexivity.
  - solve_case.
Qed.

Lemma c40_owned_input_refuted :
  exists c t, valid_cfg c /\ blen t <= cap c /\
    deserialize c (E := unit) (VString (enc t)) = Ret (Err InvalidType) /\
    deserialize c (E := unit) (VStr (enc t)) = Ret (Err InvalidType) /\
    deserialize_string (E := unit) (VString (enc t)) = Ok (enc t) /\
    deserialize_string (E := unit) (VStr (enc t)) = Ok (enc t).
Proof. exists c5, [h_; e_]. solve_case. Qed.

Lemma c41_pointer_refuted :
  exists c (g : list N -> result str_ptr unit) v, valid_cfg c /\ g v = Ok Null /\ from_sql c g v = UB.
Proof. exists c5r, (fun _ => Ok Null), []. solve_case. Qed.

Lemma c42_small_string_refuted : forall swap word, 1 <= word ->
  size_of (smallstring_layout swap word) <> size_of (string_layout word).
Proof. intros swap word H. rewrite c42_small_string, c42_std_string by exact H. lia. Qed.

Lemma c43_quirk_refuted :
  exists c s t o, valid_cfg c /\ shows c s t /\ string_op (usize_max c) o t = None /\
    run_op c (to_op o) s = (Ret (RErr (Ok tt)), s).
Proof. exists c5, s_he, [h_; e_], (SReplaceRange (Included 2) (Excluded 2) []). solve_case. Qed.

Lemma c63_escapes_refuted :
  exists c s t d, valid_cfg c /\ shows c s t /\ serialize c json_str s = Ret d /\
    json_from_str (deserialize c) d = Ret (Err InvalidType) /\
    json_from_str (fun v => Ret (deserialize_string v)) d = Ret (Ok (enc t)).
Proof. exists c5, (mkastring [104; 10; 0; 0; 0] 2), [h_; mkchar 10 eq_refl], [34; 104; 92; 110; 34]. solve_case. Qed.

Lemma c71_torn_refuted :
  exists c (log : event -> ST N unit) o s t w s', valid_cfg c /\ a_logger true false log /\ shows c s t /\ typed_op o /\
    panicked (l_run_op c true false log o) s w s' /\ as_str c s' = UB.
Proof.
  exists c5r, len_logger, (ORemove 0), (mkastring [97; 195; 169; 0; 0] 3), [mkchar 97 eq_refl; e_], 13,
    (mkastring [195; 169; 169; 0; 0] 3).
  split; [solve_case|]. split.
  { intros e _ w. unfold len_logger. destruct e; cbn; try (split; discriminate).
    destruct (w =? 0); split; discriminate. }
  split; [solve_case|]. split; [cbn; auto; lia|]. split; [exists 0; vm_compute; reflexivity|vm_compute; reflexivity].
Qed.
