(** Where the crate departs from its documentation or from the standard library. Statements only: the proofs are the lemmas of ClaimsRefuted.v, ClaimsLogText.v. *)
From Verif Require Import Base Char Spec RustStd RustIter RustOrd ModelError Model ModelArgs RustFmt SpecFmt ModelImpl ModelDrain ModelCache
  ModelIntegration Layout TextOps SpecOps ModelOps ModelCacheOps StringSpec TestSuite IterSpec Obs ObsCache Cases RustJson SpecJson ModelLogs ObsLogs CasesLogs ObsLogText
  ClaimsRefuted ClaimsLogText.

(** "Invalid UTF-16 is an error" fails for [from_utf16_truncate]: what follows the cut is not looked at. *)
Theorem C15_late_surrogate_refuted :
  exists c us items s, valid_cfg c /\ utf16_items us items /\ In None items /\
    from_utf16_truncate c us = Ret (Ok s).
Proof. exact (@c15_late_surrogate_refuted). Qed.
Print Assumptions C15_late_surrogate_refuted.

(** "[Utf8] if [idx] is not a char position" fails for [try_insert_str] with an empty text. *)
Theorem C23_empty_text_refuted :
  exists c s t i, valid_cfg c /\ shows c s t /\ i <= blen t /\ ~ boundary t i /\
    try_insert_str c i (enc []) s = (Ret (Ok tt), s).
Proof. exact (@c23_empty_text_refuted). Qed.
Print Assumptions C23_empty_text_refuted.

(** The same for [insert_str_truncate] without room. *)
Theorem C24_no_room_refuted :
  exists c s t i w, valid_cfg c /\ shows c s t /\ i <= blen t /\ ~ boundary t i /\ w <> [] /\
    insert_str_truncate c i (enc w) s = (Ret (Ok tt), s).
Proof. exact (@c24_no_room_refuted). Qed.
Print Assumptions C24_no_room_refuted.

(** "[OutOfBounds] / [Utf8] for bad ranges" fails for [replace_range] when the range and the text are empty. *)
Theorem C25_empty_range_refuted :
  (exists c s t lo hi, valid_cfg c /\ shows c s t /\ blen t < range_from (usize_max c) lo /\
     replace_range c lo hi (enc []) s = (Ret (Ok tt), s)) /\
  (exists c s t lo hi, valid_cfg c /\ shows c s t /\ range_to (usize_max c) (blen t) hi <= blen t /\
     ~ boundary t (range_from (usize_max c) lo) /\
     replace_range c lo hi (enc []) s = (Ret (Ok tt), s)).
Proof. exact (@c25_empty_range_refuted). Qed.
Print Assumptions C25_empty_range_refuted.

(** [Display] does not honour width and precision as [str] does. *)
Theorem C36_flags_refuted :
  exists c s t sp, valid_cfg c /\ shows c s t /\
    fst (display c buffer sp s []) = Ret (Ok tt) /\ fst (str_display buffer sp (enc t) []) = Ret (Ok tt) /\
    snd (display c buffer sp s []) <> snd (str_display buffer sp (enc t) []).
Proof. exact (@c36_flags_refuted). Qed.
Print Assumptions C36_flags_refuted.

(** Indexing by an exhausted [RangeInclusive] differs from [str]. *)
Theorem C37_exhausted_refuted :
  exists c s t r, valid_cfg c /\ shows c s t /\ range_u8 r /\
    index c s r = Ret (enc [h_]) /\ str_index_range (usize_max c) (enc t) r = Ret (enc []).
Proof. exact (@c37_exhausted_refuted). Qed.
Print Assumptions C37_exhausted_refuted.

(** Deserializing from owned or transient input fails where [String] succeeds. *)
Theorem C40_owned_input_refuted :
  exists c t, valid_cfg c /\ blen t <= cap c /\
    deserialize c (E := unit) (VString (enc t)) = Ret (Err InvalidType) /\
    deserialize c (E := unit) (VStr (enc t)) = Ret (Err InvalidType) /\
    deserialize_string (E := unit) (VString (enc t)) = Ok (enc t) /\
    deserialize_string (E := unit) (VStr (enc t)) = Ok (enc t).
Proof. exact (@c40_owned_input_refuted). Qed.
Print Assumptions C40_owned_input_refuted.

(** "The pointer impl will never return null" is no guarantee of [FromSql], a safe trait: with a backend that does, [from_sql] is undefined in release builds. *)
Theorem C41_pointer_refuted :
  exists c (g : list N -> result str_ptr unit) v, valid_cfg c /\ g v = Ok Null /\ from_sql c g v = UB.
Proof. exact (@c41_pointer_refuted). Qed.
Print Assumptions C41_pointer_refuted.

(** "Same [size_of] as [String]" fails for [SmallString], for every word size. *)
Theorem C42_small_string_refuted :
  forall swap word, 1 <= word ->
  size_of (smallstring_layout swap word) <> size_of (string_layout word).
Proof. exact (@c42_small_string_refuted). Qed.
Print Assumptions C42_small_string_refuted.

(** A call accepted where [String] panics. *)
Theorem C43_quirk_refuted :
  exists c s t o, valid_cfg c /\ shows c s t /\ string_op (usize_max c) o t = None /\
    run_op c (to_op o) s = (Ret (RErr (Ok tt)), s).
Proof. exact (@c43_quirk_refuted). Qed.
Print Assumptions C43_quirk_refuted.

(** "What is written as JSON is read back" fails for a text with a line break, which [String] reads. *)
Theorem C63_escapes_refuted :
  exists c s t d, valid_cfg c /\ shows c s t /\ serialize c json_str s = Ret d /\
    json_from_str (deserialize c) d = Ret (Err InvalidType) /\
    json_from_str (fun v => Ret (deserialize_string v)) d = Ret (Ok (enc t)).
Proof. exact (@c63_escapes_refuted). Qed.
Print Assumptions C63_escapes_refuted.

(** "The text is valid UTF-8" fails with the feature [logs]: the logger panics inside [remove] and is caught; the string left behind is not UTF-8. *)
Theorem C71_torn_refuted :
  exists c (log : event -> ST N unit) o s t w s', valid_cfg c /\ a_logger true false log /\ shows c s t /\ typed_op o /\
    panicked (l_run_op c true false log o) s w s' /\ as_str c s' = UB.
Proof. exact (@c71_torn_refuted). Qed.
Print Assumptions C71_torn_refuted.

(** "[log] messages do not disturb a logger" fails for one that holds a lock while it prints: it handles every message without [self], but with level trace [trim] always panics, and the lock stays held. *)
Theorem C75_lock_refuted : forall (c : cfg) (db : bool) (str_debug : list N -> debug_impl),
  exists log, prints c true str_debug locking log /\
  (forall e l, self_of e = None -> exists l', log e (false, l) = (Ret tt, (false, l'))) /\
  (forall s l, exists l', l_run_op c true db log OTrim (s, (false, l)) = (Panic, (s, (true, l')))) /\
  (forall e l, log e (true, l) = (Panic, (true, l))).
Proof. exact (@c75_lock_refuted). Qed.
Print Assumptions C75_lock_refuted.
