(** All calls and all histories (C01-C04, C47, C51). Statements only: the proofs are the lemmas of ClaimsOps.v, ClaimsCache.v. *)
From Verif Require Import Base Char Spec RustStd RustIter RustOrd ModelError Model ModelArgs RustFmt SpecFmt ModelImpl ModelDrain ModelCache
  ModelIntegration Layout TextOps SpecOps ModelOps ModelCacheOps StringSpec TestSuite IterSpec Obs ObsCache Cases
  ClaimsOps ClaimsCache.

(** Every value a program can get hold of holds well-formed UTF-8 of at most [capacity] bytes. *)
Theorem C01_reachable : forall (c : cfg) (s : astring),
  valid_cfg c -> reachable c s ->
  exists t, shows c s t /\ len s = blen t /\ len s <= capacity c.
Proof. exact (@c01_reachable). Qed.
Print Assumptions C01_reachable.
Example C01_reachable_case :
  reachable c5 (new c5) /\ shows c5 (new c5) [] /\
  reachable c5 (mkastring [104; 195; 169; 0; 0] 3) /\ shows c5 (mkastring [104; 195; 169; 0; 0] 3) [h_; e_].
Proof.
  split; [|split; [solve_case | split; [|solve_case]]].
  - apply (reach_build c5 CNew); [exact Logic.I | reflexivity].
  - apply (reach_op c5 (OTryPushStr [h_; e_]) (new c5) (Ret (ROob (Ok tt)))).
    + apply (reach_build c5 CNew); [exact Logic.I | reflexivity].
    + exact Logic.I.
    + vm_compute. reflexivity.
Qed.

(** The same for a constructor followed by any list of calls, panicking ones included. *)
Theorem C01_history : forall (c : cfg) (k : ctor) (s0 : astring) (l : list op) (rs : list (outcome out))
    (s : astring),
  valid_cfg c -> typed_ctor k -> Forall typed_op l ->
  build c k = Ret (Ok s0) -> run_ops c l s0 = (rs, s) ->
  exists t, shows c s t /\ len s = blen t /\ len s <= capacity c.
Proof. exact (@c01_history). Qed.
Print Assumptions C01_history.
Example C01_history_case :
  valid_cfg c5 /\ build c5 (CFromStrTruncate [euro; smile]) = Ret (Ok (mkastring [226; 130; 172; 0; 0] 3)) /\
  Forall typed_op [OTryInsert 0 e_; OIndex (RRange 1 2); ORemove 2; OUpper] /\
  run_ops c5 [OTryInsert 0 e_; OIndex (RRange 1 2); ORemove 2; OUpper] (mkastring [226; 130; 172; 0; 0] 3) =
    ([Ret (RErr (Ok tt)); Panic; Ret (RChar (Ok euro)); Ret RUnit], mkastring [195; 169; 226; 130; 172] 2).
Proof. solve_case. Qed.

(** With arguments that return, every call but indexing returns: no panic, no undefined behaviour, no endless loop. *)
Theorem C02_calls : forall (c : cfg) (s : astring) (o : op),
  valid_cfg c -> reachable c s -> typed_op o -> benign o ->
  exists r s', run_op c o s = (Ret r, s').
Proof. exact (@c02_calls). Qed.
Print Assumptions C02_calls.
Example C02_calls_case :
  valid_cfg c5 /\ reachable c5 (new c5) /\ typed_op (OReplaceRange (Excluded 65535) (Included 65535) [h_]) /\
  benign (OReplaceRange (Excluded 65535) (Included 65535) [h_]) /\
  run_op c5 (OReplaceRange (Excluded 65535) (Included 65535) [h_]) (new c5) = (Ret (RErr (Err EOutOfBounds)), new c5).
Proof.
  split; [solve_case | split; [|solve_case]].
  apply (reach_build c5 CNew); [exact Logic.I | reflexivity].
Qed.

(** The same for constructors. *)
Theorem C02_constructors : forall (c : cfg) (k : ctor),
  valid_cfg c -> typed_ctor k -> benign_ctor k -> exists r, build c k = Ret r.
Proof. exact (@c02_constructors). Qed.
Print Assumptions C02_constructors.
Example C02_constructors_case :
  valid_cfg c1 /\ typed_ctor (CTryFromUtf16 [55357; 56832]) /\ benign_ctor (CTryFromUtf16 [55357; 56832]) /\
  build c1 (CTryFromUtf16 [55357; 56832]) = Ret (Err EOutOfBounds).
Proof. split; [solve_case | split; [repeat constructor | solve_case]]. Qed.

(** The same for the iterator that [drain] returns. *)
Theorem C02_drain : forall (c : cfg) (d : Drain),
  valid_cfg c -> reachable c (drained d) ->
  (exists r d', drain_next c d = (Ret r, d')) /\ (exists r d', drain_next_back c d = (Ret r, d')) /\
  (exists b, drain_as_str c d = Ret b).
Proof. exact (@c02_drain). Qed.
Print Assumptions C02_drain.
Example C02_drain_case :
  valid_cfg c5 /\ reachable c5 (drained (mkDrain (new c5))) /\
  drain_next c5 (mkDrain (new c5)) = (Ret None, mkDrain (new c5)).
Proof.
  split; [solve_case | split; [|solve_case]].
  apply (reach_build c5 CNew); [exact Logic.I | reflexivity].
Qed.

(** Arguments that may panic, and indexing: the call returns or panics, nothing worse. *)
Theorem C02_harmless : forall (c : cfg) (s : astring) (o : op),
  valid_cfg c -> reachable c s -> typed_op o -> harmless o ->
  exists s', (exists r, run_op c o s = (Ret r, s')) \/ run_op c o s = (Panic, s').
Proof. exact (@c02_harmless). Qed.
Print Assumptions C02_harmless.
Example C02_harmless_case :
  valid_cfg c5 /\ reachable c5 (new c5) /\ harmless (OExtendChars (list char) then_panic [h_]) /\
  run_op c5 (OExtendChars (list char) then_panic [h_]) (new c5) = (Panic, new c5).
Proof.
  split; [solve_case | split; [|split; [|solve_case]]].
  - apply (reach_build c5 CNew); [exact Logic.I | reflexivity].
  - intros [|x l]; exact Logic.I.
Qed.

(** The same for constructors. *)
Theorem C02_harmless_constructors : forall (c : cfg) (k : ctor),
  valid_cfg c -> typed_ctor k -> harmless_ctor k ->
  (exists r, build c k = Ret r) \/ build c k = Panic.
Proof. exact (@c02_harmless_constructors). Qed.
Print Assumptions C02_harmless_constructors.
Example C02_harmless_constructors_case :
  valid_cfg c5 /\ harmless_ctor (CFromCharsTruncate (list char) then_panic [h_]) /\
  build c5 (CFromCharsTruncate (list char) then_panic [h_]) = Panic.
Proof. split; [solve_case | split; [|solve_case]]. intros [|x l]; exact Logic.I. Qed.

(** The same history on two values with the same text, in any two builds of the same capacity and word size (with and without debug assertions and overflow checks): the same results and texts. *)
Theorem C03_profiles : forall (c1 c2 : cfg) (s1 s2 : astring) (t : text) (l : list op),
  valid_cfg c1 -> valid_cfg c2 ->
  cap c1 = cap c2 -> usize_max c1 = usize_max c2 ->
  shows c1 s1 t -> shows c2 s2 t -> Forall typed_op l ->
  exists rs s1' s2' t', run_ops c1 l s1 = (rs, s1') /\ run_ops c2 l s2 = (rs, s2') /\
    shows c1 s1' t' /\ shows c2 s2' t'.
Proof. exact (@c03_profiles). Qed.
Print Assumptions C03_profiles.
Example C03_profiles_case :
  valid_cfg c5 /\ valid_cfg c5r /\ shows c5 s_he [h_; e_] /\ shows c5r s_he' [h_; e_] /\
  run_ops c5 [OTruncate 2; OSplitOff 1; OTryPushStr [euro; euro]] s_he =
    ([Ret (RUtf8 (Err mkUtf8)); Ret (RPart (Ok (enc [e_]))); Ret (ROob (Err mkOutOfBounds))],
     mkastring [104; 195; 169; 7; 9] 1) /\
  run_ops c5r [OTruncate 2; OSplitOff 1; OTryPushStr [euro; euro]] s_he' =
    ([Ret (RUtf8 (Err mkUtf8)); Ret (RPart (Ok (enc [e_]))); Ret (ROob (Err mkOutOfBounds))],
     mkastring [104; 195; 169; 255; 0] 1).
Proof. solve_case. Qed.

(** And of any two word sizes, when the numbers in range bounds are below both maxima. *)
Theorem C03_widths : forall (c1 c2 : cfg) (s1 s2 : astring) (t : text) (l : list op),
  valid_cfg c1 -> valid_cfg c2 -> cap c1 = cap c2 ->
  Forall (bounds_below (usize_max c1)) l -> Forall (bounds_below (usize_max c2)) l ->
  shows c1 s1 t -> shows c2 s2 t -> Forall typed_op l ->
  exists rs s1' s2' t', run_ops c1 l s1 = (rs, s1') /\ run_ops c2 l s2 = (rs, s2') /\
    shows c1 s1' t' /\ shows c2 s2' t'.
Proof. exact (@c03_widths). Qed.
Print Assumptions C03_widths.
Example C03_widths_case :
  valid_cfg c5 /\ valid_cfg c5w /\ shows c5 s_he [h_; e_] /\ shows c5w s_he' [h_; e_] /\
  bounds_below (usize_max c5) (ODrain (Included 1) (Included 65534)) /\
  fst (run_ops c5 [ODrain (Included 1) (Included 65534); ODrain (Excluded 0) Unbounded] s_he) =
    [Ret (RPart (Err EOutOfBounds)); Ret (RPart (Ok (enc [e_])))] /\
  fst (run_ops c5w [ODrain (Included 1) (Included 65534); ODrain (Excluded 0) Unbounded] s_he') =
    [Ret (RPart (Err EOutOfBounds)); Ret (RPart (Ok (enc [e_])))].
Proof. split; [solve_case | split; [solve_case | split; [solve_case | split; [solve_case | split; [|solve_case]]]]].
  split; vm_compute; reflexivity. Qed.

(** Constructors: the same text or the same failure in any two builds of the same capacity. *)
Theorem C03_constructors : forall (c1 c2 : cfg) (k : ctor),
  valid_cfg c1 -> valid_cfg c2 -> cap c1 = cap c2 -> typed_ctor k ->
  (exists s1 s2 t, build c1 k = Ret (Ok s1) /\ build c2 k = Ret (Ok s2) /\ shows c1 s1 t /\ shows c2 s2 t) \/
  ((forall s, build c1 k <> Ret (Ok s)) /\ build c1 k = build c2 k).
Proof. exact (@c03_constructors). Qed.
Print Assumptions C03_constructors.
Example C03_constructors_case :
  valid_cfg c5 /\ valid_cfg c5w /\ cap c5 = cap c5w /\
  build c5 (CParse [euro; euro]) = Ret (Err EOutOfBounds) /\ build c5w (CParse [euro; euro]) = Ret (Err EOutOfBounds).
Proof. solve_case. Qed.

(** A call that reports an error leaves the value as it was, every byte of it. ([write!] makes several calls: see C35.) *)
Theorem C04_unchanged : forall (c : cfg) (s : astring) (t : text) (o : op) (r : out) (s' : astring),
  valid_cfg c -> shows c s t -> (forall p, o <> OWriteFmt p) ->
  run_op c o s = (Ret r, s') -> is_error r = true -> s' = s.
Proof. exact (@c04_unchanged). Qed.
Print Assumptions C04_unchanged.
Example C04_unchanged_case :
  valid_cfg c5 /\ shows c5 s_full [euro; e_] /\
  run_op c5 (OTryInsert 3 h_) s_full = (Ret (RErr (Err EOutOfBounds)), s_full) /\
  is_error (RErr (Err EOutOfBounds)) = true.
Proof. solve_case. Qed.

(** Bytes left over behind the text never show. *)
Theorem C47_text_only : forall (c : cfg) (s1 s2 : astring) (t : text) (l : list op),
  valid_cfg c -> shows c s1 t -> shows c s2 t -> Forall typed_op l ->
  exists rs s1' s2' t', run_ops c l s1 = (rs, s1') /\ run_ops c l s2 = (rs, s2') /\
    shows c s1' t' /\ shows c s2' t'.
Proof. exact (@c47_text_only). Qed.
Print Assumptions C47_text_only.
Example C47_text_only_case :
  valid_cfg c5 /\ shows c5 s_he [h_; e_] /\ shows c5 s_he' [h_; e_] /\ s_he <> s_he' /\
  run_ops c5 [OTryPush i_; ORemove 1; OAsStr] s_he =
    ([Ret (ROob (Ok tt)); Ret (RChar (Ok e_)); Ret (RBytes [104; 105])], mkastring [104; 105; 169; 105; 9] 2) /\
  run_ops c5 [OTryPush i_; ORemove 1; OAsStr] s_he' =
    ([Ret (ROob (Ok tt)); Ret (RChar (Ok e_)); Ret (RBytes [104; 105])], mkastring [104; 105; 169; 105; 0] 2).
Proof. solve_case. Qed.

(** The length is stored in one byte without loss. *)
Theorem C51_stored_length : forall (c : cfg) (s : astring) (t : text),
  valid_cfg c -> shows c s t ->
  size s = blen t /\ blen t <= 255 /\ into_lossy (blen t) = blen t.
Proof. exact (@c51_stored_length). Qed.
Print Assumptions C51_stored_length.
Example C51_stored_length_case :
  valid_cfg (mkcfg 65535 true 255) /\ 255 < 256 /\ into_lossy 255 = 255 /\ into_lossy 256 = 0.
Proof. solve_case. Qed.

(** Every text of at most [capacity] bytes can be held. *)
Theorem C51_holds : forall (c : cfg) (t : text),
  valid_cfg c -> blen t <= cap c -> exists s, shows c s t.
Proof. exact (@c51_holds). Qed.
Print Assumptions C51_holds.
Example C51_holds_case :
  valid_cfg c5 /\ blen [euro; e_] <= cap c5 /\ shows c5 s_full [euro; e_].
Proof. solve_case. Qed.

(** The capacities in use are valid ones: 1 to 255, [CacheString]'s 63, [SmallString]'s three words, [MaxString]'s 255. *)
Theorem C51_capacities : forall (m : N) (d : bool) (word : N),
  65535 <= m -> 2 <= word <= 8 ->
  (forall n, 1 <= n <= 255 -> valid_cfg (mkcfg m d n)) /\
  valid_cfg (mkcfg m d CACHE_STRING_SIZE) /\ valid_cfg (mkcfg m d (small_capacity word)) /\
  valid_cfg (mkcfg m d 255).
Proof. exact (@c51_capacities). Qed.
Print Assumptions C51_capacities.
Example C51_capacities_case :
  small_capacity 8 = 24 /\ small_capacity 2 = 6 /\ valid_cfg (mkcfg 65535 true (small_capacity 2)) /\
  valid_cfg (mkcfg 65535 false CACHE_STRING_SIZE).
Proof. solve_case. Qed.

(** The bound 255 is needed: with capacity 256 a text of 256 bytes would be accepted and read back as empty, because its length does not fit in the byte that stores it. *)
Theorem C51_bound : forall d : bool,
  exists w s, blen w = 256 /\
    try_from_str (mkcfg 65535 d 256) (enc w) = Ret (Ok s) /\
    len s = 0 /\ as_str (mkcfg 65535 d 256) s = Ret [].
Proof. exact (@c51_bound). Qed.
Print Assumptions C51_bound.
Example C51_bound_case :
  ~ valid_cfg (mkcfg 65535 true 256) /\ into_lossy 256 = 0.
Proof. split; [intros [_ H]; cbn in H; lia | reflexivity]. Qed.
