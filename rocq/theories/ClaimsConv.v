(** Conversions through core's blanket impls, and the benchmarks (C73). *)
From Verif Require Import Base Char Spec RustStd RustFmt RustConv ModelError Model ModelImpl ModelCache ModelOps
  ListFacts Utf8Facts CoreFacts OrderFacts ImplFacts Obs ObsCache ClaimsEdit ClaimsTrait ClaimsCache BenchSuite.

Lemma conv_prefix c w : valid_cfg c -> exists p s, longest_fit (cap c) w p /\ from_ref_str c (enc w) = Ret s /\ shows c s p.
Proof.
  intros Hc. destruct (c09_from_str_truncate c w Hc) as (p & Hp & _ & s & E & S). exists p, s. auto.
Qed.

Lemma conv_whole c w : valid_cfg c -> blen w <= cap c -> exists s, from_ref_str c (enc w) = Ret s /\ shows c s w.
Proof. exact (c09_whole c w). Qed.

Lemma fit_not_whole n w p : longest_fit n w p -> n < blen w -> p <> w.
Proof. intros (_ & Lp & _) L ->. apply (N.lt_irrefl n). eapply N.lt_le_trans; [exact L | exact Lp]. Qed.

(** ** Conversions *)
Lemma c73_try_from (c : cfg) (w : text) : valid_cfg c ->
  exists p s, longest_fit (cap c) w p /\ shows c s p /\
    blanket_into (from_ref_str c) (enc w) = Ret s /\
    blanket_try_from (from_ref_str c) (enc w) = Ret (Ok s) /\
    blanket_try_into (from_ref_str c) (enc w) = Ret (Ok s).
Proof.
  intros Hc. destruct (conv_prefix c w Hc) as (p & s & Hp & E & S). exists p, s.
  unfold blanket_try_into, blanket_try_from, blanket_into. rewrite E. cbn. auto.
Qed.

Lemma c73_parse (c : cfg) (w : text) : valid_cfg c ->
  (blen w <= cap c ->
     makes_ok c (blanket_try_from (from_ref_str c) (enc w)) w /\ makes_ok c (str_parse (from_str c) (enc w)) w) /\
  (cap c < blen w ->
     (exists p, p <> w /\ makes_ok c (blanket_try_from (from_ref_str c) (enc w)) p) /\
     str_parse (from_str c) (enc w) = Ret (Err mkOutOfBounds)).
Proof.
  intros Hc. destruct (c08_try_from_str c w Hc) as [P1 P2]. split; intros L.
  - destruct (conv_whole c w Hc L) as (s & E & S). split; [|exact (proj2 (P1 L))].
    exists s. split; [|exact S]. unfold blanket_try_from, blanket_into. rewrite E. reflexivity.
  - split; [|exact (proj2 (P2 L))]. destruct (conv_prefix c w Hc) as (p & s & Hp & E & S).
    exists p. split; [exact (fit_not_whole _ _ _ Hp L)|]. exists s. split; [|exact S].
    unfold blanket_try_from, blanket_into. rewrite E. reflexivity.
Qed.

Lemma c73_to_string (c : cfg) (s : astring) (t : text) : shows c s t ->
  exists b, blanket_to_string (fun sp => display c buffer sp s) = Ret b /\ b = enc t /\
    forall c', valid_cfg c' ->
      (blen t <= cap c' -> makes_ok c' (str_parse (from_str c') b) t) /\
      (cap c' < blen t -> str_parse (from_str c') b = Ret (Err mkOutOfBounds)).
Proof.
  intros Hs. exists (enc t). split.
  - unfold blanket_to_string. rewrite (c36_display c s t _ buffer default_spec [] Hs). reflexivity.
  - split; [reflexivity|]. intros c' Hc'. destruct (c73_parse c' t Hc') as [P1 P2].
    split; intros L; [exact (proj2 (P1 L)) | exact (proj2 (P2 L))].
Qed.

Lemma cache_from_inner c0 w : cache_from c0 w = omap mkCache (from_ref_str (c63 c0) w).
Proof.
  unfold cache_from. change (mkcfg (usize_max c0) (debug c0) CACHE_STRING_SIZE) with (c63 c0).
  destruct (from_ref_str (c63 c0) w); reflexivity.
Qed.

Lemma cache_from_str_inner c0 w : cache_from_str c0 w = omap (map_ok mkCache) (from_str (c63 c0) w).
Proof.
  unfold cache_from_str, from_str. change (mkcfg (usize_max c0) (debug c0) CACHE_STRING_SIZE) with (c63 c0).
  destruct (try_from_str (c63 c0) w) as [[a|e]| | |]; reflexivity.
Qed.

Lemma c73_cache (c0 : cfg) (w : text) : valid_cfg c0 ->
  (exists p s, longest_fit 63 w p /\ cache_shows c0 s p /\
     blanket_into (cache_from c0) (enc w) = Ret s /\ blanket_try_from (cache_from c0) (enc w) = Ret (Ok s)) /\
  (blen w <= 63 -> exists s, str_parse (cache_from_str c0) (enc w) = Ret (Ok s) /\ cache_shows c0 s w /\
     blanket_to_string (fun sp => cache_display c0 buffer sp s) = Ret (enc w)) /\
  (63 < blen w -> str_parse (cache_from_str c0) (enc w) = Ret (Err mkOutOfBounds)) /\
  (forall a t, shows (c63 c0) a t -> exists s,
     blanket_try_from (fun a => Ret (cache_from_array a)) a = Ret (Ok s) /\ cache_shows c0 s t).
Proof.
  intros Hc0. pose proof (valid_c63 c0 Hc0) as Hc. repeat apply conj.
  - destruct (conv_prefix (c63 c0) w Hc) as (p & s & Hp & E & S). exists p, (mkCache s).
    unfold blanket_try_from, blanket_into. rewrite cache_from_inner, E. cbn. auto.
  - intros L. destruct (c73_parse (c63 c0) w Hc) as [P _]. destruct (P L) as [_ (s & E & S)].
    unfold str_parse in *. exists (mkCache s). rewrite cache_from_str_inner, E. split; [reflexivity|]. split; [exact S|].
    destruct (c73_to_string (c63 c0) s w S) as (b & Eb & -> & _). exact Eb.
  - intros L. destruct (c73_parse (c63 c0) w Hc) as [_ P]. destruct (P L) as [_ E].
    unfold str_parse in *. rewrite cache_from_str_inner, E. reflexivity.
  - intros a t Ha. exists (mkCache a). split; [reflexivity | exact Ha].
Qed.

(** ** The benchmarks, for any string type *)
Section Bench.
Context {T : Type}.
Variables (deref : T -> outcome (list N)) (sh : T -> text -> Prop).
Hypothesis Hd : forall s t, sh s t -> deref s = Ret (enc t).

Lemma converts_runs from w p s : from (enc w) = Ret s -> sh s p ->
  exists b, bench_converts deref from (enc w) = Ret b /\ (b = true <-> p = w).
Proof.
  intros E S. unfold bench_converts, blanket_try_from, blanket_into. rewrite E. cbn. rewrite (Hd s p S). cbn.
  eexists. split; [reflexivity | apply str_eq_enc].
Qed.

Lemma pushes_runs {R} s (push : list N -> ST T R) w r s' p : push (enc w) s = (Ret r, s') -> sh s' p ->
  exists b, bench_pushes deref s push (enc w) = Ret b /\ (b = true <-> p = w).
Proof.
  intros E S. unfold bench_pushes. cbn. rewrite E. cbn. rewrite (Hd s' p S). cbn.
  exists (str_eq (enc p) (enc w)). split; [|apply str_eq_enc]. destruct (str_eq (enc p) (enc w)); reflexivity.
Qed.

Lemma push_iter_runs {R} (push : list N -> ST T R) clear w n s :
  (forall s, sh s [] -> exists r s', push (enc w) s = (Ret r, s') /\ sh s' w) ->
  (forall s, sh s w -> exists s', clear s = (Ret tt, s') /\ sh s' []) -> sh s [] ->
  exists s', bench_push_iter push clear (enc w) n s = (Ret tt, s') /\ sh s' [].
Proof.
  intros Hp Hcl. revert s. induction n as [|n IH]; intros s Hs; cbn [bench_push_iter].
  - exists s. split; [reflexivity | exact Hs].
  - destruct (Hp s Hs) as (r & s1 & E1 & S1). destruct (Hcl s1 S1) as (s2 & E2 & S2).
    unfold sbind. rewrite E1, E2. exact (IH s2 S2).
Qed.
End Bench.

Lemma deref_shows c s t : shows c s t -> deref c s = Ret (enc t).
Proof. intros [_ E]. exact E. Qed.

Lemma bool_same (b b' : bool) (P : Prop) : (b = true <-> P) -> (b' = true <-> P) -> b = b'.
Proof. destruct b, b'; intuition congruence. Qed.

Lemma new_shows c : shows c (new c) [].
Proof. apply shows_rep. exact (new_rep c). Qed.

Lemma fit_whole_iff n w p : longest_fit n w p -> (p = w <-> blen w <= n).
Proof.
  intros Hp. split.
  - intros ->. exact (proj1 (proj2 Hp)).
  - intros L. apply (longest_fit_unique n w); [exact Hp|]. split; [exists []; symmetry; apply app_nil_r|]. split; [exact L | auto].
Qed.

Lemma c73_bench (c : cfg) (w : text) : valid_cfg c ->
  exists b, (b = true <-> blen w <= cap c) /\
    bench_converts (deref c) (from_ref_str c) (enc w) = Ret b /\
    bench_pushes (deref c) (new c) (try_push_str c) (enc w) = Ret b /\
    bench_pushes (deref c) (new c) (push_str_truncate c) (enc w) = Ret b.
Proof.
  intros Hc. pose proof (deref_shows c) as Hd. pose proof (new_shows c) as Hn.
  destruct (conv_prefix c w Hc) as (p & s & Hp & E & S).
  destruct (converts_runs (deref c) (shows c) Hd (from_ref_str c) w p s E S) as (b & Eb & Hb).
  rewrite (fit_whole_iff _ _ _ Hp) in Hb. exists b. split; [exact Hb|]. split; [exact Eb|].
  destruct (c06_push_str_truncate c (new c) [] w Hc Hn) as (p2 & Hp2 & s2 & E2 & S2). change (cap c - blen []) with (cap c - 0) in Hp2.
  rewrite N.sub_0_r in Hp2.
  destruct (pushes_runs (deref c) (shows c) Hd _ _ w _ _ _ E2 S2) as (b2 & Eb2 & Hb2).
  cbn [app] in Hb2. rewrite (fit_whole_iff _ _ _ Hp2) in Hb2. rewrite (bool_same b b2 _ Hb Hb2). split; [|exact Eb2].
  destruct (c05_try_push_str c (new c) [] w Hc Hn) as [P1 P2]. cbn [blen app] in P1, P2. rewrite N.add_0_l in P1, P2.
  destruct (N.leb_spec (blen w) (cap c)) as [L|L].
  - destruct (P1 L) as (s3 & E3 & S3). destruct (pushes_runs (deref c) (shows c) Hd _ _ w _ _ _ E3 S3) as (b3 & Eb3 & Hb3).
    rewrite Eb3. f_equal. apply (bool_same b3 b2 (blen w <= cap c)); [|exact Hb2]. intuition.
  - pose proof (P2 L) as E3. destruct (pushes_runs (deref c) (shows c) Hd _ _ w _ _ _ E3 Hn) as (b3 & Eb3 & Hb3).
    rewrite Eb3. f_equal. apply (bool_same b3 b2 (blen w <= cap c)); [|exact Hb2].
    rewrite Hb3. split; [intros <-; cbn in L; lia | lia].
Qed.

Lemma c73_bench_iter (c : cfg) (w : text) (n : nat) : valid_cfg c -> blen w <= cap c ->
  (exists s, bench_push_iter (try_push_str c) clear (enc w) n (new c) = (Ret tt, s) /\ shows c s [] /\
     returns c (try_push_str c (enc w) s) (Ok tt) w) /\
  (exists s, bench_push_iter (push_str_truncate c) clear (enc w) n (new c) = (Ret tt, s) /\ shows c s [] /\
     returns c (push_str_truncate c (enc w) s) tt w).
Proof.
  intros Hc L. pose proof (new_shows c) as Hn.
  assert (H1 : forall s, shows c s [] -> returns c (try_push_str c (enc w) s) (Ok tt) w).
  { intros s Hs. exact (proj1 (c05_try_push_str c s [] w Hc Hs) L). }
  assert (H2 : forall s, shows c s [] -> returns c (push_str_truncate c (enc w) s) tt w).
  { intros s Hs. exact (c06_whole c s [] w Hc Hs L). }
  assert (H3 : forall s, shows c s w -> exists s', clear s = (Ret tt, s') /\ shows c s' []).
  { intros s Hs. exact (proj2 (proj2 (proj2 (proj2 (c29_observers c s w Hc Hs))))). }
  split.
  - destruct (push_iter_runs (shows c) (try_push_str c) clear w n (new c)) as (s & E & S); [|exact H3|exact Hn|].
    + intros s Hs. destruct (H1 s Hs) as (s' & E & S). eauto.
    + exists s. split; [exact E|]. split; [exact S | exact (H1 s S)].
  - destruct (push_iter_runs (shows c) (push_str_truncate c) clear w n (new c)) as (s & E & S); [|exact H3|exact Hn|].
    + intros s Hs. destruct (H2 s Hs) as (s' & E & S). eauto.
    + exists s. split; [exact E|]. split; [exact S | exact (H2 s S)].
Qed.

(** The same for [CacheString]. *)
Lemma c73_bench_cache (c0 : cfg) (w : text) (n : nat) : valid_cfg c0 ->
  (exists b, (b = true <-> blen w <= 63) /\
    bench_converts (cache_as_ref c0) (cache_from c0) (enc w) = Ret b /\
    bench_pushes (cache_as_ref c0) (cache_new c0) (cache_try_push_str c0) (enc w) = Ret b /\
    bench_pushes (cache_as_ref c0) (cache_new c0) (cache_push_str_truncate c0) (enc w) = Ret b) /\
  (blen w <= 63 ->
    (exists s, bench_push_iter (cache_try_push_str c0) cache_clear (enc w) n (cache_new c0) = (Ret tt, s) /\ cache_shows c0 s []) /\
    (exists s, bench_push_iter (cache_push_str_truncate c0) cache_clear (enc w) n (cache_new c0) = (Ret tt, s) /\ cache_shows c0 s [])).
Proof.
  intros Hc0. pose proof (valid_c63 c0 Hc0) as Hc. split.
  - destruct (c73_bench (c63 c0) w Hc) as (b & Hb & E1 & E2 & E3). exists b. split; [exact Hb|].
    split; [|split].
    + rewrite <- E1. unfold bench_converts, blanket_try_from, blanket_into. rewrite cache_from_inner.
      destruct (from_ref_str (c63 c0) (enc w)); reflexivity.
    + rewrite <- E2. unfold bench_pushes, cache_try_push_str, on_inner, cache_new. cbn [obind catch_unwind inner].
      change (mkcfg (usize_max c0) (debug c0) CACHE_STRING_SIZE) with (c63 c0).
      destruct (try_push_str (c63 c0) (enc w) (new (c63 c0))) as [[r| | |] s]; reflexivity.
    + rewrite <- E3. unfold bench_pushes, cache_push_str_truncate, on_inner, cache_new. cbn [obind catch_unwind inner].
      change (mkcfg (usize_max c0) (debug c0) CACHE_STRING_SIZE) with (c63 c0).
      destruct (push_str_truncate (c63 c0) (enc w) (new (c63 c0))) as [[r| | |] s]; reflexivity.
  - intros L. destruct (c73_bench_iter (c63 c0) w n Hc L) as [(s1 & E1 & S1 & _) (s2 & E2 & S2 & _)].
    assert (I : forall R (push : list N -> ST astring R) m a,
      bench_push_iter (fun p => on_inner (push p)) (on_inner clear) (enc w) m (mkCache a) =
      (let '(o, s) := bench_push_iter push clear (enc w) m a in (o, mkCache s))).
    { intros R push m. induction m as [|m IH]; intros a; cbn [bench_push_iter]; [reflexivity|].
      unfold sbind. unfold on_inner at 1. cbn [inner]. destruct (push (enc w) a) as [[r| | |] a1]; try reflexivity.
      unfold on_inner at 1. cbn [inner]. destruct (clear a1) as [[u| | |] a2]; try reflexivity. apply IH. }
    split.
    + exists (mkCache s1). split; [|exact S1]. etransitivity; [exact (I _ (try_push_str (c63 c0)) n (new (c63 c0)))|].
      rewrite E1. reflexivity.
    + exists (mkCache s2). split; [|exact S2]. etransitivity; [exact (I _ (push_str_truncate (c63 c0)) n (new (c63 c0)))|].
      rewrite E2. reflexivity.
Qed.
