(** Laws relating several calls (C48, C49). *)
From Coq Require Import ZArith ZifyBool ZifyN ZifyNat Arith.
From Verif Require Import Base Char Spec RustStd ModelError Model ModelImpl ModelDrain TextOps IterSpec
  ListFacts Utf8Facts CoreFacts MethodFacts IterFacts ImplFacts DrainFacts Obs ClaimsEdit ClaimsIter.

(** ** Plumbing *)
Lemma shows_cap c s t : shows c s t -> blen t <= cap c.
Proof. intros H. apply shows_rep in H. exact (rep_cap c s t H). Qed.

Lemma boundary_dec t i : boundary t i \/ ~ boundary t i.
Proof.
  destruct (split_at i t) as [[a b]|] eqn:E.
  - left. apply split_at_Some in E. exists a, b. exact E.
  - right. intros (a & b & H). apply splits_split in H. congruence.
Qed.

Lemma rev_case {A} (l : list A) : l = [] \/ exists u y, l = u ++ [y].
Proof.
  induction l as [|x l IH]; [left; reflexivity|]. right. destruct IH as [->|(u & y & ->)].
  - exists [], x. reflexivity.
  - exists (x :: u), y. reflexivity.
Qed.

(** What success of each call says. *)
Lemma pop_inv c s t x s1 : valid_cfg c -> shows c s t -> pop c s = (Ret (Some x), s1) ->
  exists u, t = u ++ [x] /\ shows c s1 u.
Proof.
  intros Hc Hs E. destruct (c19_pop c s Hc) as [H0 H1].
  destruct (rev_case t) as [->|(u & y & ->)].
  - destruct (H0 Hs) as (s2 & E2 & _). rewrite E in E2. discriminate.
  - destruct (H1 u y Hs) as (s2 & E2 & S2). rewrite E in E2. injection E2 as -> ->.
    exists u. split; [reflexivity | exact S2].
Qed.

Lemma try_push_inv c s t x s1 : valid_cfg c -> shows c s t -> try_push c x s = (Ret (Ok tt), s1) ->
  shows c s1 (t ++ [x]).
Proof.
  intros Hc Hs E. destruct (c07_try_push c s t x Hc Hs) as [H1 H2].
  destruct (N.le_gt_cases (blen t + clen x) (cap c)) as [L|L].
  - destruct (H1 L) as (s2 & E2 & S2). rewrite E in E2. injection E2 as ->. exact S2.
  - rewrite (H2 L) in E. discriminate.
Qed.

Lemma split_off_inv c s t i d s1 : valid_cfg c -> shows c s t -> split_off c i s = (Ret (Ok d), s1) ->
  exists pre post, splits t i pre post /\ shows c d post /\ shows c s1 pre.
Proof.
  intros Hc Hs E. destruct (c28_split_off c s t i Hc Hs) as (H1 & H2 & H3).
  destruct (N.le_gt_cases i (blen t)) as [L|L].
  - destruct (boundary_dec t i) as [(pre & post & Hb)|Hb].
    + destruct (H3 pre post Hb) as (d' & s' & E' & Sd & S1). rewrite E in E'. injection E' as -> ->.
      exists pre, post. split; [exact Hb | split; assumption].
    + rewrite (H2 L Hb) in E. discriminate.
  - rewrite (H1 L) in E. discriminate.
Qed.

Lemma remove_inv c s t i x s1 : valid_cfg c -> shows c s t -> remove c i s = (Ret (Ok x), s1) ->
  exists pre post, splits t i pre (x :: post) /\ shows c s1 (pre ++ post).
Proof.
  intros Hc Hs E. destruct (c21_remove c s t i Hc Hs) as (H1 & H2 & H3).
  destruct (N.le_gt_cases (blen t) i) as [L|L].
  - rewrite (H1 L) in E. discriminate.
  - destruct (boundary_dec t i) as [(pre & post & Hb)|Hb].
    + destruct post as [|y post].
      { destruct Hb as [-> Hb]. rewrite app_nil_r in L. lia. }
      destruct (H3 pre y post Hb) as (s' & E' & S'). rewrite E in E'. injection E' as -> ->.
      exists pre, post. split; [exact Hb | exact S'].
    + rewrite (H2 L Hb) in E. discriminate.
Qed.

Lemma slice_dec t a b : a <= b -> b <= blen t ->
  (exists pre mid post, t = pre ++ mid ++ post /\ blen pre = a /\ blen (pre ++ mid) = b) \/
  ~ (boundary t a /\ boundary t b).
Proof.
  intros L1 L2. destruct (boundary_dec t a) as [Ha|Ha]; [|right; tauto].
  destruct (boundary_dec t b) as [Hb|Hb]; [|right; tauto]. left.
  destruct Ha as (pre & rest & -> & <-). destruct Hb as (p2 & post & E2 & <-).
  assert (exists mid, p2 = pre ++ mid /\ rest = mid ++ post) as (mid & -> & ->).
  { clear L2. revert p2 E2 L1. induction pre as [|x pre IH]; intros p2 E2 L1.
    - exists p2. split; [reflexivity | exact E2].
    - destruct p2 as [|y p2].
      + exfalso. rewrite blen_cons in L1. cbn [blen] in L1. pose proof (clen_range x). lia.
      + cbn [app] in E2. injection E2 as -> E2. rewrite !blen_cons in L1.
        destruct (IH p2 E2 ltac:(lia)) as (mid & -> & ->). exists mid. split; reflexivity. }
  exists pre, mid, post. split; [reflexivity | split; reflexivity].
Qed.

Lemma drain_inv c s t lo hi d s1 : valid_cfg c -> shows c s t -> drain_iter c lo hi s = (Ret (Ok d), s1) ->
  exists pre mid post, t = pre ++ mid ++ post /\ blen pre = range_from (usize_max c) lo /\
    blen (pre ++ mid) = range_to (usize_max c) (blen t) hi /\ shows c (drained d) mid /\ shows c s1 (pre ++ post).
Proof.
  intros Hc Hs E. destruct (c26_drain c s t lo hi Hc Hs) as (H1 & H2 & H3).
  set (a := range_from (usize_max c) lo) in *. set (b := range_to (usize_max c) (blen t) hi) in *.
  destruct (N.lt_ge_cases b a) as [L|L]; [rewrite (H2 (or_introl L)) in E; discriminate|].
  destruct (N.lt_ge_cases (blen t) b) as [L'|L']; [rewrite (H2 (or_intror L')) in E; discriminate|].
  destruct (slice_dec t a b L L') as [(pre & mid & post & Et & Ha & Hb)|Hn].
  - destruct (H1 pre mid post Et Ha Hb) as (d' & s' & E' & _ & Sd & S1). rewrite E in E'. injection E' as -> ->.
    exists pre, mid, post. split; [exact Et|]. split; [exact Ha|]. split; [exact Hb|]. split; assumption.
  - rewrite (H3 L L' Hn) in E. discriminate.
Qed.

Lemma try_insert_str_inv c s t i w s1 : valid_cfg c -> shows c s t -> w <> [] \/ boundary t i ->
  try_insert_str c i (enc w) s = (Ret (Ok tt), s1) ->
  exists pre post, splits t i pre post /\ shows c s1 (pre ++ w ++ post) /\ blen t + blen w <= cap c.
Proof.
  intros Hc Hs Hw E. destruct (insert_texts c s t i w Hc Hs) as (H1 & H2 & H3 & H4 & H5 & H6).
  destruct (N.lt_ge_cases (blen t) i) as [L|L]; [rewrite (H1 L) in E; discriminate|].
  assert (w = [] \/ w <> []) as [Ew|Ew] by (destruct w; [left; reflexivity | right; discriminate]).
  - destruct Hw as [Hw|Hb]; [contradiction|]. destruct Hb as (pre & post & Hb).
    pose proof (shows_cap c s t Hs) as Hcap.
    assert (Lw : blen t + blen w <= cap c) by (subst w; cbn [blen]; lia).
    destruct (H6 pre post Hb Lw) as (s' & E' & S'). rewrite E in E'. injection E' as ->.
    exists pre, post. split; [exact Hb | split; assumption].
  - destruct (N.lt_ge_cases (cap c) (blen w)) as [L2|L2]; [rewrite (H3 L L2) in E; discriminate|].
    destruct (boundary_dec t i) as [Hb|Hb]; [|rewrite (H4 L Ew L2 Hb) in E; discriminate].
    destruct (N.lt_ge_cases (cap c) (blen t + blen w)) as [L3|L3]; [rewrite (H5 Hb L3 Ew) in E; discriminate|].
    destruct Hb as (pre & post & Hb).
    destruct (H6 pre post Hb L3) as (s' & E' & S'). rewrite E in E'. injection E' as ->.
    exists pre, post. split; [exact Hb | split; assumption].
Qed.

Lemma shows_as_str c s t : shows c s t -> as_str c s = Ret (enc t).
Proof. intros [_ H]. exact H. Qed.

(** ** C48 *)
Lemma c48_pop_push c s t x s1 : valid_cfg c -> shows c s t -> pop c s = (Ret (Some x), s1) ->
  returns c (try_push c x s1) (Ok tt) t.
Proof.
  intros Hc Hs E. destruct (pop_inv c s t x s1 Hc Hs E) as (u & -> & S1).
  apply (proj1 (c07_try_push c s1 u x Hc S1)).
  pose proof (shows_cap c s _ Hs) as L. rewrite blen_app, blen_cons in L. cbn [blen] in L. lia.
Qed.

Lemma c48_push_pop c s t x s1 : valid_cfg c -> shows c s t -> try_push c x s = (Ret (Ok tt), s1) ->
  returns c (pop c s1) (Some x) t.
Proof.
  intros Hc Hs E. apply (proj2 (c19_pop c s1 Hc)). exact (try_push_inv c s t x s1 Hc Hs E).
Qed.

Lemma c48_split_off c s t i d s1 : valid_cfg c -> shows c s t -> split_off c i s = (Ret (Ok d), s1) ->
  exists b, as_str c d = Ret b /\ returns c (try_push_str c b s1) (Ok tt) t.
Proof.
  intros Hc Hs E. destruct (split_off_inv c s t i d s1 Hc Hs E) as (pre & post & [-> _] & Sd & S1).
  exists (enc post). split; [exact (shows_as_str _ _ _ Sd)|].
  apply (proj1 (c05_try_push_str c s1 pre post Hc S1)).
  pose proof (shows_cap c s _ Hs) as L. rewrite blen_app in L. exact L.
Qed.

Lemma c48_drain c s t lo hi d s1 : valid_cfg c -> shows c s t -> drain_iter c lo hi s = (Ret (Ok d), s1) ->
  exists b, drain_as_str c d = Ret b /\
    returns c (try_insert_str c (range_from (usize_max c) lo) b s1) (Ok tt) t.
Proof.
  intros Hc Hs E. destruct (drain_inv c s t lo hi d s1 Hc Hs E) as (pre & mid & post & Et & Ha & Hb & Sd & S1).
  exists (enc mid). split; [exact (shows_as_str _ _ _ Sd)|]. rewrite Et.
  destruct (insert_texts c s1 (pre ++ post) (range_from (usize_max c) lo) mid Hc S1) as (_ & _ & _ & _ & _ & H6).
  apply H6; [split; [reflexivity | exact Ha]|].
  pose proof (shows_cap c s _ Hs) as L. rewrite Et, !blen_app in L. rewrite blen_app. lia.
Qed.

Lemma c48_remove_insert c s t i x s1 : valid_cfg c -> shows c s t -> remove c i s = (Ret (Ok x), s1) ->
  returns c (try_insert c i x s1) (Ok tt) t.
Proof.
  intros Hc Hs E. destruct (remove_inv c s t i x s1 Hc Hs E) as (pre & post & [-> Hi] & S1).
  destruct (c23_try_insert c s1 (pre ++ post) i x Hc S1) as (_ & _ & _ & _ & H5).
  apply H5; [split; [reflexivity | exact Hi]|].
  pose proof (shows_cap c s _ Hs) as L. rewrite blen_app, blen_cons in L. rewrite blen_app. lia.
Qed.

(** An empty [w] can be "inserted" inside a character (C23); draining the empty
    range there is an error, hence the third hypothesis. *)
Lemma c48_insert_drain c s t i w s1 : valid_cfg c -> shows c s t -> w <> [] \/ boundary t i ->
  try_insert_str c i (enc w) s = (Ret (Ok tt), s1) ->
  exists d s2, drain_iter c (Included i) (Excluded (i + blen w)) s1 = (Ret (Ok d), s2) /\
    shows c (drained d) w /\ shows c s2 t.
Proof.
  intros Hc Hs Hw E. destruct (try_insert_str_inv c s t i w s1 Hc Hs Hw E) as (pre & post & [-> Hi] & S1 & _).
  destruct (c26_drain c s1 _ (Included i) (Excluded (i + blen w)) Hc S1) as (H1 & _).
  cbn [range_from range_to] in H1.
  destruct (H1 pre w post eq_refl Hi) as (d & s2 & E2 & _ & Sd & S2); [rewrite blen_app; lia|].
  exists d, s2. split; [exact E2 | split; assumption].
Qed.

Lemma c48_insert_remove c s t i x s1 : valid_cfg c -> shows c s t ->
  try_insert c i x s = (Ret (Ok tt), s1) -> returns c (remove c i s1) (Ok x) t.
Proof.
  intros Hc Hs E. destruct (c23_try_insert c s t i x Hc Hs) as (H1 & H2 & H3 & H4 & H5).
  destruct (N.lt_ge_cases (blen t) i) as [L|L]; [rewrite (H1 L) in E; discriminate|].
  destruct (N.lt_ge_cases (cap c) (clen x)) as [L2|L2]; [rewrite (H2 L L2) in E; discriminate|].
  destruct (boundary_dec t i) as [Hb|Hb]; [|rewrite (H3 L L2 Hb) in E; discriminate].
  destruct (N.lt_ge_cases (cap c) (blen t + clen x)) as [L3|L3]; [rewrite (H4 Hb L3) in E; discriminate|].
  destruct Hb as (pre & post & Hb). destruct (H5 pre post Hb L3) as (s' & E' & S'). rewrite E in E'.
  injection E' as ->. destruct Hb as [-> Hi].
  exact (proj2 (proj2 (c21_remove c s' _ i Hc S')) pre x post (conj eq_refl Hi)).
Qed.

(** ** C49 *)
Lemma trim_law c s t s1 t1 : valid_cfg c -> shows c s t -> trim c s = (Ret tt, s1) -> shows c s1 t1 ->
  returns c (trim c s1) tt t1.
Proof.
  intros Hc Hs E S1. destruct (c20_trim c s t Hc Hs) as (r & Hr & (s' & E' & S')).
  rewrite E in E'. injection E' as ->. rewrite (shows_fun c s' t1 r S1 S').
  destruct (c20_trim c s' r Hc S') as (r2 & Hr2 & H2).
  assert (Hrr : trimmed r r).
  { destruct Hr as (l & z & _ & _ & _ & F1 & F2). exists [], [].
    rewrite app_nil_r. repeat split; try constructor; assumption. }
  rewrite <- (c20_trimmed_unique r r r2 Hrr Hr2) in H2. exact H2.
Qed.
Lemma c49_trim c s t : valid_cfg c -> shows c s t ->
  exists s1 u, trim c s = (Ret tt, s1) /\ shows c s1 u /\ returns c (trim c s1) tt u.
Proof.
  intros Hc Hs. destruct (c20_trim c s t Hc Hs) as (r & _ & (s1 & E & S1)). exists s1, r.
  split; [exact E|]. split; [exact S1|exact (trim_law c s t s1 r Hc Hs E S1)].
Qed.

Lemma clear_law c s t s1 t1 : valid_cfg c -> shows c s t -> clear s = (Ret tt, s1) -> shows c s1 t1 ->
  returns c (clear s1) tt t1.
Proof.
  intros Hc Hs E S1. destruct (c29_observers c s t Hc Hs) as (_ & _ & _ & _ & (s' & E' & S')).
  rewrite E in E'. injection E' as ->. rewrite (shows_fun c s' t1 [] S1 S').
  exact (proj2 (proj2 (proj2 (proj2 (c29_observers c s' [] Hc S'))))).
Qed.
Lemma c49_clear c s t : valid_cfg c -> shows c s t ->
  exists s1 u, clear s = (Ret tt, s1) /\ shows c s1 u /\ returns c (clear s1) tt u.
Proof.
  intros Hc Hs. destruct (c29_observers c s t Hc Hs) as (_ & _ & _ & _ & (s1 & E & S1)). exists s1, [].
  split; [exact E|]. split; [exact S1|exact (clear_law c s t s1 [] Hc Hs E S1)].
Qed.

Lemma truncate_law c s t n r s1 t1 : valid_cfg c -> shows c s t -> truncate c n s = (Ret r, s1) -> shows c s1 t1 ->
  returns c (truncate c n s1) r t1.
Proof.
  intros Hc Hs E S1. destruct (truncate_texts c s t n Hc Hs) as (H1 & H2 & H3).
  destruct (N.le_gt_cases (blen t) n) as [L|L].
  - destruct (H1 L) as (s' & E' & S'). rewrite E in E'. injection E' as -> ->.
    rewrite (shows_fun c s' t1 t S1 S'). exact (proj1 (truncate_texts c s' t n Hc S') L).
  - destruct (boundary_dec t n) as [(pre & post & Hb)|Hb].
    + destruct (H2 pre post Hb) as (s' & E' & S'). rewrite E in E'. injection E' as -> ->.
      rewrite (shows_fun c s' t1 pre S1 S'). apply (proj1 (truncate_texts c s' pre n Hc S')).
      destruct Hb as [_ <-]. lia.
    + rewrite (H3 L Hb) in E. injection E as <- <-. rewrite (shows_fun c s t1 t S1 Hs).
      exists s. split; [exact (H3 L Hb) | exact Hs].
Qed.
Lemma truncate_total c s t n : valid_cfg c -> shows c s t ->
  exists r s1 u, truncate c n s = (Ret r, s1) /\ shows c s1 u.
Proof.
  intros Hc Hs. destruct (truncate_texts c s t n Hc Hs) as (H1 & H2 & H3).
  destruct (N.le_gt_cases (blen t) n) as [L|L].
  - destruct (H1 L) as (s1 & E & S1). exists (Ok tt), s1, t. auto.
  - destruct (boundary_dec t n) as [(pre & post & Hb)|Hb].
    + destruct (H2 pre post Hb) as (s1 & E & S1). exists (Ok tt), s1, pre. auto.
    + exists (Err mkUtf8), s, t. split; [exact (H3 L Hb) | exact Hs].
Qed.
Lemma c49_truncate c s t n : valid_cfg c -> shows c s t ->
  exists r s1 u, truncate c n s = (Ret r, s1) /\ shows c s1 u /\ returns c (truncate c n s1) r u.
Proof.
  intros Hc Hs. destruct (truncate_total c s t n Hc Hs) as (r & s1 & u & E & S1). exists r, s1, u.
  split; [exact E|]. split; [exact S1|exact (truncate_law c s t n r s1 u Hc Hs E S1)].
Qed.

Lemma filter_twice {A} (p : A -> bool) l : filter p (filter p l) = filter p l.
Proof.
  induction l as [|a l IH]; [reflexivity|]. cbn [filter]. destruct (p a) eqn:E; [|exact IH].
  cbn [filter]. rewrite E, IH. reflexivity.
Qed.

Lemma filter_st_pure (p : char -> bool) t : filter_st (fun u a => (p a, u)) tt t = (filter p t, tt).
Proof.
  induction t as [|a t IH]; [reflexivity|]. cbn [filter_st filter]. rewrite IH. destruct (p a); reflexivity.
Qed.

Lemma retain_law c (p : char -> bool) s t s1 t1 : valid_cfg c -> shows c s t ->
  retain c (fun a u => (Ret (p a), u)) tt s = (Ret tt, s1, tt) -> shows c s1 t1 ->
  exists s2, retain c (fun a u => (Ret (p a), u)) tt s1 = (Ret tt, s2, tt) /\ shows c s2 t1.
Proof.
  intros Hc Hs E S1.
  destruct (c22_retain c _ (fun u a => (p a, u)) tt s t Hc Hs (fun a y => eq_refl)) as (s' & E' & S').
  rewrite filter_st_pure in E', S'. cbn [fst snd] in *. rewrite E in E'. injection E' as ->.
  rewrite (shows_fun c s' t1 _ S1 S').
  destruct (c22_retain c _ (fun u a => (p a, u)) tt s' _ Hc S' (fun a y => eq_refl)) as (s2 & E2 & S2).
  rewrite filter_st_pure, filter_twice in E2, S2. exists s2. split; [exact E2 | exact S2].
Qed.
Lemma c49_retain c (p : char -> bool) s t : valid_cfg c -> shows c s t ->
  exists s1 s2 u, retain c (fun a u => (Ret (p a), u)) tt s = (Ret tt, s1, tt) /\ shows c s1 u /\
    retain c (fun a u => (Ret (p a), u)) tt s1 = (Ret tt, s2, tt) /\ shows c s2 u.
Proof.
  intros Hc Hs.
  destruct (c22_retain c _ (fun u a => (p a, u)) tt s t Hc Hs (fun a y => eq_refl)) as (s1 & E & S1).
  rewrite filter_st_pure in E, S1. cbn [fst snd] in *.
  destruct (retain_law c p s t s1 _ Hc Hs E S1) as (s2 & E2 & S2). exists s1, s2, (filter p t). auto.
Qed.
