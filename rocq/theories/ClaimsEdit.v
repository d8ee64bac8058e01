(** The inherent methods: what each does to the text, case by case (C05-C09,
    C18-C21, C23-C26, C28, C29). *)
From Coq Require Import ZArith ZifyBool ZifyN ZifyNat Arith.
From Verif Require Import Base Char Spec RustStd ModelError Model ModelImpl ModelDrain TextOps
  ListFacts Utf8Facts CoreFacts MethodFacts ImplFacts DrainFacts Obs.

(** Decide the outermost comparison in [H]. *)
Ltac decide_leb H :=
  match type of H with
  | runs_f _ _ _ (if N.leb ?a ?b then _ else _) =>
      let L := fresh "L" in destruct (N.leb_spec a b) as [L|L]; try lia
  | runs_f _ _ _ (if N.ltb ?a ?b then _ else _) =>
      let L := fresh "L" in destruct (N.ltb_spec a b) as [L|L]; try lia
  | runs_f _ _ _ (if N.eqb ?a ?b then _ else _) =>
      let L := fresh "L" in destruct (N.eqb_spec a b) as [L|L]; try lia
  end.

(** ** C05 *)
Lemma c05_try_push_str c s t w : valid_cfg c -> shows c s t ->
  (blen t + blen w <= cap c -> returns c (try_push_str c (enc w) s) (Ok tt) (t ++ w)) /\
  (cap c < blen t + blen w -> try_push_str c (enc w) s = (Ret (Err mkOutOfBounds), s)).
Proof.
  intros Hc Hs. apply shows_rep in Hs. pose proof (try_push_str_runs c Hc w s t Hs) as H.
  unfold t_try_push_str in H. split; intros L0; decide_leb H.
  - exact (returns_f _ _ _ _ _ H).
  - exact (unchanged_f _ _ _ _ _ H).
Qed.

(** ** C06 *)
Lemma c06_push_str_truncate c s t w : valid_cfg c -> shows c s t ->
  exists p, longest_fit (cap c - blen t) w p /\ returns c (push_str_truncate c (enc w) s) tt (t ++ p).
Proof.
  intros Hc Hs. apply shows_rep in Hs. exists (fit (cap c - blen t) w). split; [apply fit_longest|].
  apply returns_runs, (push_str_truncate_runs c Hc w s t Hs).
Qed.

Lemma c06_whole c s t w : valid_cfg c -> shows c s t -> blen t + blen w <= cap c ->
  returns c (push_str_truncate c (enc w) s) tt (t ++ w).
Proof.
  intros Hc Hs L. destruct (c06_push_str_truncate c s t w Hc Hs) as (p & Hp & Hr).
  apply longest_fit_fit in Hp. rewrite fit_id in Hp by lia. subst p. exact Hr.
Qed.

(** ** C07 *)
Lemma c07_try_push c s t x : valid_cfg c -> shows c s t ->
  (blen t + clen x <= cap c -> returns c (try_push c x s) (Ok tt) (t ++ [x])) /\
  (cap c < blen t + clen x -> try_push c x s = (Ret (Err mkOutOfBounds), s)).
Proof.
  intros Hc Hs. apply shows_rep in Hs. pose proof (try_push_runs c Hc x s t Hs) as H.
  unfold t_try_push_str in H. rewrite blen_cons in H. cbn [blen] in H.
  split; intros L0; decide_leb H.
  - exact (returns_f _ _ _ _ _ H).
  - exact (unchanged_f _ _ _ _ _ H).
Qed.

(** ** C08 *)
Lemma c08_try_from_str c w : valid_cfg c ->
  (blen w <= cap c -> makes_ok c (try_from_str c (enc w)) w /\ makes_ok c (from_str c (enc w)) w) /\
  (cap c < blen w -> try_from_str c (enc w) = Ret (Err mkOutOfBounds) /\
                     from_str c (enc w) = Ret (Err mkOutOfBounds)).
Proof.
  intros Hc. unfold from_str. split; intros L.
  - destruct (try_from_str_fits c Hc w L) as (s & E & R). apply shows_rep in R.
    split; exists s; split; assumption.
  - rewrite (try_from_str_long c Hc w L). split; reflexivity.
Qed.

(** ** C09 *)
Lemma c09_from_str_truncate c w : valid_cfg c ->
  exists p, longest_fit (cap c) w p /\ makes c (from_str_truncate c (enc w)) p /\
    makes c (from_ref_str c (enc w)) p.
Proof.
  intros Hc. exists (fit (cap c) w). split; [apply fit_longest|]. unfold from_ref_str.
  destruct (from_str_truncate_runs c Hc w) as (s & E & R). apply shows_rep in R.
  split; exists s; split; assumption.
Qed.

Lemma c09_whole c w : valid_cfg c -> blen w <= cap c -> makes c (from_str_truncate c (enc w)) w.
Proof.
  intros Hc L. destruct (c09_from_str_truncate c w Hc) as (p & Hp & Hr & _).
  apply longest_fit_fit in Hp. rewrite fit_id in Hp by exact L. subst p. exact Hr.
Qed.

(** ** Calls that have nothing to do leave every byte as it was *)
Lemma truncate_nothing c s t n : valid_cfg c -> rep c s t -> blen t <= n ->
  truncate c n s = (Ret (Ok tt), s).
Proof.
  intros Hc R L. pose proof (rep_cap255 c Hc s t R) as (K & K1 & K2). unfold truncate.
  erewrite sbind_ret by (unfold sread; rewrite (rep_len c s t R); reflexivity).
  erewrite sbind_ret by (unfold sread; rewrite (is_char_boundary_rep c s t _ R); reflexivity).
  rewrite N.min_l by lia. rewrite split_at_end. unfold set_size, smodify, sbind, sret.
  rewrite into_lossy_small by lia. destruct R as (_ & E & _). rewrite <- E. destruct s. reflexivity.
Qed.

Lemma replace_nothing c s t lo hi : rep c s t ->
  range_from (usize_max c) lo = range_to (usize_max c) (blen t) hi ->
  replace_range c lo hi [] s = (Ret (Ok tt), s).
Proof.
  intros R E. unfold replace_range. rewrite (rep_len c s t R).
  change (start_of c lo) with (range_from (usize_max c) lo).
  change (end_of c hi (blen t)) with (range_to (usize_max c) (blen t) hi).
  rewrite E, N.eqb_refl. reflexivity.
Qed.

Lemma insert_nothing c s t i : rep c s t -> i <= blen t ->
  try_insert_str c i [] s = (Ret (Ok tt), s).
Proof.
  intros R L. unfold try_insert_str, is_inside_boundary.
  erewrite stry_ok.
  - unfold replace_range, start_of, end_of. rewrite N.eqb_refl. reflexivity.
  - unfold sread. rewrite (rep_len c s t R). replace (i <=? blen t) with true by lia. reflexivity.
Qed.

(** ** C18 *)
Lemma c18_truncate c s t n : valid_cfg c -> shows c s t ->
  (blen t <= n -> truncate c n s = (Ret (Ok tt), s)) /\
  (forall pre post, splits t n pre post -> returns c (truncate c n s) (Ok tt) pre) /\
  (n < blen t -> ~ boundary t n -> truncate c n s = (Ret (Err mkUtf8), s)).
Proof.
  intros Hc Hs. apply shows_rep in Hs. pose proof (truncate_runs c Hc n s t Hs) as H.
  unfold t_truncate in H. split; [|split].
  - intros L0. decide_leb H. exact (truncate_nothing c s t n Hc Hs L0).
  - intros pre post Hp. decide_leb H.
    + pose proof (splits_le _ _ _ _ Hp). destruct Hp as [-> Hn].
      assert (E : post = []) by (apply blen_0; rewrite blen_app in L; lia).
      rewrite E, app_nil_r in *. exact (returns_f _ _ _ _ _ H).
    + rewrite (splits_split _ _ _ _ Hp) in H. exact (returns_f _ _ _ _ _ H).
  - intros L0 Hb. decide_leb H. rewrite (not_boundary_split _ _ Hb) in H.
    exact (unchanged_f _ _ _ _ _ H).
Qed.

(** ** C19 *)
Lemma c19_pop c s : valid_cfg c ->
  (shows c s [] -> returns c (pop c s) None []) /\
  (forall t x, shows c s (t ++ [x]) -> returns c (pop c s) (Some x) t).
Proof.
  intros Hc. split.
  - intros Hs. apply shows_rep in Hs. apply returns_runs. exact (pop_runs c Hc s [] Hs).
  - intros t x Hs. apply shows_rep in Hs. pose proof (pop_runs c Hc s _ Hs) as H.
    rewrite t_pop_snoc in H. apply returns_runs. exact H.
Qed.

(** ** C20 *)
Lemma c20_trim c s t : valid_cfg c -> shows c s t ->
  exists r, trimmed t r /\ returns c (trim c s) tt r.
Proof.
  intros Hc Hs. apply shows_rep in Hs. exists (trim_text t). split; [apply trim_text_spec|].
  apply returns_runs, (trim_runs c Hc s t Hs).
Qed.

Lemma c20_trimmed_unique t r r' : trimmed t r -> trimmed t r' -> r = r'.
Proof. rewrite !trimmed_trim_text. congruence. Qed.

(** ** C21 *)
Lemma c21_remove c s t i : valid_cfg c -> shows c s t ->
  (blen t <= i -> remove c i s = (Ret (Err EOutOfBounds), s)) /\
  (i < blen t -> ~ boundary t i -> remove c i s = (Ret (Err EUtf8), s)) /\
  (forall pre x post, splits t i pre (x :: post) -> returns c (remove c i s) (Ok x) (pre ++ post)).
Proof.
  intros Hc Hs. apply shows_rep in Hs. pose proof (remove_runs c Hc i s t Hs) as H.
  unfold t_remove in H. split; [|split].
  - intros L0. decide_leb H. exact (unchanged_f _ _ _ _ _ H).
  - intros L0 Hb. decide_leb H. rewrite (not_boundary_split _ _ Hb) in H.
    exact (unchanged_f _ _ _ _ _ H).
  - intros pre x post Hp. rewrite (splits_split _ _ _ _ Hp) in H. destruct Hp as [-> <-].
    rewrite blen_app, blen_cons in H. pose proof (clen_range x). decide_leb H.
    exact (returns_f _ _ _ _ _ H).
Qed.

(** ** C23 *)
Lemma c23_try_insert_str c s t i w : valid_cfg c -> shows c s t ->
  (blen t < i -> try_insert_str c i (enc w) s = (Ret (Err EOutOfBounds), s)) /\
  (i <= blen t -> w = [] -> try_insert_str c i (enc w) s = (Ret (Ok tt), s)) /\
  (i <= blen t -> cap c < blen w -> try_insert_str c i (enc w) s = (Ret (Err EOutOfBounds), s)) /\
  (i <= blen t -> w <> [] -> blen w <= cap c -> ~ boundary t i ->
     try_insert_str c i (enc w) s = (Ret (Err EUtf8), s)) /\
  (boundary t i -> cap c < blen t + blen w -> w <> [] ->
     try_insert_str c i (enc w) s = (Ret (Err EOutOfBounds), s)) /\
  (forall pre post, splits t i pre post -> blen t + blen w <= cap c ->
     returns c (try_insert_str c i (enc w) s) (Ok tt) (pre ++ w ++ post)).
Proof.
  intros Hc Hs. apply shows_rep in Hs. pose proof (rep_cap c s t Hs) as Hcap.
  pose proof (try_insert_str_runs c Hc i w s t Hs) as H. unfold t_try_insert_str in H.
  assert (Hw : w <> [] -> 0 < blen w).
  { intros Hw. destruct w as [|x w']; [congruence|]. rewrite blen_cons. pose proof (clen_range x). lia. }
  split; [|split; [|split; [|split; [|split]]]].
  - intros L0. decide_leb H. exact (unchanged_f _ _ _ _ _ H).
  - intros L0 ->. exact (insert_nothing c s t i Hs L0).
  - intros L0 L1. decide_leb H. decide_leb H. decide_leb H. exact (unchanged_f _ _ _ _ _ H).
  - intros L0 Hn L1 Hb. specialize (Hw Hn). decide_leb H. decide_leb H. decide_leb H.
    rewrite (not_boundary_split _ _ Hb) in H. exact (unchanged_f _ _ _ _ _ H).
  - intros (pre & post & Hp) L1 Hn. specialize (Hw Hn). pose proof (splits_le _ _ _ _ Hp).
    decide_leb H. decide_leb H. decide_leb H; [exact (unchanged_f _ _ _ _ _ H)|].
    rewrite (splits_split _ _ _ _ Hp) in H. decide_leb H. exact (unchanged_f _ _ _ _ _ H).
  - intros pre post Hp L1. pose proof (splits_le _ _ _ _ Hp). decide_leb H. decide_leb H.
    + assert (E : w = []) by (apply blen_0; lia). subst w. destruct Hp as [-> _].
      exact (returns_f _ _ _ _ _ H).
    + decide_leb H. rewrite (splits_split _ _ _ _ Hp) in H. decide_leb H. exact (returns_f _ _ _ _ _ H).
Qed.

Lemma c23_try_insert c s t i x : valid_cfg c -> shows c s t ->
  (blen t < i -> try_insert c i x s = (Ret (Err EOutOfBounds), s)) /\
  (i <= blen t -> cap c < clen x -> try_insert c i x s = (Ret (Err EOutOfBounds), s)) /\
  (i <= blen t -> clen x <= cap c -> ~ boundary t i -> try_insert c i x s = (Ret (Err EUtf8), s)) /\
  (boundary t i -> cap c < blen t + clen x -> try_insert c i x s = (Ret (Err EOutOfBounds), s)) /\
  (forall pre post, splits t i pre post -> blen t + clen x <= cap c ->
     returns c (try_insert c i x s) (Ok tt) (pre ++ x :: post)).
Proof.
  intros Hc Hs. apply shows_rep in Hs. pose proof (rep_cap c s t Hs) as Hcap.
  pose proof (try_insert_runs c Hc i x s t Hs) as H. unfold t_try_insert_str in H.
  rewrite blen_cons in H. cbn [blen] in H. pose proof (clen_range x) as Hx.
  split; [|split; [|split; [|split]]].
  - intros L0. decide_leb H. exact (unchanged_f _ _ _ _ _ H).
  - intros L0 L1. decide_leb H. decide_leb H. decide_leb H. exact (unchanged_f _ _ _ _ _ H).
  - intros L0 L1 Hb. decide_leb H. decide_leb H. decide_leb H.
    rewrite (not_boundary_split _ _ Hb) in H. exact (unchanged_f _ _ _ _ _ H).
  - intros (pre & post & Hp) L1. pose proof (splits_le _ _ _ _ Hp).
    decide_leb H. decide_leb H. decide_leb H; [exact (unchanged_f _ _ _ _ _ H)|].
    rewrite (splits_split _ _ _ _ Hp) in H. decide_leb H. exact (unchanged_f _ _ _ _ _ H).
  - intros pre post Hp L1. pose proof (splits_le _ _ _ _ Hp). decide_leb H. decide_leb H.
    decide_leb H. rewrite (splits_split _ _ _ _ Hp) in H. decide_leb H. exact (returns_f _ _ _ _ _ H).
Qed.

(** ** C24 *)
Lemma c24_insert_str_truncate c s t i w : valid_cfg c -> shows c s t ->
  exists p, longest_fit (cap c - blen t) w p /\
  (blen t < i -> insert_str_truncate c i (enc w) s = (Ret (Err EOutOfBounds), s)) /\
  (i <= blen t -> ~ boundary t i -> p <> [] -> insert_str_truncate c i (enc w) s = (Ret (Err EUtf8), s)) /\
  (i <= blen t -> p = [] -> insert_str_truncate c i (enc w) s = (Ret (Ok tt), s)) /\
  (forall pre post, splits t i pre post ->
     returns c (insert_str_truncate c i (enc w) s) (Ok tt) (pre ++ p ++ post)).
Proof.
  intros Hc Hs. apply shows_rep in Hs. pose proof (rep_cap c s t Hs) as Hcap.
  exists (fit (cap c - blen t) w). destruct (fit_longest (cap c - blen t) w) as (P1 & P2 & P3).
  split; [apply fit_longest|].
  pose proof (insert_str_truncate_runs c Hc i w s t Hs) as H.
  unfold t_insert_str_truncate, t_try_insert_str in H.
  set (p := fit (cap c - blen t) w) in *.
  assert (Hw : p <> [] -> 0 < blen p).
  { intros Hw. destruct p as [|x w']; [congruence|]. rewrite blen_cons. pose proof (clen_range x). lia. }
  split; [|split; [|split]].
  - intros L0. decide_leb H. exact (unchanged_f _ _ _ _ _ H).
  - intros L0 Hb Hn. specialize (Hw Hn). decide_leb H. decide_leb H. decide_leb H.
    rewrite (not_boundary_split _ _ Hb) in H. exact (unchanged_f _ _ _ _ _ H).
  - intros L0 E. unfold insert_str_truncate. erewrite sbind_ret.
    2:{ unfold sread, usub, capacity. rewrite (rep_len c s t Hs).
        replace (blen t <=? cap c) with true by lia. cbn [obind].
        rewrite truncate_str_fit. fold p. rewrite E. reflexivity. }
    erewrite stry_ok by exact (insert_nothing c s t i Hs L0). reflexivity.
  - intros pre post Hp. pose proof (splits_le _ _ _ _ Hp). decide_leb H. decide_leb H.
    + assert (E : p = []) by (apply blen_0; lia). rewrite E. destruct Hp as [-> _].
      exact (returns_f _ _ _ _ _ H).
    + decide_leb H. rewrite (splits_split _ _ _ _ Hp) in H. decide_leb H. exact (returns_f _ _ _ _ _ H).
Qed.

(** ** C25 *)
Lemma c25_replace_range c s t lo hi w : valid_cfg c -> shows c s t ->
  let a := range_from (usize_max c) lo in
  let b := range_to (usize_max c) (blen t) hi in
  (forall pre mid post, t = pre ++ mid ++ post -> blen pre = a -> blen (pre ++ mid) = b ->
     blen (pre ++ w ++ post) <= cap c ->
     returns c (replace_range c lo hi (enc w) s) (Ok tt) (pre ++ w ++ post)) /\
  (a = b -> w = [] -> replace_range c lo hi (enc w) s = (Ret (Ok tt), s)) /\
  (b < a -> replace_range c lo hi (enc w) s = (Ret (Err EOutOfBounds), s)) /\
  (a <= b -> blen t < b -> ~ (a = b /\ w = []) ->
     replace_range c lo hi (enc w) s = (Ret (Err EOutOfBounds), s)) /\
  (a <= b -> b <= blen t -> cap c < blen w ->
     replace_range c lo hi (enc w) s = (Ret (Err EOutOfBounds), s)) /\
  (a <= b -> b <= blen t -> blen w <= cap c -> ~ (a = b /\ w = []) -> ~ (boundary t a /\ boundary t b) ->
     replace_range c lo hi (enc w) s = (Ret (Err EUtf8), s)) /\
  (forall pre mid post, t = pre ++ mid ++ post -> blen pre = a -> blen (pre ++ mid) = b ->
     cap c < blen (pre ++ w ++ post) ->
     replace_range c lo hi (enc w) s = (Ret (Err EOutOfBounds), s)).
Proof.
  intros Hc Hs a b. apply shows_rep in Hs. pose proof (rep_cap c s t Hs) as Hcap.
  pose proof (replace_range_runs c Hc lo hi w s t Hs) as H. unfold t_replace_range in H.
  fold a b in H.
  assert (Hw : w <> [] -> 0 < blen w).
  { intros Hw. destruct w as [|x w']; [congruence|]. rewrite blen_cons. pose proof (clen_range x). lia. }
  assert (Hz : Bool.reflect (a = b /\ w = []) ((a =? b) && (blen w =? 0))).
  { apply iff_reflect. rewrite andb_true_iff, !N.eqb_eq. split; intros [H1 H2]; (split; [exact H1|]);
      [rewrite H2; reflexivity | apply blen_0; exact H2]. }
  assert (Hthree : forall pre mid post, t = pre ++ mid ++ post -> blen pre = a -> blen (pre ++ mid) = b ->
            a <= b /\ b <= blen t /\ split_at a t = Some (pre, mid ++ post) /\
            split_at b t = Some (pre ++ mid, post)).
  { intros pre mid post Et Ha Hb. rewrite Et, <- Ha, <- Hb. rewrite !blen_app.
    split; [lia|]. split; [lia|]. split; [apply split_at_app|].
    rewrite <- blen_app, app_assoc. apply split_at_app. }
  split; [|split; [|split; [|split; [|split; [|split]]]]].
  - intros pre mid post Et Ha Hb L0. destruct (Hthree pre mid post Et Ha Hb) as (L1 & L2 & E1 & E2).
    rewrite E1, E2 in H. rewrite !blen_app in L0.
    revert H; destruct Hz as [E0|E0]; intros H.
    + destruct E0 as [E0 ->].
      assert (Em : mid = []) by (apply blen_0; rewrite blen_app in Hb; lia). subst mid t.
      exact (returns_f _ _ _ _ _ H).
    + decide_leb H. decide_leb H. decide_leb H. decide_leb H. exact (returns_f _ _ _ _ _ H).
  - intros E0 ->. exact (replace_nothing c s t lo hi Hs E0).
  - intros L0. revert H; destruct Hz as [E0|E0]; intros H; [lia|].
    decide_leb H. exact (unchanged_f _ _ _ _ _ H).
  - intros L0 L1 Hn. revert H; destruct Hz as [E0|E0]; intros H; [contradiction|].
    decide_leb H. decide_leb H. exact (unchanged_f _ _ _ _ _ H).
  - intros L0 L1 L2.
    revert H; destruct Hz as [E0|E0]; intros H; [destruct E0 as [_ ->]; cbn [blen] in L2; lia|].
    decide_leb H. decide_leb H. decide_leb H. exact (unchanged_f _ _ _ _ _ H).
  - intros L0 L1 L2 Hn Hb. revert H; destruct Hz as [E0|E0]; intros H; [contradiction|].
    decide_leb H. decide_leb H. decide_leb H.
    destruct (split_at a t) as [[p1 q1]|] eqn:S1; [|exact (unchanged_f _ _ _ _ _ H)].
    destruct (split_at b t) as [[p2 q2]|] eqn:S2; [|exact (unchanged_f _ _ _ _ _ H)].
    exfalso. apply Hb. apply split_at_Some in S1, S2. split; eexists _, _; eassumption.
  - intros pre mid post Et Ha Hb L0. destruct (Hthree pre mid post Et Ha Hb) as (L1 & L2 & E1 & E2).
    rewrite E1, E2 in H. rewrite !blen_app in L0.
    revert H; destruct Hz as [E0|E0]; intros H.
    + destruct E0 as [E0 ->]. rewrite Et, !blen_app in Hcap. cbn [blen] in L0. lia.
    + decide_leb H. decide_leb H. decide_leb H; [exact (unchanged_f _ _ _ _ _ H)|].
      decide_leb H. exact (unchanged_f _ _ _ _ _ H).
Qed.

(** ** C26 *)
Lemma c26_drain c s t lo hi : valid_cfg c -> shows c s t ->
  let a := range_from (usize_max c) lo in
  let b := range_to (usize_max c) (blen t) hi in
  (forall pre mid post, t = pre ++ mid ++ post -> blen pre = a -> blen (pre ++ mid) = b ->
     exists d s', drain_iter c lo hi s = (Ret (Ok d), s') /\
       drain_as_str c d = Ret (enc mid) /\ shows c (drained d) mid /\ shows c s' (pre ++ post)) /\
  (b < a \/ blen t < b -> drain_iter c lo hi s = (Ret (Err EOutOfBounds), s)) /\
  (a <= b -> b <= blen t -> ~ (boundary t a /\ boundary t b) ->
     drain_iter c lo hi s = (Ret (Err EUtf8), s)).
Proof.
  intros Hc Hs a b. apply shows_rep in Hs.
  destruct (drain_iter_runs c Hc lo hi s t Hs) as (s' & R & H). unfold t_drain in R, H. fold a b in R, H.
  split; [|split].
  - intros pre mid post Et Ha Hb.
    assert (L1 : a <= b) by (rewrite <- Ha, <- Hb, blen_app; lia).
    assert (L2 : b <= blen t) by (rewrite Et, <- Hb, !blen_app; lia).
    assert (E1 : split_at a t = Some (pre, mid ++ post)) by (rewrite Et, <- Ha; apply split_at_app).
    assert (E2 : split_at (b - a) (mid ++ post) = Some (mid, post)).
    { replace (b - a) with (blen mid) by (rewrite <- Ha, <- Hb, blen_app; lia). apply split_at_app. }
    rewrite E1, E2 in R, H.
    destruct (N.ltb_spec b a) as [L|_]; [lia|]. destruct (N.ltb_spec (blen t) b) as [L|_]; [lia|].
    cbn [fst snd] in *. destruct H as (d & E & Rd). exists d, s'.
    split; [exact E|]. split; [apply as_str_rep; exact Rd|].
    split; apply shows_rep; assumption.
  - intros L0. destruct (N.ltb_spec b a) as [L|L].
    + destruct H as [-> ->]. reflexivity.
    + destruct (N.ltb_spec (blen t) b) as [L1|L1]; [|lia]. destruct H as [-> ->]. reflexivity.
  - intros L0 L1 Hb. destruct (N.ltb_spec b a) as [L|_]; [lia|].
    destruct (N.ltb_spec (blen t) b) as [L|_]; [lia|].
    destruct (split_at a t) as [[p1 q1]|] eqn:S1; [|destruct H as [-> ->]; reflexivity].
    destruct (split_at (b - a) q1) as [[p2 q2]|] eqn:S2; [|destruct H as [-> ->]; reflexivity].
    exfalso. apply Hb. pose proof S1 as S1'. apply split_at_Some in S1, S2. split; [eexists _, _; exact S1|].
    destruct S1 as [-> S1], S2 as [-> S2]. exists (p1 ++ p2), q2. split; [rewrite app_assoc; reflexivity|].
    rewrite blen_app. lia.
Qed.

(** ** C28 *)
Lemma c28_split_off c s t i : valid_cfg c -> shows c s t ->
  (blen t < i -> split_off c i s = (Ret (Err EOutOfBounds), s)) /\
  (i <= blen t -> ~ boundary t i -> split_off c i s = (Ret (Err EUtf8), s)) /\
  (forall pre post, splits t i pre post ->
     exists d s', split_off c i s = (Ret (Ok d), s') /\ shows c d post /\ shows c s' pre).
Proof.
  intros Hc Hs. apply shows_rep in Hs.
  destruct (split_off_runs c Hc i s t Hs) as (s' & R & H). unfold t_split_off in R, H.
  split; [|split].
  - intros L0. destruct (N.ltb_spec (blen t) i) as [L|L]; [|lia]. destruct H as [-> ->]. reflexivity.
  - intros L0 Hb. destruct (N.ltb_spec (blen t) i) as [L|L]; [lia|].
    rewrite (not_boundary_split _ _ Hb) in H. destruct H as [-> ->]. reflexivity.
  - intros pre post Hp. pose proof (splits_le _ _ _ _ Hp).
    destruct (N.ltb_spec (blen t) i) as [L|L]; [lia|].
    rewrite (splits_split _ _ _ _ Hp) in R, H. cbn [fst snd] in *. destruct H as (d & E & Rd).
    exists d, s'. split; [exact E|]. split; apply shows_rep; assumption.
Qed.

(** ** C29 *)
Lemma c29_empty c : shows c (new c) [] /\ shows c (default c) [] /\ capacity c = cap c.
Proof. split; [|split; [|reflexivity]]; apply shows_rep, new_rep. Qed.

Lemma c29_observers c s t : valid_cfg c -> shows c s t ->
  len s = blen t /\ is_empty c s = Ret (match t with [] => true | _ => false end) /\
  as_ref_str c s = Ret (enc t) /\ as_ref_bytes c s = Ret (enc t) /\
  returns c (clear s) tt [].
Proof.
  intros Hc Hs. pose proof (proj2 Hs) as E. apply shows_rep in Hs. split; [exact (rep_len c s t Hs)|].
  split; [exact (is_empty_rep c s t Hs)|]. split; [exact E|]. split; [exact (as_ref_bytes_rep c s t Hs)|].
  apply returns_runs. exact (clear_runs c Hc s t Hs).
Qed.

(** ** The cases above with nothing to do, by the text only *)
Lemma truncate_texts c s t n : valid_cfg c -> shows c s t ->
  (blen t <= n -> returns c (truncate c n s) (Ok tt) t) /\
  (forall pre post, splits t n pre post -> returns c (truncate c n s) (Ok tt) pre) /\
  (n < blen t -> ~ boundary t n -> truncate c n s = (Ret (Err mkUtf8), s)).
Proof.
  intros Hc Hs. destruct (c18_truncate c s t n Hc Hs) as (P1 & P). split; [|exact P].
  intros L. exists s. auto.
Qed.

Lemma insert_texts c s t i w : valid_cfg c -> shows c s t ->
  (blen t < i -> try_insert_str c i (enc w) s = (Ret (Err EOutOfBounds), s)) /\
  (i <= blen t -> w = [] -> returns c (try_insert_str c i (enc w) s) (Ok tt) t) /\
  (i <= blen t -> cap c < blen w -> try_insert_str c i (enc w) s = (Ret (Err EOutOfBounds), s)) /\
  (i <= blen t -> w <> [] -> blen w <= cap c -> ~ boundary t i ->
     try_insert_str c i (enc w) s = (Ret (Err EUtf8), s)) /\
  (boundary t i -> cap c < blen t + blen w -> w <> [] ->
     try_insert_str c i (enc w) s = (Ret (Err EOutOfBounds), s)) /\
  (forall pre post, splits t i pre post -> blen t + blen w <= cap c ->
     returns c (try_insert_str c i (enc w) s) (Ok tt) (pre ++ w ++ post)).
Proof.
  intros Hc Hs. destruct (c23_try_insert_str c s t i w Hc Hs) as (P1 & P2 & P). split; [exact P1|]. split; [|exact P].
  intros L E. exists s. auto.
Qed.

Lemma insert_truncate_texts c s t i w : valid_cfg c -> shows c s t ->
  exists p, longest_fit (cap c - blen t) w p /\
  (blen t < i -> insert_str_truncate c i (enc w) s = (Ret (Err EOutOfBounds), s)) /\
  (i <= blen t -> ~ boundary t i -> p <> [] -> insert_str_truncate c i (enc w) s = (Ret (Err EUtf8), s)) /\
  (i <= blen t -> p = [] -> returns c (insert_str_truncate c i (enc w) s) (Ok tt) t) /\
  (forall pre post, splits t i pre post ->
     returns c (insert_str_truncate c i (enc w) s) (Ok tt) (pre ++ p ++ post)).
Proof.
  intros Hc Hs. destruct (c24_insert_str_truncate c s t i w Hc Hs) as (p & P0 & P1 & P2 & P3 & P).
  exists p. split; [exact P0|]. split; [exact P1|]. split; [exact P2|]. split; [|exact P].
  intros L E. exists s. auto.
Qed.

Lemma replace_texts c s t lo hi w : valid_cfg c -> shows c s t ->
  let a := range_from (usize_max c) lo in
  let b := range_to (usize_max c) (blen t) hi in
  (forall pre mid post, t = pre ++ mid ++ post -> blen pre = a -> blen (pre ++ mid) = b ->
     blen (pre ++ w ++ post) <= cap c ->
     returns c (replace_range c lo hi (enc w) s) (Ok tt) (pre ++ w ++ post)) /\
  (a = b -> w = [] -> returns c (replace_range c lo hi (enc w) s) (Ok tt) t) /\
  (b < a -> replace_range c lo hi (enc w) s = (Ret (Err EOutOfBounds), s)) /\
  (a <= b -> blen t < b -> ~ (a = b /\ w = []) ->
     replace_range c lo hi (enc w) s = (Ret (Err EOutOfBounds), s)) /\
  (a <= b -> b <= blen t -> cap c < blen w ->
     replace_range c lo hi (enc w) s = (Ret (Err EOutOfBounds), s)) /\
  (a <= b -> b <= blen t -> blen w <= cap c -> ~ (a = b /\ w = []) -> ~ (boundary t a /\ boundary t b) ->
     replace_range c lo hi (enc w) s = (Ret (Err EUtf8), s)) /\
  (forall pre mid post, t = pre ++ mid ++ post -> blen pre = a -> blen (pre ++ mid) = b ->
     cap c < blen (pre ++ w ++ post) ->
     replace_range c lo hi (enc w) s = (Ret (Err EOutOfBounds), s)).
Proof.
  intros Hc Hs. intros a b. destruct (c25_replace_range c s t lo hi w Hc Hs) as (P1 & P2 & P).
  split; [exact P1|]. split; [|exact P]. intros E Ew. exists s. split; [exact (P2 E Ew) | exact Hs].
Qed.
