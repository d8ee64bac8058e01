(** [ArrayString] compared with [String] (C43). *)
From Coq Require Import ZArith ZifyBool ZifyN ZifyNat Arith.
From Verif Require Import Base Char Spec RustStd ModelError Model ModelImpl ModelDrain TextOps SpecOps ModelOps
  StringSpec IterSpec ListFacts Utf8Facts CoreFacts MethodFacts IterFacts ImplFacts DrainFacts OpsFacts Obs
  ClaimsEdit ClaimsLaws.

Lemma fit_nil n : fit n [] = [].
Proof. reflexivity. Qed.

Lemma t_collect_list l : forall fuel n, (length l < fuel)%nat -> fst (t_collect fuel n list_iter l) = Ret (fit n l).
Proof.
  induction l as [|x l IH]; intros [|fuel] n L; cbn [length] in L; try lia; [reflexivity|].
  cbn [t_collect list_iter fit]. destruct (N.leb_spec (clen x) n) as [Lx|Lx]; [|reflexivity].
  specialize (IH fuel (n - clen x) ltac:(lia)). destruct (t_collect fuel (n - clen x) list_iter l) as [[u| | |] it];
    cbn [fst] in *; try discriminate. injection IH as ->. reflexivity.
Qed.

Lemma length_blen (l : text) : (length l <= N.to_nat (blen l))%nat.
Proof.
  induction l as [|x l IH]; [apply Nat.le_0_l|]. rewrite blen_cons. pose proof (clen_range x). cbn [length]. lia.
Qed.

Lemma t_collect_strs_list l : forall fuel n, (length l < fuel)%nat -> blen (concat l) <= n ->
  fst (t_collect_strs fuel n (map_iter same2 list_iter) l) = Ret (concat l).
Proof.
  induction l as [|w l IH]; intros [|fuel] n L Lc; cbn [length] in L; try lia; [reflexivity|].
  cbn [concat] in *. rewrite blen_app in Lc.
  cbn [t_collect_strs list_iter]. unfold map_iter at 1. cbn [list_iter option_map same2].
  destruct (N.leb_spec (blen w) n) as [Lx|Lx]; [|lia].
  specialize (IH fuel (n - blen w) ltac:(lia) ltac:(lia)).
  destruct (t_collect_strs fuel (n - blen w) (map_iter same2 list_iter) l) as [[u| | |] it];
    cbn [fst] in *; try discriminate. injection IH as ->. reflexivity.
Qed.

Lemma t_retain_pure {F} (g : F -> char -> bool * F) t : forall x,
  t_retain (fun a y => (Ret (fst (g y a)), snd (g y a))) x t = Ret (fst (filter_st g x t)).
Proof.
  induction t as [|a t IH]; intros x; [reflexivity|]. cbn [t_retain filter_st].
  destruct (g x a) as [b x1]. cbn [fst snd]. rewrite IH. cbn [obind].
  destruct (filter_st g x1 t) as [l x2]. cbn [fst]. reflexivity.
Qed.

(** The slices both sides compute. *)
Lemma split_at_le i t p : split_at i t = Some p -> i <= blen t.
Proof. destruct p as [a b]. intros E. apply split_at_Some in E. destruct E as [-> <-]. rewrite blen_app. lia. Qed.

Lemma t_slice_Some a b t pre mid post : t_slice a b t = Some (pre, mid, post) <->
  t = pre ++ mid ++ post /\ blen pre = a /\ blen (pre ++ mid) = b.
Proof.
  unfold t_slice. split.
  - destruct (N.leb_spec a b) as [L|L]; [|discriminate].
    destruct (split_at a t) as [[p r]|] eqn:E1; [|discriminate].
    destruct (split_at (b - a) r) as [[m q]|] eqn:E2; [|discriminate].
    intros E. injection E as <- <- <-. apply split_at_Some in E1, E2. destruct E1 as [-> <-], E2 as [-> E2].
    split; [reflexivity|]. split; [reflexivity|]. rewrite blen_app. lia.
  - intros (-> & <- & <-). rewrite blen_app. destruct (N.leb_spec (blen pre) (blen pre + blen mid)) as [L|L]; [|lia].
    rewrite split_at_app. replace (blen pre + blen mid - blen pre) with (blen mid) by lia.
    rewrite split_at_app. reflexivity.
Qed.

Lemma t_slice_None a b t : t_slice a b t = None -> ~ (a <= b /\ boundary t a /\ boundary t b).
Proof.
  intros E (L & Ha & Hb).
  assert (Lb : b <= blen t) by (destruct Hb as (p & q & -> & <-); rewrite blen_app; lia).
  destruct (slice_dec t a b L Lb) as [(pre & mid & post & H)|H]; [|tauto].
  apply t_slice_Some in H. congruence.
Qed.

Lemma s_slices_Some umax lo hi t pre mid post : s_slices umax lo hi t = Some (pre, mid, post) ->
  blen t < umax ->
  t = pre ++ mid ++ post /\ blen pre = range_from umax lo /\ blen (pre ++ mid) = range_to umax (blen t) hi.
Proof.
  unfold s_slices. destruct (s_range umax (blen t) lo hi) as [[a b]|] eqn:E; [|discriminate].
  intros H Lt. apply t_slice_Some in H. destruct H as (Et & Ha & Hb).
  split; [exact Et|]. rewrite Ha, Hb. unfold s_range in E.
  destruct lo as [n|n|]; destruct hi as [m|m|]; cbn [range_from range_to] in *;
    repeat match type of E with context [?x =? ?y] => destruct (N.eqb_spec x y); try discriminate end;
    match type of E with context [if ?x then _ else _] => destruct x eqn:Ex; [|discriminate] end;
    injection E as <- <-; lia.
Qed.

(** A range that [String] rejects. *)
Lemma s_slices_None umax lo hi t : s_slices umax lo hi t = None -> blen t < umax ->
  let a := range_from umax lo in let b := range_to umax (blen t) hi in
  b < a \/ blen t < b \/ ~ (boundary t a /\ boundary t b).
Proof.
  intros H Lt. cbv zeta. unfold s_slices in H.
  destruct (s_range umax (blen t) lo hi) as [[a b]|] eqn:E.
  - assert (Eab : a = range_from umax lo /\ b = range_to umax (blen t) hi /\ a <= b).
    { unfold s_range in E.
      destruct lo as [n|n|]; destruct hi as [m|m|]; cbn [range_from range_to] in *;
        repeat match type of E with context [?x =? ?y] => destruct (N.eqb_spec x y); try discriminate end;
        match type of E with context [if ?x then _ else _] => destruct x eqn:Ex; [|discriminate] end;
        injection E as <- <-; lia. }
    destruct Eab as (<- & <- & L). right; right. apply t_slice_None in H. tauto.
  - clear H. unfold s_range in E.
    destruct lo as [n|n|]; destruct hi as [m|m|]; cbn [range_from range_to] in *;
      repeat match type of E with context [?x =? ?y] => destruct (N.eqb_spec x y) end;
      try match type of E with context [if ?x then _ else _] => destruct x eqn:Ex; [discriminate|] end; lia.
Qed.

Lemma rep_lt_umax c s t : valid_cfg c -> shows c s t -> blen t < usize_max c.
Proof. intros [H1 H2] Hs. pose proof (shows_cap c s t Hs). lia. Qed.

(** One call. *)
Lemma c43_call c s t o : valid_cfg c -> shows c s t ->
  blen (snd (string_step (usize_max c) o t)) <= cap c -> ~ quirk (usize_max c) (cap c) o t ->
  exists r, returns c (run_op c (to_op o) s) r (snd (string_step (usize_max c) o t)) /\
    answer (fst (string_step (usize_max c) o t)) r.
Proof.
  intros Hc Hs. pose proof (rep_lt_umax c s t Hc Hs) as Lu. pose proof (shows_cap c s t Hs) as Lt.
  assert (Ho : typed_op (to_op o)) by (destruct o as [[]| | | | | | |[]| | | | | | | | | | | | | | |]; exact Logic.I).
  pose proof (run_op_sim c Hc (to_op o) s t (proj1 (shows_rep _ _ _) Hs) Ho) as (s' & E & R).
  set (um := usize_max c) in *. set (cp := cap c) in *.
  assert (G : forall r t', t_op um cp (to_op o) t = (Ret r, t') -> snd (string_step um o t) = t' ->
    answer (fst (string_step um o t)) r ->
    exists r, returns c (run_op c (to_op o) s) r (snd (string_step um o t)) /\ answer (fst (string_step um o t)) r).
  { intros r t' Et Es Ha. rewrite Et in E, R. cbn [fst snd] in *. exists r. split; [|exact Ha].
    rewrite Es. exists s'. split; [exact E | apply shows_rep; exact R]. }
  unfold string_step in *.
  destruct o as [tr w|x|n| |i|F g x|i x|tr i w| |lo hi|i|lo hi w|l|l|w|w|x| | | | | |w];
    cbn [string_op to_op quirk] in *; intros Lr Hq.
  - cbn [fst snd] in *. rewrite blen_app in Lr. destruct tr.
    + eapply G; [|reflexivity|left; reflexivity]. cbn [t_op]. unfold t_push_str_truncate.
      rewrite fit_id by lia. reflexivity.
    + eapply G; [|reflexivity|right; left; reflexivity]. cbn [t_op]. unfold t_try_push_str.
      destruct (N.leb_spec (blen t + blen w) cp); [reflexivity | lia].
  - cbn [fst snd] in *. rewrite blen_app in Lr.
    eapply G; [|reflexivity|right; left; reflexivity]. cbn [t_op]. unfold t_try_push_str.
    destruct (N.leb_spec (blen t + blen [x]) cp); [reflexivity | lia].
  - destruct (N.leb_spec n (blen t)) as [L|L].
    + destruct (split_at n t) as [[pre post]|] eqn:En; cbn [fst snd] in *.
      * eapply G; [|reflexivity|right; right; right; reflexivity]. cbn [t_op]. unfold t_truncate. rewrite En.
        destruct (N.leb_spec (blen t) n) as [L2|L2]; [|reflexivity].
        apply split_at_Some in En. destruct En as [-> En]. rewrite blen_app in *.
        assert (post = []) as -> by (destruct post as [|y post]; [reflexivity|]; rewrite blen_cons in *; pose proof (clen_range y); lia).
        rewrite app_nil_r. reflexivity.
      * apply (G (RUtf8 (Err mkUtf8)) t); [|reflexivity|reflexivity]. cbn [t_op]. unfold t_truncate. rewrite En.
        destruct (N.leb_spec (blen t) n) as [L2|L2]; [|reflexivity].
        assert (n = blen t) as -> by lia. rewrite split_at_end in En. discriminate.
    + cbn [fst snd] in *. eapply G; [|reflexivity|right; right; right; reflexivity]. cbn [t_op]. unfold t_truncate.
      destruct (N.leb_spec (blen t) n); [reflexivity | lia].
  - cbn [t_op] in G. unfold t_pop in G. destruct (rev t) as [|x r] eqn:Er; cbn [fst snd] in *.
    + eapply G; [reflexivity | | reflexivity]. rewrite <- (rev_involutive t), Er. reflexivity.
    + eapply G; reflexivity.
  - cbn [t_op] in G. unfold t_remove in G. destruct (split_at i t) as [[pre [|x post]]|] eqn:Ei; cbn [fst snd] in *.
    + apply (G (RChar (Err EOutOfBounds)) t); [|reflexivity|reflexivity].
      apply split_at_Some in Ei. destruct Ei as [-> <-]. rewrite app_nil_r.
      destruct (N.leb_spec (blen pre) (blen pre)); [reflexivity | lia].
    + eapply G; [|reflexivity|reflexivity]. apply split_at_Some in Ei. destruct Ei as [-> <-].
      rewrite blen_app, blen_cons. pose proof (clen_range x).
      destruct (N.leb_spec (blen pre + (clen x + blen post)) (blen pre)); [lia | reflexivity].
    + destruct (N.leb_spec (blen t) i); eapply G; reflexivity.
  - cbn [fst snd] in *. eapply G; [|reflexivity|left; reflexivity]. cbn [t_op]. rewrite t_retain_pure. reflexivity.
  - cbn [t_op] in G. unfold t_try_insert_str in G. destruct (split_at i t) as [[pre post]|] eqn:Ei; cbn [fst snd] in *.
    + eapply G; [|reflexivity|right; right; left; reflexivity].
      pose proof (split_at_le _ _ _ Ei) as Li. apply split_at_Some in Ei. destruct Ei as [-> _].
      rewrite blen_app in *. rewrite blen_cons in Lr. cbn [blen]. pose proof (clen_range x).
      destruct (N.ltb_spec (blen pre + blen post) i); [lia|].
      destruct (N.eqb_spec (clen x + 0) 0); [lia|]. destruct (N.ltb_spec cp (clen x + 0)); [lia|].
      destruct (N.leb_spec (blen pre + blen post + (clen x + 0)) cp); [reflexivity | lia].
    + cbn [blen] in G. pose proof (clen_range x) as Hx. destruct (N.eqb_spec (clen x + 0) 0); [lia|].
      destruct (N.ltb_spec (blen t) i); [eapply G; reflexivity|].
      destruct (N.ltb_spec cp (clen x + 0)); eapply G; reflexivity.
  - destruct tr; cbn [t_op] in G.
    + unfold t_insert_str_truncate, t_try_insert_str in G.
      destruct (split_at i t) as [[pre post]|] eqn:Ei; cbn [fst snd] in *.
      * pose proof (split_at_le _ _ _ Ei) as Li. apply split_at_Some in Ei. destruct Ei as [-> _].
        rewrite !blen_app in *. rewrite fit_id in G by lia.
        eapply G; [|reflexivity|right; right; left; reflexivity].
        destruct (N.ltb_spec (blen pre + blen post) i); [lia|].
        destruct (N.eqb_spec (blen w) 0) as [E0|E0].
        { apply blen_0 in E0. subst w. reflexivity. }
        destruct (N.ltb_spec cp (blen w)); [lia|].
        destruct (N.leb_spec (blen pre + blen post + blen w) cp); [reflexivity | lia].
      * destruct (N.ltb_spec (blen t) i); [eapply G; reflexivity|].
        destruct (N.eqb_spec (blen (fit (cp - blen t) w)) 0) as [E0|E0].
        { exfalso. apply Hq. apply blen_0 in E0. split; [lia|]. split; [exact E0|].
          intros (p & q & Hb). apply splits_split in Hb. congruence. }
        destruct (N.ltb_spec cp (blen (fit (cp - blen t) w))); eapply G; reflexivity.
    + unfold t_try_insert_str in G.
      destruct (split_at i t) as [[pre post]|] eqn:Ei; cbn [fst snd] in *.
      * pose proof (split_at_le _ _ _ Ei) as Li. apply split_at_Some in Ei. destruct Ei as [-> _].
        rewrite !blen_app in *.
        eapply G; [|reflexivity|right; right; left; reflexivity].
        destruct (N.ltb_spec (blen pre + blen post) i); [lia|].
        destruct (N.eqb_spec (blen w) 0) as [E0|E0].
        { apply blen_0 in E0. subst w. reflexivity. }
        destruct (N.ltb_spec cp (blen w)); [lia|].
        destruct (N.leb_spec (blen pre + blen post + blen w) cp); [reflexivity | lia].
      * destruct (N.ltb_spec (blen t) i); [eapply G; reflexivity|].
        destruct (N.eqb_spec (blen w) 0) as [E0|E0].
        { exfalso. apply Hq. apply blen_0 in E0. split; [lia|]. split; [exact E0|].
          intros (p & q & Hb). apply splits_split in Hb. congruence. }
        destruct (N.ltb_spec cp (blen w)); eapply G; reflexivity.
  - cbn [fst snd] in *. eapply G; [reflexivity|reflexivity|left; reflexivity].
  - cbn [t_op] in G. unfold t_drain in G.
    destruct (s_slices um lo hi t) as [[[pre mid] post]|] eqn:Es; cbn [fst snd] in *.
    + destruct (s_slices_Some _ _ _ _ _ _ _ Es Lu) as (Et & Ha & Hb). rewrite <- Ha, <- Hb in G.
      eapply G; [|reflexivity|right; reflexivity].
      rewrite Et, !blen_app. destruct (N.ltb_spec (blen pre + blen mid) (blen pre)); [lia|].
      destruct (N.ltb_spec (blen pre + (blen mid + blen post)) (blen pre + blen mid)); [lia|].
      rewrite split_at_app. replace (blen pre + blen mid - blen pre) with (blen mid) by lia.
      rewrite split_at_app. reflexivity.
    + pose proof (s_slices_None _ _ _ _ Es Lu) as H. cbv zeta in H.
      set (a := range_from um lo) in *. set (b := range_to um (blen t) hi) in *.
      destruct (N.ltb_spec b a); [eapply G; reflexivity|].
      destruct (N.ltb_spec (blen t) b); [eapply G; reflexivity|].
      destruct H as [H|[H|H]]; try lia.
      destruct (split_at a t) as [[pre rest]|] eqn:E1; [|eapply G; reflexivity].
      destruct (split_at (b - a) rest) as [[mid post]|] eqn:E2; [|eapply G; reflexivity].
      exfalso. apply H. apply split_at_Some in E1, E2. destruct E1 as [-> E1], E2 as [-> E2]. split.
      * exists pre, (mid ++ post). split; [reflexivity | exact E1].
      * exists (pre ++ mid), post. split; [rewrite app_assoc; reflexivity|]. rewrite blen_app. lia.
  - cbn [t_op] in G. unfold t_split_off in G.
    destruct (split_at i t) as [[pre post]|] eqn:Ei; cbn [fst snd] in *.
    + pose proof (split_at_le _ _ _ Ei) as Li. eapply G; [|reflexivity|right; reflexivity].
      destruct (N.ltb_spec (blen t) i); [lia | reflexivity].
    + destruct (N.ltb_spec (blen t) i); eapply G; reflexivity.
  - cbn [t_op] in G. unfold t_replace_range in G.
    destruct (s_slices um lo hi t) as [[[pre mid] post]|] eqn:Es; cbn [fst snd] in *.
    + destruct (s_slices_Some _ _ _ _ _ _ _ Es Lu) as (Et & Ha & Hb). rewrite <- Ha, <- Hb in G.
      rewrite !blen_app in Lr. rewrite blen_app in G.
      eapply G; [|reflexivity|right; right; left; reflexivity].
      destruct (N.eqb_spec (blen pre) (blen pre + blen mid)) as [Em|Em].
      * assert (mid = []) as -> by (apply blen_0; lia). cbn [app] in Et.
        destruct (N.eqb_spec (blen w) 0) as [E0|E0].
        { apply blen_0 in E0. subst w. cbn [andb app]. rewrite Et. reflexivity. }
        cbn [andb]. rewrite Et, blen_app. cbn [blen]. rewrite N.add_0_r.
        destruct (N.ltb_spec (blen pre) (blen pre)); [lia|].
        destruct (N.ltb_spec (blen pre + blen post) (blen pre)); [lia|].
        destruct (N.ltb_spec cp (blen w)); [lia|]. rewrite split_at_app.
        destruct (N.leb_spec (blen pre + blen w + blen post) cp); [reflexivity | lia].
      * cbn [andb]. destruct (N.ltb_spec (blen pre + blen mid) (blen pre)); [lia|].
        rewrite Et, !blen_app. destruct (N.ltb_spec (blen pre + (blen mid + blen post)) (blen pre + blen mid)); [lia|].
        destruct (N.ltb_spec cp (blen w)); [lia|]. rewrite split_at_app.
        rewrite app_assoc, <- blen_app, split_at_app.
        destruct (N.leb_spec (blen pre + blen w + blen post) cp); [reflexivity | lia].
    + pose proof (s_slices_None _ _ _ _ Es Lu) as H. cbv zeta in H.
      set (a := range_from um lo) in *. set (b := range_to um (blen t) hi) in *.
      destruct (N.eqb_spec a b) as [Eab|Eab]; [destruct (N.eqb_spec (blen w) 0) as [E0|E0]|]; cbn [andb] in G.
      * exfalso. apply Hq. apply blen_0 in E0. split; [exact Eab|]. split; [exact E0|].
        intros Hb. destruct H as [H|[H|H]]; [lia | | apply H; rewrite <- Eab; tauto].
        destruct Hb as (p & q & Et & Hb). rewrite Et, blen_app in H. lia.
      * destruct (N.ltb_spec b a); [eapply G; reflexivity|].
        destruct (N.ltb_spec (blen t) b); [eapply G; reflexivity|].
        destruct (N.ltb_spec cp (blen w)); [eapply G; reflexivity|].
        destruct H as [H|[H|H]]; try lia.
        destruct (split_at a t) as [[pre rest]|] eqn:E1; [|eapply G; reflexivity].
        destruct (split_at b t) as [[pre2 post]|] eqn:E2; [|eapply G; reflexivity].
        exfalso. apply H. apply split_at_Some in E1, E2. split; [exists pre, rest; exact E1 | exists pre2, post; exact E2].
      * destruct (N.ltb_spec b a); [eapply G; reflexivity|].
        destruct (N.ltb_spec (blen t) b); [eapply G; reflexivity|].
        destruct (N.ltb_spec cp (blen w)); [eapply G; reflexivity|].
        destruct H as [H|[H|H]]; try lia.
        destruct (split_at a t) as [[pre rest]|] eqn:E1; [|eapply G; reflexivity].
        destruct (split_at b t) as [[pre2 post]|] eqn:E2; [|eapply G; reflexivity].
        exfalso. apply H. apply split_at_Some in E1, E2. split; [exists pre, rest; exact E1 | exists pre2, post; exact E2].
  - cbn [fst snd] in *. rewrite blen_app in Lr. eapply G; [|reflexivity|left; reflexivity]. cbn [t_op].
    rewrite t_collect_list by (pose proof (length_blen l); lia). unfold t_extend.
    rewrite (fit_id cp l) by lia. rewrite fit_id by lia. reflexivity.
  - cbn [fst snd] in *. rewrite blen_app in Lr. eapply G; [|reflexivity|left; reflexivity]. cbn [t_op].
    rewrite t_collect_strs_list by (try lia; apply Nat.lt_succ_diag_r). unfold t_extend. rewrite fit_id by lia. reflexivity.
  - cbn [fst snd] in *. rewrite blen_app in Lr. eapply G; [|reflexivity|left; reflexivity]. cbn [t_op].
    unfold t_push_str_truncate. rewrite fit_id by lia. reflexivity.
  - cbn [fst snd] in *. rewrite blen_app in Lr. eapply G; [|reflexivity|reflexivity]. cbn [t_op].
    unfold t_write_str. destruct (N.leb_spec (blen t + blen w) cp); [reflexivity | lia].
  - cbn [fst snd] in *. rewrite blen_app in Lr. eapply G; [|reflexivity|reflexivity]. cbn [t_op].
    unfold t_write_str. destruct (N.leb_spec (blen t + blen [x]) cp); [reflexivity | lia].
  - cbn [fst snd] in *. eapply G; [reflexivity|reflexivity|left; reflexivity].
  - cbn [fst snd] in *. eapply G; [reflexivity|reflexivity|left; reflexivity].
  - cbn [fst snd] in *. eapply G; [reflexivity|reflexivity|reflexivity].
  - cbn [fst snd] in *. eapply G; [reflexivity|reflexivity|reflexivity].
  - cbn [fst snd] in *. eapply G; [reflexivity|reflexivity|left; reflexivity].
  - cbn [fst snd] in *. eapply G; [reflexivity|reflexivity|reflexivity].
Qed.

(** Whole histories. *)
Lemma c43_history c l : valid_cfg c -> forall s t, shows c s t -> stays_within (usize_max c) (cap c) l t ->
  exists rs s', run_ops c (map to_op l) s = (map Ret rs, s') /\
    shows c s' (snd (string_ops (usize_max c) l t)) /\
    Forall2 answer (fst (string_ops (usize_max c) l t)) rs.
Proof.
  intros Hc. induction l as [|o l IH]; intros s t Hs Hw.
  - exists [], s. split; [reflexivity|]. split; [exact Hs | constructor].
  - cbn [stays_within] in Hw. destruct Hw as (L & Hq & Hw).
    destruct (c43_call c s t o Hc Hs L Hq) as (r & (s1 & E1 & S1) & Ha).
    cbn [map run_ops string_ops]. rewrite E1.
    destruct (string_step (usize_max c) o t) as [v t1]. cbn [fst snd] in *.
    destruct (IH s1 t1 S1 Hw) as (rs & s2 & E2 & S2 & F2).
    destruct (string_ops (usize_max c) l t1) as [vs t2]. cbn [fst snd] in *. rewrite E2.
    exists (r :: rs), s2. split; [reflexivity|]. split; [exact S2 | constructor; assumption].
Qed.

(** The listed calls really differ: [String] panics, [ArrayString] answers [Ok]. *)
Lemma c43_quirks c s t o : valid_cfg c -> shows c s t -> quirk (usize_max c) (cap c) o t ->
  string_op (usize_max c) o t = None /\
  returns c (run_op c (to_op o) s) (RErr (Ok tt)) t.
Proof.
  intros Hc Hs Hq. pose proof (rep_lt_umax c s t Hc Hs) as Lu.
  destruct o as [tr w|x|n| |i|F g x|i x|tr i w| |lo hi|i|lo hi w|l|l|w|w|x| | | | | |w]; try contradiction; cbn [quirk] in Hq.
  - destruct tr; destruct Hq as (L & Ew & Hb); (split; [cbn [string_op]; rewrite (not_boundary_split t i Hb); reflexivity|]).
    + pose proof (run_op_sim c Hc (to_op (SInsertStr true i w)) s t (proj1 (shows_rep _ _ _) Hs) Logic.I) as (s' & E & R).
      cbn [to_op t_op] in *. unfold t_insert_str_truncate, t_try_insert_str in E, R. rewrite Ew in E, R.
      destruct (N.ltb_spec (blen t) i); [lia|]. exists s'. split; [exact E | apply shows_rep; exact R].
    + subst w. pose proof (run_op_sim c Hc (to_op (SInsertStr false i [])) s t (proj1 (shows_rep _ _ _) Hs) Logic.I) as (s' & E & R).
      cbn [to_op t_op] in *. unfold t_try_insert_str in E, R.
      destruct (N.ltb_spec (blen t) i); [lia|]. exists s'. split; [exact E | apply shows_rep; exact R].
  - destruct Hq as (Eab & -> & Hb). split.
    + cbn [string_op]. destruct (s_slices (usize_max c) lo hi t) as [[[pre mid] post]|] eqn:Es; [|reflexivity].
      exfalso. destruct (s_slices_Some _ _ _ _ _ _ _ Es Lu) as (Et & Ha & _). apply Hb.
      exists pre, (mid ++ post). split; [exact Et | exact Ha].
    + pose proof (run_op_sim c Hc (to_op (SReplaceRange lo hi [])) s t (proj1 (shows_rep _ _ _) Hs) Logic.I) as (s' & E & R).
      cbn [to_op t_op] in *. unfold t_replace_range in E, R. rewrite Eab, N.eqb_refl in E, R.
      exists s'. split; [exact E | apply shows_rep; exact R].
Qed.
