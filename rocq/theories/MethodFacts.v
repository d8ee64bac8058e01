(** What every inherent method does, as an equation with the functions of
    TextOps.v. *)
From Coq Require Import ZArith ZifyBool ZifyN ZifyNat Arith.
From Verif Require Import Base Char Spec RustStd ModelError Model TextOps ListFacts Utf8Facts CoreFacts.

(** [o] returned [r] and left a value with text [t]. *)
Definition runs {A} (c : cfg) (o : outcome A * astring) (r : A) (t : text) : Prop :=
  exists s', o = (Ret r, s') /\ rep c s' t.

(** The same, for a fallible method called on [s]: an error leaves [s] untouched. *)
Definition runs_f {A E} (c : cfg) (s : astring) (o : outcome (result A E) * astring)
    (p : result A E * text) : Prop :=
  exists s', o = (Ret (fst p), s') /\ rep c s' (snd p) /\ forall e, fst p = Err e -> s' = s.

Section Facts.
Variable c : cfg.
Hypothesis Hc : valid_cfg c.

Lemma replace_range_runs lo hi w s t : rep c s t ->
  runs_f c s (replace_range c lo hi (enc w) s) (t_replace_range (usize_max c) (cap c) lo hi w t).
Proof.
  intros R. pose proof (replace_range_rep c Hc lo hi w s t R) as H.
  destruct (t_replace_range (usize_max c) (cap c) lo hi w t) as [r t'].
  destruct H as (s' & H1 & H2 & H3). exists s'. auto.
Qed.

Lemma split_at_end t : split_at (blen t) t = Some (t, []).
Proof. apply split_at_Some. split; [rewrite app_nil_r|]; reflexivity. Qed.

Lemma split_at_0 t : split_at 0 t = Some ([], t).
Proof. apply split_at_Some. split; reflexivity. Qed.

(** ** try_push_str and friends *)

Lemma try_push_str_runs w s t : rep c s t ->
  runs_f c s (try_push_str c (enc w) s) (t_try_push_str (cap c) w t).
Proof.
  intros R. pose proof (rep_cap c s t R) as K.
  destruct (replace_range_runs (Included (blen t)) (Excluded (blen t)) w s t R) as (s' & H1 & H2 & H3).
  unfold try_push_str. erewrite sbind_ret by (unfold sread; rewrite (rep_len c s t R); reflexivity).
  erewrite sbind_ret by exact H1. unfold runs_f, sret.
  unfold t_replace_range in *. cbn [range_from range_to] in *. unfold t_try_push_str.
  rewrite N.eqb_refl, !N.ltb_irrefl in *. cbn [andb] in *.
  destruct (N.eqb_spec (blen w) 0) as [W|W].
  { apply blen_0 in W as ->. cbn [fst snd blen] in *.
    replace (blen t + 0 <=? cap c) with true by lia. cbn [fst snd].
    exists s'. rewrite app_nil_r. repeat split; auto; discriminate || apply H2. }
  destruct (N.ltb_spec (cap c) (blen w)) as [L|L].
  { cbn [fst snd] in *. replace (blen t + blen w <=? cap c) with false by lia. cbn [fst snd map_err].
    exists s'. repeat split; auto; try apply H2. intros e _. apply (H3 EOutOfBounds). reflexivity. }
  rewrite split_at_end in *. cbn [fst snd] in *. cbn [blen] in *. rewrite N.add_0_r in *.
  destruct (N.leb_spec (blen t + blen w) (cap c)) as [L'|L']; cbn [fst snd map_err] in *.
  - exists s'. rewrite app_nil_r in H2. split; [reflexivity|]. split; [exact H2|discriminate].
  - exists s'. split; [reflexivity|]. split; [exact H2|]. intros e _. apply (H3 EOutOfBounds). reflexivity.
Qed.

Lemma fit_fits n w : n + 0 <= n -> blen (fit n w) <= n.
Proof. intros _. apply fit_le. Qed.

Lemma push_str_truncate_runs w s t : rep c s t ->
  runs c (push_str_truncate c (enc w) s) tt (t_push_str_truncate (cap c) w t).
Proof.
  intros R. pose proof (rep_cap c s t R) as K.
  unfold push_str_truncate.
  erewrite sbind_ret.
  2:{ unfold sread, usub, capacity. rewrite (rep_len c s t R).
      replace (blen t <=? cap c) with true by lia. cbn [obind].
      rewrite truncate_str_fit. reflexivity. }
  destruct (try_push_str_runs (fit (cap c - blen t) w) s t R) as (s' & H1 & H2 & _).
  erewrite sbind_ret by exact H1. exists s'. split; [reflexivity|].
  unfold t_try_push_str in H2. pose proof (fit_le (cap c - blen t) w).
  replace (blen t + blen (fit (cap c - blen t) w) <=? cap c) with true in H2 by lia. exact H2.
Qed.

Lemma try_push_runs x s t : rep c s t ->
  runs_f c s (try_push c x s) (t_try_push_str (cap c) [x] t).
Proof.
  intros R. unfold try_push. erewrite sbind_ret by (unfold slift; rewrite encode_utf8_4; reflexivity).
  rewrite <- enc_single. apply try_push_str_runs. exact R.
Qed.

Lemma try_from_str_fits w : blen w <= cap c ->
  exists s, try_from_str c (enc w) = Ret (Ok s) /\ rep c s w.
Proof.
  intros L. destruct (try_push_str_runs w (new c) [] (new_rep c)) as (s & H1 & H2 & _).
  unfold t_try_push_str in *. cbn [blen] in *. rewrite N.add_0_l in *.
  replace (blen w <=? cap c) with true in * by lia. cbn [fst snd app] in *.
  exists s. split; [|exact H2]. unfold try_from_str, run_local. rewrite H1. reflexivity.
Qed.

Lemma try_from_str_long w : cap c < blen w -> try_from_str c (enc w) = Ret (Err mkOutOfBounds).
Proof.
  intros L. destruct (try_push_str_runs w (new c) [] (new_rep c)) as (s & H1 & H2 & _).
  unfold t_try_push_str in *. cbn [blen] in *. rewrite N.add_0_l in *.
  replace (blen w <=? cap c) with false in * by lia. cbn [fst snd app] in *.
  unfold try_from_str, run_local. rewrite H1. reflexivity.
Qed.

Lemma from_str_truncate_runs w :
  exists s, from_str_truncate c (enc w) = Ret s /\ rep c s (fit (cap c) w).
Proof.
  destruct (push_str_truncate_runs w (new c) [] (new_rep c)) as (s & H1 & H2).
  unfold t_push_str_truncate in H2. cbn [blen app] in H2. rewrite N.sub_0_r in H2.
  exists s. split; [|exact H2]. unfold from_str_truncate, run_local. rewrite H1. reflexivity.
Qed.

(** ** truncate, pop, clear *)

Lemma rep_shrink s pre post : rep c s (pre ++ post) -> rep c (mkastring (arr s) (blen pre)) pre.
Proof.
  intros ((H1 & H2 & H3) & H4 & junk & E). apply rep_intro; cbn [arr size]; auto.
  exists (enc post ++ junk). rewrite E, enc_app, <- app_assoc. reflexivity.
Qed.

Lemma truncate_runs n s t : rep c s t -> runs_f c s (truncate c n s) (t_truncate n t).
Proof.
  intros R. pose proof (rep_cap255 c Hc s t R) as (K & K1 & K2).
  unfold truncate, t_truncate, runs_f.
  erewrite sbind_ret by (unfold sread; rewrite (rep_len c s t R); reflexivity).
  erewrite sbind_ret by (unfold sread; rewrite (is_char_boundary_rep c s t _ R); reflexivity).
  destruct (N.leb_spec (blen t) n) as [L|L].
  - rewrite N.min_l by lia. rewrite split_at_end. cbn [fst snd]. unfold set_size, smodify, sbind, sret.
    rewrite into_lossy_small by lia. eexists. split; [reflexivity|]. split; [|discriminate].
    apply (rep_shrink s t []). rewrite app_nil_r. exact R.
  - rewrite N.min_r by lia. destruct (split_at n t) as [[pre post]|] eqn:E; cbn [fst snd].
    + unfold set_size, smodify, sbind, sret. rewrite into_lossy_small by lia.
      eexists. split; [reflexivity|]. split; [|discriminate].
      apply split_at_Some in E as [-> <-]. apply (rep_shrink s pre post R).
    + exists s. auto.
Qed.

Lemma t_pop_snoc t x : t_pop (t ++ [x]) = (Some x, t).
Proof. unfold t_pop. rewrite rev_unit, rev_involutive. reflexivity. Qed.

Lemma pop_runs s t : rep c s t -> runs c (pop c s) (fst (t_pop t)) (snd (t_pop t)).
Proof.
  intros R. pose proof (rep_cap255 c Hc s t R) as (K & K1 & K2). unfold pop, runs.
  erewrite sbind_ret by (unfold sread; rewrite (as_str_rep c s t R); cbn [obind];
    rewrite chars_last_enc; reflexivity).
  destruct (snoc_cases t) as [->|(t' & x & ->)].
  - cbn. exists s. auto.
  - rewrite map_app. cbn [map]. rewrite last_last, t_pop_snoc. cbn [fst snd].
    pose proof (clen_range x). rewrite blen_app in *. cbn [blen] in *.
    assert (L : blen (t' ++ [x]) = blen t' + clen x) by (rewrite blen_app; cbn; lia).
    erewrite sbind_ret.
    2:{ unfold sread, u8sub. change (size s) with (len s). rewrite (rep_len c s _ R), L, len_utf8_clen.
        rewrite into_lossy_small by lia. replace (clen x <=? blen t' + clen x) with true by lia.
        replace (blen t' + clen x - clen x) with (blen t') by lia. reflexivity. }
    unfold set_size, smodify, sbind, sret. eexists. split; [reflexivity|].
    apply (rep_shrink s t' [x] R).
Qed.

Lemma clear_runs s t : rep c s t -> runs c (clear s) tt [].
Proof.
  intros R. unfold clear, set_size, smodify, runs. eexists. split; [reflexivity|].
  apply (rep_shrink s [] t R).
Qed.

(** ** remove *)

Lemma not_boundary_inside pre x post k : 0 < k -> k < clen x ->
  str_is_char_boundary (enc (pre ++ x :: post)) (blen pre + k) = false.
Proof.
  intros K0 K1. rewrite str_boundary_split.
  destruct (split_at (blen pre + k) (pre ++ x :: post)) as [[p q]|] eqn:E; [|reflexivity].
  exfalso. apply split_at_Some in E.
  assert (S0 : splits (pre ++ x :: post) (blen pre) pre (x :: post)) by (split; reflexivity).
  destruct (splits_three _ _ _ _ _ _ _ S0 E) as (m & H1 & H2 & H3 & H4); [lia|].
  destruct m as [|y m]; [cbn in H4; lia|]. cbn in H2. injection H2 as <- H2. cbn in H4. lia.
Qed.

Lemma next_boundary_rep s pre x post k fuel :
  rep c s (pre ++ x :: post) -> 0 < k -> k <= clen x -> (N.to_nat (clen x - k) < fuel)%nat ->
  next_boundary c fuel s (blen pre + k) = Ret (blen pre + clen x).
Proof.
  intros R K0 K1. revert k K0 K1. induction fuel as [|fuel IH]; intros k K0 K1 F; [lia|].
  pose proof (rep_cap255 c Hc s _ R) as (K & K2 & K3). rewrite blen_app in K. cbn [blen] in K.
  cbn [next_boundary]. rewrite (as_str_rep c s _ R). cbn [obind].
  destruct (N.eq_dec k (clen x)) as [->|Ne].
  - replace (pre ++ x :: post) with ((pre ++ [x]) ++ post) by (rewrite <- app_assoc; reflexivity).
    replace (blen pre + clen x) with (blen (pre ++ [x])) by (rewrite blen_app; cbn; lia).
    rewrite str_boundary_app. reflexivity.
  - rewrite not_boundary_inside by lia. unfold uadd.
    replace (blen pre + k + 1 <=? usize_max c) with true by lia. cbn [obind].
    rewrite <- N.add_assoc. apply IH; lia.
Qed.

Lemma remove_runs i s t : rep c s t -> runs_f c s (remove c i s) (t_remove i t).
Proof.
  intros R. pose proof (rep_cap255 c Hc s t R) as (K & K1 & K2). unfold remove, t_remove.
  destruct (N.leb_spec (blen t) i) as [L|L].
  { exists s. split; [|auto]. erewrite stry_err; [reflexivity|].
    unfold sread, is_inside_boundary, sat_add. rewrite (rep_len c s t R).
    replace (N.min (i + 1) (usize_max c) <=? blen t) with false by lia. reflexivity. }
  erewrite stry_ok.
  2:{ unfold sread, is_inside_boundary, sat_add. rewrite (rep_len c s t R).
      replace (N.min (i + 1) (usize_max c) <=? blen t) with true by lia. reflexivity. }
  destruct (split_at i t) as [[pre post]|] eqn:E.
  2:{ exists s. split; [|auto]. erewrite stry_err; [reflexivity|].
      unfold sread. rewrite (is_char_boundary_rep c s t _ R), E. reflexivity. }
  erewrite stry_ok by (unfold sread; rewrite (is_char_boundary_rep c s t _ R), E; reflexivity).
  apply split_at_Some in E as [-> <-]. rewrite blen_app in *.
  destruct post as [|x post]; [cbn in L; lia|]. cbn [blen fst snd] in *.
  pose proof (clen_range x) as Cx. pose proof R as ((T1 & _) & _).
  erewrite sbind_ret.
  2:{ unfold sread. rewrite (rep_len c s _ R), blen_app. cbn [blen].
      replace (blen pre =? blen pre + (clen x + blen post)) with false by lia.
      unfold uadd. replace (blen pre + 1 <=? usize_max c) with true by lia. cbn [obind].
      rewrite (next_boundary_rep s pre x post 1); [reflexivity|exact R|lia|lia|].
      unfold lenN in T1. lia. }
  erewrite stry_ok.
  2:{ unfold sread. rewrite (as_str_rep c s _ R). cbn [obind].
      pose proof (str_get_enc pre [x] post) as G. cbn [app blen] in G. rewrite N.add_0_r in G.
      rewrite G. reflexivity. }
  erewrite stry_ok.
  2:{ unfold slift. rewrite chars_next_enc. reflexivity. }
  erewrite sbind_ret.
  2:{ unfold slift, uadd. rewrite len_utf8_clen.
      replace (blen pre + clen x <=? usize_max c) with true by lia. reflexivity. }
  destruct (replace_range_ok c Hc (Included (blen pre)) (Excluded (blen pre + clen x)) [] s pre [x] post)
    as (s' & H1 & H2).
  - exact R.
  - reflexivity.
  - cbn. lia.
  - cbn. lia.
  - change (enc []) with (@nil N) in H1.
    erewrite stry_ok by exact H1. exists s'. split; [reflexivity|]. split; [exact H2|discriminate].
Qed.

(** ** insertion *)

Lemma try_insert_str_runs i w s t : rep c s t ->
  runs_f c s (try_insert_str c i (enc w) s) (t_try_insert_str (cap c) i w t).
Proof.
  intros R. pose proof (rep_cap255 c Hc s t R) as (K & K1 & K2).
  unfold try_insert_str, t_try_insert_str.
  destruct (N.ltb_spec (blen t) i) as [L|L].
  { exists s. split; [|auto]. erewrite stry_err; [reflexivity|].
    unfold sread, is_inside_boundary. rewrite (rep_len c s t R).
    replace (i <=? blen t) with false by lia. reflexivity. }
  erewrite stry_ok.
  2:{ unfold sread, is_inside_boundary. rewrite (rep_len c s t R).
      replace (i <=? blen t) with true by lia. reflexivity. }
  pose proof (replace_range_runs (Included i) (Excluded i) w s t R) as H.
  unfold t_replace_range in H. cbn [range_from range_to] in H.
  rewrite N.eqb_refl, N.ltb_irrefl in H. cbn [andb] in H.
  destruct (N.eqb_spec (blen w) 0) as [W|W]; [exact H|].
  replace (blen t <? i) with false in H by lia.
  destruct (N.ltb_spec (cap c) (blen w)) as [L2|L2]; [exact H|].
  destruct (split_at i t) as [[pre post]|] eqn:E; [|exact H].
  apply split_at_Some in E as [-> <-]. rewrite blen_app.
  replace (blen pre + blen post + blen w) with (blen pre + blen w + blen post) by lia. exact H.
Qed.

Lemma try_insert_runs i x s t : rep c s t ->
  runs_f c s (try_insert c i x s) (t_try_insert_str (cap c) i [x] t).
Proof.
  intros R. unfold try_insert. erewrite sbind_ret by (unfold slift; rewrite encode_utf8_4; reflexivity).
  rewrite <- enc_single. apply try_insert_str_runs. exact R.
Qed.

Lemma insert_str_truncate_runs i w s t : rep c s t ->
  runs_f c s (insert_str_truncate c i (enc w) s) (t_insert_str_truncate (cap c) i w t).
Proof.
  intros R. pose proof (rep_cap c s t R) as K. unfold insert_str_truncate, t_insert_str_truncate.
  erewrite sbind_ret.
  2:{ unfold sread, usub, capacity. rewrite (rep_len c s t R).
      replace (blen t <=? cap c) with true by lia. cbn [obind].
      rewrite truncate_str_fit. reflexivity. }
  destruct (try_insert_str_runs i (fit (cap c - blen t) w) s t R) as (s' & H1 & H2 & H3).
  exists s'. split; [|auto].
  destruct (fst (t_try_insert_str (cap c) i (fit (cap c - blen t) w) t)) as [[]|e].
  - erewrite stry_ok by exact H1. reflexivity.
  - erewrite stry_err by exact H1. reflexivity.
Qed.

(** ** drain, split_off *)

Lemma split_at_more t a b pre rest : split_at a t = Some (pre, rest) -> a <= b ->
  split_at b t = match split_at (b - a) rest with
                 | Some (m, post) => Some (pre ++ m, post) | None => None end.
Proof.
  intros E L. apply split_at_Some in E as [-> <-].
  destruct (split_at (b - blen pre) rest) as [[m post]|] eqn:E'.
  - apply split_at_Some in E' as [-> E']. apply split_at_Some. split.
    + rewrite app_assoc. reflexivity.
    + rewrite blen_app. lia.
  - destruct (split_at b (pre ++ rest)) as [[p q]|] eqn:E2; [|reflexivity]. exfalso.
    apply split_at_Some in E2.
    assert (S0 : splits (pre ++ rest) (blen pre) pre rest) by (split; reflexivity).
    destruct (splits_three _ _ _ _ _ _ _ S0 E2 L) as (m & H1 & H2 & H3 & H4).
    rewrite H2 in E'. rewrite <- H4, split_at_app in E'. discriminate.
Qed.

(** Result of [drain]/[split_off]: the value handed out represents the part. *)
Definition runs_part (s : astring) (o : outcome (result astring Error) * astring)
    (p : result text Error * text) : Prop :=
  exists s', rep c s' (snd p) /\
    match fst p with
    | Ok d => exists sd, o = (Ret (Ok sd), s') /\ rep c sd d
    | Err e => o = (Ret (Err e), s') /\ s' = s
    end.

Lemma debug_assert_true b : b = true -> debug_assert c (Ret b) = Ret tt.
Proof. intros ->. unfold debug_assert. destruct (debug c); reflexivity. Qed.

Lemma drain_runs lo hi s t : rep c s t ->
  runs_part s (drain c lo hi s) (t_drain (usize_max c) lo hi t).
Proof.
  intros R. pose proof (rep_cap255 c Hc s t R) as (K & K1 & K2).
  unfold drain, t_drain. rewrite start_of_spec, end_of_spec, (rep_len c s t R).
  set (a := range_from (usize_max c) lo). set (b := range_to (usize_max c) (blen t) hi).
  assert (IB : forall x y, x <= y -> is_inside_boundary x y = Ok tt).
  { intros x y L. unfold is_inside_boundary. replace (x <=? y) with true by lia. reflexivity. }
  assert (OB : forall x y, y < x -> is_inside_boundary x y = Err mkOutOfBounds).
  { intros x y L. unfold is_inside_boundary. replace (x <=? y) with false by lia. reflexivity. }
  destruct (N.ltb_spec b a) as [L1|L1].
  { exists s. split; [exact R|]. split; [|reflexivity].
    erewrite stry_err by (unfold sret; rewrite OB by lia; reflexivity). reflexivity. }
  erewrite stry_ok by (unfold sret; rewrite IB by lia; reflexivity).
  destruct (N.ltb_spec (blen t) b) as [L2|L2].
  { exists s. split; [exact R|]. split; [|reflexivity].
    erewrite stry_err by (unfold sread; rewrite (rep_len c s t R), OB by lia; reflexivity). reflexivity. }
  erewrite stry_ok by (unfold sread; rewrite (rep_len c s t R), IB by lia; reflexivity).
  destruct (split_at a t) as [[pre rest]|] eqn:Ea.
  2:{ exists s. split; [exact R|]. split; [|reflexivity].
      erewrite stry_err by (unfold sread; rewrite (is_char_boundary_rep c s t _ R), Ea; reflexivity).
      reflexivity. }
  erewrite stry_ok by (unfold sread; rewrite (is_char_boundary_rep c s t _ R), Ea; reflexivity).
  pose proof (split_at_more t a b pre rest Ea L1) as Eb.
  destruct (split_at (b - a) rest) as [[mid post]|] eqn:Em.
  2:{ exists s. split; [exact R|]. split; [|reflexivity].
      erewrite stry_err by (unfold sread; rewrite (is_char_boundary_rep c s t _ R), Eb; reflexivity).
      reflexivity. }
  erewrite stry_ok by (unfold sread; rewrite (is_char_boundary_rep c s t _ R), Eb; reflexivity).
  erewrite sbind_ret.
  2:{ unfold sread. rewrite (rep_len c s t R), debug_assert_true; [reflexivity|lia]. }
  erewrite sbind_ret.
  2:{ unfold sread. rewrite (as_str_rep c s t R). cbn [obind].
      rewrite debug_assert_true; [reflexivity|]. rewrite str_boundary_split, Ea. reflexivity. }
  erewrite sbind_ret.
  2:{ unfold sread. rewrite (as_str_rep c s t R). cbn [obind].
      rewrite debug_assert_true; [reflexivity|]. rewrite str_boundary_split, Eb. reflexivity. }
  apply split_at_Some in Ea as [-> Ha]. apply split_at_Some in Em as [-> Hm].
  assert (Hb : b = blen pre + blen mid) by lia.
  erewrite sbind_ret.
  2:{ unfold sread. rewrite (as_str_rep c s _ R). cbn [obind].
      unfold str_get_unchecked. rewrite <- Ha, Hb, str_get_enc. reflexivity. }
  pose proof K as K'. rewrite !blen_app in K'.
  destruct (try_from_str_fits mid) as (sd & D1 & D2); [lia|].
  erewrite stry_ok by (unfold slift; rewrite D1; reflexivity).
  destruct (replace_range_ok c Hc (Included a) (Excluded b) [] s pre mid post) as (s' & H1 & H2).
  - exact R.
  - cbn. lia.
  - cbn. lia.
  - cbn. lia.
  - change (enc []) with (@nil N) in H1.
    erewrite stry_ok by exact H1. exists s'. split; [exact H2|]. exists sd. split; [reflexivity|exact D2].
Qed.

Lemma split_off_runs i s t : rep c s t -> runs_part s (split_off c i s) (t_split_off i t).
Proof.
  intros R. pose proof (drain_runs (Included i) Unbounded s t R) as (s' & H1 & H2).
  unfold split_off, t_split_off. unfold t_drain in *. cbn [range_from range_to] in *.
  rewrite N.ltb_irrefl in *.
  destruct (N.ltb_spec (blen t) i) as [L|L]; cbn [fst snd] in *.
  { destruct H2 as [H2 ->]. exists s. split; [exact R|]. split; [|reflexivity].
    erewrite stry_err by exact H2. reflexivity. }
  destruct (split_at i t) as [[pre post]|] eqn:E; cbn [fst snd] in *.
  2:{ destruct H2 as [H2 ->]. exists s. split; [exact R|]. split; [|reflexivity].
      erewrite stry_err by exact H2. reflexivity. }
  apply split_at_Some in E as [-> <-]. rewrite blen_app in *.
  replace (blen pre + blen post - blen pre) with (blen post) in * by lia.
  rewrite split_at_end in *. cbn [fst snd] in *. rewrite app_nil_r in *.
  destruct H2 as (sd & H2 & H3). exists s'. split; [exact H1|]. exists sd. split; [|exact H3].
  erewrite stry_ok by exact H2. reflexivity.
Qed.

(** ** trim *)

Lemma skip_ws_spec t : exists l, t = l ++ skip_ws t /\ Forall (fun x => white_space x = true) l /\
  (forall x r, skip_ws t = x :: r -> white_space x = false).
Proof.
  induction t as [|x t (l & E & F & N)]; cbn [skip_ws].
  - exists []. repeat split; auto. discriminate.
  - destruct (white_space x) eqn:W.
    + exists (x :: l). split; [cbn; congruence|]. split; [constructor; auto|exact N].
    + exists []. split; [reflexivity|]. split; [constructor|]. intros y r H. congruence.
Qed.

(** Every text is all whitespace, or [l ++ r ++ m] with [r] trimmed, not empty. *)
Lemma trim_cases t :
  (Forall (fun x => white_space x = true) t /\ skip_ws t = [] /\ trim_text t = []) \/
  (exists l r m, t = l ++ r ++ m /\ skip_ws t = r ++ m /\ trim_text t = r /\
     Forall (fun x => white_space x = true) l /\ Forall (fun x => white_space x = true) m /\
     (exists x r', r = x :: r' /\ white_space x = false) /\
     (exists x r', r = r' ++ [x] /\ white_space x = false)).
Proof.
  destruct (skip_ws_spec t) as (l & E & F & Nw).
  destruct (skip_ws t) as [|x r] eqn:Es.
  - left. rewrite app_nil_r in E. subst l. split; [exact F|]. split; [reflexivity|].
    unfold trim_text. rewrite Es. reflexivity.
  - right. specialize (Nw x r eq_refl).
    destruct (skip_ws_spec (rev (x :: r))) as (m' & E' & F' & N').
    destruct (skip_ws (rev (x :: r))) as [|y q] eqn:Eq.
    { exfalso. rewrite app_nil_r in E'. rewrite <- E' in F'.
      assert (I : In x (rev (x :: r))) by (apply in_rev; rewrite rev_involutive; left; reflexivity).
      rewrite Forall_forall in F'. rewrite (F' x I) in Nw. discriminate. }
    specialize (N' y q eq_refl).
    exists l, (rev (y :: q)), (rev m').
    assert (R : x :: r = rev (y :: q) ++ rev m').
    { rewrite <- rev_app_distr, <- E', rev_involutive. reflexivity. }
    split; [rewrite <- R; exact E|]. split; [exact R|]. split.
    { unfold trim_text. rewrite Es, Eq. reflexivity. }
    split; [exact F|]. split.
    { apply Forall_forall. intros z Hz. rewrite Forall_forall in F'. apply F'. apply in_rev. exact Hz. }
    split.
    + destruct (rev (y :: q)) as [|z p] eqn:Ez.
      { apply (f_equal (@length char)) in Ez. rewrite rev_length in Ez. discriminate. }
      cbn [app] in R. injection R as <- _. eauto.
    + exists y, (rev q). split; [reflexivity|exact N'].
Qed.

Lemma trim_text_spec t : trimmed t (trim_text t).
Proof.
  destruct (trim_cases t) as [(F & _ & ->)|(l & r & m & E & _ & -> & Fl & Fm & (x & r1 & Ex & Wx) & (y & r2 & Ey & Wy))].
  - exists t, []. split; [rewrite app_nil_r; reflexivity|]. split; [exact F|]. split; [constructor|].
    split; [discriminate|]. intros z r' H. destruct r'; discriminate.
  - exists l, m. split; [exact E|]. split; [exact Fl|]. split; [exact Fm|]. split.
    + intros z r' H. rewrite Ex in H. injection H as <- _. exact Wx.
    + intros z r' H. rewrite Ey in H. apply app_inj_tail in H as [_ <-]. exact Wy.
Qed.

Lemma trim_start_loop_spec t fuel off d : (length t < fuel)%nat ->
  trim_start_loop fuel (off, enc t) d =
  Ret (match skip_ws t with [] => d | _ => off + blen t - blen (skip_ws t) end).
Proof.
  revert fuel off. induction t as [|x t IH]; intros fuel off F; destruct fuel as [|fuel]; cbn in F; try lia.
  - reflexivity.
  - cbn [trim_start_loop char_indices_next]. rewrite chars_next_enc. cbn [obind].
    rewrite is_whitespace_spec. cbn [skip_ws]. destruct (white_space x); cbn [negb].
    + rewrite IH by lia. rewrite !enc_len. cbn [blen]. destruct (skip_ws t); [reflexivity|]. f_equal. lia.
    + f_equal. lia.
Qed.

Lemma trim_end_loop_spec p x m fuel start : 
  white_space x = false -> start <= blen p -> Forall (fun y => white_space y = true) m ->
  (length m < fuel)%nat ->
  trim_end_loop fuel (0, enc (p ++ [x] ++ m)) start (blen (p ++ [x] ++ m)) = Ret (Some (blen (p ++ [x]))).
Proof.
  intros Wx L. revert fuel. induction m as [|y m IH] using rev_ind; intros fuel F Fu;
    destruct fuel as [|fuel]; try lia.
  - rewrite app_nil_r. cbn [trim_end_loop char_indices_next_back]. rewrite chars_next_back_enc. cbn [obind].
    rewrite enc_len, is_whitespace_spec, Wx. replace (0 + blen p <? start) with false by lia. reflexivity.
  - rewrite app_length in Fu. cbn in Fu. apply Forall_app in F as [F Fy]. inversion Fy; subst.
    rewrite !app_assoc. rewrite <- (app_assoc p). cbn [trim_end_loop char_indices_next_back].
    rewrite chars_next_back_enc. cbn [obind].
    rewrite enc_len, is_whitespace_spec, H1, N.add_0_l.
    replace (blen (p ++ [x] ++ m) <? start) with false by (rewrite blen_app; lia). cbn [negb].
    apply IH; [exact F|lia].
Qed.

Lemma length_le_enc t : (length t <= length (enc t))%nat.
Proof. pose proof (length_le_blen t) as H. rewrite <- enc_len in H. unfold lenN in H. lia. Qed.

Lemma trim_runs s t : rep c s t -> runs c (trim c s) tt (trim_text t).
Proof.
  intros R. pose proof (rep_cap255 c Hc s t R) as (K & K1 & K2). pose proof (length_le_enc t) as Le.
  unfold trim.
  erewrite sbind_ret by (unfold sread; rewrite (as_str_rep c s t R); cbn [obind];
    rewrite trim_start_loop_spec by lia; rewrite (rep_len c s t R); reflexivity).
  destruct (trim_cases t) as [(F & E & ->)|(l & r & m & E & Es & -> & Fl & Fm & (x & r1 & Ex & Wx) & (y & r2 & Ey & Wy))].
  - rewrite E. destruct (snoc_cases t) as [->|(t' & x & ->)].
    + (* empty *)
      assert (H0 : forall lo hi, replace_range c lo hi [] s = replace_range c lo hi (enc []) s) by reflexivity.
      erewrite sbind_ret by (unfold sread; rewrite (as_str_rep c s _ R), (rep_len c s _ R); reflexivity).
      destruct (replace_range_runs (Included (blen [])) Unbounded [] s [] R) as (s1 & P1 & P2 & _).
      cbn [blen] in *. cbn in P1, P2.
      destruct (replace_range_runs Unbounded (Excluded 0) [] s1 [] P2) as (s2 & Q1 & Q2 & _).
      cbn in Q1, Q2.
      erewrite sbind_ret by exact P1. erewrite sbind_ret by exact Q1.
      exists s2. split; [reflexivity|exact Q2].
    + erewrite sbind_ret.
      2:{ unfold sread. rewrite (as_str_rep c s _ R), (rep_len c s _ R). cbn [obind].
          cbn [trim_end_loop char_indices_next_back]. rewrite chars_next_back_enc. cbn [obind].
          rewrite enc_len, blen_app. cbn [blen]. pose proof (clen_range x).
          replace (0 + blen t' <? blen t' + (clen x + 0)) with true by lia. reflexivity. }
      unfold set_size, smodify, runs. eexists. split; [reflexivity|]. apply (rep_shrink s [] _ R).
  - assert (St : match skip_ws t with [] => blen t | _ => 0 + blen t - blen (skip_ws t) end = blen l).
    { rewrite Es, Ex. cbn [app]. change (x :: r1 ++ m) with ((x :: r1) ++ m). rewrite <- Ex.
      rewrite E, (blen_app l). lia. }
    rewrite St. clear St.
    assert (Lr : (length m < S (length (enc t)))%nat).
    { rewrite E in Le. rewrite !app_length in Le. rewrite E. lia. }
    assert (En : trim_end_loop (S (length (enc t))) (0, enc t) (blen l) (blen t) = Ret (Some (blen (l ++ r)))).
    { rewrite E at 2 3. rewrite Ey. rewrite <- (app_assoc r2), !(app_assoc l).
      apply trim_end_loop_spec; auto. rewrite blen_app. lia. }
    erewrite sbind_ret by (unfold sread; rewrite (as_str_rep c s t R), (rep_len c s t R); cbn [obind];
      rewrite En; reflexivity).
    rewrite E in R.
    destruct (replace_range_ok c Hc (Included (blen (l ++ r))) Unbounded [] s (l ++ r) m []) as (s1 & P1 & P2).
    + rewrite app_nil_r, <- app_assoc. exact R.
    + reflexivity.
    + cbn [range_to]. rewrite app_nil_r, (blen_app _ m). lia.
    + rewrite E in K. rewrite !blen_app in *. cbn. lia.
    + change (enc []) with (@nil N) in P1. erewrite sbind_ret by exact P1.
      destruct (replace_range_ok c Hc Unbounded (Excluded (blen l)) [] s1 [] l r) as (s2 & Q1 & Q2).
      * cbn [app] in *. rewrite app_nil_r in P2. exact P2.
      * reflexivity.
      * reflexivity.
      * rewrite E in K. rewrite !blen_app in *. cbn. lia.
      * change (enc []) with (@nil N) in Q1. erewrite sbind_ret by exact Q1.
        exists s2. split; [reflexivity|exact Q2].
Qed.

(** ** len, is_empty *)

Lemma is_empty_rep s t : rep c s t -> is_empty c s = Ret (match t with [] => true | _ => false end).
Proof.
  intros R. unfold is_empty. pose proof (as_str_rep c s t R) as H. unfold as_str in H. rewrite H.
  cbn [obind]. rewrite enc_len. f_equal. destruct t as [|x t]; [reflexivity|].
  cbn [blen]. pose proof (clen_range x). lia.
Qed.

End Facts.
