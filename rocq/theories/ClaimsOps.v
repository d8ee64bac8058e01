(** Statements about all calls and all histories (C01-C04, C47). *)
From Coq Require Import ZArith ZifyBool ZifyN ZifyNat Arith.
From Verif Require Import Base Char Spec RustStd ModelError Model RustFmt ModelImpl ModelDrain TextOps SpecOps
  ModelOps IterSpec ListFacts Utf8Facts CoreFacts MethodFacts IterFacts OrderFacts ImplFacts DrainFacts OpsFacts Obs.

(** ** C01 *)
Lemma c01_reachable c s : valid_cfg c -> reachable c s ->
  exists t, shows c s t /\ len s = blen t /\ len s <= capacity c.
Proof.
  intros Hc H. destruct (reachable_rep c Hc s H) as (t & R). exists t.
  split; [apply shows_rep; exact R|]. rewrite (rep_len c s t R). split; [reflexivity | exact (rep_cap c s t R)].
Qed.

Lemma c01_history c k s0 l rs s : valid_cfg c -> typed_ctor k -> Forall typed_op l ->
  build c k = Ret (Ok s0) -> run_ops c l s0 = (rs, s) ->
  exists t, shows c s t /\ len s = blen t /\ len s <= capacity c.
Proof.
  intros Hc Hk Hl E0 E. destruct (reachable_rep c Hc s0 (reach_build c k s0 Hk E0)) as (t0 & R0).
  destruct (run_ops_sim c Hc l s0 t0 R0 Hl) as (s' & E' & R'). rewrite E in E'. injection E' as _ <-.
  eexists. split; [apply shows_rep; exact R'|]. rewrite (rep_len c s _ R'). split; [reflexivity | exact (rep_cap c s _ R')].
Qed.

(** ** C02 *)
Lemma c02_calls c s o : valid_cfg c -> reachable c s -> typed_op o -> benign o ->
  exists r s', run_op c o s = (Ret r, s').
Proof.
  intros Hc Hs Ho Hb. destruct (reachable_rep c Hc s Hs) as (t & R).
  destruct (run_op_sim c Hc o s t R Ho) as (s' & E & _).
  destruct (t_op_returns (usize_max c) (cap c) o t Hb) as (r & t' & Et). rewrite Et in E.
  exists r, s'. exact E.
Qed.

Lemma c02_constructors c k : valid_cfg c -> typed_ctor k -> benign_ctor k -> exists r, build c k = Ret r.
Proof.
  intros Hc Hk Hb. pose proof (build_sim c Hc k Hk) as H.
  destruct (t_ctor_returns (cap c) k Hb) as (r & E). rewrite E in H. destruct r as [t|e]; cbn in H.
  - destruct H as (s & E' & _). exists (Ok s). exact E'.
  - exists (Err e). exact H.
Qed.

Lemma c02_drain c d : valid_cfg c -> reachable c (drained d) ->
  (exists r d', drain_next c d = (Ret r, d')) /\ (exists r d', drain_next_back c d = (Ret r, d')) /\
  (exists b, drain_as_str c d = Ret b).
Proof.
  intros Hc Hs. destruct (reachable_rep c Hc _ Hs) as (t & R). split; [|split].
  - destruct (drain_next_rep c Hc d t R) as (d' & E & _). eexists _, d'. exact E.
  - destruct (drain_next_back_rep c Hc d t R) as (d' & E & _). eexists _, d'. exact E.
  - exists (enc t). apply as_str_rep. exact R.
Qed.

(** Arguments that may panic: the calls return or panic, nothing worse. *)
Lemma calm_cases {A} (o : outcome A) : calm o -> (exists a, o = Ret a) \/ o = Panic.
Proof. destruct o as [a| | |]; cbn; intros H; try contradiction; [left; exists a; reflexivity | right; reflexivity]. Qed.

Lemma t_collect_calm {IT} (next : iter IT char) : (forall it, calm (fst (next it))) ->
  forall fuel n it, (N.to_nat n + 1 < fuel)%nat -> calm (fst (t_collect fuel n next it)).
Proof.
  intros Hn. induction fuel as [|fuel IH]; intros n it L; [lia|]. cbn [t_collect].
  pose proof (Hn it) as H. destruct (next it) as [[[x|]| | |] it']; cbn in H; try contradiction; try exact Logic.I.
  destruct (N.leb_spec (clen x) n) as [Lx|Lx]; [|exact Logic.I].
  pose proof (clen_range x). specialize (IH (n - clen x) it' ltac:(lia)).
  destruct (t_collect fuel (n - clen x) next it') as [[u| | |] it2]; cbn in *; try contradiction; exact Logic.I.
Qed.

Lemma t_try_collect_calm {IT} (next : iter IT char) : (forall it, calm (fst (next it))) ->
  forall fuel n it, (N.to_nat n + 1 < fuel)%nat -> calm (fst (t_try_collect fuel n next it)).
Proof.
  intros Hn. induction fuel as [|fuel IH]; intros n it L; [lia|]. cbn [t_try_collect].
  pose proof (Hn it) as H. destruct (next it) as [[[x|]| | |] it']; cbn in H; try contradiction; try exact Logic.I.
  destruct (N.leb_spec (clen x) n) as [Lx|Lx]; [|exact Logic.I].
  pose proof (clen_range x). specialize (IH (n - clen x) it' ltac:(lia)).
  destruct (t_try_collect fuel (n - clen x) next it') as [[[u|e]| | |] it2]; cbn in *; try contradiction; exact Logic.I.
Qed.

Lemma t_collect_strs_calm {IT} (next : iter IT (text * text)) fuel : forall n it,
  calm_run fuel next it -> calm (fst (t_collect_strs fuel n next it)).
Proof.
  induction fuel as [|fuel IH]; intros n it H; [destruct H|]. cbn [t_collect_strs calm_run] in *.
  destruct (next it) as [[[[w w2]|]| | |] it']; try contradiction; try exact Logic.I.
  destruct (N.leb_spec (blen w) n) as [Lx|Lx]; [|exact Logic.I].
  specialize (IH (n - blen w) it' H).
  destruct (t_collect_strs fuel (n - blen w) next it') as [[u| | |] it2]; cbn in *; try contradiction; exact Logic.I.
Qed.

Lemma t_try_collect_strs_calm {IT} (next : iter IT (text * text)) fuel : forall n it,
  calm_run fuel next it -> calm (fst (t_try_collect_strs fuel n next it)).
Proof.
  induction fuel as [|fuel IH]; intros n it H; [destruct H|]. cbn [t_try_collect_strs calm_run] in *.
  destruct (next it) as [[[[w w2]|]| | |] it']; try contradiction; try exact Logic.I.
  destruct (N.leb_spec (blen w) n) as [Lx|Lx]; [|exact Logic.I].
  specialize (IH (n - blen w) it' H).
  destruct (t_try_collect_strs fuel (n - blen w) next it') as [[[u|e]| | |] it2]; cbn in *; try contradiction; exact Logic.I.
Qed.

Lemma calm_run_map {IT A B} (f : A -> B) (next : iter IT A) fuel : forall it,
  calm_run fuel next it -> calm_run fuel (map_iter f next) it.
Proof.
  induction fuel as [|fuel IH]; intros it H; [destruct H|]. cbn [calm_run] in *. unfold map_iter at 1.
  destruct (next it) as [[[x|]| | |] it']; cbn [option_map]; try contradiction; try exact Logic.I.
  apply IH. exact H.
Qed.

Lemma t_retain_calm {F} (f : char -> ST F bool) t : (forall a x, calm (fst (f a x))) ->
  forall x, calm (t_retain f x t).
Proof.
  intros Hf. induction t as [|a t IH]; intros x; cbn [t_retain]; [exact Logic.I|].
  pose proof (Hf a x) as H. destruct (f a x) as [[b| | |] x']; cbn in H; try contradiction; try exact Logic.I.
  specialize (IH x'). destruct (t_retain f x' t); cbn in *; try contradiction; exact Logic.I.
Qed.

Lemma t_op_calm umax cap o t : harmless o -> calm (fst (t_op umax cap o t)).
Proof.
  intros H. destruct o; cbn [t_op harmless] in *;
    try exact Logic.I;
    try (match goal with |- calm (fst (let '(_, _) := ?p in _)) => destruct p as [? ?] end; exact Logic.I).
  - pose proof (t_retain_calm f t H x) as Hr. destruct (t_retain f x t); cbn in *; try contradiction; exact Logic.I.
  - pose proof (t_collect_calm next H (N.to_nat cap + 2) cap it ltac:(lia)) as Hr.
    destruct (fst (t_collect (N.to_nat cap + 2) cap next it)); cbn in *; try contradiction; exact Logic.I.
  - pose proof (t_collect_strs_calm (map_iter same2 next) fuel cap it (calm_run_map same2 next fuel it H)) as Hr.
    destruct (fst (t_collect_strs fuel cap (map_iter same2 next) it)); cbn in *; try contradiction; exact Logic.I.
  - destruct (t_write_fmt cap p t) as [[b|] t']; exact Logic.I.
  - destruct (ends_of_range (blen t) r) as [a b]. destruct (t_slice a b t) as [[[pre mid] post]|]; [|exact Logic.I].
    destruct (blen w =? blen mid); exact Logic.I.
  - destruct (ends_of_range (blen t) r) as [a b]. destruct (t_slice a b t) as [[[pre mid] post]|]; exact Logic.I.
Qed.

Lemma c02_harmless c s o : valid_cfg c -> reachable c s -> typed_op o -> harmless o ->
  exists s', (exists r, run_op c o s = (Ret r, s')) \/ run_op c o s = (Panic, s').
Proof.
  intros Hc Hs Ho Hh. destruct (reachable_rep c Hc s Hs) as (t & R).
  destruct (run_op_sim c Hc o s t R Ho) as (s' & E & _). exists s'.
  destruct (calm_cases _ (t_op_calm (usize_max c) (cap c) o t Hh)) as [(r & Er)|Er]; rewrite Er in E.
  - left. exists r. exact E.
  - right. exact E.
Qed.

Lemma t_ctor_calm n k : harmless_ctor k -> calm (t_ctor n k).
Proof.
  intros Hh.
  destruct k; cbn [t_ctor harmless_ctor] in *; try exact Logic.I.
  - pose proof (t_try_collect_strs_calm next fuel n it Hh) as Hr.
    destruct (fst (t_try_collect_strs fuel n next it)); cbn in *; try contradiction; exact Logic.I.
  - pose proof (t_collect_strs_calm next fuel n it Hh) as Hr.
    destruct (fst (t_collect_strs fuel n next it)); cbn in *; try contradiction; exact Logic.I.
  - pose proof (t_try_collect_calm next Hh (N.to_nat n + 2) n it ltac:(lia)) as Hr.
    destruct (fst (t_try_collect (N.to_nat n + 2) n next it)); cbn in *; try contradiction; exact Logic.I.
  - pose proof (t_collect_calm next Hh (N.to_nat n + 2) n it ltac:(lia)) as Hr.
    destruct (fst (t_collect (N.to_nat n + 2) n next it)); cbn in *; try contradiction; exact Logic.I.
  - pose proof (t_collect_strs_calm (map_iter same2 next) fuel n it (calm_run_map same2 next fuel it Hh)) as Hr.
    destruct (fst (t_collect_strs fuel n (map_iter same2 next) it)); cbn in *; try contradiction; exact Logic.I.
  - pose proof (t_collect_calm next Hh (N.to_nat n + 2) n it ltac:(lia)) as Hr.
    destruct (fst (t_collect (N.to_nat n + 2) n next it)); cbn in *; try contradiction; exact Logic.I.
Qed.

Lemma c02_harmless_constructors c k : valid_cfg c -> typed_ctor k -> harmless_ctor k ->
  (exists r, build c k = Ret r) \/ build c k = Panic.
Proof.
  intros Hc Hk Hh. pose proof (build_sim c Hc k Hk) as H.
  pose proof (t_ctor_calm (cap c) k Hh) as Hcalm.
  destruct (t_ctor (cap c) k) as [[t|e]| | |]; cbn in H, Hcalm; try contradiction.
  - destruct H as (s & E & _). left. exists (Ok s). exact E.
  - left. exists (Err e). exact H.
  - right. exact H.
Qed.

(** ** C03, C47 *)
Lemma bound_from m1 m2 b : bound_below m1 b -> bound_below m2 b -> range_from m1 b = range_from m2 b.
Proof. destruct b; cbn; lia. Qed.
Lemma bound_to m1 m2 n b : bound_below m1 b -> bound_below m2 b -> range_to m1 n b = range_to m2 n b.
Proof. destruct b; cbn; lia. Qed.

Lemma t_op_umax m1 m2 cap o t : bounds_below m1 o -> bounds_below m2 o -> t_op m1 cap o t = t_op m2 cap o t.
Proof.
  destruct o; cbn [bounds_below t_op]; try reflexivity; intros [A1 A2] [B1 B2].
  - unfold t_drain. rewrite (bound_from m1 m2 lo A1 B1), (bound_to m1 m2 _ hi A2 B2). reflexivity.
  - unfold t_replace_range. rewrite (bound_from m1 m2 lo A1 B1), (bound_to m1 m2 _ hi A2 B2). reflexivity.
Qed.

Lemma t_ops_umax m1 m2 cap l t : Forall (bounds_below m1) l -> Forall (bounds_below m2) l ->
  t_ops m1 cap l t = t_ops m2 cap l t.
Proof.
  intros H1. revert t. induction H1 as [|o l Ho Hl IH]; intros t H2; [reflexivity|].
  inversion H2 as [|? ? Ho2 Hl2]; subst. cbn [t_ops]. rewrite (t_op_umax m1 m2 cap o t Ho Ho2).
  destruct (t_op m2 cap o t) as [r t1]. rewrite (IH t1 Hl2). reflexivity.
Qed.

(** The same history on two values with the same text, in any two builds of the
    same capacity and word size. *)
Lemma c03_profiles c1 c2 s1 s2 t l : valid_cfg c1 -> valid_cfg c2 ->
  cap c1 = cap c2 -> usize_max c1 = usize_max c2 ->
  shows c1 s1 t -> shows c2 s2 t -> Forall typed_op l ->
  exists rs s1' s2' t', run_ops c1 l s1 = (rs, s1') /\ run_ops c2 l s2 = (rs, s2') /\
    shows c1 s1' t' /\ shows c2 s2' t'.
Proof.
  intros H1 H2 Ec Eu S1 S2 Hl. apply shows_rep in S1, S2.
  destruct (run_ops_sim c1 H1 l s1 t S1 Hl) as (s1' & E1 & R1).
  destruct (run_ops_sim c2 H2 l s2 t S2 Hl) as (s2' & E2 & R2).
  rewrite <- Ec, <- Eu in E2, R2.
  eexists _, s1', s2', _. split; [exact E1|]. split; [exact E2|].
  split; apply shows_rep; [exact R1 | exact R2].
Qed.

(** ... and of any two word sizes, when the range bounds are below both maxima. *)
Lemma c03_widths c1 c2 s1 s2 t l : valid_cfg c1 -> valid_cfg c2 -> cap c1 = cap c2 ->
  Forall (bounds_below (usize_max c1)) l -> Forall (bounds_below (usize_max c2)) l ->
  shows c1 s1 t -> shows c2 s2 t -> Forall typed_op l ->
  exists rs s1' s2' t', run_ops c1 l s1 = (rs, s1') /\ run_ops c2 l s2 = (rs, s2') /\
    shows c1 s1' t' /\ shows c2 s2' t'.
Proof.
  intros H1 H2 Ec B1 B2 S1 S2 Hl. apply shows_rep in S1, S2.
  destruct (run_ops_sim c1 H1 l s1 t S1 Hl) as (s1' & E1 & R1).
  destruct (run_ops_sim c2 H2 l s2 t S2 Hl) as (s2' & E2 & R2).
  rewrite <- Ec, <- (t_ops_umax _ _ _ l t B1 B2) in E2, R2.
  eexists _, s1', s2', _. split; [exact E1|]. split; [exact E2|].
  split; apply shows_rep; [exact R1 | exact R2].
Qed.

(** Constructors. *)
Lemma c03_constructors c1 c2 k : valid_cfg c1 -> valid_cfg c2 -> cap c1 = cap c2 -> typed_ctor k ->
  (exists s1 s2 t, build c1 k = Ret (Ok s1) /\ build c2 k = Ret (Ok s2) /\ shows c1 s1 t /\ shows c2 s2 t) \/
  ((forall s, build c1 k <> Ret (Ok s)) /\ build c1 k = build c2 k).
Proof.
  intros H1 H2 Ec Hk. pose proof (build_sim c1 H1 k Hk) as B1. pose proof (build_sim c2 H2 k Hk) as B2.
  rewrite <- Ec in B2. destruct (t_ctor (cap c1) k) as [[t|e]| | |]; cbn in B1, B2.
  - destruct B1 as (s1 & E1 & R1). destruct B2 as (s2 & E2 & R2). left. exists s1, s2, t.
    split; [exact E1|]. split; [exact E2|]. split; apply shows_rep; assumption.
  - right. rewrite B1, B2. split; [discriminate | reflexivity].
  - right. rewrite B1, B2. split; [discriminate | reflexivity].
  - right. rewrite B1, B2. split; [discriminate | reflexivity].
  - right. rewrite B1, B2. split; [discriminate | reflexivity].
Qed.

Lemma c47_text_only c s1 s2 t l : valid_cfg c -> shows c s1 t -> shows c s2 t -> Forall typed_op l ->
  exists rs s1' s2' t', run_ops c l s1 = (rs, s1') /\ run_ops c l s2 = (rs, s2') /\
    shows c s1' t' /\ shows c s2' t'.
Proof. intros Hc S1 S2 Hl. exact (c03_profiles c c s1 s2 t l Hc Hc eq_refl eq_refl S1 S2 Hl). Qed.

(** ** C04 *)
Lemma runs_f_error {A X} (f : result A X -> out) c s (m : ST astring (result A X)) p r s' :
  runs_f c s (m s) p -> (forall a, is_error (f (Ok a)) = false) ->
  to_out f m s = (Ret r, s') -> is_error r = true -> s' = s.
Proof.
  intros (s1 & E1 & _ & H) Hf E He. destruct p as [[a|e] t']; cbn [fst snd] in *.
  - unfold to_out in E. erewrite sbind_ret in E by exact E1. injection E as <- <-. rewrite Hf in He. discriminate.
  - unfold to_out in E. erewrite sbind_ret in E by exact E1. injection E as <- <-. apply (H e). reflexivity.
Qed.

Lemma to_out_no_error {A} (f : A -> out) (m : ST astring A) s r s' : (forall a, is_error (f a) = false) ->
  to_out f m s = (Ret r, s') -> is_error r = true -> s' = s.
Proof.
  intros Hf E He. unfold to_out, sbind in E. destruct (m s) as [[a| | |] s1]; try discriminate.
  injection E as <- <-. rewrite Hf in He. discriminate.
Qed.

Lemma c04_unchanged c s t o r s' : valid_cfg c -> shows c s t -> (forall p, o <> OWriteFmt p) ->
  run_op c o s = (Ret r, s') -> is_error r = true -> s' = s.
Proof.
  intros Hc Hs Hp. apply shows_rep in Hs. rename Hs into R.
  destruct o; cbn [run_op];
    try (apply to_out_no_error; intros; reflexivity);
    try (intros E _; injection E as _ <-; reflexivity).
  - apply (runs_f_error _ _ _ _ _ _ _ (try_push_str_runs c Hc w s t R)). intros; reflexivity.
  - apply (runs_f_error _ _ _ _ _ _ _ (try_push_runs c Hc x s t R)). intros; reflexivity.
  - apply (runs_f_error _ _ _ _ _ _ _ (truncate_runs c Hc n s t R)). intros; reflexivity.
  - apply (runs_f_error _ _ _ _ _ _ _ (remove_runs c Hc i s t R)). intros; reflexivity.
  - destruct (retain c f x s) as [[[q| | |] s1] x1]; cbn [omap]; intros E; try discriminate.
    injection E as <- <-. discriminate.
  - apply (runs_f_error _ _ _ _ _ _ _ (try_insert_runs c Hc i x s t R)). intros; reflexivity.
  - apply (runs_f_error _ _ _ _ _ _ _ (try_insert_str_runs c Hc i w s t R)). intros; reflexivity.
  - apply (runs_f_error _ _ _ _ _ _ _ (insert_str_truncate_runs c Hc i w s t R)). intros; reflexivity.
  - destruct (drain_iter_runs c Hc lo hi s t R) as (s1 & R1 & H). intros E He.
    destruct (t_drain (usize_max c) lo hi t) as [[m|e] t']; cbn [fst snd] in *.
    + destruct H as (d & Ed & Rd). erewrite sbind_ret in E by exact Ed.
      unfold slift, part_out in E. cbn [map_ok] in E. rewrite (as_str_rep c _ _ Rd) in E.
      injection E as <- <-. discriminate.
    + destruct H as [Ed ->]. erewrite sbind_ret in E by exact Ed. injection E as _ <-. reflexivity.
  - destruct (split_off_runs c Hc i s t R) as (s1 & R1 & H). intros E He.
    destruct (t_split_off i t) as [[m|e] t']; cbn [fst snd] in *.
    + destruct H as (d & Ed & Rd). erewrite sbind_ret in E by exact Ed.
      unfold slift, part_out in E. rewrite (as_str_rep c _ _ Rd) in E.
      injection E as <- <-. discriminate.
    + destruct H as [Ed ->]. erewrite sbind_ret in E by exact Ed. injection E as _ <-. reflexivity.
  - apply (runs_f_error _ _ _ _ _ _ _ (replace_range_runs c Hc lo hi w s t R)). intros; reflexivity.
  - destruct (extend_chars c (char_fuel c) next it s) as [[[q| | |] it1] s1]; cbn [omap]; intros E; try discriminate.
    injection E as <- <-. discriminate.
  - destruct (extend_strs c fuel (map_iter item_of_pair (map_iter same2 next)) it s) as [[[q| | |] it1] s1];
      cbn [omap]; intros E; try discriminate. injection E as <- <-. discriminate.
  - destruct (add c s (enc w)) as [s1| | |]; intros E; try discriminate. injection E as <- <-. discriminate.
  - apply (runs_f_error _ _ _ _ _ _ _ (write_str_rep c Hc w s t R)). intros; reflexivity.
  - apply (runs_f_error _ _ _ _ _ _ _ (write_char_rep c Hc x s t R)). intros; reflexivity.
  - exfalso. exact (Hp p eq_refl).
  - destruct (display c buffer sp s []) as [[q| | |] b]; intros E; try discriminate. injection E as <- <-. discriminate.
Qed.
