(** The comparison operators, [max], [min] and [clamp], and how edits move a value
    in the order (C58). *)
From Coq Require Import ZArith ZifyBool ZifyN ZifyNat Arith.
From Verif Require Import Base Char Spec RustStd RustOrd ModelError Model ModelImpl ModelDrain ModelCache TextOps
  ListFacts Utf8Facts CoreFacts MethodFacts OrderFacts ImplFacts DrainFacts Obs ObsCache ClaimsEdit ClaimsTrait ClaimsCache ClaimsLaws.

(** A type compared by the text [view] of its values. *)
Section Generic.
Context {T : Type}.
Variable view : T -> text -> Prop.
Variable teq : T -> T -> outcome bool.
Variable tcmp : T -> T -> outcome comparison.
Variable pcmp : T -> T -> outcome (option comparison).
Hypothesis Heq : forall a b t u, view a t -> view b u -> exists r, teq a b = Ret r /\ (r = true <-> t = u).
Hypothesis Hcmp : forall a b t u, view a t -> view b u ->
  exists o, tcmp a b = Ret o /\ pcmp a b = Ret (Some o) /\
    (o = Eq <-> t = u) /\ (o = Lt <-> text_lt t u) /\ (o = Gt <-> text_lt u t).

Lemma operators a b t u : view a t -> view b u ->
  (exists r, op_ne teq a b = Ret r /\ (r = true <-> t <> u)) /\
  (exists r, op_lt pcmp a b = Ret r /\ (r = true <-> text_lt t u)) /\
  (exists r, op_le pcmp a b = Ret r /\ (r = true <-> text_lt t u \/ t = u)) /\
  (exists r, op_gt pcmp a b = Ret r /\ (r = true <-> text_lt u t)) /\
  (exists r, op_ge pcmp a b = Ret r /\ (r = true <-> text_lt u t \/ t = u)).
Proof.
  intros Ha Hb. destruct (Heq a b t u Ha Hb) as (r & Er & Hr).
  destruct (Hcmp a b t u Ha Hb) as (o & _ & Eo & HE & HL & HG).
  unfold op_ne, op_lt, op_le, op_gt, op_ge. rewrite Er, Eo. cbn [obind].
  split; [exists (negb r); split; [reflexivity|]; destruct r; cbn [negb]; intuition congruence|].
  destruct o; (split; [|split; [|split]]; eexists; (split; [reflexivity|]); intuition congruence).
Qed.

Lemma max_min a b t u : view a t -> view b u ->
  (text_lt u t -> ord_max tcmp a b = Ret a /\ ord_min tcmp a b = Ret b) /\
  (~ text_lt u t -> ord_max tcmp a b = Ret b /\ ord_min tcmp a b = Ret a).
Proof.
  intros Ha Hb. destruct (Hcmp a b t u Ha Hb) as (o & Eo & _ & _ & _ & HG).
  unfold ord_max, ord_min. rewrite Eo. cbn [obind]. destruct o; split; intros H; try tauto; intuition congruence.
Qed.

Lemma clamp a lo hi t l h : view a t -> view lo l -> view hi h ->
  (text_lt h l -> ord_clamp pcmp a lo hi = Panic) /\
  (~ text_lt h l -> text_lt t l -> ord_clamp pcmp a lo hi = Ret lo) /\
  (~ text_lt h l -> text_lt h t -> ord_clamp pcmp a lo hi = Ret hi) /\
  (~ text_lt t l -> ~ text_lt h t -> ord_clamp pcmp a lo hi = Ret a).
Proof.
  intros Ha Hl Hh. destruct (Hcmp lo hi l h Hl Hh) as (o1 & _ & E1 & HE1 & HL1 & HG1).
  destruct (Hcmp a lo t l Ha Hl) as (o2 & _ & E2 & HE2 & HL2 & HG2).
  destruct (Hcmp a hi t h Ha Hh) as (o3 & _ & E3 & HE3 & HL3 & HG3).
  unfold ord_clamp, op_le, op_lt, op_gt. rewrite E1, E2, E3. cbn [obind].
  split; [|split; [|split]].
  - intros H. rewrite (proj2 HG1 H). reflexivity.
  - intros N1 H. rewrite (proj2 HL2 H). destruct o1; [reflexivity|reflexivity|]. exfalso. apply N1, HG1. reflexivity.
  - intros N1 H. rewrite (proj2 HG3 H). destruct o1; [| |exfalso; apply N1, HG1; reflexivity];
      (destruct o2; [reflexivity| |reflexivity]; exfalso; apply N1; apply (text_lt_trans _ t); [exact H | apply HL2; reflexivity]).
  - intros N2 N3. destruct o2; [|exfalso; apply N2, HL2; reflexivity|];
      (destruct o3; [| |exfalso; apply N3, HG3; reflexivity]);
      (destruct o1; [reflexivity|reflexivity|exfalso]); pose proof (proj1 HG1 eq_refl) as H; clear HG1 HE1 HL1.
    + pose proof (proj1 HE2 eq_refl). pose proof (proj1 HE3 eq_refl). subst. exact (text_lt_irrefl _ H).
    + pose proof (proj1 HE2 eq_refl). pose proof (proj1 HL3 eq_refl). subst.
      exact (text_lt_irrefl _ (text_lt_trans _ _ _ H H1)).
    + pose proof (proj1 HG2 eq_refl). pose proof (proj1 HE3 eq_refl). subst.
      exact (text_lt_irrefl _ (text_lt_trans _ _ _ H H0)).
    + pose proof (proj1 HG2 eq_refl). pose proof (proj1 HL3 eq_refl).
      exact (text_lt_irrefl _ (text_lt_trans _ _ _ H (text_lt_trans _ _ _ H0 H1))).
Qed.
End Generic.

Lemma text_lt_app (t w : text) : w <> [] -> text_lt t (t ++ w).
Proof.
  intros Hw. induction t as [|x t IH]; [|apply lt_tail; exact IH].
  destruct w as [|y w]; [contradiction | constructor].
Qed.

(** ** C58 *)
Lemma c58_operators c s s' t t' : shows c s t -> shows c s' t' ->
  (exists r, op_ne (partial_eq c) s s' = Ret r /\ (r = true <-> t <> t')) /\
  (exists r, op_lt (partial_cmp c) s s' = Ret r /\ (r = true <-> text_lt t t')) /\
  (exists r, op_le (partial_cmp c) s s' = Ret r /\ (r = true <-> text_lt t t' \/ t = t')) /\
  (exists r, op_gt (partial_cmp c) s s' = Ret r /\ (r = true <-> text_lt t' t)) /\
  (exists r, op_ge (partial_cmp c) s s' = Ret r /\ (r = true <-> text_lt t' t \/ t = t')).
Proof.
  apply (operators (shows c) (partial_eq c) (ord_cmp c) (partial_cmp c)).
  - intros a b u v Ha Hb. exact (proj1 (c30_eq c a b u v [] Ha Hb)).
  - intros a b u v. apply c31_cmp.
Qed.

Lemma c58_max_min c s s' t t' : shows c s t -> shows c s' t' ->
  (text_lt t' t -> ord_max (ord_cmp c) s s' = Ret s /\ ord_min (ord_cmp c) s s' = Ret s') /\
  (~ text_lt t' t -> ord_max (ord_cmp c) s s' = Ret s' /\ ord_min (ord_cmp c) s s' = Ret s).
Proof. apply (max_min (shows c) (ord_cmp c) (partial_cmp c)). intros a b u v. apply c31_cmp. Qed.

Lemma c58_clamp c s lo hi t l h : shows c s t -> shows c lo l -> shows c hi h ->
  (text_lt h l -> ord_clamp (partial_cmp c) s lo hi = Panic) /\
  (~ text_lt h l -> text_lt t l -> ord_clamp (partial_cmp c) s lo hi = Ret lo) /\
  (~ text_lt h l -> text_lt h t -> ord_clamp (partial_cmp c) s lo hi = Ret hi) /\
  (~ text_lt t l -> ~ text_lt h t -> ord_clamp (partial_cmp c) s lo hi = Ret s).
Proof. apply (clamp (shows c) (ord_cmp c) (partial_cmp c)). intros a b u v. apply c31_cmp. Qed.

(** The same for [Drain], by the text left in it. *)
Lemma c58_drain c d e f t u v : shows c (drained d) t -> shows c (drained e) u -> shows c (drained f) v ->
  (exists r, op_ne (drain_eq c) d e = Ret r /\ (r = true <-> t <> u)) /\
  (exists r, op_lt (drain_partial_cmp c) d e = Ret r /\ (r = true <-> text_lt t u)) /\
  (exists r, op_le (drain_partial_cmp c) d e = Ret r /\ (r = true <-> text_lt t u \/ t = u)) /\
  (exists r, op_gt (drain_partial_cmp c) d e = Ret r /\ (r = true <-> text_lt u t)) /\
  (exists r, op_ge (drain_partial_cmp c) d e = Ret r /\ (r = true <-> text_lt u t \/ t = u)) /\
  (text_lt u t -> ord_max (drain_cmp c) d e = Ret d /\ ord_min (drain_cmp c) d e = Ret e) /\
  (~ text_lt u t -> ord_max (drain_cmp c) d e = Ret e /\ ord_min (drain_cmp c) d e = Ret d) /\
  (text_lt v u -> ord_clamp (drain_partial_cmp c) d e f = Panic) /\
  (~ text_lt v u -> text_lt t u -> ord_clamp (drain_partial_cmp c) d e f = Ret e) /\
  (~ text_lt v u -> text_lt v t -> ord_clamp (drain_partial_cmp c) d e f = Ret f) /\
  (~ text_lt t u -> ~ text_lt v t -> ord_clamp (drain_partial_cmp c) d e f = Ret d).
Proof.
  intros Hd He Hf.
  assert (K1 : forall a b t u, shows c (drained a) t -> shows c (drained b) u ->
    exists r, drain_eq c a b = Ret r /\ (r = true <-> t = u))
    by (intros a b x y Ha Hb; exact (proj1 (c27_traits c a b x y Ha Hb))).
  assert (K2 : forall a b t u, shows c (drained a) t -> shows c (drained b) u ->
    exists o, drain_cmp c a b = Ret o /\ drain_partial_cmp c a b = Ret (Some o) /\
      (o = Eq <-> t = u) /\ (o = Lt <-> text_lt t u) /\ (o = Gt <-> text_lt u t))
    by (intros a b x y Ha Hb; exact (proj1 (proj2 (c27_traits c a b x y Ha Hb)))).
  pose proof (operators (fun d t => shows c (drained d) t) _ _ _ K1 K2 d e t u Hd He) as (O1 & O2 & O3 & O4 & O5).
  pose proof (max_min (fun d t => shows c (drained d) t) _ _ K2 d e t u Hd He) as (M1 & M2).
  pose proof (clamp (fun d t => shows c (drained d) t) _ _ K2 d e f t u v Hd He Hf) as (L1 & L2 & L3 & L4).
  exact (conj O1 (conj O2 (conj O3 (conj O4 (conj O5 (conj M1 (conj M2 (conj L1 (conj L2 (conj L3 L4)))))))))).
Qed.

(** And for [CacheString]. *)
Lemma c58_cache c0 s s' s'' t u v : cache_shows c0 s t -> cache_shows c0 s' u -> cache_shows c0 s'' v ->
  (exists r, op_ne (cache_eq c0) s s' = Ret r /\ (r = true <-> t <> u)) /\
  (exists r, op_lt (cache_partial_cmp c0) s s' = Ret r /\ (r = true <-> text_lt t u)) /\
  (exists r, op_le (cache_partial_cmp c0) s s' = Ret r /\ (r = true <-> text_lt t u \/ t = u)) /\
  (exists r, op_gt (cache_partial_cmp c0) s s' = Ret r /\ (r = true <-> text_lt u t)) /\
  (exists r, op_ge (cache_partial_cmp c0) s s' = Ret r /\ (r = true <-> text_lt u t \/ t = u)) /\
  (text_lt u t -> ord_max (cache_cmp c0) s s' = Ret s /\ ord_min (cache_cmp c0) s s' = Ret s') /\
  (~ text_lt u t -> ord_max (cache_cmp c0) s s' = Ret s' /\ ord_min (cache_cmp c0) s s' = Ret s) /\
  (text_lt v u -> ord_clamp (cache_partial_cmp c0) s s' s'' = Panic) /\
  (~ text_lt v u -> text_lt t u -> ord_clamp (cache_partial_cmp c0) s s' s'' = Ret s') /\
  (~ text_lt v u -> text_lt v t -> ord_clamp (cache_partial_cmp c0) s s' s'' = Ret s'') /\
  (~ text_lt t u -> ~ text_lt v t -> ord_clamp (cache_partial_cmp c0) s s' s'' = Ret s).
Proof.
  intros Hd He Hf.
  assert (K1 : forall a b t u, cache_shows c0 a t -> cache_shows c0 b u ->
    exists r, cache_eq c0 a b = Ret r /\ (r = true <-> t = u))
    by (intros a b x y Ha Hb; exact (proj1 (c30_eq (c63 c0) (inner a) (inner b) x y [] Ha Hb))).
  assert (K2 : forall a b t u, cache_shows c0 a t -> cache_shows c0 b u ->
    exists o, cache_cmp c0 a b = Ret o /\ cache_partial_cmp c0 a b = Ret (Some o) /\
      (o = Eq <-> t = u) /\ (o = Lt <-> text_lt t u) /\ (o = Gt <-> text_lt u t)).
  { intros a b x y Ha Hb. destruct (c31_cmp (c63 c0) (inner a) (inner b) x y Ha Hb) as (o & E & _ & Ho).
    exists o. split; [exact E|]. split; [|exact Ho]. unfold cache_partial_cmp, cache_cmp.
    change (mkcfg (usize_max c0) (debug c0) CACHE_STRING_SIZE) with (c63 c0). rewrite E. reflexivity. }
  pose proof (operators (cache_shows c0) _ _ _ K1 K2 s s' t u Hd He) as (O1 & O2 & O3 & O4 & O5).
  pose proof (max_min (cache_shows c0) _ _ K2 s s' t u Hd He) as (M1 & M2).
  pose proof (clamp (cache_shows c0) _ _ K2 s s' s'' t u v Hd He Hf) as (L1 & L2 & L3 & L4).
  exact (conj O1 (conj O2 (conj O3 (conj O4 (conj O5 (conj M1 (conj M2 (conj L1 (conj L2 (conj L3 L4)))))))))).
Qed.

(** Appending moves a value up in the order, cutting moves it down. *)
Lemma c58_push c s t w s1 : valid_cfg c -> shows c s t -> w <> [] ->
  try_push_str c (enc w) s = (Ret (Ok tt), s1) -> ord_cmp c s s1 = Ret Lt.
Proof.
  intros Hc Hs Hw E. destruct (c05_try_push_str c s t w Hc Hs) as [P1 P2].
  destruct (N.le_gt_cases (blen t + blen w) (cap c)) as [L|L]; [|rewrite (P2 L) in E; discriminate].
  destruct (P1 L) as (s2 & E2 & S2). rewrite E2 in E. injection E as <-.
  destruct (c31_cmp c s s2 t (t ++ w) Hs S2) as (o & Eo & _ & _ & HL & _).
  rewrite Eo. f_equal. apply HL. apply text_lt_app. exact Hw.
Qed.

Lemma cut_law c s t n r s1 : valid_cfg c -> shows c s t ->
  (truncate c n s = (Ret r, s1) -> op_le (partial_cmp c) s1 s = Ret true) /\
  (forall d, split_off c n s = (Ret (Ok d), s1) -> op_le (partial_cmp c) s1 s = Ret true) /\
  (forall x, pop c s = (Ret (Some x), s1) -> op_lt (partial_cmp c) s1 s = Ret true).
Proof.
  intros Hc Hs.
  assert (K : forall t1 u, shows c s1 t1 -> t = t1 ++ u -> op_le (partial_cmp c) s1 s = Ret true).
  { intros t1 u S1 Et. destruct (c58_operators c s1 s t1 t S1 Hs) as (_ & _ & (b & Eb & Hb) & _).
    rewrite Eb. f_equal. apply Hb. destruct u as [|y u]; [right; rewrite Et; symmetry; apply app_nil_r|].
    left. rewrite Et. apply text_lt_app. discriminate. }
  split; [|split].
  - intros E. destruct (truncate_texts c s t n Hc Hs) as (P1 & P2 & P3).
    destruct (N.le_gt_cases (blen t) n) as [L|L].
    + destruct (P1 L) as (s2 & E2 & S2). rewrite E2 in E. injection E as _ <-.
      apply (K t []); [exact S2 | symmetry; apply app_nil_r].
    + destruct (boundary_dec t n) as [(pre & post & Hb)|Hb].
      * destruct (P2 pre post Hb) as (s2 & E2 & S2). rewrite E2 in E. injection E as _ <-.
        apply (K pre post S2). exact (proj1 Hb).
      * rewrite (P3 L Hb) in E. injection E as _ <-. apply (K t []); [exact Hs | symmetry; apply app_nil_r].
  - intros d E. destruct (split_off_inv c s t n d s1 Hc Hs E) as (pre & post & Hb & _ & S1).
    apply (K pre post S1). exact (proj1 Hb).
  - intros x E. destruct (pop_inv c s t x s1 Hc Hs E) as (pre & Et & S1).
    destruct (c58_operators c s1 s pre t S1 Hs) as (_ & (b & Eb & Hb) & _).
    rewrite Eb. f_equal. apply Hb. rewrite Et. apply text_lt_app. discriminate.
Qed.
Lemma exists_last_or (t : text) : t = [] \/ exists u x, t = u ++ [x].
Proof.
  destruct t as [|a t]; [left; reflexivity|right]. destruct (exists_last (l := a :: t)) as (u & x & E); [discriminate|].
  exists u, x. exact E.
Qed.
Lemma c58_cut c s t n : valid_cfg c -> shows c s t ->
  (exists r s1, truncate c n s = (Ret r, s1) /\ op_le (partial_cmp c) s1 s = Ret true) /\
  (exists r s1, split_off c n s = (Ret r, s1) /\ op_le (partial_cmp c) s1 s = Ret true) /\
  (exists x s1, pop c s = (Ret x, s1) /\ op_le (partial_cmp c) s1 s = Ret true /\
     (x <> None -> op_lt (partial_cmp c) s1 s = Ret true)).
Proof.
  intros Hc Hs.
  assert (K : op_le (partial_cmp c) s s = Ret true).
  { destruct (c58_operators c s s t t Hs Hs) as (_ & _ & (b & Eb & Hb) & _). rewrite Eb. f_equal. apply Hb. auto. }
  split; [|split].
  - destruct (truncate_total c s t n Hc Hs) as (r & s1 & u & E & _). exists r, s1. split; [exact E|].
    exact (proj1 (cut_law c s t n r s1 Hc Hs) E).
  - destruct (c28_split_off c s t n Hc Hs) as (H1 & H2 & H3).
    destruct (N.le_gt_cases n (blen t)) as [L|L]; [|exists (Err EOutOfBounds), s; split; [exact (H1 L) | exact K]].
    destruct (boundary_dec t n) as [(pre & post & Hb)|Hb]; [|exists (Err EUtf8), s; split; [exact (H2 L Hb) | exact K]].
    destruct (H3 pre post Hb) as (d & s1 & E & _). exists (Ok d), s1. split; [exact E|].
    exact (proj1 (proj2 (cut_law c s t n (Ok tt) s1 Hc Hs)) d E).
  - destruct (c19_pop c s Hc) as [P0 P1]. destruct (exists_last_or t) as [->|(u & x & ->)].
    + destruct (P0 Hs) as (s1 & E & S1). exists None, s1. split; [exact E|]. split; [|congruence].
      destruct (c58_operators c s1 s [] [] S1 Hs) as (_ & _ & (b & Eb & Hb) & _). rewrite Eb. f_equal. apply Hb. auto.
    + destruct (P1 u x Hs) as (s1 & E & S1). exists (Some x), s1. split; [exact E|].
      assert (G : op_lt (partial_cmp c) s1 s = Ret true) by exact (proj2 (proj2 (cut_law c s _ n (Ok tt) s1 Hc Hs)) x E).
      split; [|intros _; exact G].
      destruct (c58_operators c s1 s u (u ++ [x]) S1 Hs) as (_ & _ & (b & Eb & Hb) & _). rewrite Eb. f_equal. apply Hb.
      left. apply text_lt_app. discriminate.
Qed.
