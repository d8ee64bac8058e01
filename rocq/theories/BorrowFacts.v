(** Facts about the borrow machine, and that the array code is accepted by it. *)
From Coq Require Import Lia.
From Verif Require Import Base Borrows.

Definition tags (L : stack) : list N := map snd L.

(** [shape P f L k]: the stack [k] has the permissions [L] in this order; everything
    above or between them is unprotected (not in [P]) and of other tags; every tag is
    less than [f], and a tag of [L] is greater than all below it. *)
Definition loose (P : list N) (f : N) (L : stack) (i : entry) : Prop :=
  ~ In (snd i) P /\ snd i < f /\ ~ In (snd i) (tags L).
Fixpoint shape (P : list N) (f : N) (L : stack) (k : stack) : Prop :=
  match L with
  | [] => True
  | i :: L' => exists X r, k = X ++ i :: r /\ Forall (loose P f L) X
                           /\ ~ In (snd i) (tags L') /\ snd i < f /\ shape P (snd i) L' r
  end.

Lemma inb_In : forall t l, inb t l = true <-> In t l.
Proof.
  intros t l. unfold inb. rewrite existsb_exists. split.
  - intros (x & H & E). apply N.eqb_eq in E. subst. exact H.
  - intros H. exists t. split; [exact H|apply N.eqb_refl].
Qed.
Lemma inb_not : forall t l, ~ In t l -> inb t l = false.
Proof. intros t l H. destruct (inb t l) eqn:E; [apply inb_In in E; contradiction|reflexivity]. Qed.

Definition disable (i : entry) : entry := if is_unique (fst i) then (Disabled, snd i) else i.

Lemma disable_snd : forall i, snd (disable i) = snd i.
Proof. intros [p u]. unfold disable. cbn. destruct (is_unique p); reflexivity. Qed.

(** Reading passes over permissions of other, unprotected tags. *)
Lemma acc_read_over : forall P t X k k',
  Forall (fun i => ~ In (snd i) P /\ snd i <> t) X ->
  acc_read P t k = Some k' -> acc_read P t (X ++ k) = Some (map disable X ++ k').
Proof.
  intros P t X. induction X as [|[p u] X IH]; intros k k' HX E; [exact E|].
  inversion HX as [|i l [H1 H2] HX']. subst. cbn [app acc_read snd] in *.
  rewrite (proj2 (N.eqb_neq u t) H2). cbn [andb]. rewrite (IH k k' HX' E).
  unfold disable. cbn [map fst snd app]. rewrite (inb_not u P H1).
  destruct (is_unique p); reflexivity.
Qed.
Lemma acc_write_over : forall P t X k,
  Forall (fun i => ~ In (snd i) P /\ snd i <> t) X -> acc_write P t (X ++ k) = acc_write P t k.
Proof.
  intros P t X. induction X as [|[p u] X IH]; intros k HX; [reflexivity|].
  inversion HX as [|i l [H1 H2] HX']. subst. cbn [app acc_write snd] in *.
  rewrite (proj2 (N.eqb_neq u t) H2). cbn [andb]. rewrite (inb_not u P H1). exact (IH k HX').
Qed.

(** [t] may read: it has a permission in [L] with no unique one above it. [t] may
    write: it has a write permission, what is above it is unprotected, and [L'] is
    what remains. *)
Definition reads (L : stack) (t : N) : Prop :=
  exists A p B, L = A ++ (p, t) :: B /\ may_read p = true /\ Forall (fun i => is_unique (fst i) = false) A.
Definition writes (P : list N) (L : stack) (t : N) (L' : stack) : Prop :=
  exists A p B, L = A ++ (p, t) :: B /\ may_write p = true /\ Forall (fun i => ~ In (snd i) P) A
                /\ L' = (p, t) :: B.

Lemma loose_disable : forall P f L X, Forall (loose P f L) X -> Forall (loose P f L) (map disable X).
Proof.
  intros P f L X H. induction H as [|i X Hi HX IH]; [constructor|]. cbn [map]. constructor; [|exact IH].
  unfold loose in *. pose proof (disable_snd i) as E. rewrite E. exact Hi.
Qed.

Lemma loose_other : forall P f L X t, Forall (loose P f L) X -> In t (tags L) ->
  Forall (fun i => ~ In (snd i) P /\ snd i <> t) X.
Proof.
  intros P f L X t H I. eapply Forall_impl; [|exact H]. intros i (H1 & H2 & H3). split; [exact H1|].
  intros E. rewrite E in H3. contradiction.
Qed.

Lemma tags_app : forall A B, tags (A ++ B) = tags A ++ tags B.
Proof. intros. apply map_app. Qed.

Lemma shape_later : forall P f f' L k, f <= f' -> shape P f L k -> shape P f' L k.
Proof.
  intros P f f' L k Hf S. destruct L as [|i L]; [exact I|].
  cbn [shape] in *. destruct S as (X & r & -> & HX & D & Hi & S). exists X, r.
  split; [reflexivity|]. split.
  { eapply Forall_impl; [|exact HX]. intros j (H1 & H2 & H3). unfold loose. split; [exact H1|]. split; [lia|exact H3]. }
  split; [exact D|]. split; [lia|]. exact S.
Qed.

Lemma shape_read : forall P f L t k, shape P f L k -> reads L t ->
  exists k', acc_read P t k = Some k' /\ shape P f L k'.
Proof.
  intros P f L t k S (A & p & B & -> & Hp & HA). revert f k S.
  induction A as [|i A IH]; intros f k S.
  - cbn [app shape] in S. destruct S as (X & r & -> & HX & D & Hf & S).
    exists (map disable X ++ (p, t) :: r). split.
    + apply acc_read_over; [eapply loose_other; [exact HX|left; reflexivity]|].
      cbn [acc_read]. rewrite N.eqb_refl, Hp. reflexivity.
    + cbn [app shape]. exists (map disable X), r.
      split; [reflexivity|]. split; [exact (loose_disable _ _ _ _ HX)|]. split; [exact D|]. split; assumption.
  - inversion HA as [|i' A' Hi HA']. subst. cbn [app] in S. cbn [shape] in S.
    destruct S as (X & r & -> & HX & D & Hf & S). destruct (IH HA' _ r S) as (r' & E & S').
    exists (map disable X ++ i :: r'). split.
    + apply acc_read_over.
      { eapply loose_other; [exact HX|]. cbn [tags map]. right. fold (tags (A ++ (p, t) :: B)).
        rewrite tags_app. apply in_or_app. right. left. reflexivity. }
      destruct i as [q u]. cbn [acc_read fst] in *.
      assert (Hu : u <> t).
      { intros ->. apply D. rewrite tags_app. apply in_or_app. right. left. reflexivity. }
      rewrite (proj2 (N.eqb_neq u t) Hu). cbn [andb]. rewrite E, Hi. reflexivity.
    + change ((i :: A) ++ (p, t) :: B) with (i :: (A ++ (p, t) :: B)) in *. cbn [shape].
      exists (map disable X), r'. split; [reflexivity|].
      split; [exact (loose_disable _ _ _ _ HX)|]. split; [exact D|]. split; assumption.
Qed.

Lemma shape_write : forall P f L t L' k, shape P f L k -> writes P L t L' ->
  exists k', acc_write P t k = Some k' /\ shape P f L' k'.
Proof.
  intros P f L t L' k S (A & p & B & -> & Hp & HA & ->). revert f k S.
  induction A as [|i A IH]; intros f k S.
  - cbn [app shape] in S. destruct S as (X & r & -> & HX & D & Hf & S).
    exists ((p, t) :: r). split.
    + rewrite acc_write_over; [|eapply loose_other; [exact HX|left; reflexivity]].
      cbn [acc_write]. rewrite N.eqb_refl, Hp. reflexivity.
    + cbn [shape]. exists [], r. split; [reflexivity|]. split; [constructor|]. split; [exact D|]. split; assumption.
  - inversion HA as [|i' A' Hi HA']. subst. cbn [app] in S. cbn [shape] in S.
    destruct S as (X & r & -> & HX & D & Hf & S). destruct (IH HA' _ r S) as (r' & E & S').
    exists r'. split; [|eapply shape_later; [|exact S']; lia].
    rewrite acc_write_over.
    + destruct i as [q u]. cbn [acc_write snd] in *.
      assert (Hu : u <> t).
      { intros ->. apply D. rewrite tags_app. apply in_or_app. right. left. reflexivity. }
      rewrite (proj2 (N.eqb_neq u t) Hu). cbn [andb]. rewrite (inb_not u P Hi). exact E.
    + eapply loose_other; [exact HX|]. cbn [tags map]. right. fold (tags (A ++ (p, t) :: B)).
      rewrite tags_app. apply in_or_app. right. left. reflexivity.
Qed.

Lemma shape_tags : forall P f L k, shape P f L k -> Forall (fun u => u < f) (tags L).
Proof.
  intros P f L. revert f. induction L as [|i L IH]; intros f k S; [constructor|].
  cbn [shape] in S. destruct S as (X & r & -> & HX & D & Hi & S). cbn. constructor; [exact Hi|].
  eapply Forall_impl; [|exact (IH (snd i) r S)]. cbn. intros; lia.
Qed.

Lemma shape_push : forall P f L p k, shape P f L k -> shape P (f + 1) ((p, f) :: L) ((p, f) :: k).
Proof.
  intros P f L p k S. cbn [shape]. exists [], k. split; [reflexivity|]. split; [constructor|].
  split.
  { intros H. pose proof (shape_tags P f L k S) as B. rewrite Forall_forall in B. specialize (B f H). cbn in B. lia. }
  split; [cbn; lia|]. exact S.
Qed.

(** A tag that is not older than the stack can be protected without touching it. *)
Lemma shape_protect : forall P f t L k, f <= t -> shape P f L k -> shape (t :: P) f L k.
Proof.
  intros P f t L. revert f. induction L as [|i L IH]; intros f k Hf S; [exact I|].
  cbn [shape] in *. destruct S as (X & r & -> & HX & D & Hi & S). exists X, r.
  split; [reflexivity|]. split.
  { eapply Forall_impl; [|exact HX]. intros j (H1 & H2 & H3). split; [|split; assumption].
    intros [H|H]; [lia|contradiction]. }
  split; [exact D|]. split; [exact Hi|]. apply IH; [lia|exact S].
Qed.
Lemma shape_push_protect : forall P f L p k, shape P f L k ->
  shape (f :: P) (f + 1) ((p, f) :: L) ((p, f) :: k).
Proof. intros. apply shape_push. apply shape_protect; [lia|assumption]. Qed.

Lemma shape_unprotect : forall P f t L k, shape (t :: P) f L k -> shape P f L k.
Proof.
  intros P f t L. revert f. induction L as [|i L IH]; intros f k S; [exact I|].
  cbn [shape] in *. destruct S as (X & r & -> & HX & D & Hf & S). exists X, r.
  split; [reflexivity|]. split.
  { eapply Forall_impl; [|exact HX]. intros j (H1 & H2). split; [|exact H2]. intros H. apply H1. right. exact H. }
  split; [exact D|]. split; [exact Hf|]. exact (IH _ r S).
Qed.

(** Unprotected permissions can be forgotten. *)
Inductive drops (P : list N) : stack -> stack -> Prop :=
| drops_refl : forall L, drops P L L
| drops_keep : forall i L L', drops P L L' -> drops P (i :: L) (i :: L')
| drops_skip : forall i L L', ~ In (snd i) P -> drops P L L' -> drops P (i :: L) L'.

Lemma drops_tags : forall P L L' t, drops P L L' -> In t (tags L') -> In t (tags L).
Proof.
  intros P L L' t D. induction D as [L|i L L' D IH|i L L' Hn D IH]; intros H; [exact H| |right; auto].
  destruct H as [H|H]; [left; exact H|right; auto].
Qed.

Lemma shape_drops : forall P L L', drops P L L' -> forall f k, shape P f L k -> shape P f L' k.
Proof.
  intros P L L' D. induction D as [L|i L L' D IH|i L L' Hi D IH]; intros f k S; [exact S| |].
  - cbn [shape] in *. destruct S as (X & r & -> & HX & D1 & Hf & S). exists X, r.
    split; [reflexivity|]. split.
    { eapply Forall_impl; [|exact HX]. intros j (H1 & H2 & H3). split; [exact H1|]. split; [exact H2|].
      intros H. apply H3. destruct H as [H|H]; [left; exact H|right; eapply drops_tags; eauto]. }
    split; [intros H; apply D1; eapply drops_tags; eauto|]. split; [exact Hf|]. exact (IH _ r S).
  - cbn [shape] in S. destruct S as (X & r & -> & HX & D1 & Hf & S). specialize (IH _ r S).
    destruct L' as [|j L']; [exact I|]. cbn [shape] in *. destruct IH as (Y & r' & -> & HY & S').
    exists (X ++ i :: Y), r'. split; [rewrite <- app_assoc; reflexivity|].
    split; [|destruct S' as (S1 & S2 & S3); split; [exact S1|]; split; [lia|exact S3]].
    apply Forall_app. split.
    + eapply Forall_impl; [|exact HX]. intros x (H1 & H2 & H3). split; [exact H1|]. split; [exact H2|].
      intros H. apply H3. right. exact (drops_tags P L (j :: L') _ D H).
    + constructor.
      * split; [exact Hi|]. split; [exact Hf|]. intros H. apply D1. exact (drops_tags P L (j :: L') _ D H).
      * eapply Forall_impl; [|exact HY]. intros x (H1 & H2 & H3). split; [exact H1|]. split; [lia|exact H3].
Qed.

Lemma reads_here : forall p t B, may_read p = true -> reads ((p, t) :: B) t.
Proof. intros p t B H. exists [], p, B. split; [reflexivity|]. split; [exact H|constructor]. Qed.
Lemma reads_skip : forall p u L t, is_unique p = false -> reads L t -> reads ((p, u) :: L) t.
Proof.
  intros p u L t H (A & q & B & -> & Hq & HA). exists ((p, u) :: A), q, B.
  split; [reflexivity|]. split; [exact Hq|]. constructor; assumption.
Qed.
Lemma writes_here : forall P p t B, may_write p = true -> writes P ((p, t) :: B) t ((p, t) :: B).
Proof. intros P p t B H. exists [], p, B. split; [reflexivity|]. split; [exact H|]. split; [constructor|reflexivity]. Qed.
Lemma writes_skip : forall P p u L t L', ~ In u P -> writes P L t L' -> writes P ((p, u) :: L) t L'.
Proof.
  intros P p u L t L' H (A & q & B & -> & Hq & HA & ->). exists ((p, u) :: A), q, B.
  split; [reflexivity|]. split; [exact Hq|]. split; [constructor; assumption|reflexivity].
Qed.

(** ** Families of stacks: the addresses [0..m] *)
Definition fam (m : N) (F : N -> stack) (b : borrows) : Prop :=
  Forall (fun u => u < fresh b) (prot b) /\
  forall l, l <= m -> shape (prot b) (fresh b) (F l) (stacks b l).
Definition over (lo n : N) (F G : N -> stack) (l : N) : stack := if within lo n l then F l else G l.

Lemma within_iff : forall lo n l, within lo n l = true <-> lo <= l < lo + n.
Proof. intros. unfold within. rewrite andb_true_iff, N.leb_le, N.ltb_lt. lia. Qed.
Lemma addresses_In : forall lo n l, In l (addresses lo n) <-> within lo n l = true.
Proof.
  intros lo n l. rewrite within_iff. unfold addresses. rewrite in_map_iff. split.
  - intros (k & <- & H). apply in_seq in H. lia.
  - intros H. exists (N.to_nat (l - lo)). split; [lia|]. apply in_seq. lia.
Qed.

Lemma access_ok : forall (w : bool) t lo n m (F F' : N -> stack) b,
  fam m F b -> lo + n <= m + 1 ->
  (forall l, lo <= l < lo + n -> if w then writes (prot b) (F l) t (F' l) else F' l = F l /\ reads (F l) t) ->
  exists b', access w t lo n b = (Ret tt, b') /\ fam m (over lo n F' F) b'
             /\ prot b' = prot b /\ fresh b' = fresh b.
Proof.
  intros w t lo n m F F' b [HP HF] Hm HW.
  assert (E : forall l, lo <= l < lo + n -> exists k',
    (if w then acc_write else acc_read) (prot b) t (stacks b l) = Some k'
    /\ shape (prot b) (fresh b) (F' l) k').
  { intros l Hl. specialize (HW l Hl). assert (Hl' : l <= m) by lia. specialize (HF l Hl'). destruct w.
    - exact (shape_write _ _ _ _ _ _ HF HW).
    - destruct HW as [-> HW]. exact (shape_read _ _ _ _ _ HF HW). }
  unfold access.
  match goal with |- context [forallb ?g ?l] => assert (A : forallb g l = true) end.
  { apply forallb_forall. intros l Hl. apply addresses_In, within_iff in Hl.
    destruct (E l Hl) as (k' & -> & _). reflexivity. }
  rewrite A. eexists. split; [reflexivity|]. split; [|split; reflexivity].
  split; [exact HP|].
  intros l Hl. cbn [stacks fresh prot]. unfold over. destruct (within lo n l) eqn:W.
  - apply within_iff in W. destruct (E l W) as (k' & -> & S). exact S.
  - exact (HF l Hl).
Qed.

Lemma reborrow_ok : forall p t lo n m (F F' : N -> stack) b,
  fam m F b -> lo + n <= m + 1 ->
  (forall l, lo <= l < lo + n ->
     if may_write p then writes (prot b) (F l) t (F' l) else F' l = F l /\ reads (F l) t) ->
  exists b', reborrow p t lo n b = (Ret (fresh b), b')
             /\ fam m (over lo n (fun l => (p, fresh b) :: F' l) F) b'
             /\ prot b' = prot b /\ fresh b' = fresh b + 1
             /\ fam m (over lo n (fun l => (p, fresh b) :: F' l) F) (protect (fresh b) b').
Proof.
  intros p t lo n m F F' b HF Hm HW.
  destruct (access_ok (may_write p) t lo n m F F' b HF Hm HW) as (b1 & E & [HP F1] & P1 & f1).
  unfold reborrow. rewrite E, f1, P1. eexists. split; [reflexivity|].
  rewrite P1, f1 in HP.
  assert (HP' : Forall (fun u => u < fresh b + 1) (prot b)).
  { eapply Forall_impl; [|exact HP]. cbn. intros; lia. }
  split; [|split; [reflexivity|split; [reflexivity|]]]; unfold protect;
    (split; [cbn [prot fresh]; try constructor; first [exact HP'|cbn; lia]|]);
    intros l Hl; specialize (F1 l Hl); cbn [stacks fresh prot]; rewrite f1, P1 in F1;
    unfold over in *; destruct (within lo n l).
  - apply shape_push. exact F1.
  - eapply shape_later; [|exact F1]. lia.
  - apply shape_push_protect. exact F1.
  - eapply shape_later; [|apply shape_protect; [|exact F1]]; lia.
Qed.

Lemma fam_unprotect : forall m F b t P, fam m F b -> prot b = t :: P ->
  fam m F (unprotect b) /\ prot (unprotect b) = P /\ fresh (unprotect b) = fresh b.
Proof.
  intros m F b t P [HP H] E. unfold unprotect. cbn [prot fresh]. rewrite E. split; [|split; reflexivity].
  rewrite E in HP. split; [cbn [prot fresh tl]; inversion HP; assumption|].
  intros l Hl. cbn [prot fresh stacks]. specialize (H l Hl). rewrite E in H. cbn [tl].
  exact (shape_unprotect _ _ t _ _ H).
Qed.
Lemma fam_drops : forall m F F' b, fam m F b -> (forall l, l <= m -> drops (prot b) (F l) (F' l)) -> fam m F' b.
Proof. intros m F F' b [HP H] D. split; [exact HP|]. intros l Hl. exact (shape_drops _ _ _ (D l Hl) _ _ (H l Hl)). Qed.
Lemma fam_new : forall m F b u, fam m F b -> fresh b <= u -> ~ In u (prot b).
Proof. intros m F b u [HP _] Hu I. rewrite Forall_forall in HP. specialize (HP u I). cbn in HP. lia. Qed.
