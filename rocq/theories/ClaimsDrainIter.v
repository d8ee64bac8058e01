(** What core's provided iterator methods do on a [Drain] (C56). *)
From Coq Require Import ZArith ZifyBool ZifyN ZifyNat Arith.
From Verif Require Import Base Char Spec RustIter ModelError Model ModelImpl ModelDrain TextOps IterSpec
  ListFacts Utf8Facts CoreFacts MethodFacts IterFacts ImplFacts DrainFacts Obs ClaimsEdit ClaimsIter ClaimsTrait.

Section Facts.
Variable c : cfg.
Hypothesis Hc : valid_cfg c.

Lemma next_cons d a t : shows c (drained d) (a :: t) ->
  exists d', drain_next c d = (Ret (Some a), d') /\ shows c (drained d') t.
Proof.
  intros Hs. apply shows_rep in Hs. destruct (drain_next_rep c Hc d _ Hs) as (d' & E & R).
  exists d'. split; [exact E | apply shows_rep; exact R].
Qed.
Lemma next_nil d : shows c (drained d) [] ->
  exists d', drain_next c d = (Ret None, d') /\ shows c (drained d') [].
Proof.
  intros Hs. apply shows_rep in Hs. destruct (drain_next_rep c Hc d _ Hs) as (d' & E & R).
  exists d'. split; [exact E | apply shows_rep; exact R].
Qed.
Lemma back_cons d a t : shows c (drained d) (t ++ [a]) ->
  exists d', drain_next_back c d = (Ret (Some a), d') /\ shows c (drained d') t.
Proof.
  intros Hs. apply shows_rep in Hs. destruct (drain_next_back_rep c Hc d _ Hs) as (d' & E & R).
  unfold t_deque_step in E, R. rewrite t_pop_snoc in E, R.
  exists d'. split; [exact E | apply shows_rep; exact R].
Qed.
Lemma back_nil d : shows c (drained d) [] ->
  exists d', drain_next_back c d = (Ret None, d') /\ shows c (drained d') [].
Proof.
  intros Hs. apply shows_rep in Hs. destruct (drain_next_back_rep c Hc d _ Hs) as (d' & E & R).
  exists d'. split; [exact E | apply shows_rep; exact R].
Qed.

Lemma nth_shows n : forall d t, shows c (drained d) t ->
  exists d', iter_nth (drain_next c) n d = (Ret (nth_error t n), d') /\ shows c (drained d') (skipn (S n) t).
Proof.
  induction n as [|n IH]; intros d [|a t] Hs; cbn [iter_nth].
  - destruct (next_nil d Hs) as (d' & E & S'). exists d'. split; [exact E | exact S'].
  - destruct (next_cons d a t Hs) as (d' & E & S'). exists d'. split; [exact E | exact S'].
  - destruct (next_nil d Hs) as (d' & E & S'). exists d'. unfold sbind. rewrite E. split; [reflexivity | exact S'].
  - destruct (next_cons d a t Hs) as (d1 & E & S1). destruct (IH d1 t S1) as (d' & E' & S').
    exists d'. unfold sbind. rewrite E. split; [exact E' | exact S'].
Qed.
Lemma nth_back_shows n : forall d t, shows c (drained d) (rev t) ->
  exists d', iter_nth (drain_next_back c) n d = (Ret (nth_error t n), d') /\
    shows c (drained d') (rev (skipn (S n) t)).
Proof.
  induction n as [|n IH]; intros d [|a t] Hs; cbn [iter_nth].
  - destruct (back_nil d Hs) as (d' & E & S'). exists d'. split; [exact E | exact S'].
  - destruct (back_cons d a (rev t) Hs) as (d' & E & S'). exists d'. split; [exact E | exact S'].
  - destruct (back_nil d Hs) as (d' & E & S'). exists d'. unfold sbind. rewrite E. split; [reflexivity | exact S'].
  - destruct (back_cons d a (rev t) Hs) as (d1 & E & S1). destruct (IH d1 t S1) as (d' & E' & S').
    exists d'. unfold sbind. rewrite E. split; [exact E' | exact S'].
Qed.

Lemma for_each_all {X} (f : char -> ST X unit) t : forall d x us x' fuel, shows c (drained d) t ->
  visits f x t us x' -> (length t < fuel)%nat ->
  exists d', iter_for_each (drain_next c) fuel f d x = (Ret tt, d', x') /\ shows c (drained d') [].
Proof.
  unfold iter_for_each.
  induction t as [|a t IH]; intros d x us x' fuel Hs V L; (destruct fuel as [|fuel]; [cbn in L; lia|]); cbn [for_loop].
  - destruct (next_nil d Hs) as (d' & E & S'). rewrite E. inversion V; subst. exists d'. split; [reflexivity | exact S'].
  - destruct (next_cons d a t Hs) as (d1 & E & S1). rewrite E. inversion V; subst.
    unfold sbind. match goal with H : f a x = _ |- _ => rewrite H end. cbn [sret].
    eapply IH; [exact S1 | eassumption | cbn in L; lia].
Qed.
Lemma for_each_stop {X} (f : char -> ST X unit) pre : forall d x us x1 x2 a post fuel,
  shows c (drained d) (pre ++ a :: post) -> visits f x pre us x1 -> f a x1 = (Panic, x2) -> (length pre < fuel)%nat ->
  exists d', iter_for_each (drain_next c) fuel f d x = (Panic, d', x2) /\ shows c (drained d') post.
Proof.
  unfold iter_for_each.
  induction pre as [|b pre IH]; intros d x us x1 x2 a post fuel Hs V P L;
    (destruct fuel as [|fuel]; [cbn in L; lia|]); cbn [for_loop app] in *.
  - destruct (next_cons d a post Hs) as (d1 & E & S1). rewrite E. inversion V; subst.
    unfold sbind. rewrite P. exists d1. split; [reflexivity | exact S1].
  - destruct (next_cons d b _ Hs) as (d1 & E & S1). rewrite E. inversion V; subst.
    unfold sbind. match goal with H : f b x = _ |- _ => rewrite H end. cbn [sret].
    eapply IH; [exact S1 | eassumption | exact P | cbn in L; lia].
Qed.

Lemma visits_fold {X} (g : char -> X -> X) t : forall x,
  exists us, visits (fun a => smodify (g a)) x t us (fold_left (fun x a => g a x) t x).
Proof.
  induction t as [|a t IH]; intros x; [exists []; constructor|].
  destruct (IH (g a x)) as [us V]. exists (tt :: us). econstructor; [reflexivity | exact V].
Qed.
Lemma fold_count (t : text) n : fold_left (fun x _ => x + 1) t n = n + lenN t.
Proof. revert n. induction t as [|a t IH]; intros n; cbn [fold_left lenN length]; [unfold lenN; cbn; lia|]. rewrite IH. unfold lenN. cbn [length]. lia. Qed.
Lemma fold_collect (t v : text) : fold_left (fun x a => x ++ [a]) t v = v ++ t.
Proof. revert v. induction t as [|a t IH]; intros v; cbn [fold_left]; [rewrite app_nil_r; reflexivity|]. rewrite IH, <- app_assoc. reflexivity. Qed.
Lemma fold_last (t : text) a o : fold_left (fun (_ : option char) x => Some x) (t ++ [a]) o = Some a.
Proof. rewrite fold_left_app. reflexivity. Qed.

Lemma find_shows {X} (p : char -> ST X bool) pre : forall d x bs x1 t fuel,
  shows c (drained d) (pre ++ t) -> visits p x pre bs x1 -> Forall (fun b => b = false) bs -> (length pre < fuel)%nat ->
  (t = [] -> exists d', iter_find (drain_next c) fuel p d x = (Ret None, d', x1) /\ shows c (drained d') []) /\
  (forall a post x2, t = a :: post -> p a x1 = (Ret true, x2) ->
     exists d', iter_find (drain_next c) fuel p d x = (Ret (Some a), d', x2) /\ shows c (drained d') post) /\
  (forall a post x2, t = a :: post -> p a x1 = (Panic, x2) ->
     exists d', iter_find (drain_next c) fuel p d x = (Panic, d', x2) /\ shows c (drained d') post).
Proof.
  unfold iter_find.
  induction pre as [|b pre IH]; intros d x bs x1 t fuel Hs V F L;
    (destruct fuel as [|fuel]; [cbn in L; lia|]); cbn [for_loop app] in *.
  - inversion V; subst. split; [|split].
    + intros ->. destruct (next_nil d Hs) as (d' & E & S'). rewrite E. exists d'. split; [reflexivity | exact S'].
    + intros a post x2 -> P. destruct (next_cons d a post Hs) as (d1 & E & S1). rewrite E.
      unfold sbind. rewrite P. exists d1. split; [reflexivity | exact S1].
    + intros a post x2 -> P. destruct (next_cons d a post Hs) as (d1 & E & S1). rewrite E.
      unfold sbind. rewrite P. exists d1. split; [reflexivity | exact S1].
  - destruct (next_cons d b _ Hs) as (d1 & E & S1). rewrite E. inversion V; subst. inversion F; subst.
    unfold sbind at 1 3 5. match goal with H : p b x = _ |- _ => rewrite H end. cbn [sret].
    eapply IH; [exact S1 | eassumption | assumption | cbn in L; lia].
Qed.

Lemma back_yields t : forall d, shows c (drained d) (rev t) ->
  exists d', yields (drain_next_back c) d t d' /\ shows c (drained d') [].
Proof.
  induction t as [|a t IH]; intros d Hs.
  - exists d. split; [constructor | exact Hs].
  - destruct (back_cons d a (rev t) Hs) as (d1 & E & S1). destruct (IH d1 S1) as (d' & Y & S').
    exists d'. split; [econstructor; eassumption | exact S'].
Qed.
End Facts.

(** ** C56 *)
(** Skipping: [nth] from either end. *)
Lemma c56_nth c d t n : valid_cfg c -> shows c (drained d) t ->
  (exists d', iter_nth (drain_next c) n d = (Ret (nth_error t n), d') /\ shows c (drained d') (skipn (S n) t)) /\
  (exists d', iter_nth (drain_next_back c) n d = (Ret (nth_error (rev t) n), d') /\
     shows c (drained d') (rev (skipn (S n) (rev t)))).
Proof.
  intros Hc Hs. split; [exact (nth_shows c Hc n d t Hs)|]. apply (nth_back_shows c Hc). rewrite rev_involutive. exact Hs.
Qed.

(** Folding: [count], [last] and [collect]. *)
Lemma c56_folds c d t fuel : valid_cfg c -> shows c (drained d) t -> (length t < fuel)%nat ->
  exists d', shows c (drained d') [] /\
    iter_count (drain_next c) fuel d = (Ret (lenN t), d') /\
    iter_last (drain_next c) fuel d = (Ret (hd_error (rev t)), d') /\
    iter_collect (drain_next c) fuel d = (Ret t, d').
Proof.
  intros Hc Hs L. unfold iter_count, iter_last, iter_collect.
  destruct (visits_fold (fun (_ : char) (n : N) => n + 1) t 0) as [u1 V1].
  destruct (visits_fold (fun (a : char) (_ : option char) => Some a) t None) as [u2 V2].
  destruct (visits_fold (fun (a : char) (v : list char) => v ++ [a]) t []) as [u3 V3].
  destruct (for_each_all c Hc _ t d _ _ _ fuel Hs V1 L) as (d1 & E1 & S1).
  destruct (for_each_all c Hc _ t d _ _ _ fuel Hs V2 L) as (d2 & E2 & S2).
  destruct (for_each_all c Hc _ t d _ _ _ fuel Hs V3 L) as (d3 & E3 & S3).
  rewrite fold_count in E1. rewrite fold_collect in E3.
  assert (Y : exists d', ends (drain_iterator c) d t d') by (destruct (c27_iterator c d t Hc Hs) as (x & H & _); eauto).
  (* the iterator does not depend on the closure *)
  assert (K : forall X (f : char -> ST X unit) t d x us x', visits f x t us x' -> forall fuel d1 x1 d0,
    iter_for_each (drain_next c) fuel f d x = (Ret tt, d1, x1) -> ends (drain_iterator c) d t d0 -> d1 = d0).
  { clear. unfold iter_for_each. intros X f t. induction t as [|a t IH]; intros d x us x' V fuel d1 x1 d0 E [i1 [Yi Ni]].
    - inversion Yi; subst. destruct fuel as [|fuel]; cbn [for_loop] in E; [discriminate E|].
      unfold drain_iterator in Ni. rewrite Ni in E. injection E as <- _. reflexivity.
    - inversion Yi; subst. inversion V; subst. destruct fuel as [|fuel]; cbn [for_loop] in E; [discriminate E|].
      match goal with H : drain_iterator c d = _ |- _ => unfold drain_iterator in H; rewrite H in E end.
      unfold sbind in E at 1. match goal with H : f a x = _ |- _ => rewrite H in E end. cbn [sret] in E.
      eapply IH; [eassumption | exact E | exists i1; split; assumption]. }
  destruct Y as [d0 Y].
  rewrite (K _ _ _ _ _ _ _ V1 _ _ _ _ E1 Y) in E1. rewrite (K _ _ _ _ _ _ _ V2 _ _ _ _ E2 Y) in E2.
  pose proof (K _ _ _ _ _ _ _ V3 _ _ _ _ E3 Y) as ->.
  exists d0. split; [exact S3|]. rewrite E1, E2, E3. cbn [run_fold omap obind app]. split; [rewrite N.add_0_l; reflexivity|].
  split; [|reflexivity]. f_equal. f_equal. clear. destruct t as [|a t] using rev_ind; [reflexivity|].
  rewrite fold_last, rev_app_distr. reflexivity.
Qed.

(** [for_each] with any closure: every character once, in order; if the closure
    panics the drain holds exactly the characters not yet handed out. *)
Lemma c56_for_each c {X} (f : char -> ST X unit) d x fuel : valid_cfg c ->
  (forall t us x', shows c (drained d) t -> (length t < fuel)%nat -> visits f x t us x' ->
     exists d', iter_for_each (drain_next c) fuel f d x = (Ret tt, d', x') /\ shows c (drained d') []) /\
  (forall pre a post us x1 x2, shows c (drained d) (pre ++ a :: post) -> (length pre < fuel)%nat ->
     visits f x pre us x1 -> f a x1 = (Panic, x2) ->
     exists d', iter_for_each (drain_next c) fuel f d x = (Panic, d', x2) /\ shows c (drained d') post).
Proof.
  intros Hc. split.
  - intros t us x' Hs L V. exact (for_each_all c Hc f t d x us x' fuel Hs V L).
  - intros pre a post us x1 x2 Hs L V P. exact (for_each_stop c Hc f pre d x us x1 x2 a post fuel Hs V P L).
Qed.

(** [find]: the first character accepted; what follows it stays in the drain. *)
Lemma c56_find c {X} (p : char -> ST X bool) d x fuel pre bs x1 t : valid_cfg c ->
  shows c (drained d) (pre ++ t) -> (length pre < fuel)%nat -> visits p x pre bs x1 -> Forall (fun b => b = false) bs ->
  (t = [] -> exists d', iter_find (drain_next c) fuel p d x = (Ret None, d', x1) /\ shows c (drained d') []) /\
  (forall a post x2, t = a :: post -> p a x1 = (Ret true, x2) ->
     exists d', iter_find (drain_next c) fuel p d x = (Ret (Some a), d', x2) /\ shows c (drained d') post) /\
  (forall a post x2, t = a :: post -> p a x1 = (Panic, x2) ->
     exists d', iter_find (drain_next c) fuel p d x = (Panic, d', x2) /\ shows c (drained d') post).
Proof. intros Hc Hs L V F. exact (find_shows c Hc p pre d x bs x1 t fuel Hs V F L). Qed.

(** [rev()]: the text backwards, then [None]. *)
Lemma c56_rev c d t : valid_cfg c -> shows c (drained d) t ->
  exists d', ends (drain_next_back c) d (rev t) d' /\ shows c (drained d') [].
Proof.
  intros Hc Hs. rewrite <- (rev_involutive t) in Hs. destruct (back_yields c Hc (rev t) d Hs) as (d1 & Y & S1).
  destruct (back_nil c Hc d1 S1) as (d' & E & S'). exists d'. split; [exists d1; split; assumption | exact S'].
Qed.

(** Moving text: a drain of any capacity extends a string by what fits. *)
Lemma c56_move c c' s t d u : valid_cfg c -> valid_cfg c' -> shows c s t -> shows c' (drained d) u ->
  exists p s' d', longest_fit (cap c - blen t) u p /\
    extend_chars c (char_fuel c) (drain_iterator c') d s = (Ret tt, d', s') /\ shows c s' (t ++ p).
Proof.
  intros Hc Hc' Hs Hd. destruct (c27_iterator c' d u Hc' Hd) as (d1 & E & _).
  destruct (c33_extend_chars c (drain_iterator c') d u d1 s t Hc Hs E) as (p & s' & it1 & Hp & E1 & _ & S1).
  exists p, s', it1. split; [exact Hp|]. split; [exact E1 | exact S1].
Qed.
