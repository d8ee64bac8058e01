(** The draining iterator in terms of texts. *)
From Coq Require Import ZArith ZifyBool ZifyN ZifyNat Arith.
From Verif Require Import Base Char Spec RustStd ModelError Model ModelImpl ModelDrain TextOps IterSpec
  ListFacts Utf8Facts CoreFacts MethodFacts IterFacts OrderFacts ImplFacts.

Section Facts.
Variable c : cfg.
Hypothesis Hc : valid_cfg c.

Lemma t_remove_first x t : t_remove 0 (x :: t) = (Ok x, t).
Proof.
  unfold t_remove. rewrite blen_cons. pose proof (clen_range x) as H.
  destruct (N.leb_spec (clen x + blen t) 0); [lia|]. cbn [split_at]. rewrite N.eqb_refl. reflexivity.
Qed.

Lemma t_remove_nil i : t_remove i [] = (Err EOutOfBounds, []).
Proof. unfold t_remove. cbn [blen]. destruct (N.leb_spec 0 i); [reflexivity|lia]. Qed.

Lemma drain_next_rep d t : rep c (drained d) t ->
  exists d', drain_next c d = (Ret (fst (t_deque_step true t)), d') /\
    rep c (drained d') (snd (t_deque_step true t)).
Proof.
  intros R. unfold drain_next.
  destruct (remove_runs c Hc 0 _ _ R) as (s' & E & R' & Hs).
  assert (Eo : on_drained (remove c 0) d = (Ret (fst (t_remove 0 t)), mkDrain s'))
    by (unfold on_drained; rewrite E; reflexivity).
  erewrite sbind_ret by exact Eo. exists (mkDrain s').
  destruct t as [|x t].
  - rewrite t_remove_nil in *. split; [reflexivity | exact R'].
  - rewrite t_remove_first in *. split; [reflexivity | exact R'].
Qed.

Lemma drain_next_back_rep d t : rep c (drained d) t ->
  exists d', drain_next_back c d = (Ret (fst (t_deque_step false t)), d') /\
    rep c (drained d') (snd (t_deque_step false t)).
Proof.
  intros R. unfold drain_next_back, on_drained.
  destruct (pop_runs c Hc _ _ R) as (s' & E & R'). rewrite E. exists (mkDrain s'). auto.
Qed.

Lemma drain_calls_rep sched d t : rep c (drained d) t ->
  exists d', drain_calls c sched d = (Ret (fst (t_deque sched t)), d') /\
    rep c (drained d') (snd (t_deque sched t)).
Proof.
  revert d t; induction sched as [|f r IH]; intros d t R; cbn [drain_calls t_deque].
  - exists d. split; [reflexivity | exact R].
  - assert (H : exists d', (if f then drain_next c else drain_next_back c) d = (Ret (fst (t_deque_step f t)), d') /\
        rep c (drained d') (snd (t_deque_step f t)))
      by (destruct f; [apply drain_next_rep | apply drain_next_back_rep]; exact R).
    destruct H as (d1 & E1 & R1). erewrite sbind_ret by exact E1.
    destruct (t_deque_step f t) as [o t1]. cbn [fst snd] in *.
    destruct (IH d1 t1 R1) as (d2 & E2 & R2). erewrite sbind_ret by exact E2.
    exists d2. destruct (t_deque r t1) as [os t2]. split; [reflexivity | exact R2].
Qed.

Lemma drain_iter_runs lo hi s t : rep c s t ->
  exists s', rep c s' (snd (t_drain (usize_max c) lo hi t)) /\
    match fst (t_drain (usize_max c) lo hi t) with
    | Ok m => exists d, drain_iter c lo hi s = (Ret (Ok d), s') /\ rep c (drained d) m
    | Err e => drain_iter c lo hi s = (Ret (Err e), s') /\ s' = s
    end.
Proof.
  intros R. destruct (drain_runs c Hc lo hi s t R) as (s' & R' & H). exists s'. split; [exact R'|].
  unfold drain_iter. destruct (fst (t_drain (usize_max c) lo hi t)) as [m|e].
  - destruct H as (d & E & Rd). exists (mkDrain d). erewrite sbind_ret by exact E. split; [reflexivity|exact Rd].
  - destruct H as [E Es]. erewrite sbind_ret by exact E. split; [reflexivity|exact Es].
Qed.

(** As an iterator: hands out the characters in order, then [None] for ever. *)
Lemma drain_ends d t : rep c (drained d) t -> exists d', ends (drain_iterator c) d t d' /\ rep c (drained d') [].
Proof.
  revert d; induction t as [|x t IH]; intros d R.
  - destruct (drain_next_rep d [] R) as (d' & E & R'). exists d'. split; [|exact R'].
    exists d. split; [constructor | exact E].
  - destruct (drain_next_rep d _ R) as (d1 & E & R1). cbn in E, R1.
    destruct (IH d1 R1) as (d2 & (d3 & Hy & Hn) & R2). exists d2. split; [|exact R2].
    exists d3. split; [|exact Hn]. econstructor; [exact E | exact Hy].
Qed.

End Facts.

(** ** The double-ended queue on texts *)
Lemma t_deque_all sched t :
  t = taken true sched (fst (t_deque sched t)) ++ snd (t_deque sched t)
      ++ rev (taken false sched (fst (t_deque sched t))).
Proof.
  revert t; induction sched as [|f r IH]; intros t; cbn [t_deque].
  - cbn. rewrite app_nil_r. reflexivity.
  - destruct (t_deque_step f t) as [o t1] eqn:E. specialize (IH t1).
    destruct (t_deque r t1) as [os t2]. cbn [fst snd taken] in *.
    destruct f; cbn in E.
    + destruct t as [|x t]; injection E as <- <-; cbn [Bool.eqb].
      * exact IH.
      * cbn [app]. rewrite <- IH. reflexivity.
    + unfold t_pop in E. destruct (rev t) as [|x t'] eqn:Er; injection E as <- <-; cbn [Bool.eqb].
      * assert (t = []) as -> by (rewrite <- (rev_involutive t), Er; reflexivity). exact IH.
      * cbn [rev]. rewrite !app_assoc. rewrite !app_assoc in IH. rewrite <- IH.
        rewrite <- (rev_involutive t), Er. reflexivity.
Qed.

Lemma t_deque_fused f sched : t_deque (f :: sched) [] = (None :: fst (t_deque sched []), snd (t_deque sched [])).
Proof. destruct f; cbn; destruct (t_deque sched []); reflexivity. Qed.

Lemma t_deque_nil sched : t_deque sched [] = (map (fun _ => None) sched, []).
Proof.
  induction sched as [|f r IH]; [reflexivity|]. rewrite t_deque_fused, IH. reflexivity.
Qed.
