(** C62, for every call and for histories. *)
From Coq Require Import ZArith ZifyBool ZifyN ZifyNat Arith Lia.
From Verif Require Import Base Char Spec RustStd ModelError Model ModelOps TextOps ListFacts Utf8Facts CoreFacts
  OpsFacts Obs Borrows ModelBorrows BorrowFacts BorrowRuns ModelBorrowOps BorrowOps ObsBorrows ClaimsBorrows.

Lemma c62_call : forall c own b s t o r s',
  valid_cfg c -> shows c s t -> owns c own b -> run_op c o s = (r, s') -> calm r ->
  exists b', b_run_op c own o (s, b) = (r, (s', b')) /\ owns c own b' /\ prot b' = prot b.
Proof.
  intros c own b s t o r s' Hc S O E C. pose proof (proj1 (shows_rep c s t) S) as R.
  destruct (run_op_track c Hc nothing own (prot b) s t o R r s' E) with (b := b) as (b' & E' & F & P).
  - destruct r; exact C.
  - apply owns_fam. exact O.
  - reflexivity.
  - exists b'. split; [exact E'|]. split; [apply owns_fam; exact F|exact P].
Qed.

Lemma c62_through : forall c own v b s t o r s',
  valid_cfg c -> shows c s t -> lends c Unique own v (cap c + 1) b -> run_op c o s = (r, s') -> calm r ->
  exists b', b_run_op c v o (s, b) = (r, (s', b')) /\ lends c Unique own v (cap c + 1) b' /\ prot b' = prot b.
Proof.
  intros c own v b s t o r s' Hc S L E C. pose proof (proj1 (shows_rep c s t) S) as R.
  assert (X : forall l, l <= cap c ->
    loan nothing Unique own v (cap c + 1) l = owner (owner nothing own) v l).
  { intros l Hl. unfold loan, owner. replace (l <? cap c + 1) with true by (symmetry; apply N.ltb_lt; lia). reflexivity. }
  pose proof (lends_fam c Unique own v (cap c + 1) b ltac:(lia) L) as F0.
  destruct (run_op_track c Hc (owner nothing own) v (prot b) s t o R r s' E) with (b := b) as (b' & E' & F & P).
  - destruct r; exact C.
  - exact (fam_ext c _ _ b X F0).
  - reflexivity.
  - exists b'. split; [exact E'|]. split; [|exact P].
    destruct L as (_ & Hv & Nv & _).
    assert (F' : fam (cap c) (loan nothing Unique own v (cap c + 1)) b').
    { apply (fam_ext c (owner (owner nothing own) v)); [intros l Hl; symmetry; apply X; exact Hl|exact F]. }
    apply fam_lends; [|lia|rewrite P; exact Nv|exact F'].
    destruct F as [_ F]. specialize (F 0 ltac:(lia)). cbn [owner shape snd] in F.
    destruct F as (? & ? & _ & _ & _ & Hf & _). cbn [snd] in Hf. lia.
Qed.

Lemma c62_history : forall c own l b s t rs s',
  valid_cfg c -> shows c s t -> owns c own b -> Forall typed_op l ->
  run_ops c l s = (rs, s') -> Forall calm rs ->
  exists b', b_run_ops c own l (s, b) = (rs, (s', b')) /\ owns c own b' /\ prot b' = prot b.
Proof.
  intros c own l. induction l as [|o l IH]; intros b s t rs s' Hc S O T E C; cbn [run_ops] in E.
  - injection E as <- <-. exists b. split; [reflexivity|]. split; [exact O|reflexivity].
  - destruct (run_op c o s) as [r s1] eqn:E1. destruct (run_ops c l s1) as [rs1 s2] eqn:E2.
    injection E as <- <-. inversion T as [|? ? To Tl]; subst. inversion C as [|? ? Cr Cl]; subst.
    destruct (c62_call c own b s t o r s1 Hc S O E1 Cr) as (b1 & B1 & O1 & P1).
    assert (S1 : exists t1, shows c s1 t1).
    { pose proof (run_op_sim c Hc o s t (proj1 (shows_rep c s t) S) To) as H. rewrite E1 in H.
      destruct H as (s3 & H & R3). injection H as _ <-. eexists. apply shows_rep. exact R3. }
    destruct S1 as (t1 & S1).
    destruct (IH b1 s1 t1 rs1 s2 Hc S1 O1 Tl E2 Cl) as (b2 & B2 & O2 & P2).
    exists b2. cbn [b_run_ops]. rewrite B1, B2. split; [reflexivity|]. split; [exact O2|congruence].
Qed.
