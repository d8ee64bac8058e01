(** C62, for constructors, [Drain] and [CacheString]. *)
From Coq Require Import ZArith ZifyBool ZifyN ZifyNat Arith Lia.
From Verif Require Import Base Char Spec RustStd ModelError Model ModelDrain ModelOps ModelCache ModelCacheOps
  TextOps ListFacts Utf8Facts CoreFacts MethodFacts DrainFacts OpsFacts Obs ObsCache
  Borrows ModelBorrows BorrowFacts BorrowRuns ModelBorrowOps BorrowOps ModelBorrowMake BorrowMake ObsBorrows
  ClaimsBorrows ClaimsCache.

Lemma c62_build : forall c b k,
  valid_cfg c -> (forall u, In u (prot b) -> u < fresh b) -> calm (build c k) ->
  exists b', b_build c k b = (build c k, b') /\
    stacks b' = stacks b /\ prot b' = prot b /\ fresh b <= fresh b'.
Proof.
  intros c b k Hc H C.
  destruct (build_same c Hc k b) as (b' & E & H').
  - apply Forall_forall. exact H.
  - destruct (build c k); exact C.
  - exists b'. split; [|exact H']. rewrite E. destruct (build c k); reflexivity.
Qed.

Lemma c62_drain : forall c own sched b d t,
  valid_cfg c -> shows c (drained d) t -> owns c own b ->
  exists os d' b', drain_calls c sched d = (Ret os, d') /\
    b_drain_calls c own sched (drained d, b) = (Ret os, (drained d', b')) /\ owns c own b' /\ prot b' = prot b.
Proof.
  intros c own sched. induction sched as [|f r IH]; intros b d t Hc S O; cbn [drain_calls b_drain_calls].
  - exists [], d, b. split; [reflexivity|]. split; [reflexivity|]. split; [exact O|reflexivity].
  - pose proof (proj1 (shows_rep c _ t) S) as R.
    assert (K : exists o d1, (if f then drain_next c else drain_next_back c) d = (Ret o, d1) /\
      (if f then (r <~ remove c 0 ;; sret (ok r)) else pop c) (drained d) = (Ret o, drained d1) /\
      exists t1, rep c (drained d1) t1).
    { destruct f.
      - destruct (drain_next_rep c Hc d t R) as (d1 & E & R1). eexists _, d1. split; [exact E|]. split; [|eexists; exact R1].
        unfold drain_next, on_drained, sbind in E |- *. destruct (remove c 0 (drained d)) as [[q| | |] s1]; try discriminate E.
        unfold sret in *. injection E as E <-. rewrite E. reflexivity.
      - destruct (drain_next_back_rep c Hc d t R) as (d1 & E & R1). eexists _, d1. split; [exact E|]. split; [|eexists; exact R1].
        unfold drain_next_back, on_drained in E. destruct (pop c (drained d)) as [q s1]. injection E as -> <-. reflexivity. }
    destruct K as (o & d1 & E & Em & t1 & R1).
    assert (T : exists b1, (p <~ b_drain_as_str c own ;; _ <~ b_read (fst p) (lenN (snd p)) ;;
        (if f then b_drain_next c own else b_drain_next_back c own)) (drained d, b) = (Ret o, (drained d1, b1)) /\
        owns c own b1 /\ prot b1 = prot b).
    { destruct (drain_read_quiet c nothing own _ (drained d) t
        (if f then b_drain_next c own else b_drain_next_back c own) (prot b)
        (if f then (r <~ remove c 0 ;; sret (ok r)) else pop c) R) with (o := Ret o) (s' := drained d1) (b := b)
        as (b1 & E1 & F1 & P1).
      - destruct f; [eapply drain_next_track|eapply drain_next_back_track]; try exact Hc; exact R.
      - exact Em.
      - exact I.
      - apply owns_fam. exact O.
      - reflexivity.
      - exists b1. split; [exact E1|]. split; [apply owns_fam; exact F1|exact P1]. }
    destruct T as (b1 & Eb & O1 & P1).
    destruct (IH b1 d1 t1 Hc (proj2 (shows_rep c _ t1) R1) O1) as (os & d2 & b2 & E2 & Eb2 & O2 & P2).
    exists (o :: os), d2, b2. split; [|split; [|split; [exact O2|congruence]]].
    + unfold sbind. rewrite E, E2. reflexivity.
    + unfold sbind in Eb |- *. destruct (b_drain_as_str c own (drained d, b)) as [[p| | |] m1]; try discriminate Eb.
      destruct (b_read (fst p) (lenN (snd p)) m1) as [[u| | |] m2]; try discriminate Eb.
      rewrite Eb, Eb2. reflexivity.
Qed.

Lemma c62_cache : forall c own b s t o r s',
  valid_cfg c -> shows (c63 c) (inner s) t -> owns (c63 c) own b -> cache_run_op c o s = (r, s') -> calm r ->
  exists b', b_cache_op (c63 c) own o (inner s, b) = (r, (inner s', b')) /\
    owns (c63 c) own b' /\ prot b' = prot b.
Proof.
  intros c own b s t o r s' Hc S O E C. pose proof (proj1 (shows_rep _ _ t) S) as R.
  rewrite cache_run_op_inner in E. destruct (run_op (c63 c) o (inner s)) as [r1 i] eqn:E1. injection E as -> <-.
  destruct (cache_op_track (c63 c) (valid_c63 c Hc) nothing own (prot b) (inner s) t o R r i E1) with (b := b)
    as (b' & E' & F & P).
  - destruct r; exact C.
  - apply owns_fam. exact O.
  - reflexivity.
  - exists b'. split; [exact E'|]. split; [apply owns_fam; exact F|exact P].
Qed.
