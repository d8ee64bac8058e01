(** C62: pointers are used within their borrow. *)
From Coq Require Import ZArith ZifyBool ZifyN ZifyNat Arith Lia.
From Verif Require Import Base Char Spec RustStd ModelError Model TextOps ListFacts Utf8Facts CoreFacts Obs
  Borrows ModelBorrows BorrowFacts BorrowRuns ObsBorrows.

Definition nothing (l : N) : stack := [].

Lemma owns_fam c own b : owns c own b <-> fam (cap c) (owner nothing own) b.
Proof.
  split.
  - intros (H1 & H2 & H3). split; [apply Forall_forall; exact H2|].
    intros l Hl. destruct (H3 l Hl) as (X & r & E & HX). cbn [owner shape]. exists X, r.
    split; [exact E|]. split.
    { apply Forall_forall. intros i Hi. destruct (HX i Hi) as (K1 & K2 & K3). split; [exact K2|]. split; [exact K1|exact K3]. }
    split; [intros []|]. split; [exact H1|exact I].
  - intros [HP H]. assert (H0 := H 0 ltac:(lia)). cbn [owner shape] in H0.
    destruct H0 as (_ & _ & _ & _ & _ & Ho & _). split; [exact Ho|].
    split; [apply Forall_forall; exact HP|].
    intros l Hl. specialize (H l Hl). cbn [owner shape] in H. destruct H as (X & r & E & HX & _).
    exists X, r. split; [exact E|]. intros i Hi. rewrite Forall_forall in HX.
    destruct (HX i Hi) as (K1 & K2 & K3). split; [exact K2|]. split; [exact K1|exact K3].
Qed.

Lemma lends_fam c p own v n b : n <= cap c + 1 -> lends c p own v n b -> fam (cap c) (loan nothing p own v n) b.
Proof.
  intros Hn (H1 & H2 & _ & H3). pose proof (proj1 (owns_fam c own b) H1) as [HP HF].
  split; [exact HP|]. intros l Hl. unfold loan. destruct (N.ltb_spec l n) as [L|L]; [|exact (HF l Hl)].
  destruct (H3 l L) as (X & Y & r & E & HX & HY & HY'). cbn [shape snd]. exists X, (Y ++ (Unique, own) :: r).
  split; [exact E|]. split.
  { apply Forall_forall. intros i Hi. destruct (HX i Hi) as (K1 & K2 & K3). split; [exact K2|]. split; [exact K1|exact K3]. }
  split; [cbn; intros [K|[]]; lia|]. split; [lia|].
  exists Y, r. split; [reflexivity|]. split.
  { apply Forall_forall. intros i Hi. destruct (HY i Hi) as (K1 & K2 & K3). split; [exact K2|].
    split; [exact (HY' i Hi)|exact K3]. }
  split; [intros []|]. split; [lia|exact I].
Qed.
Lemma fam_lends c p own v n b : own < v < fresh b -> n <= cap c + 1 -> ~ In v (prot b) ->
  fam (cap c) (loan nothing p own v n) b -> lends c p own v n b.
Proof.
  intros Hv Hn Nv H. split; [|split; [exact Hv|split; [exact Nv|]]].
  - apply owns_fam. eapply fam_drops; [exact H|]. intros l Hl. unfold loan, owner.
    destruct (l <? n); [apply drops_skip; [exact Nv|]|]; apply drops_refl.
  - intros l Hl. destruct H as [_ H]. specialize (H l ltac:(lia)). unfold loan in H.
    replace (l <? n) with true in H by (symmetry; apply N.ltb_lt; exact Hl). cbn [shape snd] in H.
    destruct H as (X & r0 & E & HX & D & Hf & Y & r & -> & HY & _). exists X, Y, r.
    split; [exact E|]. rewrite Forall_forall in HX, HY. split; [|split].
    + intros i Hi. destruct (HX i Hi) as (K1 & K2 & K3). split; [exact K2|]. split; [exact K1|exact K3].
    + intros i Hi. destruct (HY i Hi) as (K1 & K2 & K3). split; [lia|]. split; [exact K1|exact K3].
    + intros i Hi. destruct (HY i Hi) as (K1 & K2 & K3). exact K2.
Qed.

Lemma c62_replace_range : forall c own b s t lo hi w,
  valid_cfg c -> shows c s t -> owns c own b ->
  exists r s' b',
    replace_range c lo hi (enc w) s = (Ret r, s') /\
    b_replace_range c own lo hi (enc w) (s, b) = (Ret r, (s', b')) /\
    owns c own b' /\ prot b' = prot b.
Proof.
  intros c own b s t lo hi w Hc S O. pose proof (proj1 (shows_rep c s t) S) as R.
  pose proof (replace_range_rep c Hc lo hi w s t R) as E.
  destruct (t_replace_range (usize_max c) (cap c) lo hi w t) as [r t'].
  destruct E as (s' & E & _ & _). exists r, s'.
  destruct (replace_range_track c nothing own (prot b) s t lo hi (enc w) R (Ret r) s' E I b (proj1 (owns_fam c own b) O) eq_refl)
    as (b' & E' & F & P). exists b'. split; [exact E|]. split; [exact E'|]. split; [apply owns_fam; exact F|exact P].
Qed.

Lemma c62_as_mut : forall c own b s t,
  valid_cfg c -> shows c s t -> owns c own b ->
  exists v b',
    b_as_mut c own (s, b) = (Ret (v, enc t), (s, b')) /\
    lends c Unique own v (blen t) b' /\ prot b' = prot b.
Proof.
  intros c own b s t Hc S O. pose proof (proj1 (shows_rep c s t) S) as R. pose proof (rep_cap c s t R) as K.
  pose proof (proj1 (owns_fam c own b) O) as F0.
  destruct (as_mut_ok c nothing own s t b R F0) as (v & b' & E & F & P & Hv & Hv').
  exists v, b'. split; [exact E|]. split; [|exact P].
  apply fam_lends; [destruct O as [O _]; lia|lia|rewrite P; exact (fam_new _ _ _ _ F0 Hv)|exact F].
Qed.

Lemma c62_write : forall c own v n b s s' a new,
  n <= cap c -> a + lenN new <= n -> lends c Unique own v n b ->
  str_write a new s = (Ret tt, s') ->
  exists b', b_write v a new (s, b) = (Ret tt, (s', b')) /\ lends c Unique own v n b' /\ prot b' = prot b.
Proof.
  intros c own v n b s s' a new Hn Ha L E.
  pose proof (lends_fam c Unique own v n b ltac:(lia) L) as F.
  destruct (write_track c nothing own v n (prot b) a new s Ha Hn (Ret tt) s' E I b F eq_refl) as (b' & E' & F' & P').
  exists b'. split; [exact E'|]. split; [|exact P'].
  destruct L as (_ & Hv & Nv & _). unfold b_write, sbind, on_tags, access in E'.
  apply fam_lends; [|lia|rewrite P'; exact Nv|exact F'].
  assert (f : fresh b' = fresh b).
  { destruct (forallb _ _) in E'; [|discriminate]. unfold on_val in E'. rewrite E in E'. injection E' as <-. reflexivity. }
  rewrite f. exact Hv.
Qed.

(** Shared references. *)
Lemma loan_readable c own v n : readable c (loan nothing SharedRO own v n) own.
Proof.
  intros l Hl. unfold loan. destruct (l <? n); [apply reads_skip; [reflexivity|]|]; apply reads_here; reflexivity.
Qed.

Lemma c62_as_str : forall c own b s t,
  valid_cfg c -> shows c s t -> owns c own b ->
  exists v b',
    b_as_str c own (s, b) = (Ret (v, enc t), (s, b')) /\
    lends c SharedRO own v (blen t) b' /\ prot b' = prot b.
Proof.
  intros c own b s t Hc S O. pose proof (proj1 (shows_rep c s t) S) as R. pose proof (rep_cap c s t R) as K.
  pose proof (proj1 (owns_fam c own b) O) as F0.
  destruct (lend_as_str c (owner nothing own) s own t R) with (b := b) as (v & b' & E & F & P & Hv & Hv'); [|exact F0|].
  { intros l Hl. apply reads_here. reflexivity. }
  exists v, b'. split; [exact E|]. split; [|exact P].
  apply fam_lends; [destruct O as [O _]; lia|lia|rewrite P; exact (fam_new _ _ _ _ F0 Hv)|].
  eapply fam_drops; [exact F|]. intros l Hl. unfold over, loan, owner, within. rewrite N.add_0_l.
  replace (0 <=? l) with true by (symmetry; apply N.leb_le; lia). cbn [andb].
  destruct (l <? blen t); apply drops_refl.
Qed.

Lemma quiet_lends A c own v n (m : ST mem A) s o b :
  n <= cap c + 1 -> lends c SharedRO own v n b -> quiet c (loan nothing SharedRO own v n) m s o ->
  exists b', m (s, b) = (o, (s, b')) /\ lends c SharedRO own v n b' /\ prot b' = prot b.
Proof.
  intros Hn L Q. destruct (Q b (lends_fam c SharedRO own v n b Hn L)) as (b' & E & F & P & f).
  destruct L as (_ & Hv & Nv & _). exists b'. split; [exact E|]. split; [|exact P].
  apply fam_lends; [lia|exact Hn|rewrite P; exact Nv|exact F].
Qed.

Lemma c62_shared : forall c own v n b s t i a k,
  valid_cfg c -> shows c s t -> n <= cap c -> lends c SharedRO own v n b -> a + k <= n ->
  (exists b', on_tags (access false v a k) (s, b) = (Ret tt, (s, b')) /\
              lends c SharedRO own v n b' /\ prot b' = prot b) /\
  (exists b', b_len c own (s, b) = (Ret (blen t), (s, b')) /\
              lends c SharedRO own v n b' /\ prot b' = prot b) /\
  (exists b', b_is_char_boundary c own i (s, b) = (is_char_boundary c s i, (s, b')) /\
              lends c SharedRO own v n b' /\ prot b' = prot b).
Proof.
  intros c own v n b s t i a k Hc S Hn L Ha. pose proof (proj1 (shows_rep c s t) S) as R.
  pose proof (loan_readable c own v n) as RD.
  split; [|split]; apply quiet_lends; try assumption; try lia.
  - apply quiet_access; [lia|]. intros l Hl. unfold loan.
    replace (l <? n) with true by (symmetry; apply N.ltb_lt; lia). apply reads_here. reflexivity.
  - rewrite <- (rep_len c s t R). apply quiet_len. exact RD.
  - exact (quiet_is_char_boundary c _ s own t i R RD).
Qed.
