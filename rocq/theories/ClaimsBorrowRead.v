(** C62: the traits that only read a string (ModelBorrowRead.v). *)
From Coq Require Import ZArith ZifyBool ZifyN ZifyNat Arith Lia String.
From Verif Require Import Base Char Spec RustStd ModelError Model RustFmt RustFmtBeside ModelImpl ModelDrain ModelCache ModelOps
  ModelIntegration TextOps ListFacts Utf8Facts CoreFacts Obs ObsCache
  Borrows ModelBorrows BorrowFacts BorrowRuns ModelBorrowOps BorrowOps ModelBorrowMake ObsBorrows ClaimsBorrows
  ModelBorrowRead.

(** ** Readers *)
Lemma reader_fam c t K : reader c t K ->
  exists F, readable c F t /\ (forall b, K b -> fam (cap c) F b) /\
    (forall b b', K b -> fam (cap c) F b' -> prot b' = prot b -> fresh b <= fresh b' -> K b').
Proof.
  intros [own | own v n Hn | own v].
  - exists (owner nothing own). split; [intros l _; apply reads_here; reflexivity|]. split; [intros b; apply owns_fam|].
    intros b b' _ H _ _. apply owns_fam. exact H.
  - exists (loan nothing SharedRO own v n). split; [apply loan_readable|].
    split; [intros b; apply lends_fam; exact Hn|].
    intros b b' (_ & Hv & Nv & _) H P f. apply fam_lends; [lia|exact Hn|rewrite P; exact Nv|exact H].
  - exists (loan nothing SharedRO own v (cap c + 1)). split.
    { intros l Hl. unfold loan. replace (l <? cap c + 1) with true by (symmetry; apply N.ltb_lt; lia).
      apply reads_here. reflexivity. }
    split; [intros b; apply lends_fam; lia|].
    intros b b' (_ & Hv & Nv & _) H P f. apply fam_lends; [lia|lia|rewrite P; exact Nv|exact H].
Qed.

Lemma reads_quiet A c (m : N -> ST mem A) s o :
  (forall F t, readable c F t -> quiet c F (m t) s o) -> only_reads c m s o.
Proof.
  intros H t K b HR HK. destruct (reader_fam c t K HR) as (F & RD & KF & FK).
  destruct (H F t RD b (KF b HK)) as (b' & E & F' & P & f). exists b'. split; [exact E|].
  split; [exact (FK b b' HK F' P f)|exact P].
Qed.

Section Read.
Variable c : cfg.

Lemma quiet_shared A F s t (f : N -> ST mem A) o : readable c F t ->
  (forall F r, readable c F r -> quiet c F (f r) s o) -> quiet c F (call_self c SharedRO t f) s o.
Proof.
  intros R H. apply quiet_call; [lia|intros l Hl; apply R; lia|]. intros r. apply H. apply readable_pushed.
Qed.

(** Reading beside other code. *)
Definition quietw {A Y} (F : N -> stack) (m : ST (mem * Y) A) (s : astring) (m' : ST Y A) : Prop :=
  forall b y, fam (cap c) F b ->
    exists b', m ((s, b), y) = (fst (m' y), ((s, b'), snd (m' y))) /\ fam (cap c) F b' /\
      prot b' = prot b /\ fresh b <= fresh b'.

Lemma quietw_snd A Y F s (m' : ST Y A) : quietw F (on_snd m') s m'.
Proof.
  intros b y H. exists b. unfold on_snd. cbn [fst snd]. destruct (m' y) as [o y']. split; [reflexivity|].
  split; [exact H|]. split; [reflexivity|lia].
Qed.
Lemma quietw_ret A Y F s (a : A) : quietw (Y := Y) F (sret a) s (sret a).
Proof. intros b y H. exists b. split; [reflexivity|]. split; [exact H|]. split; [reflexivity|lia]. Qed.
Lemma quietw_bind A B Y F s (m : ST (mem * Y) A) m' (k : A -> ST (mem * Y) B) k' :
  quietw F m s m' -> (forall a, quietw F (k a) s (k' a)) -> quietw F (sbind m k) s (sbind m' k').
Proof.
  intros Hm Hk b y H. destruct (Hm b y H) as (b1 & E1 & F1 & P1 & f1). unfold sbind. rewrite E1.
  destruct (m' y) as [[a| | |] y1]; cbn [fst snd].
  - destruct (Hk a b1 y1 F1) as (b2 & E2 & F2 & P2 & f2). exists b2. split; [exact E2|]. split; [exact F2|].
    split; [congruence|lia].
  - exists b1. split; [reflexivity|]. split; [exact F1|]. split; [exact P1|exact f1].
  - exists b1. split; [reflexivity|]. split; [exact F1|]. split; [exact P1|exact f1].
  - exists b1. split; [reflexivity|]. split; [exact F1|]. split; [exact P1|exact f1].
Qed.
Lemma quietw_fst A B Y F s (m : ST mem A) a (k : A -> ST (mem * Y) B) m' :
  quiet c F m s (Ret a) -> quietw F (k a) s m' -> quietw F (sbind (on_fst m) k) s m'.
Proof.
  intros Hm Hk b y H. destruct (Hm b H) as (b1 & E1 & F1 & P1 & f1).
  destruct (Hk b1 y F1) as (b2 & E2 & F2 & P2 & f2). exists b2. unfold sbind, on_fst. cbn [fst snd]. rewrite E1.
  split; [exact E2|]. split; [exact F2|]. split; [congruence|lia].
Qed.
Lemma quietw_lend A B Y F s (m : ST mem A) n g (k : A -> ST (mem * Y) B) m' :
  lend c F m s n g -> (forall v, quietw (over 0 n (fun l => (SharedRO, v) :: F l) F) (k (g v)) s m') ->
  quietw F (sbind (on_fst m) k) s m'.
Proof.
  intros Hm Hk b y H. destruct (Hm b H) as (v & b1 & E1 & F1 & P1 & f1 & f1').
  destruct (Hk v b1 y F1) as (b2 & E2 & F2 & P2 & f2). exists b2. unfold sbind, on_fst. cbn [fst snd]. rewrite E1.
  split; [exact E2|]. split; [|split; [congruence|lia]].
  eapply fam_drops; [exact F2|]. rewrite P2, P1. pose proof (fam_new _ _ _ v H f1). cells.
  - apply drops_skip; [assumption|]. apply drops_refl.
  - apply drops_refl.
Qed.
Lemma quietw_call A Y F s t (f : N -> ST (mem * Y) A) m' : readable c F t ->
  (forall F r, readable c F r -> quietw F (f r) s m') -> quietw F (call_fst c t f) s m'.
Proof.
  intros R Hf b y H.
  destruct (reborrow_ok SharedRO t 0 (cap c + 1) (cap c) F F b H ltac:(lia)) as (b1 & E1 & F1 & P1 & f1 & F1').
  { cbn [may_write]. intros l Hl. split; [reflexivity|apply R; lia]. }
  destruct (Hf _ (fresh b) (readable_pushed c F (fresh b)) _ y F1') as (b2 & E2 & F2 & P2 & f2).
  cbn [protect prot fresh] in P2, f2.
  destruct (fam_unprotect _ _ _ _ _ F2 P2) as (F3 & P3 & f3).
  exists (unprotect b2). split.
  { unfold call_fst, sbind, on_fst, on_tags. cbn [fst snd]. rewrite E1. unfold during_fst.
    rewrite E2. reflexivity. }
  split; [|split; [congruence|lia]].
  eapply fam_drops; [exact F3|]. rewrite P3, P1. pose proof (fam_new _ _ _ (fresh b) H (N.le_refl _)). cells.
  apply drops_skip; [assumption|]. apply drops_refl.
Qed.
Lemma quietw_call_snd A F s t (f : N -> ST (mem * mem) A) f' :
  (forall r, quietw F (f r) s (f' r)) -> quietw F (call_snd c t f) s (call_self c SharedRO t f').
Proof.
  intros Hf b [s' d] H. unfold call_snd, call_self, call, sbind, on_snd, on_tags. cbn [fst snd].
  destruct (reborrow SharedRO t 0 (cap c + 1) d) as [[r| | |] d1].
  - destruct (Hf r b (s', protect r d1) H) as (b1 & E1 & F1 & P1 & f1). exists b1.
    unfold during_snd, during. cbn beta iota zeta. unfold mem in *. rewrite E1. destruct (f' r (s', protect r d1)) as [o [s2 d2]]. cbn [fst snd].
    split; [reflexivity|]. split; [exact F1|]. split; [exact P1|exact f1].
  - exists b. split; [reflexivity|]. split; [exact H|]. split; [reflexivity|lia].
  - exists b. split; [reflexivity|]. split; [exact H|]. split; [reflexivity|lia].
  - exists b. split; [reflexivity|]. split; [exact H|]. split; [reflexivity|lia].
Qed.

Lemma quietw_fthen Y F s (m1 m2 : ST (mem * Y) (result unit FmtError)) n1 n2 :
  quietw F m1 s n1 -> quietw F m2 s n2 -> quietw F (fthen m1 m2) s (fthen n1 n2).
Proof.
  intros H1 H2. apply quietw_bind; [exact H1|]. intros [u|e]; [exact H2|apply quietw_ret].
Qed.
Lemma quietw_padded W F s (k : sink W) m n : (forall k', quietw F (m k') s (n k')) ->
  quietw F (padded_beside k m) s (padded k n).
Proof.
  intros H b y Hb. destruct (H (pad_adapter k) b (y, true) Hb) as (b' & E & R).
  exists b'. unfold padded_beside, padded. cbn [fst snd]. unfold mem in *. rewrite E.
  destruct (n (pad_adapter k) (y, true)) as [o [w e]]. split; [reflexivity|exact R].
Qed.
Lemma quietw_tuple W F s (k : sink W) alt d v v' : (forall W (k : sink W), quietw F (v W k alt) s (v' W k alt)) ->
  quietw F (tuple_field_beside k alt d v) s (tuple_field k alt d v').
Proof.
  intros H. unfold tuple_field_beside, tuple_field, debug_and_then. destruct (fst d); [|apply quietw_ret].
  apply quietw_bind; [|intros; apply quietw_ret]. destruct alt.
  - apply quietw_fthen; [apply quietw_snd|]. apply quietw_padded. intros k'.
    apply quietw_fthen; [apply H|apply quietw_snd].
  - apply quietw_fthen; [apply quietw_snd|apply H].
Qed.

(** ** The functions *)
Section Value.
Variables (s : astring) (x : text).
Hypothesis X : rep c s x.

Lemma quiet_drain_as_str F t : readable c F t -> lend c F (b_drain_as_str c t) s (blen x) (fun v => (v, enc x)).
Proof.
  intros R. apply lend_call; [lia|intros l Hl; apply R; lia|]. intros r. apply lend_as_str; [exact X|].
  apply readable_pushed.
Qed.
Lemma quiet_drain_str F t : readable c F t -> quiet c F (b_drain_str c t) s (Ret (enc x)).
Proof.
  intros R. unfold b_drain_str. pose proof (rep_cap c s x X) as K.
  eapply quiet_hands; [apply hands_lend; exact (quiet_drain_as_str F t R)|]. intros v. cbn [fst snd]. rewrite enc_len.
  eapply quiet_bind; [apply quiet_use_read; apply usable_top; [lia|reflexivity]|apply quiet_ret].
Qed.
Lemma quiet_str_then A F t (f : list N -> A) : readable c F t ->
  quiet c F (call_self c SharedRO t (fun self => b <~ b_str c self ;; sret (f b))) s (Ret (f (enc x))).
Proof.
  intros R. apply quiet_shared; [exact R|]. intros F' r R'. eapply quiet_bind; [exact (quiet_str c F' s r x X R')|].
  apply quiet_ret.
Qed.
Lemma quiet_drain_str_then A F t (f : list N -> A) : readable c F t ->
  quiet c F (call_self c SharedRO t (fun self => b <~ b_drain_str c self ;; sret (f b))) s (Ret (f (enc x))).
Proof.
  intros R. apply quiet_shared; [exact R|]. intros F' r R'. eapply quiet_bind; [exact (quiet_drain_str F' r R')|].
  apply quiet_ret.
Qed.

Lemma readable_skip F t lo n r : readable c F t -> readable c (over lo n (fun l => (SharedRO, r) :: F l) F) t.
Proof.
  intros R l Hl. unfold over. destruct (within lo n l); [apply reads_skip; [reflexivity|]|]; apply R; exact Hl.
Qed.
Lemma usable_skip F v r m n : usable c SharedRO F v 0 n ->
  usable c SharedRO (over 0 m (fun l => (SharedRO, r) :: F l) F) v 0 n.
Proof.
  intros [Hn H]. split; [exact Hn|]. intros P l Hl. specialize (H P l Hl). cbn [may_write] in *.
  unfold over. destruct (within 0 m l); [apply reads_skip; [reflexivity|]|]; exact H.
Qed.

Lemma quiet_compare A F (f : list N -> list N -> A) (as_ : N -> ST mem (N * list N)) t u :
  (forall F t, readable c F t -> lend c F (as_ t) s (blen x) (fun v => (v, enc x))) ->
  readable c F t -> readable c F u ->
  quiet c F (call_self c SharedRO t (fun self => call_self c SharedRO u (fun other =>
    p <~ as_ self ;; q <~ as_ other ;;
    _ <~ b_read (fst p) (lenN (snd p)) ;; _ <~ b_read (fst q) (lenN (snd q)) ;;
    sret (f (snd p) (snd q))))) s (Ret (f (enc x) (enc x))).
Proof.
  intros HA Rt Ru. pose proof (rep_cap c s x X) as K.
  apply quiet_call; [lia|intros l Hl; apply Rt; lia|]. intros self.
  apply quiet_call; [lia|intros l Hl; apply (readable_skip F u); [exact Ru|lia]|]. intros other.
  eapply quiet_lend; [apply HA; apply readable_skip, readable_pushed|]. intros v.
  eapply quiet_lend; [apply HA; apply readable_skip, readable_pushed|]. intros w. cbn [fst snd]. rewrite enc_len.
  eapply quiet_bind; [apply quiet_use_read; apply usable_skip; apply usable_top; [lia|reflexivity]|].
  eapply quiet_bind; [apply quiet_use_read; apply usable_top; [lia|reflexivity]|apply quiet_ret].
Qed.

(** [self] of a comparison of two strings; what is left is what is done to the other. *)
Lemma quietw_compare A F (f : list N -> list N -> A) (as_ : N -> ST mem (N * list N)) t u :
  (forall F t, readable c F t -> lend c F (as_ t) s (blen x) (fun v => (v, enc x))) ->
  readable c F t ->
  quietw F (call_fst c t (fun self => call_snd c u (fun other =>
    p <~ on_fst (as_ self) ;; q <~ on_snd (as_ other) ;;
    _ <~ on_fst (b_read (fst p) (lenN (snd p))) ;; _ <~ on_snd (b_read (fst q) (lenN (snd q))) ;;
    sret (f (snd p) (snd q))))) s
    (call_self c SharedRO u (fun other =>
       q <~ as_ other ;; _ <~ b_read (fst q) (lenN (snd q)) ;; sret (f (enc x) (snd q)))).
Proof.
  intros HA Rt. pose proof (rep_cap c s x X) as K.
  apply quietw_call; [exact Rt|]. intros F1 self R1. apply quietw_call_snd. intros other.
  eapply quietw_lend; [apply HA; exact R1|]. intros v. cbn [fst snd]. rewrite enc_len.
  apply quietw_bind; [apply quietw_snd|]. intros q.
  eapply quietw_fst; [apply quiet_use_read; apply usable_top; [lia|reflexivity]|].
  apply quietw_bind; [apply quietw_snd|]. intros _. apply quietw_ret.
Qed.

Lemma quietw_debug sd ud W (k : sink W) alt F t : readable c F t ->
  quietw F (b_debug_fmt c sd ud k alt t) s (debug_fmt c sd ud s W k alt).
Proof.
  intros R. apply quietw_call; [exact R|]. intros F1 self R1. unfold debug_fmt.
  apply quietw_bind; [apply quietw_snd|]. intros d. rewrite (as_str_rep c s x X).
  change (quietw F1 (sbind (on_fst (b_str c self)) (fun b => d0 <~ on_snd (struct_field k alt d (lit "array") (sd b)) ;;
    n <~ on_fst (call SharedRO self (cap c) 1 (fun r =>
           _ <~ on_tags (access false r (cap c) 1) ;; on_val (sread (fun s => Ret (size s))))) ;;
    d1 <~ on_snd (struct_field k alt d0 (lit "size") (ud n)) ;;
    on_snd (struct_finish k alt d1))) s
    (d0 <~ struct_field k alt d (lit "array") (sd (enc x)) ;;
     d1 <~ struct_field k alt d0 (lit "size") (ud (size s)) ;; struct_finish k alt d1)).
  eapply quietw_fst; [exact (quiet_str c F1 s self x X R1)|].
  apply quietw_bind; [apply quietw_snd|]. intros d0.
  apply quietw_fst with (a := size s).
  { apply quiet_call; [lia|intros l Hl; apply R1; lia|]. intros r.
    eapply quiet_bind; [apply quiet_access; [lia|]; intros l Hl; cells; apply reads_here; reflexivity|].
    apply (quiet_val c _ _ s (fun s => Ret (size s))). }
  apply quietw_bind; [apply quietw_snd|]. intros d1. apply quietw_snd.
Qed.

Lemma quietw_debug_tuple name sd ud W (k : sink W) alt F t : readable c F t ->
  quietw F (b_debug_tuple c name sd ud k alt t) s
    (d <~ debug_start k name ;; d <~ tuple_field k alt d (debug_fmt c sd ud s) ;; tuple_finish k d).
Proof.
  intros R. apply quietw_call; [exact R|]. intros F1 self R1.
  apply quietw_bind; [apply quietw_snd|]. intros d.
  apply quietw_bind; [|intros; apply quietw_snd].
  apply quietw_tuple. intros W' k'. apply quietw_debug. exact R1.
Qed.

Lemma quietw_to_sql O R (f : list N -> ST O R) F t : readable c F t ->
  quietw F (b_to_sql c f t) s (f (enc x)).
Proof.
  intros Rt. apply quietw_call; [exact Rt|]. intros F1 self R1.
  eapply quietw_fst; [exact (quiet_str c F1 s self x X R1)|]. apply quietw_snd.
Qed.
End Value.
End Read.

Lemma reads_quietw A Y c (m : N -> ST (mem * Y) A) s m' :
  (forall F t, readable c F t -> quietw c F (m t) s m') -> only_reads_beside c m s m'.
Proof.
  intros H t K b y HR HK. destruct (reader_fam c t K HR) as (F & RD & KF & FK).
  destruct (H F t RD b y (KF b HK)) as (b' & E & F' & P & f). exists b'. split; [exact E|].
  split; [exact (FK b b' HK F' P f)|exact P].
Qed.
Lemma reads_both A c (m : N -> N -> ST (mem * mem) A) s s' (m' : N -> ST mem A) o :
  (forall F t u, readable c F t -> quietw c F (m t u) s (m' u)) ->
  (forall F u, readable c F u -> quiet c F (m' u) s' o) -> only_reads_both c m s s' o.
Proof.
  intros H H' t K b u L d HR HK HR' HL. destruct (reader_fam c t K HR) as (F & RD & KF & FK).
  destruct (reader_fam c u L HR') as (G & RG & LG & GL).
  destruct (H F t u RD b (s', d) (KF b HK)) as (b' & E & F' & P & f).
  destruct (H' G u RG d (LG d HL)) as (d' & E' & G' & P' & f'). rewrite E' in E. cbn [fst snd] in E.
  exists b', d'. split; [exact E|]. split; [exact (FK b b' HK F' P f)|]. split; [exact P|].
  split; [exact (GL d d' HL G' P' f')|exact P'].
Qed.

(** ** C62 *)
Lemma c62_readers : forall (c : cfg) (s : astring) (t : text), shows c s t ->
  (forall h st, only_reads c (b_hash c h st) s (hash c h s st) /\
                only_reads c (b_drain_hash c h st) s (drain_hash c h (mkDrain s) st) /\
                only_reads c (b_cache_hash c h st) s (hash c h s st)) /\
  (forall R (f : list N -> R), only_reads c (b_serialize c f) s (serialize c f s) /\
                               only_reads c (b_cache_serialize c f) s (serialize c f s)).
Proof.
  intros c s t S. pose proof (proj1 (shows_rep c s t) S) as X. pose proof (as_str_rep c s t X) as E.
  split.
  - intros h st. unfold hash, drain_hash, drain_as_str. cbn [drained]. rewrite E. cbn [obind].
    split; [|split]; apply reads_quiet; intros F u R.
    + exact (quiet_str_then c s t X _ F u _ R).
    + exact (quiet_drain_str_then c s t X _ F u _ R).
    + apply quiet_shared; [exact R|]. intros G r R'. exact (quiet_str_then c s t X _ G r _ R').
  - intros R f. unfold serialize. rewrite E. cbn [obind]. split; apply reads_quiet; intros F u RD.
    + exact (quiet_str_then c s t X _ F u _ RD).
    + apply quiet_shared; [exact RD|]. intros G r R'. exact (quiet_str_then c s t X _ G r _ R').
Qed.

(** Comparing two strings that the model reads as [x] and [x']. *)
Lemma both_read A c s s' x x' (f : list N -> list N -> A) : rep c s x -> rep c s' x' ->
  only_reads_both c (b_compare c f) s s' (Ret (f (enc x) (enc x'))) /\
  only_reads_both c (b_cache_compare c f) s s' (Ret (f (enc x) (enc x'))) /\
  only_reads_both c (b_drain_compare c f) s s' (Ret (f (enc x) (enc x'))).
Proof.
  intros X X'. pose proof (rep_cap c s' x' X') as K'.
  assert (O : forall (as_ : N -> ST mem (N * list N)) F u,
    (forall F t, readable c F t -> lend c F (as_ t) s' (blen x') (fun v => (v, enc x'))) -> readable c F u ->
    quiet c F (call_self c SharedRO u (fun other =>
       q <~ as_ other ;; _ <~ b_read (fst q) (lenN (snd q)) ;; sret (f (enc x) (snd q)))) s'
      (Ret (f (enc x) (enc x')))).
  { intros as_ F u HA R. apply quiet_shared; [exact R|]. intros G r RG.
    eapply quiet_lend; [apply HA; exact RG|]. intros w. cbn [fst snd]. rewrite enc_len.
    eapply quiet_bind; [apply quiet_use_read; apply usable_top; [lia|reflexivity]|apply quiet_ret]. }
  assert (L : forall F t, readable c F t -> lend c F (b_as_str c t) s (blen x) (fun v => (v, enc x))).
  { intros F t R. apply lend_as_str; [exact X|exact R]. }
  assert (L' : forall F t, readable c F t -> lend c F (b_as_str c t) s' (blen x') (fun v => (v, enc x'))).
  { intros F t R. apply lend_as_str; [exact X'|exact R]. }
  split; [|split].
  - eapply reads_both; [intros F t u R; exact (quietw_compare c s x X A F f (b_as_str c) t u L R)|].
    intros F u R. exact (O _ F u L' R).
  - eapply reads_both.
    + intros F t u R. apply quietw_call; [exact R|]. intros G self RG.
      apply quietw_call_snd. intros other. exact (quietw_compare c s x X A G f (b_as_str c) self other L RG).
    + intros F u R. apply quiet_shared; [exact R|]. intros G r RG. exact (O _ G r L' RG).
  - eapply reads_both.
    + intros F t u R. exact (quietw_compare c s x X A F f (b_drain_as_str c) t u (quiet_drain_as_str c s x X) R).
    + intros F u R. exact (O _ F u (quiet_drain_as_str c s' x' X') R).
Qed.
Lemma self_read A c s x (f : list N -> list N -> A) : rep c s x ->
  only_reads c (fun t => b_compare_self c f t t) s (Ret (f (enc x) (enc x))) /\
  only_reads c (fun t => b_cache_compare_self c f t t) s (Ret (f (enc x) (enc x))) /\
  only_reads c (fun t => b_drain_compare_self c f t t) s (Ret (f (enc x) (enc x))).
Proof.
  intros X.
  assert (L : forall F t, readable c F t -> lend c F (b_as_str c t) s (blen x) (fun v => (v, enc x))).
  { intros F t R. apply lend_as_str; [exact X|exact R]. }
  split; [|split]; apply reads_quiet; intros F t R.
  - exact (quiet_compare c s x X A F f _ t t L R R).
  - apply quiet_call; [lia|intros l Hl; apply R; lia|]. intros self.
    apply quiet_call; [lia|intros l Hl; apply (readable_skip c F t); [exact R|lia]|]. intros other.
    apply (quiet_compare c s x X A _ f _ self other L); [apply readable_skip|]; apply readable_pushed.
  - exact (quiet_compare c s x X A F f _ t t (quiet_drain_as_str c s x X) R R).
Qed.

Lemma c62_compare : forall (c : cfg) (s s' : astring) (t t' : text), shows c s t -> shows c s' t' ->
  only_reads_both c (b_compare c str_eq) s s' (partial_eq c s s') /\
  only_reads_both c (b_cache_compare c str_eq) s s' (partial_eq c s s') /\
  only_reads_both c (b_drain_compare c str_eq) s s' (drain_eq c (mkDrain s) (mkDrain s')) /\
  only_reads_both c (b_compare c str_cmp) s s' (ord_cmp c s s') /\
  only_reads_both c (b_cache_compare c str_cmp) s s' (ord_cmp c s s') /\
  only_reads_both c (b_drain_compare c str_cmp) s s' (drain_cmp c (mkDrain s) (mkDrain s')).
Proof.
  intros c s s' t t' S S'. pose proof (proj1 (shows_rep c s t) S) as X. pose proof (proj1 (shows_rep c s' t') S') as X'.
  unfold partial_eq, ord_cmp, drain_eq, drain_cmp, drain_as_str. cbn [drained].
  rewrite (as_str_rep c s t X), (as_str_rep c s' t' X'). cbn [obind].
  pose proof (both_read _ c s s' t t' str_eq X X') as (A & B & D).
  pose proof (both_read _ c s s' t t' str_cmp X X') as (A' & B' & D').
  split; [exact A|]. split; [exact B|]. split; [exact D|]. split; [exact A'|]. split; [exact B'|exact D'].
Qed.

Lemma c62_compare_self : forall (c : cfg) (s : astring) (t : text), shows c s t ->
  only_reads c (fun r => b_compare_self c str_eq r r) s (partial_eq c s s) /\
  only_reads c (fun r => b_cache_compare_self c str_eq r r) s (partial_eq c s s) /\
  only_reads c (fun r => b_drain_compare_self c str_eq r r) s (drain_eq c (mkDrain s) (mkDrain s)) /\
  only_reads c (fun r => b_compare_self c str_cmp r r) s (ord_cmp c s s) /\
  only_reads c (fun r => b_cache_compare_self c str_cmp r r) s (ord_cmp c s s) /\
  only_reads c (fun r => b_drain_compare_self c str_cmp r r) s (drain_cmp c (mkDrain s) (mkDrain s)).
Proof.
  intros c s t S. pose proof (proj1 (shows_rep c s t) S) as X.
  unfold partial_eq, ord_cmp, drain_eq, drain_cmp, drain_as_str. cbn [drained].
  rewrite (as_str_rep c s t X). cbn [obind].
  pose proof (self_read _ c s t str_eq X) as (A & B & D).
  pose proof (self_read _ c s t str_cmp X) as (A' & B' & D').
  split; [exact A|]. split; [exact B|]. split; [exact D|]. split; [exact A'|]. split; [exact B'|exact D'].
Qed.

Lemma c62_beside : forall (c : cfg) (s : astring) (t : text), shows c s t ->
  (forall O R (f : list N -> ST O R),
     only_reads_beside c (b_to_sql c f) s (to_sql c f s) /\
     only_reads_beside c (b_cache_to_sql c f) s (to_sql c f s)) /\
  (forall sd ud W (k : sink W) alt,
     only_reads_beside c (b_debug_fmt c sd ud k alt) s (debug_fmt c sd ud s W k alt) /\
     only_reads_beside c (b_drain_debug c sd ud k alt) s (drain_debug c sd ud (mkDrain s) W k alt) /\
     (forall c0, c = c63 c0 ->
        only_reads_beside c (b_cache_debug c sd ud k alt) s (cache_debug c0 sd ud (mkCache s) W k alt))).
Proof.
  intros c s t S. pose proof (proj1 (shows_rep c s t) S) as X. split.
  - intros O R f. assert (E : to_sql c f s = f (enc t)).
    { unfold to_sql. rewrite (as_str_rep c s t X). reflexivity. }
    rewrite E. split; apply reads_quietw; intros F u RD.
    + exact (quietw_to_sql c s t X O R f F u RD).
    + apply quietw_call; [exact RD|]. intros G r RG. exact (quietw_to_sql c s t X O R f G r RG).
  - intros sd ud W k alt. split; [|split].
    + apply reads_quietw. intros F u RD. exact (quietw_debug c s t X sd ud W k alt F u RD).
    + apply reads_quietw. intros F u RD. exact (quietw_debug_tuple c s t X _ sd ud W k alt F u RD).
    + intros c0 ->. apply reads_quietw. intros F u RD. exact (quietw_debug_tuple _ s t X _ sd ud W k alt F u RD).
Qed.
