(** The borrows made by [replace_range] and [as_mut] (ModelBorrows) are accepted. *)
From Coq Require Import ZArith ZifyBool ZifyN ZifyNat Arith Lia.
From Verif Require Import Base Char Spec RustStd ModelError Model TextOps ListFacts
  Utf8Facts CoreFacts  Borrows ModelBorrows BorrowFacts.

Section Runs.
Variable c : cfg.

(** [m] leaves the string and the permissions [F] in place and returns [o]. *)
Definition quiet {A} (F : N -> stack) (m : ST mem A) (s : astring) (o : outcome A) : Prop :=
  forall b, fam (cap c) F b ->
    exists b', m (s, b) = (o, (s, b')) /\ fam (cap c) F b' /\ prot b' = prot b /\ fresh b <= fresh b'.

(** [m] also makes a new tag [v] with permission [p] for the first [n] bytes and returns [g v]. *)
Definition lend {A} (F : N -> stack) (m : ST mem A) (s : astring) (n : N) (g : N -> A) : Prop :=
  forall b, fam (cap c) F b ->
    exists v b', m (s, b) = (Ret (g v), (s, b'))
      /\ fam (cap c) (over 0 n (fun l => (SharedRO, v) :: F l) F) b'
      /\ prot b' = prot b /\ fresh b <= v /\ v < fresh b'.

Ltac cells :=
  intros; unfold over in *;
  repeat match goal with |- context [within ?a ?n ?l] =>
    let W := fresh "W" in destruct (within a n l) eqn:W;
    [apply within_iff in W | assert (~ (a <= l < a + n)) by (rewrite <- within_iff, W; discriminate); clear W]
  end; try (exfalso; lia).

Lemma quiet_ret A F s (a : A) : quiet F (sret a) s (Ret a).
Proof. intros b H. exists b. split; [reflexivity|]. split; [exact H|]. split; [reflexivity|lia]. Qed.
Lemma quiet_val A F s (f : astring -> outcome A) : quiet F (on_val (sread f)) s (f s).
Proof. intros b H. exists b. split; [reflexivity|]. split; [exact H|]. split; [reflexivity|lia]. Qed.

Lemma quiet_read A F s (f : astring -> outcome A) o : f s = o -> quiet F (on_val (sread f)) s o.
Proof. intros <-. apply quiet_val. Qed.

Lemma quiet_bind A B F s (m : ST mem A) (k : A -> ST mem B) a o :
  quiet F m s (Ret a) -> quiet F (k a) s o -> quiet F (sbind m k) s o.
Proof.
  intros Hm Hk b H. destruct (Hm b H) as (b1 & E1 & F1 & P1 & f1).
  destruct (Hk b1 F1) as (b2 & E2 & F2 & P2 & f2). exists b2. unfold sbind. rewrite E1.
  split; [exact E2|]. split; [exact F2|]. split; [congruence|lia].
Qed.
Lemma lend_bind A B F s (m : ST mem A) (k : A -> ST mem B) a n g :
  quiet F m s (Ret a) -> lend F (k a) s n g -> lend F (sbind m k) s n g.
Proof.
  intros Hm Hk b H. destruct (Hm b H) as (b1 & E1 & F1 & P1 & f1).
  destruct (Hk b1 F1) as (v & b2 & E2 & F2 & P2 & f2 & f3). exists v, b2. unfold sbind. rewrite E1.
  split; [exact E2|]. split; [exact F2|]. split; [congruence|lia].
Qed.
Lemma lend_map A B F s (m : ST mem A) (k : A -> ST mem B) n g h :
  lend F m s n g -> (forall v F', quiet F' (k (g v)) s (Ret (h v))) -> lend F (sbind m k) s n h.
Proof.
  intros Hm Hk b H. destruct (Hm b H) as (v & b1 & E1 & F1 & P1 & f1 & f1').
  destruct (Hk v _ b1 F1) as (b2 & E2 & F2 & P2 & f2). exists v, b2. unfold sbind. rewrite E1.
  split; [exact E2|]. split; [exact F2|]. split; [congruence|lia].
Qed.
Lemma quiet_lend A B F s (m : ST mem A) (k : A -> ST mem B) n g o :
  lend F m s n g ->
  (forall v, quiet (over 0 n (fun l => (SharedRO, v) :: F l) F) (k (g v)) s o) ->
  quiet F (sbind m k) s o.
Proof.
  intros Hm Hk b H. destruct (Hm b H) as (v & b1 & E1 & F1 & P1 & f1 & f1').
  destruct (Hk v b1 F1) as (b2 & E2 & F2 & P2 & f2). exists b2. unfold sbind. rewrite E1.
  split; [exact E2|]. split; [|split; [congruence|lia]].
  eapply fam_drops; [exact F2|]. rewrite P2, P1. pose proof (fam_new _ _ _ v H f1). cells.
  - apply drops_skip; [assumption|]. apply drops_refl.
  - apply drops_refl.
Qed.
Lemma lend_lend A B F s (m : ST mem A) (k : A -> ST mem B) n g n' g' :
  lend F m s n g ->
  (forall v, lend (over 0 n (fun l => (SharedRO, v) :: F l) F) (k (g v)) s n' g') ->
  lend F (sbind m k) s n' g'.
Proof.
  intros Hm Hk b H. destruct (Hm b H) as (v & b1 & E1 & F1 & P1 & f1 & f1').
  destruct (Hk v b1 F1) as (v2 & b2 & E2 & F2 & P2 & f2 & f2'). exists v2, b2. unfold sbind. rewrite E1.
  split; [exact E2|]. split; [|split; [congruence|lia]].
  eapply fam_drops; [exact F2|]. rewrite P2, P1. pose proof (fam_new _ _ _ v H f1). cells;
    repeat first [apply drops_refl | apply drops_skip; [assumption|] | apply drops_keep].
Qed.

Lemma during_eq A r (m : ST mem A) s b o s' b' :
  m (s, protect r b) = (o, (s', b')) -> during r m (s, b) = (o, (s', unprotect b')).
Proof. intros E. unfold during. rewrite E. reflexivity. Qed.

Lemma quiet_call A F s t lo n (f : N -> ST mem A) o :
  lo + n <= cap c + 1 -> (forall l, lo <= l < lo + n -> reads (F l) t) ->
  (forall r, quiet (over lo n (fun l => (SharedRO, r) :: F l) F) (f r) s o) ->
  quiet F (call SharedRO t lo n f) s o.
Proof.
  intros Hn Hr Hf b H.
  destruct (reborrow_ok SharedRO t lo n (cap c) F F b H Hn) as (b1 & E1 & F1 & P1 & f1 & F1').
  { cbn [may_write]. intros l Hl. split; [reflexivity|exact (Hr l Hl)]. }
  destruct (Hf (fresh b) _ F1') as (b2 & E2 & F2 & P2 & f2). cbn [protect prot fresh] in P2, f2.
  destruct (fam_unprotect _ _ _ _ _ F2 P2) as (F3 & P3 & f3).
  exists (unprotect b2). split.
  { unfold call, sbind, on_tags. rewrite E1. apply during_eq. exact E2. }
  split; [|split; [congruence|lia]].
  eapply fam_drops; [exact F3|]. rewrite P3, P1. pose proof (fam_new _ _ _ (fresh b) H (N.le_refl _)). cells.
  - apply drops_skip; [assumption|]. apply drops_refl.
  - apply drops_refl.
Qed.
Lemma lend_call A F s t lo n (f : N -> ST mem A) n' g :
  lo + n <= cap c + 1 -> (forall l, lo <= l < lo + n -> reads (F l) t) ->
  (forall r, lend (over lo n (fun l => (SharedRO, r) :: F l) F) (f r) s n' g) ->
  lend F (call SharedRO t lo n f) s n' g.
Proof.
  intros Hn Hr Hf b H.
  destruct (reborrow_ok SharedRO t lo n (cap c) F F b H Hn) as (b1 & E1 & F1 & P1 & f1 & F1').
  { cbn [may_write]. intros l Hl. split; [reflexivity|exact (Hr l Hl)]. }
  destruct (Hf (fresh b) _ F1') as (v & b2 & E2 & F2 & P2 & f2 & f2'). cbn [protect prot fresh] in P2, f2, f2'.
  destruct (fam_unprotect _ _ _ _ _ F2 P2) as (F3 & P3 & f3).
  exists v, (unprotect b2). split.
  { unfold call, sbind, on_tags. rewrite E1. apply during_eq. exact E2. }
  split; [|split; [congruence|lia]].
  eapply fam_drops; [exact F3|]. rewrite P3, P1. pose proof (fam_new _ _ _ (fresh b) H (N.le_refl _)). cells;
    repeat first [apply drops_refl | apply drops_skip; [assumption|] | apply drops_keep].
Qed.
Lemma lend_reborrow F s t n :
  n <= cap c + 1 -> (forall l, l < n -> reads (F l) t) ->
  lend F (on_tags (reborrow SharedRO t 0 n)) s n (fun v => v).
Proof.
  intros Hn Hr b H.
  destruct (reborrow_ok SharedRO t 0 n (cap c) F F b H ltac:(lia)) as (b1 & E1 & F1 & P1 & f1 & F1').
  { cbn [may_write]. intros l Hl. split; [reflexivity|apply Hr; lia]. }
  exists (fresh b), b1. unfold on_tags. rewrite E1. split; [reflexivity|]. split; [exact F1|].
  split; [exact P1|lia].
Qed.
(** A function that returns its argument. *)
Lemma lend_same F s t n :
  n <= cap c + 1 -> (forall l, l < n -> reads (F l) t) ->
  lend F (call SharedRO t 0 n (fun a => sret a)) s n (fun v => v).
Proof.
  intros Hn Hr b H.
  destruct (reborrow_ok SharedRO t 0 n (cap c) F F b H ltac:(lia)) as (b1 & E1 & F1 & P1 & f1 & F1').
  { cbn [may_write]. intros l Hl. split; [reflexivity|apply Hr; lia]. }
  destruct (fam_unprotect _ _ _ (fresh b) (prot b) F1') as (F3 & P3 & f3); [cbn [protect prot]; congruence|].
  exists (fresh b), (unprotect (protect (fresh b) b1)). split.
  { unfold call, sbind, on_tags. rewrite E1. apply during_eq. reflexivity. }
  split; [exact F3|]. split; [exact P3|]. rewrite f3. cbn [protect BorrowFacts.tags fresh]. lia.
Qed.
Lemma quiet_access F s t lo n :
  lo + n <= cap c + 1 -> (forall l, lo <= l < lo + n -> reads (F l) t) ->
  quiet F (on_tags (access false t lo n)) s (Ret tt).
Proof.
  intros Hn Hr b H.
  destruct (access_ok false t lo n (cap c) F F b H Hn) as (b1 & E1 & F1 & P1 & f1).
  { intros l Hl. split; [reflexivity|exact (Hr l Hl)]. }
  exists b1. unfold on_tags. rewrite E1. split; [reflexivity|]. split; [|split; [exact P1|lia]].
  eapply fam_drops; [exact F1|]. cells; apply drops_refl.
Qed.

Definition readable (F : N -> stack) (t : N) : Prop := forall l, l <= cap c -> reads (F l) t.

Ltac rd := cells; repeat first [apply reads_here; reflexivity | apply reads_skip; [reflexivity|]];
  match goal with H : readable ?F ?t |- reads (?F _) ?t => apply H; lia end.

Lemma readable_pushed F r : readable (over 0 (cap c + 1) (fun l => (SharedRO, r) :: F l) F) r.
Proof. unfold readable. cells. apply reads_here; reflexivity. Qed.

Lemma quiet_len F s t : readable F t -> quiet F (b_len c t) s (Ret (len s)).
Proof.
  intros R. unfold b_len, call_self. apply quiet_call; [lia|rd|]. intros r.
  eapply quiet_bind; [apply quiet_access; [lia|]|apply quiet_val].
  pose proof (readable_pushed F r). intros l Hl. apply H. lia.
Qed.

Lemma lend_as_ref_bytes F s t x : rep c s x -> readable F t ->
  lend F (b_as_ref_bytes c t) s (blen x) (fun v => (v, enc x)).
Proof.
  intros X R. unfold b_as_ref_bytes, call_self. apply lend_call; [lia|rd|]. intros r.
  pose proof (readable_pushed F r) as R1. set (F1 := over _ _ _ _) in *.
  pose proof (rep_cap c s x X) as K.
  assert (Q : exists z, quiet F1 (if debug c then b_len c r else sret 0) s (Ret z)).
  { destruct (debug c); [exists (len s); apply quiet_len; exact R1|exists 0; apply quiet_ret]. }
  destruct Q as (z & Q). eapply lend_bind; [exact Q|].
  eapply lend_lend; [apply lend_same; [lia|intros l Hl; apply R1; lia]|]. intros a. cbv beta.
  eapply lend_bind.
  { apply quiet_len. unfold readable. rd. }
  rewrite (rep_len c s x X).
  eapply lend_map.
  - apply lend_call; [lia| |].
    + rd.
    + intros a'. apply lend_reborrow; [lia|]. rd.
  - intros v F'. cbv beta. eapply quiet_bind; [apply quiet_read; exact (as_ref_bytes_rep c s x X)|].
    apply quiet_ret.
Qed.

Lemma lend_as_ref F s t x : rep c s x -> readable F t ->
  lend F (b_as_ref c t) s (blen x) (fun v => (v, enc x)).
Proof.
  intros X R. unfold b_as_ref, call_self. apply lend_call; [lia|rd|]. intros r.
  pose proof (readable_pushed F r) as R1. set (F1 := over _ _ _ _) in *.
  pose proof (rep_cap c s x X) as K.
  eapply lend_bind with (a := tt).
  { destruct (debug c); [|apply quiet_ret].
    eapply quiet_lend; [exact (lend_as_ref_bytes F1 s r x X R1)|]. intros v. cbn [fst snd].
    rewrite enc_len.
    apply quiet_call; [lia|rd|]. intros v'. apply quiet_access; [lia|rd]. }
  eapply lend_map; [exact (lend_as_ref_bytes F1 s r x X R1)|]. intros v F'. cbn [fst snd].
  eapply quiet_bind; [apply quiet_read; exact (as_str_rep c s x X)|]. apply quiet_ret.
Qed.

Lemma lend_as_str F s t x : rep c s x -> readable F t ->
  lend F (b_as_str c t) s (blen x) (fun v => (v, enc x)).
Proof.
  intros X R. unfold b_as_str, call_self. apply lend_call; [lia|rd|]. intros r.
  apply lend_as_ref; [exact X|apply readable_pushed].
Qed.

Lemma quiet_is_char_boundary F s t x i : rep c s x -> readable F t ->
  quiet F (b_is_char_boundary c t i) s (is_char_boundary c s i).
Proof.
  intros X R. unfold b_is_char_boundary, call_self. apply quiet_call; [lia|rd|]. intros r.
  pose proof (readable_pushed F r) as R1. set (F1 := over _ _ _ _) in *.
  pose proof (rep_cap c s x X) as K.
  eapply quiet_lend; [exact (lend_as_str F1 s r x X R1)|]. intros v. cbn [fst snd]. rewrite enc_len.
  eapply quiet_bind; [|apply quiet_val].
  apply quiet_call; [lia|rd|]. intros v'. apply quiet_access; [lia|rd].
Qed.

(** ** Running beside the model of the function *)
Definition settled {A} (o : outcome A) : Prop := match o with Ret _ | Panic => True | _ => False end.

Definition track {A} (F : N -> stack) (P : list N) (m : ST mem A) (m' : ST astring A) (s : astring) : Prop :=
  forall o s', m' s = (o, s') -> settled o -> forall b, fam (cap c) F b -> prot b = P ->
    exists b', m (s, b) = (o, (s', b')) /\ fam (cap c) F b' /\ prot b' = P.

Lemma track_ret A F P (a : A) s : track F P (sret a) (sret a) s.
Proof. intros a' s' E _ b Hb HP. injection E as <- <-. exists b. split; [reflexivity|]. split; assumption. Qed.
Lemma track_val A F P (m' : ST astring A) s : track F P (on_val m') m' s.
Proof. intros a' s' E _ b Hb HP. exists b. unfold on_val. rewrite E. split; [reflexivity|]. split; assumption. Qed.
Lemma track_bind A B F P (m : ST mem A) m' (k : A -> ST mem B) k' s :
  track F P m m' s -> (forall a s1, m' s = (Ret a, s1) -> track F P (k a) (k' a) s1) ->
  track F P (sbind m k) (sbind m' k') s.
Proof.
  intros Hm Hk a s' E HS b Hb HP. unfold sbind in E. destruct (m' s) as [o s1] eqn:E1.
  destruct o as [x| | |]; try (injection E as <- <-; contradiction).
  2: { injection E as <- <-. destruct (Hm Panic s1 E1 I b Hb HP) as (b1 & E2 & Hb1 & HP1).
       exists b1. unfold sbind. rewrite E2. split; [reflexivity|]. split; assumption. }
  destruct (Hm (Ret x) s1 E1 I b Hb HP) as (b1 & E2 & Hb1 & HP1).
  destruct (Hk x s1 eq_refl a s' E HS b1 Hb1 HP1) as (b2 & E3 & Hb2 & HP2).
  exists b2. unfold sbind. rewrite E2. split; [exact E3|]. split; assumption.
Qed.
Lemma track_quiet A F P (m : ST mem A) (f : astring -> outcome A) s :
  quiet F m s (f s) -> track F P m (sread f) s.
Proof.
  intros Hm a s' E _ b Hb HP. unfold sread in E. injection E as E ->.
  destruct (Hm b Hb) as (b1 & E1 & Hb1 & HP1 & _). exists b1. rewrite E in E1.
  split; [exact E1|]. split; [exact Hb1|congruence].
Qed.
Lemma track_lift A F P (o : outcome A) s : track F P (slift o) (slift o) s.
Proof.
  intros a s' E _ b Hb HP. unfold slift in *. injection E as -> ->. exists b. split; [reflexivity|]. split; assumption.
Qed.
(** Steps the model does not have. *)
Lemma track_extra A B F P (m : ST mem A) (k : A -> ST mem B) (m' : ST astring B) s x :
  quiet F m s (Ret x) -> track F P (k x) m' s -> track F P (sbind m k) m' s.
Proof.
  intros Hm Hk a s' E HS b Hb HP. destruct (Hm b Hb) as (b1 & E1 & Hb1 & HP1 & _).
  rewrite HP in HP1. destruct (Hk a s' E HS b1 Hb1 HP1) as (b2 & E2 & Hb2 & HP2).
  exists b2. unfold sbind. rewrite E1. split; [exact E2|]. split; assumption.
Qed.
Lemma track_step A B F P (k : A -> ST mem B) k' (f : astring -> outcome A) o s :
  f s = o -> (forall a, o = Ret a -> track F P (k a) (k' a) s) ->
  track F P (sbind (slift o) k) (sbind (sread f) k') s.
Proof.
  intros Ef Hk a s' E HS b Hb HP. unfold sbind, sread, slift in *. rewrite Ef in E.
  destruct o as [x| | |]; [|injection E as <- <-|injection E as <- <-; contradiction
    |injection E as <- <-; contradiction].
  - destruct (Hk x eq_refl a s' E HS b Hb HP) as (b2 & E3 & Hb2 & HP2).
    exists b2. split; [exact E3|]. split; assumption.
  - exists b. split; [reflexivity|]. split; assumption.
Qed.
Lemma track_read_lift A B F P (k : A -> ST mem B) k' (f : astring -> outcome A) s :
  (forall a, f s = Ret a -> track F P (k a) (k' a) s) ->
  track F P (sbind (slift (f s)) k) (sbind (sread f) k') s.
Proof. apply track_step. reflexivity. Qed.

(** What is below the permissions of the reference used. *)
Variable Below : N -> stack.

(** ** [replace_range] *)
Definition own_self (own self : N) (l : N) : stack := (Unique, self) :: (Unique, own) :: Below l.
Definition with_ptr (own self ptr : N) (l : N) : stack :=
  if l <? cap c then (SharedRW, ptr) :: own_self own self l else own_self own self l.

Lemma readable_own own self : readable (own_self own self) self.
Proof. intros l _. apply reads_here. reflexivity. Qed.
Lemma readable_ptr own self ptr : readable (with_ptr own self ptr) self.
Proof.
  intros l Hl. unfold with_ptr. destruct (l <? cap c).
  - apply reads_skip; [reflexivity|]. apply reads_here. reflexivity.
  - apply reads_here. reflexivity.
Qed.

Lemma as_mut_ptr_ok own self s b :
  fam (cap c) (own_self own self) b ->
  exists ptr b', b_as_mut_ptr c self (s, b) = (Ret ptr, (s, b'))
    /\ fam (cap c) (with_ptr own self ptr) b' /\ prot b' = prot b /\ ~ In ptr (prot b).
Proof.
  intros H0. unfold b_as_mut_ptr, sbind, on_tags.
  destruct (reborrow_ok Unique self 0 (cap c) (cap c) (own_self own self) (own_self own self) b H0 ltac:(lia))
    as (b1 & E1 & F1 & P1 & f1 & _).
  { cbn [may_write]. intros l Hl. apply writes_here. reflexivity. }
  rewrite E1. set (a := fresh b) in *. unfold call, sbind, on_tags.
  destruct (reborrow_ok Unique a 0 (cap c) (cap c) _ (fun l => (Unique, a) :: own_self own self l) b1 F1 ltac:(lia))
    as (b2 & E2 & F2 & P2 & f2 & F2').
  { cbn [may_write]. cells. apply writes_here. reflexivity. }
  rewrite E2. set (a' := fresh b1) in *.
  destruct (reborrow_ok SharedRW a' 0 (cap c) (cap c) _
    (fun l => (Unique, a') :: (Unique, a) :: own_self own self l) _ F2' ltac:(lia))
    as (b3 & E3 & F3 & P3 & f3 & _).
  { cbn [may_write]. cells. apply writes_here. reflexivity. }
  unfold during. rewrite E3.
  destruct (fam_unprotect _ _ _ a' (prot b) F3) as (F4 & P4 & f4).
  { rewrite P3. cbn [protect prot]. congruence. }
  cbn [protect fresh] in *. exists (fresh b2), (unprotect b3). split; [reflexivity|].
  split; [|split; [exact P4|apply (fam_new _ _ _ _ H0); lia]].
  eapply fam_drops; [exact F4|]. rewrite P4.
  assert (Ha : ~ In a (prot b)) by (apply (fam_new _ _ _ _ H0); lia).
  assert (Ha' : ~ In a' (prot b)) by (apply (fam_new _ _ _ _ H0); lia).
  unfold with_ptr. cells.
  - replace (l <? cap c) with true by (symmetry; apply N.ltb_lt; lia).
    apply drops_keep. apply drops_skip; [exact Ha'|]. apply drops_skip; [exact Ha|]. apply drops_refl.
  - replace (l <? cap c) with false by (symmetry; apply N.ltb_ge; lia). apply drops_refl.
Qed.

Lemma quiet_ptr own self ptr s (w : bool) lo n : lo + n <= cap c ->
  quiet (with_ptr own self ptr) (on_tags (access w ptr lo n)) s (Ret tt).
Proof.
  intros Hn b H.
  destruct (access_ok w ptr lo n (cap c) _ (with_ptr own self ptr) b H ltac:(lia)) as (b1 & E1 & F1 & P1 & f1).
  { intros l Hl. unfold with_ptr. replace (l <? cap c) with true by (symmetry; apply N.ltb_lt; lia).
    destruct w; [apply writes_here; reflexivity|]. split; [reflexivity|]. apply reads_here. reflexivity. }
  exists b1. unfold on_tags. rewrite E1. split; [reflexivity|]. split; [|split; [exact P1|lia]].
  eapply fam_drops; [exact F1|]. cells; apply drops_refl.
Qed.
Lemma quiet_size own self ptr s :
  quiet (with_ptr own self ptr) (on_tags (access true self (cap c) 1)) s (Ret tt).
Proof.
  intros b H.
  destruct (access_ok true self (cap c) 1 (cap c) _ (with_ptr own self ptr) b H ltac:(lia)) as (b1 & E1 & F1 & P1 & f1).
  { intros l Hl. unfold with_ptr. replace (l <? cap c) with false by (symmetry; apply N.ltb_ge; lia).
    apply writes_here; reflexivity. }
  exists b1. unfold on_tags. rewrite E1. split; [reflexivity|]. split; [|split; [exact P1|lia]].
  eapply fam_drops; [exact F1|]. cells; apply drops_refl.
Qed.

Lemma ptr_add_ret n a i x : ptr_add n a i = Ret x -> x = a + i /\ a + i <= n.
Proof. unfold ptr_add. destruct (N.leb_spec (a + i) n); [|discriminate]. intros E. injection E as <-. lia. Qed.

Lemma track_ptr A own self P (k : N -> ST mem A) (m' : ST astring A) s :
  (forall ptr, track (with_ptr own self ptr) P (k ptr) m' s) ->
  track (own_self own self) P (sbind (b_as_mut_ptr c self) k) m' s.
Proof.
  intros Hk a s' E HS b Hb HP. destruct (as_mut_ptr_ok own self s b Hb) as (ptr & b1 & E1 & Hb1 & HP1 & N1).
  rewrite HP in HP1, N1. destruct (Hk ptr a s' E HS b1 Hb1 HP1) as (b2 & E2 & Hb2 & HP2).
  exists b2. unfold sbind. rewrite E1. split; [exact E2|]. split; [|exact HP2].
  eapply fam_drops; [exact Hb2|]. rewrite HP2. intros l Hl. unfold with_ptr. destruct (l <? cap c).
  - apply drops_skip; [exact N1|]. apply drops_refl.
  - apply drops_refl.
Qed.

Definition owner (own : N) (l : N) : stack := (Unique, own) :: Below l.
Lemma track_call A own P (f : N -> ST mem A) (m' : ST astring A) s :
  (forall self, track (own_self own self) (self :: P) (f self) m' s) ->
  track (owner own) P (call_self c Unique own f) m' s.
Proof.
  intros Hf a s' E HS b Hb HP. unfold call_self, call, sbind, on_tags.
  destruct (reborrow_ok Unique own 0 (cap c + 1) (cap c) (owner own) (owner own) b Hb ltac:(lia))
    as (b1 & E1 & F1 & P1 & f1 & F1').
  { cbn [may_write]. intros l Hl. apply writes_here. reflexivity. }
  rewrite E1. set (self := fresh b) in *.
  assert (F2 : fam (cap c) (own_self own self) (protect self b1)).
  { eapply fam_drops; [exact F1'|]. cells. apply drops_refl. }
  destruct (Hf self a s' E HS (protect self b1) F2) as (b2 & E2 & Hb2 & HP2).
  { cbn [protect prot]. congruence. }
  exists (unprotect b2). split; [apply during_eq; exact E2|].
  destruct (fam_unprotect _ _ _ _ _ Hb2 HP2) as (F4 & P4 & f4). split; [|exact P4].
  eapply fam_drops; [exact F4|]. intros l Hl. apply drops_skip; [|apply drops_refl].
  rewrite P4, <- HP. apply (fam_new _ _ _ _ Hb). cbn. lia.
Qed.

Lemma track_try A B E E' F P (conv : E -> E') (m : ST mem (result A E)) m'
    (k : A -> ST mem (result B E')) k' s :
  track F P m m' s -> (forall a s1, m' s = (Ret (Ok a), s1) -> track F P (k a) (k' a) s1) ->
  track F P (stry conv m k) (stry conv m' k') s.
Proof.
  intros Hm Hk. unfold stry. apply track_bind; [exact Hm|]. intros [a|e] s1 E1; [exact (Hk a s1 E1)|apply track_ret].
Qed.

Lemma quiet_slift A F s (o : outcome A) : quiet F (slift o) s o.
Proof. intros b H. exists b. split; [reflexivity|]. split; [exact H|]. split; [reflexivity|lia]. Qed.

Lemma track_eta A F P (m : ST mem A) (m' m'' : ST astring A) s :
  m' s = m'' s -> track F P m m'' s -> track F P m m' s.
Proof. intros E H a s' E'. rewrite E in E'. exact (H a s' E'). Qed.

Lemma replace_range_track own P s x lo hi w : rep c s x ->
  track (owner own) P (b_replace_range c own lo hi w) (replace_range c lo hi w) s.
Proof.
  intros X. unfold b_replace_range. apply track_call. intros self. cbv zeta.
  pose proof (readable_own own self) as R.
  eapply track_extra with (x := end_of c hi (len s)).
  { destruct hi; [apply quiet_ret|apply quiet_ret|apply quiet_len; exact R]. }
  eapply track_eta; [unfold replace_range; cbv zeta; reflexivity|].
  destruct ((start_of c lo =? end_of c hi (len s)) && (lenN w =? 0)); [apply track_ret|].
  set (start := start_of c lo). set (end_ := end_of c hi (len s)).
  apply track_try; [apply track_ret|]. intros u1 s1 E1. injection E1 as E1 <-.
  eapply track_extra; [apply quiet_len; exact R|].
  apply track_try; [apply (track_quiet _ _ _ _ (fun s => Ret (is_inside_boundary end_ (len s)))); apply quiet_ret|].
  intros u2 s2 E2. injection E2 as E2 <-.
  apply track_try; [apply track_ret|]. intros u3 s3 E3. injection E3 as E3 <-.
  apply track_try; [apply (track_quiet _ _ _ _ (fun s => is_char_boundary c s start));
    exact (quiet_is_char_boundary _ s self x start X R)|].
  intros u4 s4 E4. injection E4 as E4 <-.
  apply track_try; [apply (track_quiet _ _ _ _ (fun s => is_char_boundary c s end_));
    exact (quiet_is_char_boundary _ s self x end_ X R)|].
  intros u5 s5 E5. injection E5 as E5 <-.
  eapply track_extra; [apply quiet_len; exact R|].
  apply (track_read_lift _ _ _ _ _ _ (fun s => a <- uadd c (len s) (lenN w) ;; b <- uadd c a start ;; usub c b end_)).
  intros n En.
  apply track_try; [apply track_ret|]. intros u6 s6 E6. injection E6 as E6 <-.
  apply track_ptr. intros ptr. pose proof (readable_ptr own self ptr) as R'.
  destruct X as ((L & _) & _).
  apply track_bind; [apply track_lift|]. intros cs s7 E7. injection E7 as E7 <-.
  apply ptr_add_ret in E7 as [-> B7].
  apply track_bind; [apply track_lift|]. intros ce s8 E8. injection E8 as E8 <-.
  apply ptr_add_ret in E8 as [-> B8].
  apply track_bind; [apply track_lift|]. intros se s9 E9. injection E9 as E9 <-.
  apply ptr_add_ret in E9 as [-> B9].
  apply track_bind.
  { match goal with |- track _ _ (if ?b then _ else _) _ _ => destruct b end; [|apply track_ret].
    eapply track_extra; [apply quiet_len; exact R'|].
    intros a s' E HS. unfold sbind, sread in E.
    destruct (usub c (len s) end_) as [k| | |] eqn:Ek; cbn [obind] in E;
      try (injection E as <- <-; contradiction).
    2: { injection E as <- <-. intros b Hb HP. exists b. split; [reflexivity|]. split; assumption. }
    destruct (ptr_copy (arr s) _ _ k) as [a0| | |] eqn:Ea; try (injection E as <- <-; contradiction).
    2: { unfold ptr_copy in Ea. destruct (_ && _) in Ea; discriminate. }
    assert (B : 0 + end_ + k <= cap c /\ 0 + start + lenN w + k <= cap c).
    { unfold ptr_copy in Ea. rewrite L in Ea.
      destruct (N.leb_spec (0 + end_ + k) (cap c)); [|discriminate].
      destruct (N.leb_spec (0 + start + lenN w + k) (cap c)); [|discriminate]. split; assumption. }
    revert a s' E HS.
    apply (track_extra _ _ _ _ _ _ (set_arr a0) _ k); [apply quiet_slift|].
    apply (track_extra _ _ _ _ _ _ (set_arr a0) _ a0); [apply quiet_read; exact Ea|].
    apply (track_extra _ _ _ _ _ _ (set_arr a0) _ tt); [apply quiet_ptr; apply B|].
    apply (track_extra _ _ _ _ _ _ (set_arr a0) _ tt); [apply quiet_ptr; apply B|].
    apply track_val. }
  intros [] s10 E10.
  apply track_bind.
  { match goal with |- track _ _ (if ?b then _ else _) _ _ => destruct b end; [|apply track_ret].
    apply track_bind; [apply track_val|]. intros a0 s11 E11. injection E11 as E11 <-.
    apply (track_extra _ _ _ _ _ _ (set_arr a0) _ tt); [apply quiet_ptr; lia|].
    apply track_val. }
  intros [] s12 E12.
  eapply track_extra; [apply quiet_len; exact R'|].
  apply (track_read_lift _ _ _ _ _ _ (fun s => a <- uadd c (len s) (lenN w) ;; b <- uadd c a start ;; usub c b end_)).
  intros n' En'.
  eapply track_extra; [apply quiet_size|].
  apply track_bind; [apply track_val|]. intros u s13 _. apply track_ret.
Qed.

(** ** [as_mut] *)
Definition loan (p : perm) (own v n : N) (l : N) : stack :=
  if l <? n then (p, v) :: (Unique, own) :: Below l else (Unique, own) :: Below l.

(** A unique reborrow inside a call: the new tag and what it was made from. *)
Lemma unique_call A (F F' : N -> stack) t n s (f : N -> ST mem A) b :
  fam (cap c) F b -> n <= cap c + 1 ->
  (forall l, l < n -> writes (prot b) (F l) t (F' l)) ->
  exists b1, call Unique t 0 n f (s, b) = during (fresh b) (f (fresh b)) (s, b1)
    /\ fam (cap c) (over 0 n (fun l => (Unique, fresh b) :: F' l) F) (protect (fresh b) b1)
    /\ prot b1 = prot b /\ fresh b1 = fresh b + 1.
Proof.
  intros H Hn HW.
  destruct (reborrow_ok Unique t 0 n (cap c) F F' b H ltac:(lia)) as (b1 & E1 & _ & P1 & f1 & F1').
  { cbn [may_write]. intros l Hl. apply HW. lia. }
  exists b1. unfold call, sbind, on_tags. rewrite E1. split; [reflexivity|]. split; [exact F1'|]. split; assumption.
Qed.

Lemma as_mut_rep s x : rep c s x -> as_mut c s = (Ret (enc x), s).
Proof.
  intros X. pose proof (as_str_rep c s x X) as E. pose proof (rep_cap c s x X) as K.
  pose proof (as_ref_bytes_rep c s x X) as E1. rewrite <- (rep_len c s x X) in K.
  unfold as_mut, sread. f_equal. unfold as_ref_bytes, debug_assert in *.
  replace (len s <=? cap c) with true in * by (symmetry; apply N.leb_le; exact K).
  destruct (debug c); cbn [obind] in *; rewrite E1; cbn [obind];
    unfold from_utf8_unchecked; rewrite from_utf8_ok_enc; reflexivity.
Qed.

Definition top (n v : N) (F : N -> stack) : N -> stack := over 0 n (fun l => (Unique, v) :: F l) F.

Lemma drop_mid (G H : N -> stack) n v u b P :
  fam (cap c) (over 0 n (fun l => (Unique, v) :: (Unique, u) :: H l) G) b -> prot b = P -> ~ In u P ->
  (forall l, l <= cap c -> ~ l < n -> drops P (G l) (H l)) ->
  fam (cap c) (top n v H) b.
Proof.
  intros F E Hu HG. eapply fam_drops; [exact F|]. rewrite E. unfold top. cells.
  - apply drops_keep. apply drops_skip; [exact Hu|]. apply drops_refl.
  - apply HG; lia.
Qed.

(** [as_mut_slice] and [from_utf8_unchecked_mut]: the argument is handed back. *)
Lemma unique_same F t n s b : n <= cap c + 1 ->
  fam (cap c) (top n t F) b -> ~ In t (prot b) ->
  exists b', call Unique t 0 n (fun a => sret a) (s, b) = (Ret (fresh b), (s, b'))
    /\ fam (cap c) (top n (fresh b) F) b' /\ prot b' = prot b /\ fresh b < fresh b'.
Proof.
  intros Hn H Ht.
  destruct (unique_call N (top n t F) (top n t F) t n s (fun a => sret a) b H Hn) as (b1 & E & F1 & P1 & f1).
  { unfold top. cells. apply writes_here. reflexivity. }
  destruct (fam_unprotect _ _ _ (fresh b) (prot b) F1) as (F2 & P2 & f2); [cbn [protect prot]; congruence|].
  exists (unprotect (protect (fresh b) b1)). split; [rewrite E; apply during_eq; reflexivity|].
  split; [|split; [exact P2|rewrite f2; cbn [protect fresh]; lia]].
  eapply fam_drops; [exact F2|]. rewrite P2. unfold top. cells; [|apply drops_refl].
  apply drops_keep, drops_skip; [exact Ht|apply drops_refl].
Qed.

Lemma as_mut_ok own s x b : rep c s x -> fam (cap c) (owner own) b ->
  exists v b', b_as_mut c own (s, b) = (Ret (v, enc x), (s, b'))
    /\ fam (cap c) (loan Unique own v (blen x)) b' /\ prot b' = prot b /\ fresh b <= v < fresh b'.
Proof.
  intros X H0. pose proof (rep_cap c s x X) as K. unfold b_as_mut, call_self.
  match goal with |- context [call Unique own 0 (cap c + 1) ?f] =>
    destruct (unique_call _ (owner own) (owner own) own (cap c + 1) s f b H0 ltac:(lia)) as (b1 & E1 & F1 & P1 & f1)
  end.
  { intros l _. apply writes_here. reflexivity. }
  set (self := fresh b) in *.
  assert (F1' : fam (cap c) (own_self own self) (protect self b1)).
  { eapply fam_drops; [exact F1|]. cells. apply drops_refl. }
  assert (HS : ~ In self (prot b)) by (apply (fam_new _ _ _ _ H0); unfold self; lia).
  match type of E1 with _ = during _ ?m _ =>
    assert (B : exists v b', m (s, protect self b1) = (Ret (v, enc x), (s, b'))
      /\ fam (cap c) (top (blen x) v (own_self own self)) b' /\ prot b' = self :: prot b /\ self < v < fresh b')
  end.
  { cbv beta. set (b2 := protect self b1) in *.
    assert (P2 : prot b2 = self :: prot b) by (cbn; congruence).
    assert (f2 : fresh b2 = self + 1) by (cbn; lia). clearbody b2. clear E1 F1 f1 P1 b1 H0.
    destruct (quiet_len (own_self own self) s self (readable_own own self) b2 F1') as (b3 & E3 & F3 & P3 & f3).
    erewrite sbind_ret by exact E3. rewrite (rep_len c s x X). rewrite P2 in P3. rewrite f2 in f3.
    clear E3 F1' P2 f2 b2.
    destruct (reborrow_ok Unique self 0 (cap c) (cap c) (own_self own self) (own_self own self) b3 F3 ltac:(lia))
      as (b4 & E4 & F4 & P4 & f4 & _).
    { cbn [may_write]. intros l Hl. apply writes_here. reflexivity. }
    unfold on_tags at 1, sbind at 1. rewrite E4. fold (top (cap c) (fresh b3) (own_self own self)) in F4.
    destruct (unique_same (own_self own self) (fresh b3) (cap c) s b4 ltac:(lia) F4) as (b5 & E5 & F5 & P5 & f5).
    { rewrite P4. apply (fam_new _ _ _ _ F3). lia. }
    erewrite sbind_ret by exact E5.
    match goal with |- context [call Unique (fresh b4) 0 (cap c) ?f] =>
      destruct (unique_call _ (top (cap c) (fresh b4) (own_self own self)) (top (cap c) (fresh b4) (own_self own self))
        (fresh b4) (cap c) s f b5 F5 ltac:(lia)) as (b6 & E6 & F6 & P6 & f6)
    end.
    { unfold top. cells. apply writes_here. reflexivity. }
    destruct (reborrow_ok Unique (fresh b5) 0 (blen x) (cap c) _
      (fun l => (Unique, fresh b5) :: (Unique, fresh b4) :: own_self own self l) _ F6 ltac:(lia))
      as (b7 & E7 & F7 & P7 & f7 & _).
    { cbn [may_write]. unfold top. cells. apply writes_here. reflexivity. }
    destruct (fam_unprotect _ _ _ (fresh b5) (self :: prot b) F7) as (F8 & P8 & f8).
    { rewrite P7. cbn [protect prot]. congruence. }
    erewrite sbind_ret by (rewrite E6; apply during_eq; unfold on_tags; rewrite E7; reflexivity).
    cbn [protect fresh] in *.
    assert (N4 : ~ In (fresh b4) (self :: prot b)) by (rewrite <- P3; apply (fam_new _ _ _ _ F3); lia).
    assert (N5 : ~ In (fresh b5) (self :: prot b)) by (rewrite <- P3; apply (fam_new _ _ _ _ F3); lia).
    assert (N6 : ~ In (fresh b6) (self :: prot b)) by (rewrite <- P3; apply (fam_new _ _ _ _ F3); lia).
    assert (G : fam (cap c) (top (blen x) (fresh b6) (own_self own self)) (unprotect b7)).
    { eapply fam_drops; [exact F8|]. rewrite P8. unfold top. cells;
        repeat first [apply drops_refl | apply drops_keep | apply drops_skip; [assumption|]]. }
    assert (Q : quiet (top (blen x) (fresh b6) (own_self own self))
      (if debug c then call SharedRO (fresh b6) 0 (blen x) (fun r => on_tags (access false r 0 (blen x)))
       else sret tt) s (Ret tt)).
    { destruct (debug c); [|apply quiet_ret]. unfold top.
      apply quiet_call; [lia| |].
      - cells. apply reads_here. reflexivity.
      - intros r. apply quiet_access; [lia|]. cells. apply reads_here. reflexivity. }
    destruct (Q _ G) as (b9 & E9 & F9 & P9 & f9). erewrite sbind_ret by exact E9. rewrite P8 in P9.
    destruct (unique_same (own_self own self) (fresh b6) (blen x) s b9 ltac:(lia) F9) as (b10 & E10 & F10 & P10 & f10).
    { rewrite P9. exact N6. }
    erewrite sbind_ret by exact E10.
    exists (fresh b9), b10. split; [unfold sbind, on_val; rewrite (as_mut_rep s x X); reflexivity|].
    split; [exact F10|]. split; [congruence|]. lia. }
  destruct B as (v & b2 & E2 & F2 & P2 & f2).
  destruct (fam_unprotect _ _ _ _ _ F2 P2) as (F3 & P3 & f3).
  exists v, (unprotect b2). split; [rewrite E1; apply during_eq; exact E2|].
  split; [|split; [exact P3|lia]].
  eapply fam_drops; [exact F3|]. rewrite P3. unfold loan, top. cells.
  - replace (l <? blen x) with true by (symmetry; apply N.ltb_lt; lia).
    apply drops_keep, drops_skip; [exact HS|]. apply drops_refl.
  - replace (l <? blen x) with false by (symmetry; apply N.ltb_ge; lia).
    apply drops_skip; [exact HS|]. apply drops_refl.
Qed.

Lemma write_track own v n P a new s : a + lenN new <= n -> n <= cap c ->
  track (loan Unique own v n) P (b_write v a new) (str_write a new) s.
Proof.
  intros Hn Hc. unfold b_write. eapply track_extra; [|apply track_val].
  intros b H.
  destruct (access_ok true v a (lenN new) (cap c) _ (loan Unique own v n) b H ltac:(lia)) as (b1 & E1 & F1 & P1 & f1).
  { intros l Hl. unfold loan. replace (l <? n) with true by (symmetry; apply N.ltb_lt; lia).
    apply writes_here; reflexivity. }
  exists b1. unfold on_tags. rewrite E1. split; [reflexivity|]. split; [|split; [exact P1|lia]].
  eapply fam_drops; [exact F1|]. cells; apply drops_refl.
Qed.

End Runs.
