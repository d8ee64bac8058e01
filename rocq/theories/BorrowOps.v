(** The borrows made by the methods of ModelBorrowOps.v are accepted. *)
From Coq Require Import ZArith ZifyBool ZifyN ZifyNat Arith Lia.
From Verif Require Import Base Char Spec RustStd ModelError Model RustFmt ModelImpl ModelDrain ModelOps
  TextOps ListFacts Utf8Facts CoreFacts MethodFacts OpsFacts
  Borrows ModelBorrows BorrowFacts BorrowRuns ModelBorrowOps.

Ltac cells :=
  intros; unfold over in *;
  repeat match goal with |- context [within ?a ?n ?l] =>
    let W := fresh "W" in destruct (within a n l) eqn:W;
    [apply within_iff in W | assert (~ (a <= l < a + n)) by (rewrite <- within_iff, W; discriminate); clear W]
  end; try (exfalso; lia).

Section Ops.
Variable c : cfg.

(** ** References handed out by a step *)

(** [m] makes a new tag [v] with permission [p] for the [n] bytes from [lo] and returns [g v]. *)
Definition hands {A} (p : perm) (F : N -> stack) (m : ST mem A) (s : astring) (lo n : N) (g : N -> A) : Prop :=
  forall b, fam (cap c) F b ->
    exists v b', m (s, b) = (Ret (g v), (s, b'))
      /\ fam (cap c) (over lo n (fun l => (p, v) :: F l) F) b'
      /\ prot b' = prot b /\ fresh b <= v /\ v < fresh b'.

(** [t] can be used for a reborrow with permission [p] of the [n] bytes from [lo]. *)
Definition usable (p : perm) (F : N -> stack) (t lo n : N) : Prop :=
  lo + n <= cap c + 1 /\
  forall P l, lo <= l < lo + n -> if may_write p then writes P (F l) t (F l) else reads (F l) t.

Lemma fam_ext F G b : (forall l, l <= cap c -> F l = G l) -> fam (cap c) F b -> fam (cap c) G b.
Proof. intros E H. eapply fam_drops; [exact H|]. intros l Hl. rewrite (E l Hl). apply drops_refl. Qed.

Lemma usable_ok p F t lo n b : usable p F t lo n -> fam (cap c) F b ->
  exists b', reborrow p t lo n b = (Ret (fresh b), b')
    /\ fam (cap c) (over lo n (fun l => (p, fresh b) :: F l) F) b'
    /\ prot b' = prot b /\ fresh b' = fresh b + 1
    /\ fam (cap c) (over lo n (fun l => (p, fresh b) :: F l) F) (protect (fresh b) b').
Proof.
  intros [Hn HU] H. apply reborrow_ok; [exact H|exact Hn|]. intros l Hl. specialize (HU (prot b) l Hl).
  destruct (may_write p); [exact HU|]. split; [reflexivity|exact HU].
Qed.

Lemma hands_reborrow p F s t lo n : usable p F t lo n ->
  hands p F (on_tags (reborrow p t lo n)) s lo n (fun v => v).
Proof.
  intros U b H. destruct (usable_ok p F t lo n b U H) as (b1 & E1 & F1 & P1 & f1 & _).
  exists (fresh b), b1. unfold on_tags. rewrite E1. split; [reflexivity|]. split; [exact F1|]. split; [exact P1|lia].
Qed.

Ltac dropping := cells; repeat first [apply drops_refl | apply drops_skip; [assumption|] | apply drops_keep].

Lemma quiet_ext A F G (m : ST mem A) s o :
  (forall l, l <= cap c -> F l = G l) -> quiet c F m s o -> quiet c G m s o.
Proof.
  intros E H b Hb. destruct (H b) as (b' & E1 & F1 & P1 & f1).
  { apply (fam_ext G F); [intros l Hl; symmetry; apply E; exact Hl|exact Hb]. }
  exists b'. split; [exact E1|]. split; [apply (fam_ext F G); assumption|]. split; assumption.
Qed.
Lemma hands_ext A p F G (m : ST mem A) s lo n g :
  (forall l, l <= cap c -> F l = G l) -> hands p F m s lo n g -> hands p G m s lo n g.
Proof.
  intros E H b Hb. destruct (H b) as (v & b' & E1 & F1 & P1 & f1).
  { apply (fam_ext G F); [intros l Hl; symmetry; apply E; exact Hl|exact Hb]. }
  exists v, b'. split; [exact E1|]. split; [|split; assumption].
  eapply fam_ext; [|exact F1]. intros l Hl. unfold over. rewrite (E l Hl). reflexivity.
Qed.

Lemma hands_lend A F (m : ST mem A) s n g : lend c F m s n g -> hands SharedRO F m s 0 n g.
Proof. intros H. exact H. Qed.

Lemma quiet_calls A q F s t lo n (f : N -> ST mem A) o : usable q F t lo n ->
  (forall r, quiet c (over lo n (fun l => (q, r) :: F l) F) (f r) s o) ->
  quiet c F (call q t lo n f) s o.
Proof.
  intros U Hf b H. destruct (usable_ok q F t lo n b U H) as (b1 & E1 & _ & P1 & f1 & F1').
  destruct (Hf (fresh b) _ F1') as (b2 & E2 & F2 & P2 & f2). cbn [protect prot fresh] in P2, f2.
  destruct (fam_unprotect _ _ _ _ _ F2 P2) as (F3 & P3 & f3).
  exists (unprotect b2). split.
  { unfold call, sbind, on_tags. rewrite E1. apply during_eq. exact E2. }
  split; [|split; [congruence|lia]].
  eapply fam_drops; [exact F3|]. rewrite P3, P1. pose proof (fam_new _ _ _ (fresh b) H (N.le_refl _)). dropping.
Qed.
Lemma hands_calls A p q F s t lo n (f : N -> ST mem A) lo' n' g : usable q F t lo n ->
  (forall r, hands p (over lo n (fun l => (q, r) :: F l) F) (f r) s lo' n' g) ->
  hands p F (call q t lo n f) s lo' n' g.
Proof.
  intros U Hf b H. destruct (usable_ok q F t lo n b U H) as (b1 & E1 & _ & P1 & f1 & F1').
  destruct (Hf (fresh b) _ F1') as (v & b2 & E2 & F2 & P2 & f2 & f2'). cbn [protect prot fresh] in P2, f2, f2'.
  destruct (fam_unprotect _ _ _ _ _ F2 P2) as (F3 & P3 & f3).
  exists v, (unprotect b2). split.
  { unfold call, sbind, on_tags. rewrite E1. apply during_eq. exact E2. }
  split; [|split; [congruence|lia]].
  eapply fam_drops; [exact F3|]. rewrite P3, P1. pose proof (fam_new _ _ _ (fresh b) H (N.le_refl _)). dropping.
Qed.

Lemma hands_bind A B p F s (m : ST mem A) (k : A -> ST mem B) a lo n g :
  quiet c F m s (Ret a) -> hands p F (k a) s lo n g -> hands p F (sbind m k) s lo n g.
Proof.
  intros Hm Hk b H. destruct (Hm b H) as (b1 & E1 & F1 & P1 & f1).
  destruct (Hk b1 F1) as (v & b2 & E2 & F2 & P2 & f2 & f3). exists v, b2. unfold sbind. rewrite E1.
  split; [exact E2|]. split; [exact F2|]. split; [congruence|lia].
Qed.
Lemma hands_map A B p F s (m : ST mem A) (h : A -> B) lo n g :
  hands p F m s lo n g -> hands p F (sbind m (fun a => sret (h a))) s lo n (fun v => h (g v)).
Proof.
  intros Hm b H. destruct (Hm b H) as (v & b1 & E1 & F1 & P1 & f1 & f1').
  exists v, b1. unfold sbind. rewrite E1. split; [reflexivity|]. split; [exact F1|]. split; [exact P1|lia].
Qed.
Lemma hands_hands A B p q F s (m : ST mem A) (k : A -> ST mem B) lo n g lo' n' g' :
  hands p F m s lo n g ->
  (forall v, hands q (over lo n (fun l => (p, v) :: F l) F) (k (g v)) s lo' n' g') ->
  hands q F (sbind m k) s lo' n' g'.
Proof.
  intros Hm Hk b H. destruct (Hm b H) as (v & b1 & E1 & F1 & P1 & f1 & f1').
  destruct (Hk v b1 F1) as (v2 & b2 & E2 & F2 & P2 & f2 & f2'). exists v2, b2. unfold sbind. rewrite E1.
  split; [exact E2|]. split; [|split; [congruence|lia]].
  eapply fam_drops; [exact F2|]. rewrite P2, P1. pose proof (fam_new _ _ _ v H f1). dropping.
Qed.
Lemma quiet_hands A B p F s (m : ST mem A) (k : A -> ST mem B) lo n g o :
  hands p F m s lo n g ->
  (forall v, quiet c (over lo n (fun l => (p, v) :: F l) F) (k (g v)) s o) ->
  quiet c F (sbind m k) s o.
Proof.
  intros Hm Hk b H. destruct (Hm b H) as (v & b1 & E1 & F1 & P1 & f1 & f1').
  destruct (Hk v b1 F1) as (b2 & E2 & F2 & P2 & f2). exists b2. unfold sbind. rewrite E1.
  split; [exact E2|]. split; [|split; [congruence|lia]].
  eapply fam_drops; [exact F2|]. rewrite P2, P1. pose proof (fam_new _ _ _ v H f1). dropping.
Qed.
Lemma track_hands A B p F P s (m : ST mem A) (k : A -> ST mem B) m' lo n g :
  hands p F m s lo n g ->
  (forall v, track c (over lo n (fun l => (p, v) :: F l) F) P (k (g v)) m' s) ->
  track c F P (sbind m k) m' s.
Proof.
  intros Hm Hk a s' E HS b H HP. destruct (Hm b H) as (v & b1 & E1 & F1 & P1 & f1 & f1').
  rewrite HP in P1. destruct (Hk v a s' E HS b1 F1 P1) as (b2 & E2 & F2 & P2). exists b2.
  unfold sbind. rewrite E1. split; [exact E2|]. split; [|exact P2].
  eapply fam_drops; [exact F2|]. rewrite P2. pose proof (fam_new _ _ _ v H f1). rewrite HP in *. dropping.
Qed.

Lemma quiet_step A B F s (m : ST mem A) (k : A -> ST mem B) o g :
  quiet c F m s o -> (forall a, o = Ret a -> quiet c F (k a) s (g a)) ->
  quiet c F (sbind m k) s (obind o g).
Proof.
  intros Hm Hk. destruct o as [a| | |]; [exact (quiet_bind c _ _ _ _ _ _ _ _ Hm (Hk a eq_refl))|..];
    intros b H; destruct (Hm b H) as (b1 & E1 & F1 & P1 & f1); exists b1; unfold sbind; rewrite E1;
    (split; [reflexivity|]; split; [exact F1|]; split; [exact P1|exact f1]).
Qed.

(** ** Reading [self] *)
Lemma readable_usable F t lo n : readable c F t -> lo + n <= cap c + 1 -> usable SharedRO F t lo n.
Proof. intros R Hn. split; [exact Hn|]. cbn [may_write]. intros _ l Hl. apply R. lia. Qed.
Lemma usable_top p F v lo n : lo + n <= cap c + 1 ->
  (if may_write p then true else may_read p) = true ->
  usable p (over lo n (fun l => (p, v) :: F l) F) v lo n.
Proof.
  intros Hn Hp. split; [exact Hn|]. intros P l Hl.
  replace (over lo n (fun l => (p, v) :: F l) F l) with ((p, v) :: F l)
    by (unfold over; replace (within lo n l) with true by (symmetry; apply within_iff; exact Hl); reflexivity).
  destruct (may_write p) eqn:E; [apply writes_here; exact E|apply reads_here; exact Hp].
Qed.

Lemma quiet_use_read F s t lo n : usable SharedRO F t lo n ->
  quiet c F (call SharedRO t lo n (fun r => on_tags (access false r lo n))) s (Ret tt).
Proof.
  intros U. apply quiet_calls; [exact U|]. intros r. destruct U as [Hn _]. apply quiet_access; [exact Hn|].
  cells. apply reads_here. reflexivity.
Qed.

Lemma quiet_str F s t x : rep c s x -> readable c F t -> quiet c F (b_str c t) s (Ret (enc x)).
Proof.
  intros X R. unfold b_str. pose proof (rep_cap c s x X) as K.
  eapply quiet_hands; [apply hands_lend; exact (lend_as_str c F s t x X R)|]. intros v. cbn [fst snd]. rewrite enc_len.
  eapply quiet_bind; [apply quiet_use_read; apply usable_top; [lia|reflexivity]|apply quiet_ret].
Qed.

(** ** Calls through [own] *)
Section Frame.
Variable Below : N -> stack.
Variable own : N.
Notation F := (owner Below own).

Lemma readable_owner : readable c F own.
Proof. intros l _. apply reads_here. reflexivity. Qed.
Lemma usable_owner p lo n : lo + n <= cap c + 1 -> usable p F own lo n.
Proof.
  intros Hn. split; [exact Hn|]. intros P l _. destruct (may_write p); [apply writes_here|apply reads_here]; reflexivity.
Qed.

Lemma track_self A P (f : N -> ST mem A) (m' : ST astring A) s :
  (forall self, track c (owner F self) (self :: P) (f self) m' s) ->
  track c F P (call_self c Unique own f) m' s.
Proof. intros H. apply track_call. exact H. Qed.

Lemma over_all p r l : l <= cap c -> over 0 (cap c + 1) (fun l => (p, r) :: F l) F l = (p, r) :: F l.
Proof. intros Hl. unfold over. replace (within 0 (cap c + 1) l) with true by (symmetry; apply within_iff; lia). reflexivity. Qed.

Lemma quiet_self A (f : N -> ST mem A) s o :
  (forall self, quiet c (owner F self) (f self) s o) -> quiet c F (call_self c Unique own f) s o.
Proof.
  intros H. apply quiet_calls; [apply usable_owner; lia|]. intros r.
  eapply quiet_ext; [|exact (H r)]. intros l Hl. symmetry. apply over_all. exact Hl.
Qed.
Lemma hands_self A p (f : N -> ST mem A) s lo n g :
  (forall self, hands p (owner F self) (f self) s lo n g) -> hands p F (call_self c Unique own f) s lo n g.
Proof.
  intros H. apply hands_calls with (q := Unique); [apply usable_owner; lia|]. intros r.
  eapply hands_ext; [|exact (H r)]. intros l Hl. symmetry. apply over_all. exact Hl.
Qed.
Lemma quiet_shared A (f : N -> ST mem A) s o :
  (forall self F', readable c F' self -> quiet c F' (f self) s o) -> quiet c F (call_self c SharedRO own f) s o.
Proof.
  intros H. apply quiet_calls; [apply usable_owner; lia|]. intros r. apply H. apply readable_pushed.
Qed.

Lemma quiet_own_write s lo n : lo + n <= cap c + 1 -> quiet c F (on_tags (access true own lo n)) s (Ret tt).
Proof.
  intros Hn b H.
  destruct (access_ok true own lo n (cap c) F F b H Hn) as (b1 & E1 & F1 & P1 & f1).
  { intros l Hl. apply writes_here. reflexivity. }
  exists b1. unfold on_tags. rewrite E1. split; [reflexivity|]. split; [|split; [exact P1|lia]].
  eapply fam_drops; [exact F1|]. dropping.
Qed.

Lemma set_size_track P n s : track c F P (b_set_size c own n) (set_size n) s.
Proof. unfold b_set_size. eapply track_extra; [apply quiet_own_write; lia|apply track_val]. Qed.
Lemma assign_track P a s : track c F P (b_assign c own a) (smodify (fun _ => a)) s.
Proof. unfold b_assign. eapply track_extra; [apply quiet_own_write; lia|apply track_val]. Qed.

Lemma as_mut_hands s x : rep c s x -> hands Unique F (b_as_mut c own) s 0 (blen x) (fun v => (v, enc x)).
Proof.
  intros X b H. destruct (as_mut_ok c Below own s x b X H) as (v & b' & E & F' & P & Hv & Hv').
  exists v, b'. split; [exact E|]. split; [|split; [exact P|split; assumption]].
  eapply fam_ext; [|exact F']. intros l Hl. unfold loan, over, owner.
  destruct (N.ltb_spec l (blen x)) as [L|L].
  - replace (within 0 (blen x) l) with true by (symmetry; apply within_iff; lia). reflexivity.
  - destruct (within 0 (blen x) l) eqn:W; [apply within_iff in W; lia|reflexivity].
Qed.
End Frame.

Lemma as_mut_str_hands Below own s x : rep c s x ->
  hands Unique (owner Below own) (b_as_mut_str c own) s 0 (blen x) (fun v => (v, enc x)).
Proof. intros X. apply hands_self. intros self. apply as_mut_hands. exact X. Qed.

Lemma write_on v lo n F P a new s : lo <= a -> a + lenN new <= lo + n -> lo + n <= cap c + 1 ->
  track c (over lo n (fun l => (Unique, v) :: F l) F) P (b_write v a new) (str_write a new) s.
Proof.
  intros H1 H2 H3. unfold b_write. eapply track_extra; [|apply track_val]. intros b H.
  set (G := over lo n (fun l => (Unique, v) :: F l) F) in *.
  destruct (access_ok true v a (lenN new) (cap c) _ G b H ltac:(lia)) as (b1 & E1 & F1 & P1 & f1).
  { intros l Hl. unfold G. cells. apply writes_here; reflexivity. }
  exists b1. unfold on_tags. rewrite E1. split; [reflexivity|]. split; [|split; [exact P1|lia]].
  eapply fam_drops; [exact F1|]. clearbody G. dropping.
Qed.
End Ops.

(** ** The methods *)
Section Methods.
Variable c : cfg.
Hypothesis Hc : valid_cfg c.

Lemma replace_range_keeps lo hi w s x r s' : rep c s x ->
  replace_range c lo hi (enc w) s = (Ret r, s') -> exists x', rep c s' x'.
Proof.
  intros X E. pose proof (replace_range_rep c Hc lo hi w s x X) as H.
  destruct (t_replace_range _ _ _ _ _ _) as [r0 x']. destruct H as (s1 & E1 & X1 & _).
  rewrite E in E1. injection E1 as _ <-. exists x'. exact X1.
Qed.
Lemma try_push_str_keeps w s x o s' : rep c s x -> try_push_str c (enc w) s = (o, s') -> exists x', rep c s' x'.
Proof.
  intros X E. destruct (try_push_str_runs c Hc w s x X) as (s1 & E1 & X1 & _).
  rewrite E in E1. injection E1 as _ <-. eexists. exact X1.
Qed.

Ltac own_reads := apply readable_owner.
Ltac step_len := eapply track_extra; [apply quiet_len; own_reads|].
Ltac step_str X := eapply track_extra; [apply (quiet_str c _ _ _ _ X); own_reads|].

Lemma try_push_str_track Bl own P s x w : rep c s x ->
  track c (owner Bl own) P (b_try_push_str c own w) (try_push_str c w) s.
Proof.
  intros X. unfold b_try_push_str. apply track_self. intros self. unfold try_push_str.
  apply track_bind; [apply (track_quiet c _ _ _ _ (fun s => Ret (len s))); apply quiet_len; own_reads|].
  intros n s1 E1. injection E1 as <- <-.
  apply track_bind; [eapply replace_range_track; exact X|]. intros r s2 _. apply track_ret.
Qed.

Lemma push_str_truncate_track Bl own P s x w : rep c s x ->
  track c (owner Bl own) P (b_push_str_truncate c own w) (push_str_truncate c w) s.
Proof.
  intros X. unfold b_push_str_truncate. apply track_self. intros self. unfold push_str_truncate. step_len.
  apply track_step; [reflexivity|]. intros t _.
  apply track_bind; [eapply try_push_str_track; exact X|]. intros r s2 _. apply track_ret.
Qed.

Lemma try_push_track Bl own P s x ch : rep c s x ->
  track c (owner Bl own) P (b_try_push c own ch) (try_push c ch) s.
Proof.
  intros X. unfold b_try_push. apply track_self. intros self. unfold try_push.
  apply track_bind; [apply track_lift|]. intros b s1 E1. injection E1 as E1 <-.
  eapply try_push_str_track; exact X.
Qed.

Lemma truncate_track Bl own P s x n : rep c s x ->
  track c (owner Bl own) P (b_truncate c own n) (truncate c n) s.
Proof.
  intros X. unfold b_truncate. apply track_self. intros self. step_len. cbv zeta.
  eapply track_eta; [unfold truncate; eapply sbind_ret; reflexivity|]. cbv beta.
  set (m := N.min (len s) n).
  apply track_bind; [apply (track_quiet c _ _ _ _ (fun s => is_char_boundary c s m));
    apply (quiet_is_char_boundary c _ s self x m X); own_reads|].
  intros [u|e] s1 E1; [|apply track_ret].
  apply track_bind; [apply set_size_track|]. intros u' s2 _. apply track_ret.
Qed.

Lemma pop_track Bl own P s x : rep c s x ->
  track c (owner Bl own) P (b_pop c own) (pop c) s.
Proof.
  intros X. unfold b_pop. apply track_self. intros self. step_str X. unfold pop.
  apply track_step; [rewrite (as_str_rep c s x X); reflexivity|]. intros o Eo.
  set (G := owner (owner Bl own) self).
  assert (U : usable c Unique G self (cap c) 1) by (apply usable_owner; lia).
  eapply track_hands; [apply hands_reborrow; exact U|]. intros v. cbv beta.
  destruct o as [ch|]; [|apply track_ret].
  eapply track_extra; [apply quiet_access; [lia|]; cells; apply reads_here; reflexivity|].
  apply track_bind; [apply track_val|]. intros n s1 E1. injection E1 as E1 <-.
  apply track_bind; [|intros u s2 _; apply track_ret].
  unfold b_set_size. eapply track_extra; [|apply track_val]. intros b H.
  match type of H with fam _ ?G' _ =>
    destruct (access_ok true v (cap c) 1 (cap c) _ G' b H ltac:(lia)) as (b1 & E & F1 & P1 & f1) end.
  { cells. apply writes_here; reflexivity. }
  exists b1. unfold on_tags. rewrite E. split; [reflexivity|]. split; [|split; [exact P1|lia]].
  eapply fam_drops; [exact F1|]. cells; apply drops_refl.
Qed.

Lemma trim_track Bl own P s x : rep c s x -> track c (owner Bl own) P (b_trim c own) (trim c) s.
Proof.
  intros X. unfold b_trim. apply track_self. intros self. unfold trim.
  step_len. step_str X. apply track_step; [rewrite (as_str_rep c s x X); reflexivity|]. intros start _.
  step_len. step_str X. apply track_step; [rewrite (as_str_rep c s x X); reflexivity|]. intros e _.
  destruct e as [end_|]; [|apply set_size_track].
  apply track_bind; [eapply replace_range_track; exact X|]. intros r1 s1 E1.
  destruct (replace_range_keeps _ _ [] _ _ _ _ X E1) as (x1 & X1).
  apply track_bind; [eapply replace_range_track; exact X1|]. intros r2 s2 _. apply track_ret.
Qed.

Lemma quiet_next_boundary F s t x fuel e : rep c s x -> readable c F t ->
  quiet c F (b_next_boundary c fuel t e) s (next_boundary c fuel s e).
Proof.
  intros X R. revert e; induction fuel as [|fuel IH]; intros e; cbn [b_next_boundary next_boundary]; [apply quiet_slift|].
  rewrite (as_str_rep c s x X). eapply quiet_bind; [apply (quiet_str c _ _ _ _ X R)|]. cbn [obind].
  destruct (str_is_char_boundary (enc x) e); [apply quiet_ret|].
  apply quiet_step; [apply quiet_slift|]. intros a _. apply IH.
Qed.

Lemma remove_track Bl own P s x i : rep c s x ->
  track c (owner Bl own) P (b_remove c own i) (remove c i) s.
Proof.
  intros X. unfold b_remove. apply track_self. intros self. unfold remove. step_len.
  apply track_try; [apply (track_quiet c _ _ _ _ (fun s => Ret (is_inside_boundary (sat_add c i 1) (len s)))); apply quiet_ret|].
  intros u1 s1 E1. injection E1 as E1 <-.
  apply track_try; [apply (track_quiet c _ _ _ _ (fun s => is_char_boundary c s i));
    apply (quiet_is_char_boundary c _ s self x i X); own_reads|].
  intros u2 s2 E2. injection E2 as E2 <-. step_len.
  apply track_bind.
  { apply (track_quiet c _ _ _ _ (fun s => e <- (if i =? len s then Ret i else uadd c i 1) ;;
      next_boundary c (S (length (arr s))) s e)).
    apply quiet_step; [apply quiet_slift|]. intros e _.
    replace (length (arr s)) with (N.to_nat (cap c)).
    - apply (quiet_next_boundary _ _ _ x); [exact X|own_reads].
    - destruct X as ((L & _) & _). rewrite <- L. unfold lenN. lia. }
  intros e s3 E3. injection E3 as E3 <-. step_str X.
  apply track_try.
  { match goal with |- track _ _ _ _ (sread ?f) _ => apply (track_quiet c _ _ _ _ f) end.
    rewrite (as_str_rep c s x X). apply quiet_ret. }
  intros sub s4 E4. injection E4 as E4 <-.
  apply track_try; [apply track_lift|]. intros ch s5 E5. injection E5 as E5 <-.
  apply track_bind; [apply track_lift|]. intros n s6 E6. injection E6 as E6 <-.
  apply track_try; [eapply replace_range_track; exact X|]. intros u7 s7 _. apply track_ret.
Qed.

Definition retain_st {F} (f : char -> ST F bool) (y : F) : ST astring unit := fun s =>
  let '(r, s', _) := retain c f y s in (r, s').

Lemma retain_track F Bl own P s x (f : char -> ST F bool) y : rep c s x ->
  track c (owner Bl own) P (b_retain c own f y) (retain_st f y) s.
Proof.
  intros X. unfold b_retain. apply track_self. intros self.
  set (made := fst (from_chars_truncate c (S (length (enc x)))
                      (filter_next (S (length (enc x))) chars_iter f) (enc x, y))).
  eapply track_eta with (m'' := sbind (sread (fun _ => made)) (fun a => smodify (fun _ => a))).
  { unfold retain_st, retain, sbind, sread. rewrite (as_str_rep c s x X). unfold made.
    destruct (from_chars_truncate _ _ _ _) as [[a| | |] [b y']]; reflexivity. }
  apply track_bind; [|intros a s1 E1; injection E1 as E1 <-; apply assign_track].
  apply (track_quiet c _ _ _ _ (fun _ => made)). pose proof (rep_cap c s x X) as K.
  eapply quiet_hands; [apply hands_lend; apply (lend_as_str c _ s self x X); own_reads|]. intros v. cbn [fst snd].
  fold made. rewrite enc_len.
  replace made with (obind made (fun a => Ret a)) at 2 by (destruct made; reflexivity).
  apply quiet_step; [apply quiet_slift|]. intros a _.
  eapply quiet_bind; [apply quiet_use_read; apply usable_top; [lia|reflexivity]|apply quiet_ret].
Qed.

Lemma try_insert_str_track Bl own P s x i w : rep c s x ->
  track c (owner Bl own) P (b_try_insert_str c own i w) (try_insert_str c i w) s.
Proof.
  intros X. unfold b_try_insert_str. apply track_self. intros self. unfold try_insert_str. step_len.
  apply track_try; [apply (track_quiet c _ _ _ _ (fun s => Ret (is_inside_boundary i (len s)))); apply quiet_ret|].
  intros u1 s1 E1. injection E1 as E1 <-. eapply replace_range_track; exact X.
Qed.
Lemma try_insert_track Bl own P s x i ch : rep c s x ->
  track c (owner Bl own) P (b_try_insert c own i ch) (try_insert c i ch) s.
Proof.
  intros X. unfold b_try_insert. apply track_self. intros self. unfold try_insert.
  apply track_bind; [apply track_lift|]. intros b s1 E1. injection E1 as E1 <-.
  eapply try_insert_str_track; exact X.
Qed.
Lemma insert_str_truncate_track Bl own P s x i w : rep c s x ->
  track c (owner Bl own) P (b_insert_str_truncate c own i w) (insert_str_truncate c i w) s.
Proof.
  intros X. unfold b_insert_str_truncate. apply track_self. intros self. unfold insert_str_truncate. step_len.
  apply track_step; [reflexivity|]. intros t _.
  apply track_try; [eapply try_insert_str_track; exact X|]. intros r s2 _. apply track_ret.
Qed.
Lemma clear_track Bl own P s : track c (owner Bl own) P (b_clear c own) clear s.
Proof. unfold b_clear. apply track_self. intros self. apply set_size_track. Qed.

Lemma inside_ok n m u : is_inside_boundary n m = Ok u -> n <= m.
Proof. unfold is_inside_boundary. destruct (N.leb_spec n m); [auto|discriminate]. Qed.

Lemma quiet_assert A F (m : ST mem A) (f : astring -> A -> bool) s a :
  quiet c F m s (Ret a) ->
  quiet c F (if debug c then (x <~ m ;; slift (debug_assert c (Ret (f s x)))) else sret tt) s
    (debug_assert c (Ret (f s a))).
Proof.
  intros H. unfold debug_assert. destruct (debug c); [|apply quiet_ret].
  eapply quiet_bind; [exact H|apply quiet_slift].
Qed.

Lemma drain_track Bl own P s x lo hi : rep c s x ->
  track c (owner Bl own) P (b_drain c own lo hi) (drain c lo hi) s.
Proof.
  intros X. unfold b_drain. apply track_self. intros self. cbv zeta. pose proof (rep_cap c s x X) as K.
  eapply track_extra with (x := end_of c hi (len s)).
  { destruct hi; [apply quiet_ret|apply quiet_ret|apply quiet_len; own_reads]. }
  eapply track_eta; [unfold drain; cbv zeta; reflexivity|].
  set (start := start_of c lo). set (end_ := end_of c hi (len s)).
  apply track_try; [apply track_ret|]. intros u1 s1 E1. injection E1 as E1 <-. apply inside_ok in E1. step_len.
  apply track_try; [apply (track_quiet c _ _ _ _ (fun s => Ret (is_inside_boundary end_ (len s)))); apply quiet_ret|].
  intros u2 s2 E2. injection E2 as E2 <-. apply inside_ok in E2. rewrite (rep_len c s x X) in E2.
  apply track_try; [apply (track_quiet c _ _ _ _ (fun s => is_char_boundary c s start));
    apply (quiet_is_char_boundary c _ s self x start X); own_reads|].
  intros u3 s3 E3. injection E3 as E3 <-.
  apply track_try; [apply (track_quiet c _ _ _ _ (fun s => is_char_boundary c s end_));
    apply (quiet_is_char_boundary c _ s self x end_ X); own_reads|].
  intros u4 s4 E4. injection E4 as E4 <-.
  apply track_bind.
  { apply (track_quiet c _ _ _ _ (fun s => debug_assert c (Ret ((start <=? end_) && (end_ <=? len s))))).
    apply (quiet_assert _ _ _ (fun _ n => (start <=? end_) && (end_ <=? n)) s (len s)).
    apply quiet_len. own_reads. }
  intros u5 s5 E5. injection E5 as E5 <-.
  apply track_bind.
  { apply (track_quiet c _ _ _ _ (fun s => debug_assert c (b <- as_str c s ;; Ret (str_is_char_boundary b start)))).
    rewrite (as_str_rep c s x X). cbn [obind].
    apply (quiet_assert _ _ _ (fun _ b => str_is_char_boundary b start) s (enc x)).
    apply (quiet_str c _ _ _ _ X). own_reads. }
  intros u6 s6 E6. injection E6 as E6 <-.
  apply track_bind.
  { apply (track_quiet c _ _ _ _ (fun s => debug_assert c (b <- as_str c s ;; Ret (str_is_char_boundary b end_)))).
    rewrite (as_str_rep c s x X). cbn [obind].
    apply (quiet_assert _ _ _ (fun _ b => str_is_char_boundary b end_) s (enc x)).
    apply (quiet_str c _ _ _ _ X). own_reads. }
  intros u7 s7 E7. injection E7 as E7 <-.
  apply track_bind.
  { apply (track_quiet c _ _ _ _ (fun s => b <- as_str c s ;; str_get_unchecked b start end_)).
    rewrite (as_str_rep c s x X). cbn [obind].
    eapply quiet_hands; [apply hands_lend; apply (lend_as_str c _ s self x X); own_reads|]. intros v. cbn [fst snd].
    rewrite enc_len.
    replace (str_get_unchecked (enc x) start end_)
      with (obind (str_get_unchecked (enc x) start end_) (fun a => Ret a)) at 2
      by (destruct (str_get_unchecked _ _ _); reflexivity).
    apply quiet_step; [apply quiet_slift|]. intros slice _.
    eapply quiet_hands.
    { apply hands_calls with (q := SharedRO); [apply usable_top; [lia|reflexivity]|]. intros r.
      apply hands_reborrow. split; [lia|]. cbn [may_write]. intros _. cells. apply reads_here. reflexivity. }
    intros w. cbv beta.
    eapply quiet_bind; [apply quiet_use_read; apply usable_top; [lia|reflexivity]|apply quiet_ret]. }
  intros slice s8 E8. injection E8 as E8 <-.
  apply track_try; [apply track_lift|]. intros d s9 E9. injection E9 as E9 <-.
  apply track_try; [eapply replace_range_track; exact X|]. intros u10 s10 _. apply track_ret.
Qed.

Lemma split_off_track Bl own P s x i : rep c s x ->
  track c (owner Bl own) P (b_split_off c own i) (split_off c i) s.
Proof.
  intros X. unfold b_split_off. apply track_self. intros self. unfold split_off.
  apply track_try; [eapply drain_track; exact X|]. intros d s1 _. apply track_ret.
Qed.

Definition extend_st (built : outcome astring) : ST astring unit :=
  a <~ slift built ;; b <~ slift (as_ref_str c a) ;; push_str_truncate c b.
Lemma extend_track Bl own P s x built : rep c s x ->
  track c (owner Bl own) P (b_extend c own built) (extend_st built) s.
Proof.
  intros X. unfold b_extend. apply track_self. intros self. unfold extend_st.
  apply track_bind; [apply track_lift|]. intros a s1 E1. injection E1 as E1 <-.
  apply track_bind; [apply track_lift|]. intros b s2 E2. injection E2 as E2 <-.
  eapply push_str_truncate_track; exact X.
Qed.

Definition add_st (w : list N) : ST astring unit :=
  a <~ sread (fun s => add c s w) ;; smodify (fun _ => a).
Lemma add_track Bl own P s w : track c (owner Bl own) P (b_add c own w) (add_st w) s.
Proof.
  unfold b_add, add_st. eapply track_extra; [apply quiet_access; [lia|]; intros l Hl; apply reads_here; reflexivity|].
  apply track_bind; [apply track_val|]. intros a s1 E1. apply assign_track.
Qed.

Lemma write_str_track Bl own P s x w : rep c s x ->
  track c (owner Bl own) P (b_write_str c own w) (write_str c w) s.
Proof.
  intros X. unfold b_write_str. apply track_self. intros self. unfold write_str.
  apply track_bind; [eapply try_push_str_track; exact X|]. intros r s1 _. apply track_ret.
Qed.
Lemma write_char_track Bl own P s x ch : rep c s x ->
  track c (owner Bl own) P (b_write_char c own ch) (write_char c ch) s.
Proof.
  intros X. unfold b_write_char. apply track_self. intros self. unfold write_char.
  apply track_bind; [apply track_lift|]. intros b s1 E1. injection E1 as E1 <-.
  eapply write_str_track; exact X.
Qed.
Lemma write_fmt_track Bl own P s x p : rep c s x ->
  track c (owner Bl own) P (b_write_fmt c own (formatting_prog p)) (write_fmt c (formatting_prog p)) s.
Proof.
  intros X. unfold b_write_fmt. apply track_self. intros self. unfold write_fmt.
  revert s x X. induction p as [b| |w next IH]; intros s x X; cbn [formatting_prog run_fprog].
  - apply track_ret.
  - apply track_lift.
  - apply track_bind; [eapply write_str_track; exact X|]. intros r s1 E1.
    unfold write_str, sbind in E1. destruct (try_push_str c (enc w) s) as [o s2] eqn:E2.
    destruct (try_push_str_keeps w s x o s2 X E2) as (x' & X').
    assert (s1 = s2) by (destruct o; unfold sret in E1; congruence). subst s2. exact (IH (is_ok r) s1 x' X').
Qed.

Lemma recase_track Bl own P s x f : rep c s x ->
  track c (owner Bl own) P (b_recase c own f) (b <~ deref_mut c ;; str_write 0 (map f b)) s.
Proof.
  intros X. unfold b_recase. pose proof (rep_cap c s x X) as K.
  eapply track_eta; [eapply sbind_ret; exact (as_mut_rep c s x X)|]. cbv beta.
  eapply track_hands; [apply as_mut_str_hands; exact X|]. intros v. cbn [fst snd].
  assert (L : lenN (map f (enc x)) = blen x) by (unfold lenN; rewrite map_length; apply enc_len).
  apply write_on; rewrite ?L; lia.
Qed.

Lemma boundary_le bs i : str_is_char_boundary bs i = true -> i <= lenN bs.
Proof.
  unfold str_is_char_boundary. destruct (N.eqb_spec i 0); [lia|].
  destruct (N.leb_spec (lenN bs) i); [|lia]. intros H1. apply N.eqb_eq in H1. lia.
Qed.
Lemma index_pos_le u bs r a e : str_index_pos u bs r = Ret (a, e) -> a <= e <= lenN bs.
Proof.
  unfold str_index_pos.
  assert (C : forall a0 b0, (if (a0 <=? b0) && str_is_char_boundary bs a0 && str_is_char_boundary bs b0
    then Ret (a0, b0) else Panic) = Ret (a, e) -> a <= e <= lenN bs).
  { intros a0 b0. destruct (N.leb_spec a0 b0); cbn [andb]; [|discriminate].
    destruct (str_is_char_boundary bs a0); cbn [andb]; [|discriminate].
    destruct (str_is_char_boundary bs b0) eqn:B; [|discriminate]. intros E. injection E as -> ->.
    apply boundary_le in B. lia. }
  destruct r as [a0|b0| |a0 b0|b0|a0 b0 e0].
  - destruct (str_is_char_boundary bs a0) eqn:B; [|discriminate]. intros E. injection E as -> <-.
    apply boundary_le in B. lia.
  - destruct (str_is_char_boundary bs b0) eqn:B; [|discriminate]. intros E. injection E as <- ->.
    apply boundary_le in B. lia.
  - intros E. injection E as <- <-. lia.
  - apply C.
  - destruct (incl_to_range _ _ _ _) as [[a1 b1]|]; [apply C|discriminate].
  - destruct (incl_to_range _ _ _ _) as [[a1 b1]|]; [apply C|discriminate].
Qed.
Lemma index_pos_calm u bs r : match str_index_pos u bs r with Ret _ | Panic => True | _ => False end.
Proof.
  unfold str_index_pos. destruct r; try exact I; repeat match goal with
    |- context [if ?b then _ else _] => destruct b | |- context [match ?o with Some _ => _ | None => _ end] => destruct o as [[? ?]|] end; exact I.
Qed.

Lemma index_mut_hands Bl own s x r a e : rep c s x ->
  str_index_pos (usize_max c) (enc x) (to_usize_range r) = Ret (a, e) ->
  hands c Unique (owner Bl own) (b_index_mut c own r) s a (e - a)
    (fun v => (v, a, takeN (e - a) (dropN a (enc x)))).
Proof.
  intros X E. pose proof (rep_cap c s x X) as K. pose proof (index_pos_le _ _ _ _ _ E) as L. rewrite enc_len in L.
  unfold b_index_mut. apply hands_self. intros self.
  eapply hands_hands; [apply as_mut_str_hands; exact X|]. intros v. cbn [fst snd].
  eapply hands_bind; [rewrite E; apply quiet_slift|]. cbv beta iota.
  apply (hands_map c _ _ _ _ _ _ (fun v => (v, a, takeN (e - a) (dropN a (enc x)))) a (e - a) (fun v => v)).
  rewrite enc_len. apply hands_calls with (q := Unique); [apply usable_top; [lia|reflexivity]|]. intros t.
  apply hands_reborrow. split; [lia|]. cbn [may_write]. intros Q. cells. apply writes_here. reflexivity.
Qed.
Lemma index_mut_quiet Bl own s x r : rep c s x ->
  str_index_pos (usize_max c) (enc x) (to_usize_range r) = Panic ->
  quiet c (owner Bl own) (b_index_mut c own r) s Panic.
Proof.
  intros X E. unfold b_index_mut. apply quiet_self. intros self.
  eapply quiet_hands; [apply as_mut_str_hands; exact X|]. intros v. cbn [fst snd]. rewrite E.
  apply (quiet_step c _ _ _ _ _ _ Panic (fun _ => Panic)); [apply quiet_slift|]. discriminate.
Qed.

Definition overwrite_st (r : range) (w : list N) : ST astring unit :=
  p <~ index_mut c r ;;
  if lenN w =? lenN (snd p) then str_write (fst p) w else sret tt.
Lemma overwrite_track Bl own P s x r w : rep c s x ->
  track c (owner Bl own) P
    (p <~ b_index_mut c own r ;;
     let '(v, a, bs) := p in if lenN w =? lenN bs then b_write v a w else sret tt)
    (overwrite_st r w) s.
Proof.
  intros X. pose proof (rep_cap c s x X) as K.
  pose proof (index_pos_calm (usize_max c) (enc x) (to_usize_range r)) as C.
  destruct (str_index_pos (usize_max c) (enc x) (to_usize_range r)) as [[a e]| | |] eqn:E; try contradiction.
  - pose proof (index_pos_le _ _ _ _ _ E) as L. rewrite enc_len in L.
    eapply track_eta.
    { unfold overwrite_st. eapply sbind_ret. unfold index_mut, as_mut_str.
      erewrite sbind_ret by exact (as_mut_rep c s x X). rewrite E. reflexivity. }
    cbn [fst snd].
    eapply track_hands; [apply (index_mut_hands _ _ s x r a e X E)|]. intros v. cbv beta iota.
    destruct (N.eqb_spec (lenN w) (lenN (takeN (e - a) (dropN a (enc x))))) as [Q|Q]; [|apply track_ret].
    rewrite lenN_takeN, lenN_dropN, enc_len in Q. apply write_on; lia.
  - intros o s' Eo HS b Hb HP.
    destruct (index_mut_quiet Bl own s x r X E b Hb) as (b1 & E1 & F1 & P1 & _).
    exists b1. unfold sbind. rewrite E1.
    unfold overwrite_st, index_mut, as_mut_str in Eo.
    unfold sbind in Eo. rewrite (as_mut_rep c s x X), E in Eo. injection Eo as <- <-.
    split; [reflexivity|]. split; [exact F1|congruence].
Qed.

Lemma index_quiet Bl own s x r : rep c s x ->
  quiet c (owner Bl own)
    (p <~ b_index c own r ;;
     let '(v, a, bs) := p in
     _ <~ on_tags (access false v a (lenN bs)) ;; sret (RBytes bs)) s
    (omap RBytes (index c s r)).
Proof.
  intros X. pose proof (rep_cap c s x X) as K. unfold index. rewrite (as_str_rep c s x X). cbn [obind].
  pose proof (index_pos_calm (usize_max c) (enc x) (to_usize_range r)) as C. unfold str_index_range.
  destruct (str_index_pos (usize_max c) (enc x) (to_usize_range r)) as [[a e]| | |] eqn:E; try contradiction;
    cbn [obind omap].
  - pose proof (index_pos_le _ _ _ _ _ E) as L. rewrite enc_len in L.
    eapply quiet_hands with (p := SharedRO) (lo := a) (n := e - a)
      (g := fun v => (v, a, takeN (e - a) (dropN a (enc x)))).
    + unfold b_index. apply hands_calls with (q := SharedRO); [apply usable_owner; lia|]. intros self.
      eapply hands_hands; [apply hands_lend; apply (lend_as_str c _ s self x X); apply readable_pushed|].
      intros v. cbn [fst snd].
      eapply hands_bind; [rewrite E; apply quiet_slift|]. cbv beta iota.
      apply (hands_map c _ _ _ _ _ _ (fun v => (v, a, takeN (e - a) (dropN a (enc x)))) a (e - a) (fun v => v)).
      rewrite enc_len. apply hands_calls with (q := SharedRO); [apply usable_top; [lia|reflexivity]|]. intros t.
      apply hands_reborrow. split; [lia|]. cbn [may_write]. intros _. cells. apply reads_here. reflexivity.
    + intros v. cbv beta iota. rewrite lenN_takeN, lenN_dropN, enc_len.
      eapply quiet_bind; [|apply quiet_ret]. apply quiet_access; [lia|]. cells. apply reads_here. reflexivity.
  - apply (quiet_step c _ _ _ _ _ _ Panic (fun _ => Panic)); [|discriminate].
    unfold b_index. apply quiet_calls; [apply usable_owner; lia|]. intros self.
    eapply quiet_hands; [apply hands_lend; apply (lend_as_str c _ s self x X); apply readable_pushed|].
    intros v. cbn [fst snd]. rewrite E.
    apply (quiet_step c _ _ _ _ _ _ Panic (fun _ => Panic)); [apply quiet_slift|]. discriminate.
Qed.

Lemma track_out A Bl own P (f : A -> out) (m : ST mem A) m' s :
  track c (owner Bl own) P m m' s -> track c (owner Bl own) P (b_out f m) (to_out f m') s.
Proof. intros H. unfold b_out, to_out. apply track_bind; [exact H|]. intros a s1 _. apply track_ret. Qed.
Lemma track_reads A Bl own P (f : A -> out) (m : ST mem A) o s :
  quiet c (owner Bl own) m s o -> track c (owner Bl own) P (b_out f m) (sread (fun _ => omap f o)) s.
Proof.
  intros H. apply (track_quiet c _ _ _ _ (fun _ => omap f o)). unfold b_out.
  replace (omap f o) with (obind o (fun a => Ret (f a))) by (destruct o; reflexivity).
  apply quiet_step; [exact H|]. intros a _. apply quiet_ret.
Qed.

Lemma run_op_track Bl own P s x o : rep c s x ->
  track c (owner Bl own) P (b_run_op c own o) (run_op c o) s.
Proof.
  intros X. destruct o; cbn [b_run_op].
  - exact (track_out _ _ _ _ _ _ _ _ (try_push_str_track Bl own P s x _ X)).
  - exact (track_out _ _ _ _ _ _ _ _ (push_str_truncate_track Bl own P s x _ X)).
  - exact (track_out _ _ _ _ _ _ _ _ (try_push_track Bl own P s x _ X)).
  - exact (track_out _ _ _ _ _ _ _ _ (truncate_track Bl own P s x _ X)).
  - exact (track_out _ _ _ _ _ _ _ _ (pop_track Bl own P s x X)).
  - exact (track_out _ _ _ _ _ _ _ _ (trim_track Bl own P s x X)).
  - exact (track_out _ _ _ _ _ _ _ _ (remove_track Bl own P s x _ X)).
  - eapply track_eta; [|exact (track_out _ _ _ _ _ _ _ _ (retain_track _ Bl own P s x f x0 X))].
    cbn [run_op]. unfold to_out, sbind, retain_st.
    destruct (retain c f x0 s) as [[[u| | |] s'] y]; reflexivity.
  - exact (track_out _ _ _ _ _ _ _ _ (try_insert_track Bl own P s x _ _ X)).
  - exact (track_out _ _ _ _ _ _ _ _ (try_insert_str_track Bl own P s x _ _ X)).
  - exact (track_out _ _ _ _ _ _ _ _ (insert_str_truncate_track Bl own P s x _ _ X)).
  - exact (track_out _ _ _ _ _ _ _ _ (clear_track Bl own P s)).
  - apply (track_eta c _ _ _ _ _ (r <~ drain c lo hi ;; slift (part_out c r)) s).
    { cbn [run_op]. unfold drain_iter, sbind, sret, slift.
      destruct (drain c lo hi s) as [[[d|e]| | |] s1]; reflexivity. }
    apply track_bind; [eapply drain_track; exact X|]. intros r s1 _. apply track_lift.
  - apply (track_eta c _ _ _ _ _ (r <~ split_off c i ;; slift (part_out c r)) s); [reflexivity|].
    apply track_bind; [eapply split_off_track; exact X|]. intros r s1 _. apply track_lift.
  - exact (track_out _ _ _ _ _ _ _ _ (replace_range_track c Bl own P s x _ _ _ X)).
  - eapply track_eta; [|exact (track_out _ _ _ _ _ _ _ _ (extend_track Bl own P s x _ X))].
    cbn [run_op]. unfold to_out, extend_st, extend_chars, extend_with, sbind, slift, sret.
    destruct (from_chars_truncate c (char_fuel c) next it) as [[a| | |] it']; cbn [fst]; try reflexivity.
    destruct (as_ref_str c a); try reflexivity. destruct (push_str_truncate c _ s) as [[u| | |] s1]; reflexivity.
  - eapply track_eta; [|exact (track_out _ _ _ _ _ _ _ _ (extend_track Bl own P s x _ X))].
    cbn [run_op]. unfold to_out, extend_st, extend_strs, extend_with, sbind, slift, sret.
    destruct (from_iterator_truncate c fuel _ it) as [[a| | |] it']; cbn [fst]; try reflexivity.
    destruct (as_ref_str c a); try reflexivity. destruct (push_str_truncate c _ s) as [[u| | |] s1]; reflexivity.
  - eapply track_eta; [|exact (track_out _ _ _ _ _ _ _ _ (add_track Bl own P s _))].
    cbn [run_op]. unfold to_out, add_st, sbind, sread, smodify, sret.
    destruct (add c s (enc w)); reflexivity.
  - exact (track_out _ _ _ _ _ _ _ _ (write_str_track Bl own P s x _ X)).
  - exact (track_out _ _ _ _ _ _ _ _ (write_char_track Bl own P s x _ X)).
  - exact (track_out _ _ _ _ _ _ _ _ (write_fmt_track Bl own P s x _ X)).
  - exact (track_out _ _ _ _ _ _ _ _ (overwrite_track Bl own P s x _ _ X)).
  - exact (track_out _ _ _ _ _ _ _ _ (recase_track Bl own P s x _ X)).
  - exact (track_out _ _ _ _ _ _ _ _ (recase_track Bl own P s x _ X)).
  - eapply track_eta; [|apply track_reads; apply quiet_len; own_reads]. reflexivity.
  - eapply track_eta; [|apply track_reads; apply (quiet_str c _ _ _ _ X); own_reads].
    cbn [run_op]. unfold is_empty. rewrite (as_str_rep c s x X : as_ref_str c s = _). reflexivity.
  - apply track_ret.
  - eapply track_eta; [|apply track_reads; apply (quiet_str c _ _ _ _ X); own_reads].
    cbn [run_op]. rewrite (as_str_rep c s x X). reflexivity.
  - eapply track_eta; [|apply track_reads; apply quiet_shared; intros self F' R; apply (quiet_str c _ _ _ _ X R)].
    cbn [run_op]. unfold eq_str. rewrite (as_str_rep c s x X). reflexivity.
  - set (shown := match write_one_str buffer (enc x) [] with
         | (Ret _, w) => Ret (RBytes w) | (Panic, _) => Panic | (UB, _) => UB | (Diverge, _) => Diverge end).
    apply (track_eta c _ _ _ _ _ (sread (fun _ => shown)) s).
    + cbn [run_op]. unfold display, sbind, slift. rewrite (as_str_rep c s x X). unfold sread, shown.
      destruct (write_one_str buffer (enc x) []) as [[u| | |] w]; reflexivity.
    + apply (track_quiet c _ _ _ _ (fun _ => shown)). apply quiet_shared. intros self F' R. eapply quiet_bind; [apply (quiet_str c _ _ _ _ X R)|]. apply quiet_slift.
  - eapply track_eta; [|apply (track_quiet c _ _ _ _ (fun s => omap RBytes (index c s r))); eapply index_quiet; exact X].
    reflexivity.
Qed.
End Methods.
