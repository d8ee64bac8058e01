(** The statements of PropLogText.v. *)
From Coq Require Import ZArith ZifyBool ZifyN ZifyNat Arith String List DecimalString DecimalN DecimalFacts.
From Verif Require Import Base Char Spec RustStd RustFmt ModelError Model ModelImpl ModelOps IterSpec ListFacts Utf8Facts CoreFacts
  MethodFacts IterFacts ImplFacts Obs ObsLogs ObsLogLines ObsLogText OpsFacts ClaimsOps ClaimsArgs ClaimsLogs
  ModelCache ModelCacheOps ObsCache ModelLogsRest ClaimsCache ClaimsLogRest LogText.
Import ListNotations.

(** ** The messages *)

(** Two loggers of the same state. *)
Lemma op_same tr db {W} (log log' : event -> ST W unit) (I : W -> Prop) s0 :
  (forall e w, level_on tr db e = true -> about s0 e -> I w -> log e w = log' e w /\ I (snd (log e w))) ->
  forall e w w', level_on tr db e = true -> about s0 e -> w = w' /\ I w ->
    exists o v v', log e w = (o, v) /\ log' e w' = (o, v') /\ (v = v' /\ I v) /\ (forall a, o = Ret a -> True).
Proof.
  intros H e w w' L A [<- i]. destruct (H e w L A i) as [E J]. rewrite <- E. destruct (log e w) as [o v]. exists o, v, v. auto.
Qed.

(** [record] beside a logger that returns. *)
Definition follows {W} (f : event -> W -> W) (P : event -> Prop) (l0 : list event) (w0 : W) (l : list event) (w : W) : Prop :=
  exists m, l = l0 ++ m /\ w = fold_left (fun w e => f e w) m w0 /\ Forall P m.
Lemma follows_start {W} (f : event -> W -> W) P l w : follows f P l w l w.
Proof. exists []. rewrite app_nil_r. repeat split. constructor. Qed.
Lemma record_follows tr db s {W} (log : event -> ST W unit) f l0 w0 :
  (forall e w, level_on tr db e = true -> about s e -> log e w = (Ret tt, f e w)) ->
  forall e, level_on tr db e = true -> about s e ->
    alike (follows f (fun e => level_on tr db e = true /\ about s e) l0 w0) (fun _ => True) (record e) (log e).
Proof.
  intros H e L A l w (m & -> & -> & F). exists (Ret tt), ((l0 ++ m) ++ [e]), (f e (fold_left (fun w e => f e w) m w0)).
  split; [reflexivity|]. split; [exact (H e _ L A)|]. split; [|auto].
  exists (m ++ [e]). rewrite app_assoc, fold_left_app. repeat split. apply Forall_app. split; [exact F|].
  constructor; [split; assumption|constructor].
Qed.

Lemma c75_state c tr db {W} (log : event -> ST W unit) f o s l w :
  (forall e w, level_on tr db e = true -> about s e -> log e w = (Ret tt, f e w)) ->
  exists r s' m, l_run_op c tr db record o (s, l) = (r, (s', l ++ m)) /\
    l_run_op c tr db log o (s, w) = (r, (s', fold_left (fun w e => f e w) m w)) /\
    Forall (fun e => level_on tr db e = true /\ about s e) m.
Proof.
  intros H. destruct (op_twin c tr db record log _ s (record_follows tr db s log f l w H) o s l w eq_refl (follows_start _ _ _ _))
    as (r & s' & l' & w' & E & E' & (m & -> & -> & F) & _).
  exists r, s', m. auto.
Qed.

Lemma c75_messages c tr db o s l :
  exists r s' m, l_run_op c tr db record o (s, l) = (r, (s', l ++ m)) /\
    Forall (fun e => level_on tr db e = true /\ about s e) m.
Proof.
  destruct (c75_state c tr db record (fun e l => l ++ [e]) o s l l (fun e w _ _ => eq_refl)) as (r & s' & m & E & _ & F).
  exists r, s', m. auto.
Qed.

Lemma about_legible c s t e : shows c s t -> about s e -> legible c e.
Proof. intros S A. exists s. split; [exact A|]. right. exists t. exact S. Qed.

Lemma c75_state_history c tr db {W} (log : event -> ST W unit) f h s t l w : valid_cfg c -> shows c s t -> Forall typed_op h ->
  (forall e w, level_on tr db e = true -> legible c e -> log e w = (Ret tt, f e w)) ->
  exists rs s' m, l_run_ops c tr db record h s l = (rs, s', l ++ m) /\
    l_run_ops c tr db log h s w = (rs, s', fold_left (fun w e => f e w) m w) /\
    Forall (fun e => level_on tr db e = true /\ legible c e) m.
Proof.
  intros Hc Sh Th H. revert s t l w Sh. induction Th as [|o h To Th IH]; intros s t l w Sh; cbn [l_run_ops].
  - exists [], s, []. rewrite app_nil_r. repeat split. constructor.
  - destruct (c75_state c tr db log f o s l w (fun e x L A => H e x L (about_legible c s t e Sh A))) as (r & s1 & m1 & E1 & E1' & F1).
    rewrite E1, E1'.
    assert (X : exists t1, shows c s1 t1).
    { destruct (c71_quiet c tr db record (fun e w _ => eq_refl)) as [_ Q].
      destruct (Q [o] s l) as (w' & E). cbn [l_run_ops run_ops] in E. rewrite E1 in E.
      destruct (run_op_sim c Hc o s t (proj1 (shows_rep c s t) Sh) To) as (s2 & E2 & R2). rewrite E2 in E.
      cbn [fst snd] in E. injection E as _ -> _. exists (snd (t_op (usize_max c) (cap c) o t)). apply shows_rep. exact R2. }
    destruct X as (t1 & S1). destruct (IH s1 t1 (l ++ m1) (fold_left (fun w e => f e w) m1 w) S1) as (rs & s2 & m2 & E2 & E2' & F2).
    rewrite E2, E2'. exists (r :: rs), s2, (m1 ++ m2). rewrite app_assoc, fold_left_app. repeat split.
    apply Forall_app. split; [|exact F2].
    refine (Forall_impl _ _ F1). intros e [L A]. split; [exact L|exact (about_legible c s t e Sh A)].
Qed.

Lemma c75_history_messages c tr db h s t l : valid_cfg c -> shows c s t -> Forall typed_op h ->
  exists rs s' m, l_run_ops c tr db record h s l = (rs, s', l ++ m) /\
    Forall (fun e => level_on tr db e = true /\ legible c e) m.
Proof.
  intros Hc Sh Th. destruct (c75_state_history c tr db record (fun e l => l ++ [e]) h s t l l Hc Sh Th (fun e w _ _ => eq_refl))
    as (rs & s' & m & E & _ & F).
  exists rs, s', m. auto.
Qed.

Lemma c75_state_build c tr db {W} (log : event -> ST W unit) f k l w : typed_ctor k ->
  (forall e w, level_on tr db e = true -> legible c e -> log e w = (Ret tt, f e w)) ->
  exists r m, l_build c tr db record k l = (r, l ++ m) /\
    l_build c tr db log k w = (r, fold_left (fun w e => f e w) m w) /\
    Forall (fun e => level_on tr db e = true /\ legible c e /\ self_of e = None) m.
Proof.
  intros Hk H.
  assert (B : forall s, exists m, snd (l_build c tr db record k l) = l ++ m /\ Forall (fun e => level_on tr db e = true /\ about s e) m).
  { intros s. destruct (build_alike c tr db record record _ s (record_follows tr db s record (fun e l => l ++ [e]) l l (fun e w _ _ => eq_refl))
      k Hk l l (follows_start _ _ _ _)) as (r & l' & w' & E & _ & (m & -> & _ & F) & _). exists m. rewrite E. auto. }
  assert (G : forall m, snd (l_build c tr db record k l) = l ++ m ->
    Forall (fun e => level_on tr db e = true /\ legible c e /\ self_of e = None) m).
  { intros m E. destruct (B (mkastring [] 0)) as (m1 & E1 & F1). destruct (B (mkastring [] 1)) as (m2 & E2 & F2).
    rewrite E in E1, E2. apply app_inv_head in E1, E2. subst m1 m2.
    clear - F1 F2. induction m as [|e m IH]; [constructor|]. inversion F1; inversion F2; subst. constructor; [|apply IH; assumption].
    destruct H1 as [L A], H5 as [_ A']. assert (N : self_of e = None).
    { destruct e; try reflexivity; exfalso; cbn in A, A'; intuition congruence. }
    split; [exact L|]. split; [|exact N]. exists (mkastring [] 0). auto. }
  assert (N : exists s, shows c s []) by (exists (new c); apply shows_rep, new_rep). destruct N as (s & S).
  destruct (build_alike c tr db record log _ s (record_follows tr db s log f l w
    (fun e x L A => H e x L (about_legible c s [] e S A))) k Hk l w (follows_start _ _ _ _)) as (r & l' & w' & E & E' & (m & -> & -> & F) & _).
  exists r, m. split; [exact E|]. split; [exact E'|]. apply G. rewrite E. reflexivity.
Qed.

Lemma c75_build_messages c tr db k l : typed_ctor k ->
  exists r m, l_build c tr db record k l = (r, l ++ m) /\
    Forall (fun e => level_on tr db e = true /\ legible c e /\ self_of e = None) m.
Proof.
  intros Hk. destruct (c75_state_build c tr db record (fun e l => l ++ [e]) k l l Hk (fun e w _ _ => eq_refl)) as (r & m & E & _ & F).
  exists r, m. auto.
Qed.

Lemma same_eq {A W} (g g' : ST W A) w : (exists o v v', g w = (o, v) /\ g' w = (o, v') /\ (v = v' /\ True) /\ (forall a, o = Ret a -> True)) ->
  g w = g' w.
Proof. intros (o & v & v' & -> & -> & [-> _] & _). reflexivity. Qed.

Lemma c75_agree c tr db {W} (log log' : event -> ST W unit) o s w :
  (forall e w, level_on tr db e = true -> about s e -> log e w = log' e w) ->
  l_run_op c tr db log o (s, w) = l_run_op c tr db log' o (s, w).
Proof.
  intros H. pose proof (op_same tr db log log' (fun _ => True) s (fun e w L A _ => conj (H e w L A) I)) as X.
  destruct (op_twin c tr db log log' (fun w w' => w = w' /\ True) s (fun e L A w w' i => X e w w' L A i) o s w w eq_refl (conj eq_refl I))
    as (r & s1 & v & v' & -> & -> & [-> _] & _). reflexivity.
Qed.

Lemma c75_agree_build c tr db {W} (log log' : event -> ST W unit) k w : typed_ctor k ->
  (forall e w, level_on tr db e = true -> legible c e -> log e w = log' e w) ->
  l_build c tr db log k w = l_build c tr db log' k w.
Proof.
  intros Hk H.
  assert (N : exists s, shows c s []) by (exists (new c); apply shows_rep, new_rep). destruct N as (s & S).
  pose proof (op_same tr db log log' (fun _ => True) s (fun e w L A _ => conj (H e w L (about_legible c s [] e S A)) I)) as X.
  apply same_eq. exact (build_alike c tr db log log' (fun w w' => w = w' /\ True) s (fun e L A w w' i => X e w w' L A i) k Hk w w (conj eq_refl I)).
Qed.

Lemma c75_agree_arg c tr db {W} (log log' : event -> ST W unit) a k s w : str_arg a ->
  (forall e w, level_on tr db e = true -> about s e -> log e w = log' e w) ->
  l_str_call c tr db log k a (s, w) = l_str_call c tr db log' k a (s, w).
Proof.
  intros [_ Ha] H.
  pose proof (op_same tr db log log' (fun _ => True) s (fun e w L A _ => conj (H e w L A) I)) as X.
  assert (T : alike (fun w w' : W => w = w' /\ True) is_text a a).
  { intros x x' [<- _]. destruct (a x) as [o v] eqn:E. exists o, v, v. repeat split. intros b ->. exact (Ha x b v E). }
  destruct (str_call_twin c tr db log log' (fun w w' => w = w' /\ True) s (fun e L A w w' i => X e w w' L A i) k a a T s w w eq_refl (conj eq_refl I))
    as (r & s1 & v & v' & -> & -> & [-> _] & _). reflexivity.
Qed.

(** ** Loggers that rely on legible messages *)

Definition text_dec b : {is_text b} + {~ is_text b}.
Proof.
  destruct (from_utf8_ok b) eqn:E; [left; apply from_utf8_ok_iff; exact E|].
  right. intros H. apply from_utf8_ok_iff in H. congruence.
Defined.

Definition byte_dec (b : N) : {b < 256} + {~ b < 256}.
Proof. destruct (b <? 256) eqn:E; [left; apply N.ltb_lt; exact E|right; apply N.ltb_ge in E; lia]. Defined.

Definition shown_dec c s : {exists t, shows c s t} + {~ exists t, shows c s t}.
Proof.
  destruct (N.eq_dec (lenN (arr s)) (cap c)) as [E1|N]; [|right; intros (t & (T & _) & _); exact (N T)].
  destruct (Forall_dec (fun b => b < 256) byte_dec (arr s)) as [E2|N]; [|right; intros (t & (_ & T & _) & _); exact (N T)].
  destruct (byte_dec (size s)) as [E3|N]; [|right; intros (t & (_ & _ & T) & _); exact (N T)].
  destruct (as_str c s) as [b| | |] eqn:E; [|right; intros (t & _ & T); congruence..].
  destruct (text_dec b) as [T|N]; [left|right; intros (t & _ & T); apply N; exists t; congruence].
  destruct T as (t & ->). exists t. split; [split; [|split]; assumption|exact E].
Defined.

Definition unit_dec (b : N) : {b < 65536} + {~ b < 65536}.
Proof. destruct (b <? 65536) eqn:E; [left; apply N.ltb_lt; exact E|right; apply N.ltb_ge in E; lia]. Defined.

Definition about_self (e : event) : Prop := about (match self_of e with Some s => s | None => mkastring [] 0 end) e.
Lemma about_self_iff e s : about s e -> about_self e /\ (self_of e = None \/ self_of e = Some s).
Proof.
  unfold about_self. destruct e; cbn; intros H; (split; [|first [left; reflexivity|right; intuition congruence]]);
    first [exact H|reflexivity|exact (conj (proj1 H) eq_refl)].
Qed.

Definition about_dec e : {about_self e} + {~ about_self e}.
Proof.
  destruct e; unfold about_self; cbn; try (left; exact I); try apply text_dec; try (left; reflexivity).
  - apply (Forall_dec _ unit_dec).
  - destruct (text_dec s); [left; auto|right; tauto].
  - destruct (text_dec s); [left; auto|right; tauto].
Defined.

Definition legible_dec c e : {legible c e} + {~ legible c e}.
Proof.
  destruct (about_dec e) as [A|N].
  2: { right. intros (s & A & _). apply N. exact (proj1 (about_self_iff e s A)). }
  unfold about_self in A. destruct (self_of e) as [s|] eqn:E.
  - destruct (shown_dec c s) as [S|N].
    + left. exists s. split; [exact A|right; exact S].
    + right. intros (s' & A' & [X|X]); [congruence|]. destruct (about_self_iff e s' A') as [_ [Y|Y]]; [congruence|].
      rewrite E in Y. injection Y as <-. exact (N X).
  - left. eexists. split; [exact A|left; exact E].
Defined.

(** The logger that ignores what is not legible. *)
Definition guard c {W} (log : event -> ST W unit) : event -> ST W unit := fun e =>
  if legible_dec c e then log e else sret tt.

Section Guard.
Variable c : cfg.
Variables tr db : bool.
Context {W : Type}.
Variable log : event -> ST W unit.

Lemma guard_legible e w : legible c e -> guard c log e w = log e w.
Proof. intros L. unfold guard. destruct (legible_dec c e); [reflexivity|contradiction]. Qed.
Lemma guard_logger : reader_logger c tr db log -> a_logger tr db (guard c log).
Proof.
  intros H e L. unfold guard. destruct (legible_dec c e) as [G|G]; [exact (H e L G)|]. intros w. split; discriminate.
Qed.
Lemma guard_quiet : quiet_reader c tr db log -> quiet tr db (guard c log).
Proof. intros H e w L. unfold guard. destruct (legible_dec c e) as [G|G]; [exact (H e w L G)|reflexivity]. Qed.
Lemma guard_panics e : panics_on tr db (guard c log) e -> panics_on tr db log e /\ legible c e.
Proof.
  intros (L & w & E). unfold guard in E. destruct (legible_dec c e) as [G|G]; [|discriminate E].
  split; [split; [exact L|exists w; exact E]|exact G].
Qed.
Lemma guard_can : can_panic tr db (guard c log) -> can_panic tr db log.
Proof. intros (e & H). exists e. exact (proj1 (guard_panics e H)). Qed.
Lemma guard_op o s t w : shows c s t -> l_run_op c tr db log o (s, w) = l_run_op c tr db (guard c log) o (s, w).
Proof.
  intros S. apply c75_agree. intros e x _ A. symmetry. apply guard_legible. exact (about_legible c s t e S A).
Qed.
End Guard.

Lemma c75_quiet c tr db {W} (log : event -> ST W unit) : valid_cfg c -> quiet_reader c tr db log ->
  (forall k w, typed_ctor k -> exists w', l_build c tr db log k w = (build c k, w')) /\
  (forall l s t w, shows c s t -> Forall typed_op l ->
     exists w', l_run_ops c tr db log l s w = (fst (run_ops c l s), snd (run_ops c l s), w')).
Proof.
  intros Hc Q. destruct (c71_quiet c tr db (guard c log) (guard_quiet c tr db log Q)) as [B H]. split.
  - intros k w Hk. destruct (B k w) as (w' & E). exists w'. rewrite <- E. apply c75_agree_build; [exact Hk|].
    intros e x _ L. symmetry. apply guard_legible. exact L.
  - intros l s t w Sh Tl. destruct (H l s w) as (w' & E). exists w'. rewrite <- E. clear H E w'.
    revert s t w Sh; induction Tl as [|o l To Tl IH]; intros s t w Sh; cbn [l_run_ops]; [reflexivity|].
    rewrite (guard_op c tr db log o s t w Sh).
    destruct (quiet_op c tr db (guard c log) (fun e L x => ltac:(rewrite (guard_quiet c tr db log Q e x L); split; discriminate)) o s w
      (guard_quiet c tr db log Q)) as (w1 & E). rewrite E.
    destruct (run_op_sim c Hc o s t (proj1 (shows_rep c s t) Sh) To) as (s1 & E1 & R1). rewrite E1. cbn [fst snd].
    rewrite (IH s1 _ w1 (proj2 (shows_rep c s1 _) R1)). reflexivity.
Qed.

Lemma c75_panic c tr db {W} (log : event -> ST W unit) o s t w : reader_logger c tr db log -> shows c s t ->
  several_steps o = false ->
  as_without (l_run_op c tr db log o) (run_op c o) s w \/
  (can_panic tr db log /\ panicked (l_run_op c tr db log o) s w s) \/
  (panics_on tr db log EvLen /\ (inner_edit o = true \/ appends o = true) /\
   panicked (l_run_op c tr db log o) s w (torn s (snd (run_op c o s)))).
Proof.
  intros H Sh So. unfold as_without, panicked. rewrite (guard_op c tr db log o s t w Sh).
  destruct (c71_panic c tr db (guard c log) o s w (guard_logger c tr db log H) So) as [X|[[B X]|[B X]]].
  - left. exact X.
  - right. left. split; [exact (guard_can c tr db log B)|exact X].
  - right. right. split; [exact (proj1 (guard_panics c tr db log _ B))|exact X].
Qed.

Lemma c75_history c tr db {W} (log : event -> ST W unit) l s t w : valid_cfg c -> reader_logger c tr db log ->
  shows c s t -> Forall typed_op l -> Forall harmless l -> no_torn tr db log l ->
  exists rs s' w' t', l_run_ops c tr db log l s w = (rs, s', w') /\ shows c s' t' /\
    Forall (fun o => o = Panic \/ exists r, o = Ret r) rs.
Proof.
  intros Hc H Sh Tl Hl Nl. revert s t w Sh; induction l as [|o l IH]; intros s t w Sh; cbn [l_run_ops].
  - exists [], s, w, t. split; [reflexivity|]. split; [exact Sh|constructor].
  - inversion Tl; subst. inversion Hl; subst.
    assert (No : inner_edit o = false \/ ~ panics_on tr db (guard c log) EvLen).
    { destruct Nl as [N|N]; [left; inversion N; assumption|right; intros B; exact (N (proj1 (guard_panics c tr db log _ B)))]. }
    assert (Nl' : no_torn tr db log l).
    { destruct Nl as [N|N]; [left; inversion N; assumption|right; exact N]. }
    rewrite (guard_op c tr db log o s t w Sh).
    destruct (log_step c tr db (guard c log) o s t w Hc (guard_logger c tr db log H) Sh) as (r & s1 & w1 & t1 & E & Cr & S1); [assumption..|].
    rewrite E. destruct (IH ltac:(assumption) ltac:(assumption) Nl' s1 t1 w1 S1) as (rs & s2 & w2 & t2 & E2 & S2 & F).
    rewrite E2. exists (r :: rs), s2, w2, t2. split; [reflexivity|]. split; [exact S2|]. constructor; [|exact F].
    destruct r; try contradiction Cr; [right; eexists; reflexivity|left; reflexivity].
Qed.

Lemma c75_build c tr db {W} (log : event -> ST W unit) k : reader_logger c tr db log -> typed_ctor k ->
  answers tr db log (l_build c tr db log k) (build c k).
Proof.
  intros H Hk w. destruct (c71_build c tr db (guard c log) k (guard_logger c tr db log H) w) as (w' & E).
  exists w'. rewrite (c75_agree_build c tr db log (guard c log) k w Hk).
  - destruct E as [E|[B E]]; [left; exact E|right; split; [exact (guard_can c tr db log B)|exact E]].
  - intros e x _ L. symmetry. apply guard_legible. exact L.
Qed.

(** ** Loggers that print *)

Section Print.
Variable c : cfg.
Variable tr : bool.
Variable str_debug : list N -> debug_impl.
Context {W : Type}.
Variable p : printer W.

Notation prw := (print_with c tr str_debug p).

(** Messages without [self] do not run the logger again. *)
Lemma print_plain log log' e w : self_of e = None -> prw log e w = prw log' e w.
Proof. destruct e; cbn [self_of]; intros E; try discriminate E; try reflexivity. match goal with b : bool |- _ => destruct b; reflexivity end. Qed.

Lemma sbind_ext {S A B} (f g : ST S A) (h k : A -> ST S B) w :
  (forall w, f w = g w) -> (forall a w, h a w = k a w) -> sbind f h w = sbind g k w.
Proof. intros E F. unfold sbind. rewrite E. destruct (g w) as [[| | |] w1]; auto. Qed.

Lemma as_str_ext (log log' : event -> ST W unit) s w :
  (forall e w, self_of e = None -> log e w = log' e w) -> l_as_str c tr log s w = l_as_str c tr log' s w.
Proof.
  intros H.
  assert (T : forall e w, self_of e = None -> trace tr log e w = trace tr log' e w).
  { intros e x E. unfold trace. destruct tr; [exact (H e x E)|reflexivity]. }
  assert (L : forall w, l_len tr log s w = l_len tr log' s w).
  { intros x. apply sbind_ext; [intros; apply T; reflexivity|reflexivity]. }
  assert (A : forall m m', (forall w, m w = m' w) -> forall w, @l_assert c W m w = l_assert c m' w).
  { intros m m' E x. unfold l_assert. destruct (debug c); [|reflexivity]. apply sbind_ext; [exact E|reflexivity]. }
  assert (R : forall w, l_as_ref_bytes c tr log s w = l_as_ref_bytes c tr log' s w).
  { intros x. apply sbind_ext.
    - apply A. intros y. apply sbind_ext; [exact L|reflexivity].
    - intros _ y. apply sbind_ext; [exact L|reflexivity]. }
  apply sbind_ext; [intros; apply T; reflexivity|]. intros _ x. apply sbind_ext.
  - apply A. intros y. apply sbind_ext; [exact R|reflexivity].
  - intros _ y. apply sbind_ext; [exact R|reflexivity].
Qed.

Lemma print_ext log log' e w : (forall e w, self_of e = None -> log e w = log' e w) -> prw log e w = prw log' e w.
Proof.
  intros H. unfold print_with. apply sbind_ext; [reflexivity|]. intros _ x. apply sbind_ext; [|reflexivity].
  clear x. generalize (message e) as l. induction l as [|a l IH]; intros x; cbn [show_pieces]; [reflexivity|].
  unfold fthen, stry. apply sbind_ext.
  - intros y. destruct a; cbn [show_piece]; try reflexivity.
    + apply sbind_ext; [|reflexivity]. intros z. exact (as_str_ext log log' s z H).
    + apply sbind_ext; [reflexivity|]. intros d z. apply sbind_ext; [|reflexivity]. intros v. exact (as_str_ext log log' s v H).
  - intros [[]|] y; [apply IH|reflexivity].
Qed.

Lemma print_two log : prints c tr str_debug p log -> forall e w, log e w = print_log c tr str_debug 2 p e w.
Proof.
  intros H e w. rewrite H. cbn [print_log]. apply print_ext. intros e' x N. rewrite H. exact (print_plain _ _ e' x N).
Qed.
Lemma print_two_prints : prints c tr str_debug p (print_log c tr str_debug 2 p).
Proof. intros e w. cbn [print_log]. apply print_ext. intros e' x N. exact (print_plain _ _ e' x N). Qed.

(** *** They come back *)

Section Closed.
Variable P : forall A, ST W A -> Prop.
Hypothesis Pret : forall A (a : A), P A (sret a).
Hypothesis Pbind : forall A B (f : ST W A) (g : A -> ST W B), P A f -> (forall a, P B (g a)) -> P B (sbind f g).

Lemma cl_fthen (f g : ST W (result unit FmtError)) : P _ f -> P _ g -> P _ (fthen f g).
Proof. intros Hf Hg. unfold fthen, stry. apply Pbind; [exact Hf|]. intros [[]|]; [exact Hg|apply Pret]. Qed.

Lemma cl_and (d : builder) (m : ST W (result unit FmtError)) : P _ m -> P _ (debug_and_then d m).
Proof. intros H. unfold debug_and_then. destruct (fst d); [apply Pbind; [exact H|intros; apply Pret]|apply Pret]. Qed.

Lemma cl_field (k : sink W) d n (v : debug_impl) : sink_with (P _) k -> P _ (v W k false) -> P _ (struct_field k false d n v).
Proof.
  intros [Hs _] Hv. apply cl_and. repeat apply cl_fthen; auto.
Qed.

Lemma cl_pieces (log : event -> ST W unit) (k : sink W) l : sink_with (P _) k ->
  (forall b, In (PStrDebug b) l -> P _ (str_debug b W k false)) ->
  (forall s, In (PSelf s) l -> P _ (l_as_str c tr log s)) ->
  (forall s, In (PSelfDebug s) l -> P _ (l_as_str c tr log s) /\ forall b, P _ (str_debug b W k false)) ->
  P _ (show_pieces c tr str_debug log k l).
Proof.
  intros Hk. pose proof Hk as [Hs Hc].
  induction l as [|a l IH]; intros HD HS HT; cbn [show_pieces]; [apply Pret|].
  apply cl_fthen.
  2: { apply IH; intros; [apply HD|apply HS|apply HT]; right; assumption. }
  destruct a as [x|b|b|n|x|us|s|s]; cbn [show_piece]; try apply Hs; try apply Hc.
  - apply HD. left. reflexivity.
  - apply cl_fthen; [apply Hs|]. clear HD HS HT. generalize true. induction us as [|u us IHu]; intros f; cbn [show_entries]; [apply Hs|].
    apply cl_fthen; [destruct f; [apply Pret|apply Hs]|]. apply cl_fthen; [apply Hs|apply IHu].
  - apply Pbind; [apply HS; left; reflexivity|]. intros b. apply Hs.
  - destruct (HT s (or_introl eq_refl)) as [HA HB].
    apply Pbind; [apply Pbind; [apply Hs|intros; apply Pret]|]. intros d0.
    apply Pbind; [exact HA|]. intros b.
    apply Pbind; [apply cl_field; [exact Hk|apply HB]|]. intros d1.
    apply Pbind; [apply cl_field; [exact Hk|apply Hs]|]. intros d2.
    unfold struct_finish. destruct (snd d2); [destruct (fst d2); [apply Hs|apply Pret]|apply Pret].
Qed.

Lemma cl_print (log : event -> ST W unit) e :
  (forall e, P _ (p_begin p e)) -> sink_with (P _) (p_out p) -> (forall r, P _ (p_end p r)) ->
  (forall b, P _ (str_debug b W (p_out p) false)) ->
  (forall s, self_of e = Some s -> P _ (l_as_str c tr log s)) ->
  P _ (prw log e).
Proof.
  intros Hb Hk He Hd Ha. unfold print_with. apply Pbind; [apply Hb|]. intros _. apply Pbind; [|exact He].
  apply cl_pieces; [exact Hk|intros; apply Hd|..]; intros s I.
  - apply Ha. clear -I. destruct e as [| | | | | | | | | | | |[] us| | | | | | | | | | | | | | | | | ]; cbn in I |- *; intuition congruence.
  - split; [|exact Hd]. apply Ha. clear -I. destruct e as [| | | | | | | | | | | |[] us| | | | | | | | | | | | | | | | | ]; cbn in I |- *; intuition congruence.
Qed.
End Closed.

Lemma back_ret A (a : A) : @comes_back W A (sret a).
Proof. intros w. split; discriminate. Qed.
Lemma back_bind A B (f : ST W A) (g : A -> ST W B) : comes_back f -> (forall a, comes_back (g a)) -> comes_back (sbind f g).
Proof.
  intros Hf Hg w. unfold sbind. destruct (Hf w) as [U D]. destruct (f w) as [[a| | |] w1]; cbn [fst] in U, D; try congruence.
  - apply Hg.
  - split; discriminate.
Qed.
Lemma ret_ret A (a : A) : @returns_always W A (sret a).
Proof. intros w. exists a, w. reflexivity. Qed.
Lemma ret_bind A B (f : ST W A) (g : A -> ST W B) : returns_always f -> (forall a, returns_always (g a)) -> returns_always (sbind f g).
Proof. intros Hf Hg w. unfold sbind. destruct (Hf w) as (a & w1 & E). rewrite E. apply Hg. Qed.

(** The string of the message, read with the logger. *)
Definition plain_of (log : event -> ST W unit) : event -> ST W unit := fun e =>
  match self_of e with None => log e | Some _ => sret tt end.
Lemma as_str_plain log s w : l_as_str c tr log s w = l_as_str c tr (plain_of log) s w.
Proof. apply as_str_ext. intros e x E. unfold plain_of. rewrite E. reflexivity. Qed.

Lemma as_str_back (log : event -> ST W unit) s t : (forall e, self_of e = None -> comes_back (log e)) -> shows c s t -> comes_back (l_as_str c tr log s).
Proof.
  intros H [_ S] w. rewrite as_str_plain.
  assert (L : a_logger tr false (plain_of log)).
  { intros e _. unfold plain_of. destruct (self_of e) eqn:E; [apply back_ret|exact (H e E)]. }
  destruct (as_str_reads c tr false (plain_of log) L s w) as (w' & [E|[_ E]]); rewrite E; cbn [fst]; [rewrite S|]; split; discriminate.
Qed.
Lemma as_str_ret (log : event -> ST W unit) s t : (forall e, self_of e = None -> returns_always (log e)) -> shows c s t -> returns_always (l_as_str c tr log s).
Proof.
  intros H [_ S] w. rewrite as_str_plain.
  assert (Q : forall e w, fst (plain_of log e w) = Ret tt).
  { intros e x. unfold plain_of. destruct (self_of e) eqn:E; [reflexivity|]. destruct (H e E x) as ([] & x' & ->). reflexivity. }
  assert (L : a_logger tr false (plain_of log)) by (intros e _ x; rewrite Q; split; discriminate).
  destruct (as_str_reads c tr false (plain_of log) L s w) as (w' & [E|[(e & _ & x & E') _]]).
  - rewrite E, S. eauto.
  - rewrite Q in E'. discriminate E'.
Qed.

Lemma legible_self e s : legible c e -> self_of e = Some s -> exists t, shows c s t.
Proof.
  intros (s' & A & [N|S]) E; [congruence|]. destruct (about_self_iff e s' A) as [_ [X|X]]; [congruence|].
  rewrite E in X. injection X as ->. exact S.
Qed.

Lemma print_back log e : safe_printer p -> safe_debug str_debug -> prints c tr str_debug p log -> legible c e -> comes_back (log e).
Proof.
  intros (Hb & Hk & He) Hd H.
  assert (N : forall e, self_of e = None -> comes_back (log e)).
  { intros e' E w. rewrite H. apply (cl_print (@comes_back W) back_ret back_bind); auto.
    - intros b. apply Hd, Hk.
    - intros s E'. congruence. }
  intros L w. rewrite H. apply (cl_print (@comes_back W) back_ret back_bind); auto.
  - intros b. apply Hd, Hk.
  - intros s E. destruct (legible_self e s L E) as (t & S). exact (as_str_back log s t N S).
Qed.
Lemma print_ret log e : quiet_printer p -> safe_debug str_debug -> prints c tr str_debug p log -> legible c e -> returns_always (log e).
Proof.
  intros (Hb & Hk & He) Hd H.
  assert (N : forall e, self_of e = None -> returns_always (log e)).
  { intros e' E w. rewrite H. apply (cl_print (@returns_always W) ret_ret ret_bind); auto.
    - intros b. apply Hd, Hk.
    - intros s E'. congruence. }
  intros L w. rewrite H. apply (cl_print (@returns_always W) ret_ret ret_bind); auto.
  - intros b. apply Hd, Hk.
  - intros s E. destruct (legible_self e s L E) as (t & S). exact (as_str_ret log s t N S).
Qed.
End Print.

Lemma c75_nesting c tr str_debug {W} (p : printer W) :
  prints c tr str_debug p (print_log c tr str_debug 2 p) /\
  forall log, prints c tr str_debug p log -> forall e w, log e w = print_log c tr str_debug 2 p e w.
Proof. split; [apply print_two_prints|apply print_two]. Qed.

Lemma c75_print c tr db str_debug {W} (p : printer W) log : safe_debug str_debug -> prints c tr str_debug p log ->
  (safe_printer p -> reader_logger c tr db log) /\ (quiet_printer p -> quiet_reader c tr db log).
Proof.
  intros Hd H. split; intros Hp.
  - intros e _ L. exact (print_back c tr str_debug p log e Hp Hd H L).
  - intros e w _ L. destruct (print_ret c tr str_debug p log e Hp Hd H L w) as ([] & w' & ->). reflexivity.
Qed.

(** ** The lines *)

Section Lines.
Variable c : cfg.
Variable tr : bool.
Variable str_debug : list N -> debug_impl.
Variable q : list N -> list N.
Hypothesis Hq : forall b w, str_debug b (list N) buffer false w = (Ret (Ok tt), w ++ q b).
Variable log : event -> ST (list N) unit.
Hypothesis Hp : prints c tr str_debug line_printer log.

(** [m] writes [b] and is fine. *)
Definition writes_it (m : ST (list N) (result unit FmtError)) (b : list N) : Prop := forall w, m w = (Ret (Ok tt), w ++ b).

Lemma w_str b : writes_it (wstr buffer b) b.
Proof. intros w. reflexivity. Qed.
Lemma w_then m n a b : writes_it m a -> writes_it n b -> writes_it (fthen m n) (a ++ b).
Proof. intros Hm Hn w. unfold fthen, stry, sbind. rewrite Hm, Hn, app_assoc. reflexivity. Qed.
Lemma w_entries us f : writes_it (show_entries buffer f us)
  ((match us with [] => [] | _ => if f then [] else lit ", " end) ++ listed (map decimal us) ++ lit "]").
Proof.
  revert f; induction us as [|u us IH]; intros f; cbn [show_entries map listed]; [exact (w_str (lit "]"))|].
  assert (X : writes_it (if f then sret (Ok tt) else wstr buffer (lit ", ")) (if f then [] else lit ", ")).
  { destruct f; [|exact (w_str (lit ", "))]. intros w. unfold sret. rewrite app_nil_r. reflexivity. }
  pose proof (w_then _ _ _ _ X (w_then _ _ _ _ (w_str (decimal u)) (IH false))) as Y. intros w. rewrite (Y w).
  f_equal. destruct us; cbn [map listed]; rewrite <- ?app_assoc; reflexivity.
Qed.


(** What a piece writes; [i]: what reading [self] writes. *)
Definition piece_text (i : list N) (t : text) (a : piece) : list N :=
  match a with
  | PLit l => lit l
  | PStr b => b
  | PStrDebug b => q b
  | PNum n => decimal n
  | PChar x => enc [x]
  | PUnits us => lit "[" ++ listed (map decimal us) ++ lit "]"
  | PSelf _ => i ++ enc t
  | PSelfDebug _ => lit "ArrayString" ++ i ++ self_text q t
  end.

Lemma run_bind {S A B} (f : ST S A) (g : A -> ST S B) w a w1 : f w = (Ret a, w1) -> sbind f g w = g a w1.
Proof. intros E. unfold sbind. rewrite E. reflexivity. Qed.

Lemma w_piece lg i t a :
  (forall s, a = PSelf s \/ a = PSelfDebug s -> size s = blen t /\ forall w, l_as_str c tr lg s w = (Ret (enc t), w ++ i)) ->
  writes_it (show_piece c tr str_debug lg buffer a) (piece_text i t a).
Proof.
  intros H w. destruct a as [x|b|b|n|x|us|s|s]; cbn [show_piece piece_text]; try reflexivity.
  - apply Hq.
  - cbn [wchar buffer]. unfold sbind, slift. rewrite encode_utf8_4. cbn. rewrite app_nil_r. reflexivity.
  - rewrite (w_then _ _ _ _ (w_str (lit "[")) (w_entries us true) w). destruct us; reflexivity.
  - destruct (H s (or_introl eq_refl)) as [_ R]. unfold show_self, sbind. rewrite R.
    change (write_one_str buffer (enc t) (w ++ i)) with (wstr buffer (enc t) (w ++ i)). rewrite w_str, app_assoc. reflexivity.
  - destruct (H s (or_intror eq_refl)) as [Z R]. unfold show_self_debug, debug_start.
    pose proof (w_then _ _ _ _ (w_str (lit " { ")) (w_then _ _ _ _ (w_str (lit "array")) (w_then _ _ _ _ (w_str (lit ": ")) (Hq (enc t))))) as X.
    pose proof (w_then _ _ _ _ (w_str (lit ", ")) (w_then _ _ _ _ (w_str (lit "size")) (w_then _ _ _ _ (w_str (lit ": ")) (w_str (decimal (size s)))))) as Y.
    erewrite run_bind by (erewrite run_bind by apply w_str; reflexivity).
    erewrite run_bind by apply R.
    erewrite run_bind by (unfold struct_field, debug_and_then; cbn [fst snd]; erewrite run_bind by apply X; reflexivity).
    erewrite run_bind by (unfold struct_field, debug_and_then; cbn [fst snd]; erewrite run_bind by apply Y; reflexivity).
    unfold struct_finish. cbn [fst snd]. rewrite w_str. f_equal. unfold self_text. rewrite Z, <- !app_assoc. reflexivity.
Qed.

Lemma w_pieces lg i t l :
  (forall s, In (PSelf s) l \/ In (PSelfDebug s) l -> size s = blen t /\ forall w, l_as_str c tr lg s w = (Ret (enc t), w ++ i)) ->
  writes_it (show_pieces c tr str_debug lg buffer l) (concat (map (piece_text i t) l)).
Proof.
  induction l as [|a l IH]; intros H; cbn [show_pieces map concat].
  - intros w. rewrite app_nil_r. reflexivity.
  - apply w_then.
    + apply w_piece. intros s E. apply H. destruct E; subst; [left|right]; left; reflexivity.
    + apply IH. intros s E. apply H. destruct E; [left|right]; right; assumption.
Qed.

Lemma w_event lg e i t s : about s e ->
  (self_of e <> None -> size s = blen t /\ forall w, l_as_str c tr lg s w = (Ret (enc t), w ++ i)) ->
  forall w, print_with c tr str_debug line_printer lg e w =
    (Ret tt, w ++ fst (line_of q e t) ++ (if self_of e then i else []) ++ snd (line_of q e t) ++ [10]).
Proof.
  intros A H w.
  assert (X : forall w, show_pieces c tr str_debug lg buffer (message e) w = (Ret (Ok tt), w ++ concat (map (piece_text i t) (message e)))).
  { apply (w_pieces lg i t (message e)). intros s' E.
    assert (S : self_of e = Some s').
    { clear -E. destruct e as [| | | | | | | | | | | |[] us| | | | | | | | | | | | | | | | | ]; cbn in E |- *; intuition congruence. }
    destruct (about_self_iff e s A) as [_ [N|S']]; [congruence|]. rewrite S in S'. injection S' as ->. apply H. congruence. }
  unfold print_with, line_printer. cbn [p_begin p_out p_end]. unfold sbind, sret at 1. rewrite X. unfold smodify. f_equal.
  rewrite <- app_assoc. f_equal.
  clear. destruct e as [| | | | | | | | | | | |[] us| | | | | | | | | | | | | | | | | ]; cbn [message map concat piece_text line_of fst snd self_of]; rewrite ?app_nil_r, <- ?app_assoc; reflexivity.
Qed.

Lemma w_plain e w : self_of e = None -> (exists s, about s e) -> log e w = (Ret tt, w ++ fst (line_of q e []) ++ [10]).
Proof.
  intros N (s & A). rewrite Hp. rewrite (w_event log e [] [] s A); [|congruence]. rewrite N. cbn [app].
  destruct e; try discriminate N; reflexivity.
Qed.

Lemma w_read s t w : shows c s t -> l_as_str c tr log s w = (Ret (enc t), w ++ inner_lines c tr (EvTrim s)).
Proof.
  intros [T S]. unfold inner_lines. cbn [self_of].
  assert (E : forall e w, (e = EvAsStr \/ e = EvLen) -> trace tr log e w = (Ret tt, w ++ if tr then fst (line_of q e []) ++ [10] else [])).
  { intros e x H. assert (Q : log e x = (Ret tt, x ++ fst (line_of q e []) ++ [10])).
    { apply w_plain; [|exists s]; destruct H; subst e; exact I || reflexivity. }
    unfold trace. clear -Q. destruct tr; [exact Q|unfold sret; rewrite app_nil_r; reflexivity]. }
  unfold as_str, as_ref_str, obind in S.
  assert (B : as_ref_bytes c s = Ret (enc t) /\ from_utf8_ok (enc t) = true).
  { assert (U : from_utf8_ok (enc t) = true) by (apply from_utf8_ok_iff; exists t; reflexivity). split; [|exact U].
    destruct (debug_assert c _) in S; try discriminate S. destruct (as_ref_bytes c s) as [b| | |] eqn:Q; try discriminate S.
    unfold from_utf8_unchecked in S. destruct (from_utf8_ok b); [congruence|discriminate S]. }
  destruct B as [B U]. unfold as_ref_bytes, obind, debug_assert in B.
  assert (L : forall w, l_len tr log s w = (Ret (len s), w ++ if tr then lit "Len" ++ [10] else [])).
  { intros x. unfold l_len, sbind. rewrite E by auto. reflexivity. }
  assert (G : slice_get_unchecked_to (arr s) (len s) = Ret (enc t) /\ (debug c = true -> (len s <=? cap c) = true)).
  { destruct (debug c); [destruct (len s <=? cap c); try discriminate B|]; split; auto; discriminate. }
  destruct G as [G1 G2].
  assert (R : forall w, l_as_ref_bytes c tr log s w =
    (Ret (enc t), w ++ if tr then concat (repeat (lit "Len" ++ [10]) (if debug c then 2 else 1)) else [])).
  { intros x. unfold l_as_ref_bytes, l_assert. destruct (debug c).
    - unfold sbind, sret, slift. rewrite L, G2 by reflexivity. rewrite L, G1. f_equal. destruct tr; rewrite ?app_nil_r; [|reflexivity].
      rewrite <- !app_assoc. reflexivity.
    - unfold sbind, sret, slift. rewrite L, G1. f_equal. }
  unfold l_as_str, l_as_ref_str, l_assert, sbind at 1. rewrite E by auto. destruct (debug c).
  - unfold sbind, sret, slift. rewrite R, U, R. unfold from_utf8_unchecked. rewrite U. f_equal.
    destruct tr; rewrite ?app_nil_r; [|reflexivity]. rewrite <- !app_assoc. reflexivity.
  - unfold sbind, sret, slift. rewrite R. unfold from_utf8_unchecked. rewrite U. f_equal.
    destruct tr; rewrite ?app_nil_r; [|reflexivity]. rewrite <- !app_assoc. reflexivity.
Qed.

Lemma w_lines e s t w : about s e -> shows c s t ->
  log e w = (Ret tt, w ++ fst (line_of q e t) ++ inner_lines c tr e ++ snd (line_of q e t) ++ [10]).
Proof.
  intros A S. rewrite Hp. rewrite (w_event log e (inner_lines c tr (EvTrim s)) t s A).
  - unfold inner_lines. cbn [self_of]. destruct (self_of e); reflexivity.
  - intros _. split; [|intros x; apply w_read; exact S].
    apply shows_rep in S. exact (rep_len c s t S).
Qed.
End Lines.

(** Numbers. *)
Notation digs d := (lit (NilEmpty.string_of_uint d)).
Notation value := (fold_left (fun v d => 10 * v + (d - 48))).
Lemma digs_range d : Forall (fun x => 48 <= x <= 57) (digs d).
Proof. induction d; constructor; auto; cbn; lia. Qed.
Lemma digs_acc d : forall a, value (digs d) (N.pos a) = N.pos (Pos.of_uint_acc d a).
Proof.
  induction d as [|d IH|d IH|d IH|d IH|d IH|d IH|d IH|d IH|d IH|d IH]; intros a; [reflexivity|..];
    cbn [Pos.of_uint_acc]; rewrite <- IH; unfold lit; cbn [NilEmpty.string_of_uint list_ascii_of_string map fold_left];
    match goal with |- context [Ascii.N_of_ascii ?x] => let y := eval vm_compute in (Ascii.N_of_ascii x) in change (Ascii.N_of_ascii x) with y end;
    f_equal; lia.
Qed.
Lemma digs_value d : value (digs d) 0 = N.of_uint d.
Proof.
  unfold N.of_uint. induction d as [|d IH|d IH|d IH|d IH|d IH|d IH|d IH|d IH|d IH|d IH]; [reflexivity|exact IH|..];
    cbn [Pos.of_uint]; rewrite <- digs_acc; reflexivity.
Qed.
Lemma c75_decimal n : is_decimal n (decimal n).
Proof.
  unfold is_decimal, decimal. split; [apply digs_range|]. split; [rewrite digs_value; apply Unsigned.of_to|].
  assert (U : N.to_uint n = Decimal.unorm (N.to_uint n)).
  { rewrite <- (Unsigned.of_to n) at 1. apply Unsigned.to_of. }
  remember (N.to_uint n) as d eqn:E. clear E n.
  assert (Z : Decimal.nzhead d = d \/ d = Decimal.D0 Decimal.Nil).
  { unfold Decimal.unorm in U. destruct (Decimal.nzhead d); auto. }
  destruct Z as [Z| ->]; [|split; [discriminate|reflexivity]].
  destruct d as [|d|d|d|d|d|d|d|d|d|d]; [discriminate U|exfalso; exact (nzhead_nonzero _ _ Z)|..]; (split; [discriminate|intros H; discriminate H]).
Qed.

Lemma c75_lines c tr str_debug q log e s t w : prints c tr str_debug line_printer log ->
  (forall b w, str_debug b (list N) buffer false w = (Ret (Ok tt), w ++ q b)) -> about s e -> shows c s t ->
  log e w = (Ret tt, w ++ printed c tr q t e).
Proof. intros Hp Hq A S. exact (w_lines c tr str_debug q Hq log Hp e s t w A S). Qed.

Lemma c75_printed c tr db str_debug {W} (p : printer W) log : valid_cfg c -> safe_debug str_debug ->
  quiet_printer p -> prints c tr str_debug p log ->
  (forall k w, typed_ctor k -> exists w', l_build c tr db log k w = (build c k, w')) /\
  (forall l s t w, shows c s t -> Forall typed_op l ->
     exists w', l_run_ops c tr db log l s w = (fst (run_ops c l s), snd (run_ops c l s), w')).
Proof. intros Hc Hd Hp H. exact (c75_quiet c tr db log Hc (proj2 (c75_print c tr db str_debug p log Hd H) Hp)). Qed.

(** ** [CacheString] *)

Lemma c75_cache c0 tr db {W} (log : event -> ST W unit) : valid_cfg c0 -> quiet_reader (c63 c0) tr db log ->
  (forall k w, typed_ctor k -> exists w', l_cache_build c0 tr db log k w = (cache_build c0 k, w')) /\
  (forall l s t w, cache_shows c0 s t -> Forall typed_op l ->
     exists w', l_cache_run_ops c0 tr db log l s w = (fst (cache_run_ops c0 l s), snd (cache_run_ops c0 l s), w')).
Proof.
  intros Hc Q. destruct (c75_quiet (c63 c0) tr db log (valid_c63 c0 Hc) Q) as [B H]. split.
  - intros k w Hk. destruct (B k w Hk) as (w' & E).
    exists w'. unfold l_cache_build. rewrite cache_cfg. unfold sbind. rewrite E, cache_build_inner.
    destruct (build (c63 c0) k) as [[s|e]| | |]; reflexivity.
  - intros l s t w S T. destruct (H l (inner s) t w S T) as (w' & E).
    exists w'. rewrite l_cache_run_ops_inner, cache_run_ops_inner, E.
    destruct (run_ops (c63 c0) l (inner s)) as [rs i]. reflexivity.
Qed.

Lemma c75_cache_history c0 tr db {W} (log : event -> ST W unit) l s t w : valid_cfg c0 -> reader_logger (c63 c0) tr db log ->
  cache_shows c0 s t -> Forall typed_op l -> Forall harmless l -> no_torn tr db log l ->
  exists rs s' w' t', l_cache_run_ops c0 tr db log l s w = (rs, s', w') /\ cache_shows c0 s' t' /\
    Forall (fun o => o = Panic \/ exists r, o = Ret r) rs.
Proof.
  intros Hc L S T H N.
  destruct (c75_history (c63 c0) tr db log l (inner s) t w (valid_c63 c0 Hc) L S T H N) as (rs & i & w' & t' & E & S' & F).
  exists rs, (mkCache i), w', t'. rewrite l_cache_run_ops_inner, E. auto.
Qed.

Lemma fold_lines c tr q t m : forall w, fold_left (fun w e => w ++ printed c tr q t e) m w = w ++ concat (map (printed c tr q t) m).
Proof.
  induction m as [|e m IH]; intros w; cbn [fold_left map concat]; [rewrite app_nil_r; reflexivity|]. rewrite IH, app_assoc. reflexivity.
Qed.
Lemma c75_log c tr db str_debug q log o s t l w : prints c tr str_debug line_printer log ->
  (forall b w, str_debug b (list N) buffer false w = (Ret (Ok tt), w ++ q b)) -> shows c s t ->
  exists r s' m, l_run_op c tr db record o (s, l) = (r, (s', l ++ m)) /\
    l_run_op c tr db log o (s, w) = (r, (s', w ++ concat (map (printed c tr q t) m))).
Proof.
  intros Hp Hq S. destruct (c75_state c tr db log (fun e w => w ++ printed c tr q t e) o s l w) as (r & s' & m & E & E' & _).
  - intros e x L A. exact (c75_lines c tr str_debug q log e s t x Hp Hq A S).
  - exists r, s', m. split; [exact E|]. rewrite E', fold_lines. reflexivity.
Qed.

Lemma lock_entries us f l : exists l', show_entries (p_out locking) f us (true, l) = (Ret (Ok tt), (true, l')).
Proof.
  revert f l; induction us as [|u us IH]; intros f l; cbn [show_entries]; [eexists; reflexivity|].
  destruct f; cbn; apply IH.
Qed.
Lemma c75_lock_refuted c db str_debug : exists log, prints c true str_debug locking log /\
  (forall e l, self_of e = None -> exists l', log e (false, l) = (Ret tt, (false, l'))) /\
  (forall s l, exists l', l_run_op c true db log OTrim (s, (false, l)) = (Panic, (s, (true, l')))) /\
  (forall e l, log e (true, l) = (Panic, (true, l))).
Proof.
  exists (print_log c true str_debug 2 locking). split; [apply print_two_prints|]. split; [|split].
  - intros e l N. destruct e as [| | | | | | | | | | | |b us| | | | | | | | | | | | | | | | | ]; try discriminate N; try (eexists; reflexivity).
    cbn [print_log]. unfold print_with, sbind at 1. cbn [p_begin locking fst].
    destruct b; cbn [message show_pieces show_piece]; unfold fthen, stry, sbind; cbn [wstr p_out locking fst snd].
    + destruct (lock_entries us true ((l ++ lit "From utf16 lossy: ") ++ lit "[")) as (l' & E). cbn [p_out locking] in E. rewrite E. eexists. reflexivity.
    + destruct (lock_entries us true ((l ++ lit "From utf16: ") ++ lit "[")) as (l' & E). cbn [p_out locking] in E. rewrite E. eexists. reflexivity.
  - intros s l. eexists. reflexivity.
  - intros e l. reflexivity.
Qed.
