(** Two loggers, of different states, that answer alike on the messages that can be
    shown, towards ClaimsLogText.v. *)
From Coq Require Import ZArith ZifyBool ZifyN ZifyNat Arith.
From Verif Require Import Base Char Spec RustStd RustFmt ModelError Model ModelImpl ModelDrain IterSpec ListFacts Utf8Facts CoreFacts
  MethodFacts IterFacts ImplFacts Obs ObsLogs ObsLogText OpsFacts ClaimsOps ClaimsArgs ClaimsLogs.

Lemma text_enc w : is_text (enc w).
Proof. exists w. reflexivity. Qed.
Lemma text_enc1 x : is_text (enc1 x).
Proof. exists [x]. rewrite enc_single. reflexivity. Qed.
Lemma text_nil : is_text [].
Proof. exists []. reflexivity. Qed.
Lemma text_get b i j r : is_text b -> str_get b i j = Some r -> is_text r.
Proof.
  intros (t & ->) E. apply str_get_Some in E. destruct E as (x & y & z & E). exists y. intuition congruence.
Qed.
Lemma text_unchecked b i j r : is_text b -> str_get_unchecked b i j = Ret r -> is_text r.
Proof.
  unfold str_get_unchecked. intros H. destruct (str_get b i j) eqn:E; [|discriminate]. intros [= <-].
  exact (text_get b i j _ H E).
Qed.
Lemma text_truncate c b n r : is_text b -> truncate_str c b n = Ret r -> is_text r.
Proof. intros (t & ->). rewrite truncate_str_fit. intros [= <-]. apply text_enc. Qed.
Lemma text_utf8 b r : from_utf8_unchecked b = Ret r -> is_text r.
Proof.
  unfold from_utf8_unchecked. destruct (from_utf8_ok b) eqn:E; [|discriminate]. intros [= <-].
  apply from_utf8_ok_iff in E. exact E.
Qed.

Section Agree.
Variable c : cfg.
Variables tr db : bool.
Context {W W' : Type}.
Variable log : event -> ST W unit.
Variable log' : event -> ST W' unit.
Variable I : W -> W' -> Prop.
Variable s0 : astring.

(** [g] and [g'] answer alike, with [Q], and keep [I]. *)
Definition alike {A} (Q : A -> Prop) (g : ST W A) (g' : ST W' A) : Prop :=
  forall w w', I w w' -> exists o v v', g w = (o, v) /\ g' w' = (o, v') /\ I v v' /\ (forall a, o = Ret a -> Q a).
Notation any := (fun _ => True).

Hypothesis Hlog : forall e, level_on tr db e = true -> about s0 e -> alike any (log e) (log' e).

(** ** Code that does not touch a string *)

Lemma alike_weaken {A} (Q Q' : A -> Prop) g g' : (forall a, Q a -> Q' a) -> alike Q g g' -> alike Q' g g'.
Proof.
  intros H K w w' i. destruct (K w w' i) as (o & v & v' & E & E' & J & P). exists o, v, v'. repeat split; auto.
Qed.

Lemma alike_sret {A} (Q : A -> Prop) a : Q a -> alike Q (sret a) (sret a).
Proof. intros H w w' i. exists (Ret a), w, w'. repeat split; [exact i|]. intros x [= <-]. exact H. Qed.

Lemma alike_slift {A} (Q : A -> Prop) (o : outcome A) : (forall a, o = Ret a -> Q a) -> alike Q (slift o) (slift o).
Proof. intros H w w' i. exists o, w, w'. repeat split; [exact i|exact H]. Qed.

Lemma alike_bind {A D} (Q : A -> Prop) (R : D -> Prop) g g' (k : A -> ST W D) (k' : A -> ST W' D) :
  alike Q g g' -> (forall a, Q a -> alike R (k a) (k' a)) -> alike R (sbind g k) (sbind g' k').
Proof.
  intros H K w w' i. destruct (H w w' i) as (o & v & v' & E & E' & J & P). unfold sbind. rewrite E, E'.
  destruct o as [a| | |]; [exact (K a (P a eq_refl) v v' J)|eexists _, v, v'; repeat split; [exact J|intros; discriminate]..].
Qed.

Lemma alike_level (on : bool) e : level_on tr db e = on -> about s0 e ->
  alike any (if on then log e else sret tt) (if on then log' e else sret tt).
Proof.
  intros L A. destruct on; [|apply alike_sret; exact Logic.I]. exact (Hlog e L A).
Qed.
Lemma alike_trace e : level_on tr db e = tr -> about s0 e -> alike any (trace tr log e) (trace tr log' e).
Proof. exact (alike_level tr e). Qed.
Lemma alike_dbg e : level_on tr db e = db -> about s0 e -> alike any (dbg db log e) (dbg db log' e).
Proof. exact (alike_level db e). Qed.

Lemma alike_log_with {A} (Q : A -> Prop) on (arg : ST W A) (arg' : ST W' A) e :
  (forall a, level_on tr db (e a) = on) -> (forall a, Q a -> about s0 (e a)) -> alike Q arg arg' ->
  alike any (log_with on log arg e) (log_with on log' arg' e).
Proof.
  intros L B H. unfold log_with. destruct on; [|apply alike_sret; exact Logic.I].
  apply (alike_bind Q); [exact H|]. intros a q. exact (Hlog (e a) (L a) (B a q)).
Qed.

Lemma alike_len s : alike any (l_len tr log s) (l_len tr log' s).
Proof. apply (alike_bind any); [apply alike_trace; [reflexivity|exact Logic.I]|]. intros. apply alike_sret. exact Logic.I. Qed.

Lemma alike_assert (m : ST W bool) (m' : ST W' bool) : alike any m m' -> alike any (l_assert c m) (l_assert c m').
Proof.
  intros H. unfold l_assert. destruct (debug c); [|apply alike_sret; exact Logic.I].
  apply (alike_bind any); [exact H|]. intros. apply alike_slift. auto.
Qed.

Lemma alike_as_ref_bytes s : alike any (l_as_ref_bytes c tr log s) (l_as_ref_bytes c tr log' s).
Proof.
  apply (alike_bind any); [apply alike_assert; apply (alike_bind any); [apply alike_len|intros; apply alike_sret; exact Logic.I]|].
  intros. apply (alike_bind any); [apply alike_len|]. intros. apply alike_slift. auto.
Qed.

Lemma alike_as_ref_str s : alike is_text (l_as_ref_str c tr log s) (l_as_ref_str c tr log' s).
Proof.
  apply (alike_bind any).
  - apply alike_assert. apply (alike_bind any); [apply alike_as_ref_bytes|]. intros. apply alike_sret. exact Logic.I.
  - intros. apply (alike_bind any); [apply alike_as_ref_bytes|]. intros b _. apply alike_slift. intros x. apply text_utf8.
Qed.

Lemma alike_as_str s : alike is_text (l_as_str c tr log s) (l_as_str c tr log' s).
Proof. apply (alike_bind any); [apply alike_trace; [reflexivity|exact Logic.I]|]. intros. apply alike_as_ref_str. Qed.

Lemma alike_as_mut s : alike is_text (l_as_mut c tr log s) (l_as_mut c tr log' s).
Proof.
  apply (alike_bind any); [apply alike_len|]. intros n _.
  apply (alike_bind any); [apply alike_slift; auto|]. intros _ _.
  apply (alike_bind any); [apply alike_slift; auto|]. intros b _.
  apply (alike_bind any); [apply alike_slift; auto|]. intros _ _.
  apply alike_slift. intros a. apply text_utf8.
Qed.

Lemma alike_as_mut_str : alike is_text (l_as_mut_str c tr log s0) (l_as_mut_str c tr log' s0).
Proof. apply (alike_bind any); [apply alike_trace; reflexivity|]. intros. apply alike_as_mut. Qed.

Lemma alike_inside a b : alike any (l_is_inside_boundary tr log a b) (l_is_inside_boundary tr log' a b).
Proof. apply (alike_bind any); [apply alike_trace; [reflexivity|exact Logic.I]|]. intros. apply alike_sret. exact Logic.I. Qed.

Lemma alike_boundary s i : alike any (l_is_char_boundary c tr log s i) (l_is_char_boundary c tr log' s i).
Proof.
  apply (alike_bind any); [apply (alike_log_with is_text); [reflexivity|auto|apply alike_as_str]|].
  intros. apply (alike_bind any); [apply (alike_weaken is_text); [auto|apply alike_as_str]|]. intros. apply alike_sret. exact Logic.I.
Qed.

Lemma alike_truncate_str b n : is_text b -> alike is_text (l_truncate_str c tr log b n) (l_truncate_str c tr log' b n).
Proof.
  intros T. apply (alike_bind any); [apply alike_trace; [reflexivity|exact T]|]. intros _ _. apply alike_slift.
  intros x. apply text_truncate, T.
Qed.

Lemma alike_end_of hi s : alike any (l_end_of c tr log hi s) (l_end_of c tr log' hi s).
Proof. destruct hi; [apply alike_sret; exact Logic.I..|apply alike_len]. Qed.

Lemma alike_new_len n a b s : alike any (l_new_len c tr log n a b s) (l_new_len c tr log' n a b s).
Proof. apply (alike_bind any); [apply alike_len|]. intros. apply alike_slift. auto. Qed.

Lemma alike_room string string' s : alike is_text string string' ->
  alike is_text (l_room_for c tr log string s) (l_room_for c tr log' string' s).
Proof.
  intros H. apply (alike_bind is_text); [exact H|]. intros b T.
  apply (alike_bind any); [apply alike_len|]. intros n _.
  apply (alike_bind any); [apply alike_slift; auto|]. intros m _. apply alike_truncate_str, T.
Qed.

Lemma alike_next_boundary fuel s e : alike any (l_next_boundary c tr log fuel s e) (l_next_boundary c tr log' fuel s e).
Proof.
  revert e; induction fuel as [|fuel IH]; intros e; cbn [l_next_boundary]; [apply alike_slift; auto|].
  apply (alike_bind is_text); [apply alike_as_str|]. intros b _. destruct (str_is_char_boundary b e); [apply alike_sret; exact Logic.I|].
  apply (alike_bind any); [apply alike_slift; auto|]. intros e' _. apply IH.
Qed.

(** ** Code that holds [&mut self] *)

(** The same, when the string is [P]. *)
Definition twin {A} (P : astring -> Prop) (Q : A -> Prop) (g : ST (astring * W) A) (g' : ST (astring * W') A) : Prop :=
  forall s w w', P s -> I w w' -> exists o s1 v v', g (s, w) = (o, (s1, v)) /\ g' (s, w') = (o, (s1, v')) /\ I v v' /\
    (forall a, o = Ret a -> Q a).
Notation here := (fun s => s = s0).

Lemma twin_weaken {A} (P P' : astring -> Prop) (Q Q' : A -> Prop) g g' :
  (forall s, P' s -> P s) -> (forall a, Q a -> Q' a) -> twin P Q g g' -> twin P' Q' g g'.
Proof.
  intros HP HQ H s w w' p i. destruct (H s w w' (HP s p) i) as (o & s1 & v & v' & E & E' & J & X).
  exists o, s1, v, v'. repeat split; auto.
Qed.
Lemma twin_at {A} (P : astring -> Prop) (Q : A -> Prop) g g' : twin any Q g g' -> twin P Q g g'.
Proof. apply twin_weaken; auto. Qed.

Lemma twin_sret {A} (P : astring -> Prop) (Q : A -> Prop) a : Q a -> twin P Q (sret a) (sret a).
Proof. intros H s w w' _ i. exists (Ret a), s, w, w'. repeat split; [exact i|]. intros x [= <-]. exact H. Qed.
Lemma twin_slift {A} (P : astring -> Prop) (Q : A -> Prop) (o : outcome A) : (forall a, o = Ret a -> Q a) -> twin P Q (slift o) (slift o).
Proof. intros H s w w' _ i. exists o, s, w, w'. repeat split; [exact i|exact H]. Qed.
Lemma twin_self {A} (P : astring -> Prop) (m : ST astring A) : twin P any (on_self m) (on_self m).
Proof.
  intros s w w' _ i. unfold on_self. cbn [fst snd]. destruct (m s) as [o s1]. exists o, s1, w, w'. repeat split. exact i.
Qed.

Lemma twin_bind {A D} (P : astring -> Prop) (Q : A -> Prop) (R : D -> Prop) g g' (k : A -> ST (astring * W) D) (k' : A -> ST (astring * W') D) :
  twin P Q g g' -> (forall a, Q a -> twin any R (k a) (k' a)) -> twin P R (sbind g k) (sbind g' k').
Proof.
  intros H K s w w' p i. destruct (H s w w' p i) as (o & s1 & v & v' & E & E' & J & X). unfold sbind. rewrite E, E'.
  destruct o as [a| | |]; [exact (K a (X a eq_refl) s1 v v' Logic.I J)|eexists _, s1, v, v'; repeat split; [exact J|intros; discriminate]..].
Qed.

(** A step that only looks at the string. *)
Lemma twin_look {A D} (P : astring -> Prop) (Q : A -> Prop) (R : D -> Prop) (f : astring -> ST W A) (f' : astring -> ST W' A) (k : A -> ST (astring * W) D) (k' : A -> ST (astring * W') D) :
  (forall s, P s -> alike Q (f s) (f' s)) -> (forall a, Q a -> twin P R (k a) (k' a)) ->
  twin P R (sbind (seen f) k) (sbind (seen f') k').
Proof.
  intros H K s w w' p i. destruct (H s p w w' i) as (o & v & v' & E & E' & J & X). unfold sbind, seen, on_arg. cbn [fst snd].
  rewrite E, E'. destruct o as [a| | |]; [exact (K a (X a eq_refl) s v v' p J)|eexists _, s, v, v'; repeat split; [exact J|intros; discriminate]..].
Qed.
Lemma twin_arg {A D} (P : astring -> Prop) (Q : A -> Prop) (R : D -> Prop) (f : ST W A) (f' : ST W' A) (k : A -> ST (astring * W) D) (k' : A -> ST (astring * W') D) :
  alike Q f f' -> (forall a, Q a -> twin P R (k a) (k' a)) ->
  twin P R (sbind (on_arg f) k) (sbind (on_arg f') k').
Proof. intros H. exact (twin_look P Q R (fun _ => f) (fun _ => f') k k' (fun _ _ => H)). Qed.
Lemma twin_seen {A} (P : astring -> Prop) (Q : A -> Prop) (f : astring -> ST W A) (f' : astring -> ST W' A) : (forall s, P s -> alike Q (f s) (f' s)) ->
  twin P Q (seen f) (seen f').
Proof.
  intros H s w w' p i. destruct (H s p w w' i) as (o & v & v' & E & E' & J & X). unfold seen, on_arg. cbn [fst snd].
  rewrite E, E'. exists o, s, v, v'. repeat split; auto.
Qed.
Lemma twin_on_arg {A} (P : astring -> Prop) (Q : A -> Prop) (f : ST W A) (f' : ST W' A) : alike Q f f' -> twin P Q (on_arg f) (on_arg f').
Proof. intros H. exact (twin_seen P Q (fun _ => f) (fun _ => f') (fun _ _ => H)). Qed.

Lemma twin_try {A D E F} (P : astring -> Prop) ev (conv : E -> F) (f : astring -> ST W (result A E)) (f' : astring -> ST W' (result A E)) (k : A -> ST (astring * W) (result D F)) (k' : A -> ST (astring * W') (result D F)) :
  level_on tr db ev = tr -> about s0 ev ->
  (forall s, P s -> alike any (f s) (f' s)) -> (forall a, twin P any (k a) (k' a)) ->
  twin P any (l_try tr log ev conv (seen f) k) (l_try tr log' ev conv (seen f') k').
Proof.
  intros L B H K. unfold l_try. apply (twin_look P any); [exact H|]. intros [a|e] _; [apply K|].
  apply (twin_arg P any); [apply alike_trace; [exact L|exact B]|]. intros. apply twin_sret. exact Logic.I.
Qed.

Lemma twin_stry {A D E F} (P : astring -> Prop) (conv : E -> F) (g : ST (astring * W) (result A E)) (g' : ST (astring * W') (result A E)) (k : A -> ST (astring * W) (result D F)) (k' : A -> ST (astring * W') (result D F)) :
  twin P any g g' -> (forall a, twin any any (k a) (k' a)) -> twin P any (stry conv g k) (stry conv g' k').
Proof.
  intros H K. unfold stry. apply (twin_bind P any); [exact H|]. intros [a|e] _; [apply K|]. apply twin_sret. exact Logic.I.
Qed.

Ltac done_ := first [exact Logic.I | reflexivity | auto].

Lemma replace_twin lo hi str str' : alike is_text str str' ->
  twin any any (l_replace_range c tr db log lo hi str) (l_replace_range c tr db log' lo hi str').
Proof.
  intros T. unfold l_replace_range. apply (twin_arg any is_text); [exact T|]. intros b Tb.
  apply (twin_look any any); [intros; apply alike_end_of|]. intros e _.
  apply (twin_look any any).
  { intros s _. apply (alike_log_with (fun x => is_text (snd x))).
    - intros [[n x] y]. reflexivity.
    - intros [[n x] y] H. exact H.
    - apply (alike_bind any); [apply alike_len|]. intros n _. apply (alike_bind is_text); [exact T|]. intros x _.
      apply (alike_bind is_text); [exact T|]. intros y Ty. apply alike_sret. exact Ty. }
  intros _ _. destruct (_ && _); [apply twin_sret; exact Logic.I|].
  unfold l_try_oob, l_try_utf8.
  apply (twin_try any _ _ (fun _ => _) (fun _ => _)); [reflexivity|exact Logic.I|intros; apply alike_inside|intros _].
  apply twin_try; [reflexivity|exact Logic.I|intros; apply (alike_bind any); [apply alike_len|intros; apply alike_inside]|intros _].
  apply (twin_try any _ _ (fun _ => _) (fun _ => _)); [reflexivity|exact Logic.I|intros; apply alike_inside|intros _].
  apply twin_try; [reflexivity|exact Logic.I|intros; apply alike_boundary|intros _].
  apply twin_try; [reflexivity|exact Logic.I|intros; apply alike_boundary|intros _].
  apply twin_try; [reflexivity|exact Logic.I|intros; apply (alike_bind any); [apply alike_new_len|intros; apply alike_inside]|intros _].
  apply (twin_bind any any); [apply twin_slift; auto|]. intros x _.
  apply (twin_bind any any); [apply twin_slift; auto|]. intros y _.
  apply (twin_bind any any); [apply twin_slift; auto|]. intros z _.
  apply (twin_bind any any).
  { destruct (negb _); [|apply twin_sret; exact Logic.I].
    apply (twin_look any any); [intros; apply (alike_bind any); [apply alike_len|intros; apply alike_slift; auto]|]. intros. apply twin_self. }
  intros _ _. apply (twin_bind any any).
  { destruct (negb _); [|apply twin_sret; exact Logic.I].
    apply (twin_look any any); [intros; apply alike_slift; auto|]. intros. apply twin_self. }
  intros _ _. apply (twin_look any any); [intros; apply alike_new_len|]. intros n _.
  apply (twin_bind any any); [apply twin_self|]. intros. apply twin_sret. exact Logic.I.
Qed.

Lemma push_str_twin str str' : alike is_text str str' ->
  twin any any (l_try_push_str c tr db log str) (l_try_push_str c tr db log' str').
Proof.
  intros T. apply (twin_arg any any); [apply (alike_log_with is_text); [reflexivity|auto|exact T]|]. intros _ _.
  apply (twin_look any any); [intros; apply alike_len|]. intros n _.
  apply (twin_bind any any); [apply replace_twin; exact T|]. intros. apply twin_sret. exact Logic.I.
Qed.

Lemma alike_text b : is_text b -> alike is_text (sret b) (sret b).
Proof. apply alike_sret. Qed.

Lemma push_str_truncate_twin str str' : alike is_text str str' ->
  twin any any (l_push_str_truncate c tr db log str) (l_push_str_truncate c tr db log' str').
Proof.
  intros T. apply (twin_arg any any); [apply (alike_log_with is_text); [reflexivity|auto|exact T]|]. intros _ _.
  apply (twin_look any is_text); [intros; apply alike_room; exact T|]. intros b Tb.
  apply (twin_bind any any); [apply push_str_twin, alike_text, Tb|]. intros. apply twin_sret. exact Logic.I.
Qed.

Lemma push_twin ch : twin any any (l_try_push c tr db log ch) (l_try_push c tr db log' ch).
Proof.
  apply (twin_arg any any); [apply alike_trace; [reflexivity|exact Logic.I]|]. intros _ _.
  apply (twin_bind any is_text); [apply twin_slift; rewrite encode_utf8_4; intros a [= <-]; apply text_enc1|].
  intros b Tb. apply push_str_twin, alike_text, Tb.
Qed.

Lemma local_alike {A D} (Q : D -> Prop) (g : ST (astring * W) A) (g' : ST (astring * W') A) (k : A -> astring -> D) : (forall a s, Q (k a s)) ->
  twin any any g g' -> alike Q (g_local c g k) (g_local c g' k).
Proof.
  intros HQ H w w' i. destruct (H (new c) w w' Logic.I i) as (o & s1 & v & v' & E & E' & J & _). unfold g_local. rewrite E, E'.
  eexists _, v, v'. repeat split; [exact J|]. intros a F. destruct o; inversion F. apply HQ.
Qed.

Lemma try_from_str_alike str str' : alike is_text str str' ->
  alike any (l_try_from_str c tr db log str) (l_try_from_str c tr db log' str').
Proof.
  intros T. apply (alike_bind any); [apply (alike_log_with is_text); [reflexivity|auto|exact T]|]. intros _ _.
  apply local_alike; [auto|]. apply push_str_twin, T.
Qed.
Lemma from_str_truncate_alike str str' : alike is_text str str' ->
  alike any (l_from_str_truncate c tr db log str) (l_from_str_truncate c tr db log' str').
Proof.
  intros T. apply (alike_bind any); [apply (alike_log_with is_text); [reflexivity|auto|exact T]|]. intros _ _.
  apply local_alike; [auto|]. apply push_str_truncate_twin, T.
Qed.

(** ** Loops *)

(** The same for code with an iterator. *)
Definition alike_it {IT A} (g : W -> outcome A * IT * W) (g' : W' -> outcome A * IT * W') : Prop :=
  forall w w', I w w' -> exists o v v', g w = (o, v) /\ g' w' = (o, v') /\ I v v'.

Lemma loop_twin {IT A R} fuel (next : iter IT A) (Q : A -> Prop) (body : A -> ST (astring * W) (flow R)) (body' : A -> ST (astring * W') (flow R)) :
  (forall it a it', next it = (Ret (Some a), it') -> Q a) ->
  (forall a, Q a -> twin any any (body a) (body' a)) ->
  forall it s w w', I w w' -> exists o s1 v v', for_loop fuel next body it (s, w) = (o, (s1, v)) /\
    for_loop fuel next body' it (s, w') = (o, (s1, v')) /\ I v v'.
Proof.
  intros HQ H. induction fuel as [|fuel IH]; intros it s w w' i; cbn [for_loop]; [eexists _, _, _, _; eauto|].
  destruct (next it) as [[[a|]| | |] it1] eqn:N; try (eexists _, _, _, _; eauto; fail).
  destruct (H a (HQ _ _ _ N) s w w' Logic.I i) as (o & s1 & v & v' & E & E' & J & _). rewrite E, E'.
  destruct o as [[| |r]| | |]; try (eexists _, _, _, _; eauto; fail). exact (IH it1 s1 v v' J).
Qed.

Lemma from_loop_alike {IT A B R} fuel (next : iter IT A) (Q : A -> Prop) (body : A -> ST (astring * W) (flow R)) (body' : A -> ST (astring * W') (flow R)) e e' it
    (ret : astring -> B) early :
  (forall it a it', next it = (Ret (Some a), it') -> Q a) ->
  (forall a, Q a -> twin any any (body a) (body' a)) -> alike any e e' ->
  alike_it (l_from_loop e it (fun w => for_loop fuel next body it (new c, w)) ret early)
           (l_from_loop e' it (fun w => for_loop fuel next body' it (new c, w)) ret early).
Proof.
  intros HQ H He w w' i. destruct (He w w' i) as (o & v & v' & E & E' & J & _). unfold l_from_loop. rewrite E, E'.
  destruct o as [u| | |]; try (eexists _, _, _; eauto; fail).
  destruct (loop_twin fuel next Q body body' HQ H it (new c) v v' J) as (o & s1 & x & x' & F & F' & K). rewrite F, F'.
  destruct o as [[[r|]| | |] it1]; eexists _, _, _; eauto.
Qed.

Lemma or_return_twin {E F} (conv : E -> ST W F) (conv' : E -> ST W' F) (g : ST (astring * W) (result unit E)) (g' : ST (astring * W') (result unit E)) :
  (forall e, alike any (conv e) (conv' e)) -> twin any any g g' -> twin any any (l_or_return conv g) (l_or_return conv' g').
Proof.
  intros Hc H. apply (twin_bind any any); [exact H|]. intros [a|e] _; [apply twin_sret; exact Logic.I|].
  apply (twin_arg any any); [apply Hc|]. intros. apply twin_sret. exact Logic.I.
Qed.
Lemma or_break_twin {E R} (g : ST (astring * W) (result unit E)) (g' : ST (astring * W') (result unit E)) :
  twin any any g g' -> twin any any (l_or_break (R := R) g) (l_or_break g').
Proof. intros H. apply (twin_bind any any); [exact H|]. intros. apply twin_sret. exact Logic.I. Qed.

Notation item x := (is_text (ref1 x) /\ is_text (ref2 x)).
Definition items_ok {IT} (next : iter IT as_ref_item) : Prop :=
  forall it x it', next it = (Ret (Some x), it') -> item x.

Lemma pair_items {IT} (next : iter IT (text * text)) : items_ok (map_iter item_of_pair next).
Proof.
  intros it x it'. unfold map_iter. destruct (next it) as [[[p|]| | |] it1]; intros [= <- _].
  split; apply text_enc.
Qed.

Lemma try_from_iterator_alike {IT} fuel (next : iter IT as_ref_item) it : items_ok next ->
  alike_it (l_try_from_iterator c tr db log fuel next it) (l_try_from_iterator c tr db log' fuel next it).
Proof.
  intros H. apply (from_loop_alike fuel next (fun x => item x)); [exact H| |apply alike_trace; [reflexivity|exact Logic.I]].
  intros x [T _]. apply or_return_twin; [intros; apply alike_sret; exact Logic.I|]. apply push_str_twin, alike_text, T.
Qed.
Lemma from_iterator_truncate_alike {IT} fuel (next : iter IT as_ref_item) it : items_ok next ->
  alike_it (l_from_iterator_truncate c tr db log fuel next it) (l_from_iterator_truncate c tr db log' fuel next it).
Proof.
  intros H. apply (from_loop_alike fuel next (fun x => item x)); [exact H| |apply alike_trace; [reflexivity|exact Logic.I]].
  intros x [T1 T2]. apply (twin_bind any any); [apply push_str_twin, alike_text, T1|].
  intros [a|e] _; [apply twin_sret; exact Logic.I|].
  apply (twin_bind any any); [apply push_str_truncate_twin, alike_text, T2|]. intros. apply twin_sret. exact Logic.I.
Qed.
Lemma try_from_chars_alike {IT} fuel (next : iter IT char) it :
  alike_it (l_try_from_chars c tr db log fuel next it) (l_try_from_chars c tr db log' fuel next it).
Proof.
  apply (from_loop_alike fuel next any); [auto| |apply alike_trace; [reflexivity|exact Logic.I]].
  intros x _. apply or_return_twin; [intros; apply alike_sret; exact Logic.I|]. apply push_twin.
Qed.
Lemma from_chars_truncate_alike {IT} fuel (next : iter IT char) it :
  alike_it (l_from_chars_truncate c tr db log fuel next it) (l_from_chars_truncate c tr db log' fuel next it).
Proof.
  apply (from_loop_alike fuel next any); [auto| |apply alike_trace; [reflexivity|exact Logic.I]].
  intros x _. apply or_break_twin, push_twin.
Qed.

Lemma drop_alike {IT A} (g : W -> outcome A * IT * W) (g' : W' -> outcome A * IT * W') : alike_it g g' -> alike any (l_drop g) (l_drop g').
Proof.
  intros H w w' i. destruct (H w w' i) as ([o it] & v & v' & E & E' & J). unfold l_drop. rewrite E, E'. exists o, v, v'. auto.
Qed.

Lemma try_from_utf16_alike us : Forall (fun u => u < 65536) us ->
  alike any (l_try_from_utf16 c tr db log us) (l_try_from_utf16 c tr db log' us).
Proof.
  intros Hu. apply drop_alike. apply (from_loop_alike _ _ any); [auto| |apply alike_dbg; [reflexivity|exact Hu]].
  intros [x|] _; [|apply twin_sret; exact Logic.I]. apply or_return_twin; [|apply push_twin].
  intros e. apply (alike_bind any); [apply alike_trace; [reflexivity|exact Logic.I]|]. intros. apply alike_sret. exact Logic.I.
Qed.
Lemma from_utf16_truncate_alike us : Forall (fun u => u < 65536) us ->
  alike any (l_from_utf16_truncate c tr db log us) (l_from_utf16_truncate c tr db log' us).
Proof.
  intros Hu. apply drop_alike. apply (from_loop_alike _ _ any); [auto| |apply alike_dbg; [reflexivity|exact Hu]].
  intros [x|] _; [|apply twin_sret; exact Logic.I]. apply or_break_twin, push_twin.
Qed.
Lemma from_utf16_lossy_alike us : Forall (fun u => u < 65536) us ->
  alike any (l_from_utf16_lossy_truncate c tr db log us) (l_from_utf16_lossy_truncate c tr db log' us).
Proof.
  intros Hu. apply drop_alike. apply (from_loop_alike _ _ any); [auto| |apply alike_dbg; [reflexivity|exact Hu]].
  intros x _. apply or_break_twin, push_twin.
Qed.

Lemma map_alike {A D} (f : A -> D) (g : ST W A) (g' : ST W' A) : alike any g g' -> alike any (l_map f g) (l_map f g').
Proof. intros H. apply (alike_bind any); [exact H|]. intros. apply alike_sret. exact Logic.I. Qed.

Lemma build_alike k : typed_ctor k -> alike any (l_build c tr db log k) (l_build c tr db log' k).
Proof.
  intros Hk. destruct k; cbn [l_build]; try (apply map_alike); try (apply alike_sret; exact Logic.I).
  - apply try_from_str_alike, alike_text, text_enc.
  - apply try_from_str_alike, alike_text, text_enc.
  - apply from_str_truncate_alike, alike_text, text_enc.
  - apply from_str_truncate_alike, alike_text, text_enc.
  - apply drop_alike, try_from_iterator_alike, pair_items.
  - apply drop_alike, from_iterator_truncate_alike, pair_items.
  - apply drop_alike, try_from_chars_alike.
  - apply drop_alike, from_chars_truncate_alike.
  - apply drop_alike, from_iterator_truncate_alike, pair_items.
  - apply drop_alike, from_chars_truncate_alike.
  - apply try_from_utf16_alike, Hk.
  - apply from_utf16_truncate_alike, Hk.
  - apply from_utf16_lossy_alike, Hk.
Qed.

(** ** The calls *)

Lemma truncate_twin n : twin any any (l_truncate c tr db log n) (l_truncate c tr db log' n).
Proof.
  apply (twin_arg any any); [apply alike_dbg; [reflexivity|exact Logic.I]|]. intros _ _.
  apply (twin_look any any); [intros; apply alike_len|]. intros l _.
  apply (twin_look any any); [intros; apply alike_boundary|]. intros [a|e] _; [|apply twin_sret; exact Logic.I].
  apply (twin_bind any any); [apply twin_self|]. intros. apply twin_sret. exact Logic.I.
Qed.

Lemma pop_twin : twin any any (l_pop c tr db log) (l_pop c tr db log').
Proof.
  apply (twin_arg any any); [apply alike_dbg; [reflexivity|exact Logic.I]|]. intros _ _.
  apply (twin_look any any); [intros; apply (alike_bind is_text); [apply alike_as_str|intros; apply alike_slift; auto]|].
  intros [x|] _; [|apply twin_sret; exact Logic.I].
  apply (twin_look any any); [intros; apply alike_slift; auto|]. intros n _.
  apply (twin_bind any any); [apply twin_self|]. intros. apply twin_sret. exact Logic.I.
Qed.

Lemma nothing_alike : alike is_text (sret []) (sret []).
Proof. apply alike_text, text_nil. Qed.

Lemma trim_twin : twin here any (l_trim c tr db log) (l_trim c tr db log').
Proof.
  apply (twin_look here any); [intros s ->; apply alike_trace; reflexivity|]. intros _ _. apply twin_at.
  apply (twin_look any any).
  { intros. apply (alike_bind any); [apply alike_len|]. intros n _.
    apply (alike_bind is_text); [apply alike_as_str|]. intros. apply alike_slift. auto. }
  intros x _. apply (twin_look any any).
  { intros. apply (alike_bind any); [apply alike_len|]. intros n _.
    apply (alike_bind is_text); [apply alike_as_str|]. intros. apply alike_slift. auto. }
  intros [e|] _; [|apply twin_self].
  apply (twin_bind any any); [apply replace_twin, nothing_alike|]. intros _ _.
  apply (twin_bind any any); [apply replace_twin, nothing_alike|]. intros. apply twin_sret. exact Logic.I.
Qed.

Lemma remove_twin i : twin any any (l_remove c tr db log i) (l_remove c tr db log' i).
Proof.
  apply (twin_arg any any); [apply alike_dbg; [reflexivity|exact Logic.I]|]. intros _ _. unfold l_try_oob, l_try_utf8.
  apply twin_try; [reflexivity|exact Logic.I|intros; apply (alike_bind any); [apply alike_len|intros; apply alike_inside]|intros _].
  apply twin_try; [reflexivity|exact Logic.I|intros; apply alike_boundary|intros _].
  apply (twin_look any any).
  { intros. apply (alike_bind any); [apply alike_len|]. intros n _.
    apply (alike_bind any); [apply alike_slift; auto|]. intros. apply alike_next_boundary. }
  intros e _. apply twin_stry.
  { apply twin_seen. intros. apply (alike_bind is_text); [apply alike_as_str|]. intros. apply alike_sret. exact Logic.I. }
  intros sub. apply twin_stry; [apply twin_slift; auto|]. intros x.
  apply (twin_bind any any); [apply twin_slift; auto|]. intros n _.
  apply twin_stry; [apply replace_twin, nothing_alike|]. intros. apply twin_sret. exact Logic.I.
Qed.

Lemma insert_str_twin i str str' : alike is_text str str' ->
  twin here any (l_try_insert_str c tr db log i str) (l_try_insert_str c tr db log' i str').
Proof.
  intros T. apply (twin_look here any).
  { intros s ->. apply (alike_log_with is_text); [reflexivity| |exact T]. intros a H. split; [exact H|reflexivity]. }
  intros _ _. apply twin_at. unfold l_try_oob.
  apply twin_try; [reflexivity|exact Logic.I|intros; apply (alike_bind any); [apply alike_len|intros; apply alike_inside]|intros _].
  apply replace_twin, T.
Qed.

Lemma insert_str_truncate_twin i str str' : alike is_text str str' ->
  twin here any (l_insert_str_truncate c tr db log i str) (l_insert_str_truncate c tr db log' i str').
Proof.
  intros T. apply (twin_look here any).
  { intros s ->. apply (alike_log_with is_text); [reflexivity| |exact T]. intros a H. split; [exact H|reflexivity]. }
  intros _ _. apply (twin_look here is_text); [intros; apply alike_room; exact T|]. intros b Tb.
  apply twin_stry; [apply insert_str_twin, alike_text, Tb|]. intros. apply twin_sret. exact Logic.I.
Qed.

Lemma drain_twin lo hi : twin any any (l_drain c tr db log lo hi) (l_drain c tr db log' lo hi).
Proof.
  apply (twin_look any any); [intros; apply alike_end_of|]. intros e _.
  apply (twin_look any any); [intros; apply (alike_log_with any); [reflexivity|intros; exact Logic.I|apply alike_len]|]. intros _ _.
  unfold l_try_oob, l_try_utf8.
  apply (twin_try any _ _ (fun _ => _) (fun _ => _)); [reflexivity|exact Logic.I|intros; apply alike_inside|intros _].
  apply twin_try; [reflexivity|exact Logic.I|intros; apply (alike_bind any); [apply alike_len|intros; apply alike_inside]|intros _].
  apply twin_try; [reflexivity|exact Logic.I|intros; apply alike_boundary|intros _].
  apply twin_try; [reflexivity|exact Logic.I|intros; apply alike_boundary|intros _].
  apply (twin_look any any).
  { intros. apply alike_assert. destruct (_ <=? _); [|apply alike_sret; exact Logic.I].
    apply (alike_bind any); [apply alike_len|]. intros. apply alike_sret. exact Logic.I. }
  intros _ _. apply (twin_look any any).
  { intros. apply alike_assert. apply (alike_bind is_text); [apply alike_as_str|]. intros. apply alike_sret. exact Logic.I. }
  intros _ _. apply (twin_look any any).
  { intros. apply alike_assert. apply (alike_bind is_text); [apply alike_as_str|]. intros. apply alike_sret. exact Logic.I. }
  intros _ _. apply (twin_look any is_text).
  { intros. apply (alike_bind is_text); [apply alike_as_str|]. intros b Tb. apply alike_slift. intros a. apply text_unchecked, Tb. }
  intros b Tb. apply (twin_try any _ _ (fun _ => _) (fun _ => _));
    [reflexivity|exact Logic.I|intros; apply try_from_str_alike, alike_text, Tb|intros d].
  apply twin_stry; [apply replace_twin, nothing_alike|]. intros. apply twin_sret. exact Logic.I.
Qed.

Lemma write_str_twin b : is_text b -> twin any any (l_write_str c tr db log b) (l_write_str c tr db log' b).
Proof. intros T. apply (twin_bind any any); [apply push_str_twin, alike_text, T|]. intros. apply twin_sret. exact Logic.I. Qed.

Lemma formatting_twin p : twin any any (run_fprog (l_write_str c tr db log) (formatting_prog p))
  (run_fprog (l_write_str c tr db log') (formatting_prog p)).
Proof.
  induction p as [b| |w next IH]; cbn [formatting_prog run_fprog]; [apply twin_sret; exact Logic.I|apply twin_slift; auto|].
  apply (twin_bind any any); [apply write_str_twin, text_enc|]. intros r _. apply IH.
Qed.

Lemma extend_twin {IT} (g : W -> outcome astring * IT * W) (g' : W' -> outcome astring * IT * W') : alike_it g g' ->
  twin any any (fun p => let '(r, _, s', w') := l_extend_with c tr db log g (fst p) (snd p) in (omap (fun _ => RUnit) r, (s', w')))
    (fun p => let '(r, _, s', w') := l_extend_with c tr db log' g' (fst p) (snd p) in (omap (fun _ => RUnit) r, (s', w'))).
Proof.
  intros H s w w' _ i. destruct (H w w' i) as ([o it] & v & v' & E & E' & J). unfold l_extend_with. cbn [fst snd]. rewrite E, E'.
  destruct o as [a| | |]; try (eexists _, _, _, _; repeat split; eauto; fail).
  destruct (push_str_truncate_twin _ _ (alike_as_ref_str a) s v v' Logic.I J) as (o & s2 & x & x' & F & F' & K & _). rewrite F, F'.
  eexists _, _, _, _. repeat split; exact K.
Qed.

Lemma out_twin {A} (P : astring -> Prop) (f : A -> out) g g' : twin P any g g' -> twin P any (l_out f g) (l_out f g').
Proof. intros H. apply (twin_bind P any); [exact H|]. intros. apply twin_sret. exact Logic.I. Qed.

Lemma read_twin {A} (P : astring -> Prop) (f : astring -> ST W A) (f' : astring -> ST W' A) : (forall s, alike any (f s) (f' s)) -> twin P any (seen f) (seen f').
Proof. intros H. apply twin_seen. intros. apply H. Qed.

Lemma op_twin o : twin here any (l_run_op c tr db log o) (l_run_op c tr db log' o).
Proof.
  destruct o; cbn [l_run_op].
  - apply out_twin, twin_at, push_str_twin, alike_text, text_enc.
  - apply out_twin, twin_at, push_str_truncate_twin, alike_text, text_enc.
  - apply out_twin, twin_at, push_twin.
  - apply out_twin, twin_at, truncate_twin.
  - apply out_twin, twin_at, pop_twin.
  - apply out_twin, trim_twin.
  - apply out_twin, twin_at, remove_twin.
  - intros s w w' _ i. unfold l_retain. cbn [fst snd].
    assert (A : alike is_text (_ <~ trace tr log EvRetain ;; l_as_str c tr log s) (_ <~ trace tr log' EvRetain ;; l_as_str c tr log' s)).
    { apply (alike_bind any); [apply alike_trace; [reflexivity|exact Logic.I]|]. intros. apply alike_as_str. }
    destruct (A w w' i) as (o & v & v' & E & E' & J & _). rewrite E, E'.
    destruct o as [b| | |]; try (eexists _, _, _, _; repeat split; exact J).
    destruct (from_chars_truncate_alike (S (length b)) (filter_next (S (length b)) chars_iter f) (b, x) v v' J) as ([o it] & y & y' & F0 & F1 & K).
    rewrite F0, F1. destruct o as [a| | |], it as [b2 x2]; eexists _, _, _, _; repeat split; exact K.
  - apply out_twin. intros s w w' p j. unfold l_try_insert. rewrite encode_utf8_4.
    exact (insert_str_twin _ _ _ (alike_text _ (text_enc1 x)) s w w' p j).
  - apply out_twin, insert_str_twin, alike_text, text_enc.
  - apply out_twin, insert_str_truncate_twin, alike_text, text_enc.
  - apply out_twin, twin_at. apply (twin_arg any any); [apply alike_trace; [reflexivity|exact Logic.I]|]. intros. apply twin_self.
  - apply twin_at. apply (twin_bind any any); [apply drain_twin|]. intros. apply twin_slift. auto.
  - apply twin_at. apply (twin_bind any any); [|intros; apply twin_slift; auto].
    apply (twin_arg any any); [apply alike_dbg; [reflexivity|exact Logic.I]|]. intros _ _.
    apply twin_stry; [apply drain_twin|]. intros. apply twin_sret. exact Logic.I.
  - apply out_twin, twin_at, replace_twin, alike_text, text_enc.
  - apply twin_at, extend_twin, from_chars_truncate_alike.
  - apply twin_at, extend_twin, from_iterator_truncate_alike, pair_items.
  - intros s w0 w0' _ i. unfold l_add. cbn [fst snd].
    destruct (push_str_truncate_twin _ _ (alike_text _ (text_enc w)) s w0 w0' Logic.I i) as (o & s1 & v & v' & E & E' & J & _). rewrite E, E'.
    destruct o as [a| | |]; eexists _, _, _, _; repeat split; exact J.
  - apply out_twin, twin_at, write_str_twin, text_enc.
  - apply out_twin, twin_at. apply (twin_bind any is_text); [apply twin_slift; rewrite encode_utf8_4; intros a [= <-]; apply text_enc1|].
    intros. apply write_str_twin. assumption.
  - apply out_twin, twin_at, formatting_twin.
  - apply out_twin. apply (twin_bind here any).
    + apply (twin_look here is_text); [intros s ->; apply alike_as_mut_str|]. intros b _. apply twin_at.
      apply (twin_bind any any); [apply twin_slift; auto|]. intros [a e] _. apply twin_sret. exact Logic.I.
    + intros p _. destruct (_ =? _); [apply twin_self|apply twin_sret; exact Logic.I].
  - apply out_twin, twin_at. apply (twin_look any is_text); [intros; apply alike_as_mut|]. intros. apply twin_self.
  - apply out_twin, twin_at. apply (twin_look any is_text); [intros; apply alike_as_mut|]. intros. apply twin_self.
  - apply out_twin, read_twin. apply alike_len.
  - apply out_twin, read_twin. intros. apply (alike_bind is_text); [apply alike_as_ref_str|]. intros. apply alike_sret. exact Logic.I.
  - apply twin_sret. exact Logic.I.
  - apply out_twin, read_twin. intros. apply (alike_weaken is_text); [auto|apply alike_as_str].
  - apply out_twin, read_twin. intros. apply (alike_bind is_text); [apply alike_as_str|]. intros. apply alike_sret. exact Logic.I.
  - apply read_twin. intros. apply (alike_bind is_text); [apply alike_as_str|]. intros. apply alike_slift. auto.
  - apply out_twin, read_twin. intros. apply (alike_bind is_text); [apply alike_as_str|]. intros. apply alike_slift. auto.
Qed.

Lemma str_call_twin k str str' : alike is_text str str' -> twin here any (l_str_call c tr db log k str) (l_str_call c tr db log' k str').
Proof.
  intros T. destruct k; cbn [l_str_call]; apply out_twin.
  - apply twin_at, push_str_twin, T.
  - apply twin_at, push_str_truncate_twin, T.
  - apply insert_str_twin, T.
  - apply insert_str_truncate_twin, T.
  - apply twin_at, replace_twin, T.
Qed.
End Agree.
