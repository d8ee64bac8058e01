(** UTF-16: core's decoder against the inductive reading of Spec.v, and the three
    constructors that take UTF-16. *)
From Coq Require Import ZArith ZifyBool ZifyN ZifyNat Arith.
From Verif Require Import Base Char Spec RustStd ModelError Model TextOps IterSpec
  ListFacts Utf8Facts CoreFacts MethodFacts IterFacts.
Ltac Zify.zify_post_hook ::= Z.div_mod_to_equations.

Lemma land_f800 u : u < 65536 -> N.land u 0xF800 = (u / 2048) * 2048.
Proof.
  intros H. change 0xF800 with (N.shiftl 31 11).
  assert (E : N.land u (N.shiftl 31 11) = N.shiftl (N.land (N.shiftr u 11) 31) 11).
  { apply N.bits_inj. intros n. rewrite N.land_spec.
    destruct (N.lt_ge_cases n 11) as [L|L].
    - rewrite !N.shiftl_spec_low by exact L. apply andb_false_r.
    - rewrite !N.shiftl_spec_high' by exact L. rewrite N.land_spec, N.shiftr_spec'.
      f_equal. f_equal. lia. }
  rewrite E, N.shiftl_mul_pow2, N.shiftr_div_pow2. change 31 with (N.ones 5). rewrite N.land_ones.
  change (2 ^ 11) with 2048. change (2 ^ 5) with 32. lia.
Qed.

Lemma surrogate_spec u : u < 65536 ->
  is_utf16_surrogate u = (0xD800 <=? u) && (u <=? 0xDFFF).
Proof. intros H. unfold is_utf16_surrogate. rewrite land_f800 by exact H. lia. Qed.

(** The units a decoder state still has to read. *)
Definition pending (st : option N * list N) : list N :=
  match st with (Some u, us) => u :: us | (None, us) => us end.

Lemma decode_pending st st' : pending st = pending st' -> decode_utf16_next st = decode_utf16_next st'.
Proof.
  destruct st as [[u|] us], st' as [[u'|] us']; cbn [pending]; intros H; subst;
    try (injection H as <- <-); reflexivity.
Qed.

Lemma decode_nil : decode_utf16_next (None, []) = (Ret None, (None, [])).
Proof. reflexivity. Qed.

Lemma decode_bmp x us : code x < 0x10000 ->
  decode_utf16_next (None, code x :: us) = (Ret (Some (Some x)), (None, us)).
Proof.
  intros H. unfold decode_utf16_next. rewrite surrogate_spec by exact H.
  pose proof (code_not_surrogate x). replace (_ && _) with false by lia. cbn [negb].
  rewrite (from_u32_code x) by reflexivity. reflexivity.
Qed.

Lemma decode_low u us : is_low u -> decode_utf16_next (None, u :: us) = (Ret (Some None), (None, us)).
Proof.
  unfold is_low. intros H. unfold decode_utf16_next. rewrite surrogate_spec by lia.
  replace (_ && _) with true by lia. cbn [negb].
  replace (0xDC00 <=? u) with true by lia. reflexivity.
Qed.

Lemma decode_high_end u : is_high u -> decode_utf16_next (None, [u]) = (Ret (Some None), (None, [])).
Proof.
  unfold is_high. intros H. unfold decode_utf16_next. rewrite surrogate_spec by lia.
  replace (_ && _) with true by lia. cbn [negb].
  replace (0xDC00 <=? u) with false by lia. reflexivity.
Qed.

Lemma decode_high_other u v us : is_high u -> ~ is_low v ->
  decode_utf16_next (None, u :: v :: us) = (Ret (Some None), (Some v, us)).
Proof.
  unfold is_high, is_low. intros H Nv. unfold decode_utf16_next. rewrite surrogate_spec by lia.
  replace (_ && _) with true by lia. cbn [negb].
  replace (0xDC00 <=? u) with false by lia. replace ((v <? 0xDC00) || (0xDFFF <? v)) with true by lia.
  reflexivity.
Qed.

Lemma decode_pair h l x us : is_high h -> is_low l -> code x = 0x10000 + (h - 0xD800) * 0x400 + (l - 0xDC00) ->
  decode_utf16_next (None, h :: l :: us) = (Ret (Some (Some x)), (None, us)).
Proof.
  unfold is_high, is_low. intros H L E. unfold decode_utf16_next. rewrite surrogate_spec by lia.
  replace (_ && _) with true by lia. cbn [negb].
  replace (0xDC00 <=? h) with false by lia. replace ((l <? 0xDC00) || (0xDFFF <? l)) with false by lia.
  rewrite !land_3ff. rewrite (lor_shiftl_add _ _ 10) by (change (2 ^ 10) with 1024; lia).
  change (2 ^ 10) with 1024. rewrite (from_u32_code x) by lia. reflexivity.
Qed.

Lemma decode_items us items : utf16_items us items ->
  forall st, pending st = us -> ends decode_utf16_next st items (None, []).
Proof.
  assert (Z : forall st, pending st = [] -> ends decode_utf16_next st [] (None, [])).
  { intros st P. exists st. split; [constructor|].
    rewrite (decode_pending st (None, [])) by exact P. reflexivity. }
  assert (C : forall st us i st' r, pending st = us -> decode_utf16_next (None, us) = (Ret (Some i), st') ->
            ends decode_utf16_next st' r (None, []) -> ends decode_utf16_next st (i :: r) (None, [])).
  { intros st us0 i st' r P D (it1 & Y & E). exists it1. split; [|exact E].
    econstructor; [|exact Y]. rewrite (decode_pending st (None, us0)) by exact P. exact D. }
  induction 1 as [|x us r Hx U IH|h l x us r Hh Hl Hx U IH|l us r Hl U IH|h us r Hh Hn U IH]; intros st P.
  - apply Z. exact P.
  - eapply C; [exact P|apply decode_bmp; exact Hx|apply IH; reflexivity].
  - eapply C; [exact P|eapply decode_pair; eassumption|apply IH; reflexivity].
  - eapply C; [exact P|apply decode_low; exact Hl|apply IH; reflexivity].
  - destruct us as [|v us].
    + eapply C; [exact P|apply decode_high_end; exact Hh|apply IH; reflexivity].
    + eapply C; [exact P|apply decode_high_other; [exact Hh|apply (Hn v us eq_refl)]|apply IH; reflexivity].
Qed.

(** The reading exists for every sequence of 16 bit units, and is unique. *)
Lemma utf16_items_total us : Forall (fun u => u < 65536) us -> exists items, utf16_items us items.
Proof.
  assert (G : forall n us, (length us <= n)%nat -> Forall (fun u => u < 65536) us -> exists items, utf16_items us items).
  { clear us. induction n as [|n IH]; intros us L F.
    - destruct us; [|cbn in L; lia]. exists []. constructor.
    - destruct us as [|u us]; [exists []; constructor|]. cbn in L. inversion F as [|? ? Fu Fus]; subst.
      destruct (IH us ltac:(lia) Fus) as (r & U).
      destruct (is_scalar u) eqn:Su.
      + destruct (scalar_char u Su) as (x & _ & <-). exists (Some x :: r). constructor; assumption.
      + unfold is_scalar in Su. destruct (N.leb_spec 0xDC00 u) as [Lu|Lu].
        * exists (None :: r). apply u16_low; [unfold is_low; lia|exact U].
        * assert (Hu : is_high u) by (unfold is_high; lia).
          destruct us as [|v us].
          -- exists (None :: r). apply u16_high; [exact Hu|discriminate|exact U].
          -- destruct ((0xDC00 <=? v) && (v <=? 0xDFFF)) eqn:Ev.
             ++ cbn in L. inversion Fus; subst. destruct (IH us ltac:(lia)) as (r' & U'); [assumption|].
                destruct (scalar_char (0x10000 + (u - 0xD800) * 0x400 + (v - 0xDC00))) as (x & _ & Ex).
                { unfold is_scalar. unfold is_high in Hu. lia. }
                exists (Some x :: r'). eapply u16_pair; eauto. unfold is_low. lia.
             ++ exists (None :: r). apply u16_high; [exact Hu| |exact U].
                intros l us' E. injection E as <- <-. unfold is_low. lia. }
  apply (G (length us)). apply le_n.
Qed.

Lemma ends_fun {S A} (next : iter S A) it l1 e1 l2 e2 :
  ends next it l1 e1 -> ends next it l2 e2 -> l1 = l2 /\ e1 = e2.
Proof.
  intros (i1 & Y1 & E1). revert l2. induction Y1 as [i|i a i' l i2 N Y IH]; intros l2 (j & Y2 & E2).
  - inversion Y2; subst; [|congruence]. split; congruence.
  - inversion Y2 as [|? b j1 l' ? N' Y']; subst; [congruence|].
    rewrite N in N'. injection N' as <- <-.
    destruct (IH E1 l') as [-> ->]; [exists j; auto|]. auto.
Qed.

Lemma utf16_items_fun us i1 i2 : utf16_items us i1 -> utf16_items us i2 -> i1 = i2.
Proof.
  intros H1 H2. pose proof (decode_items us i1 H1 (None, us) eq_refl) as E1.
  pose proof (decode_items us i2 H2 (None, us) eq_refl) as E2.
  apply (ends_fun _ _ _ _ _ _ E1 E2).
Qed.

Lemma enc16_items t : utf16_items (enc16 t) (map Some t).
Proof.
  induction t as [|x t IH]; cbn; [constructor|]. unfold enc16_1.
  pose proof (code_lt x). destruct (N.ltb_spec (code x) 0x10000) as [L|L]; cbn [app].
  - constructor; assumption.
  - apply u16_pair; auto; unfold is_high, is_low; lia.
Qed.

(** ** The constructors *)

(** How reading [items] into [n] bytes ends: all fit, an unpaired surrogate
    comes first, or a character that does not fit comes first. *)
Lemma items_cases (n : N) (items : list (option char)) :
  (exists t, items = map Some t /\ blen t <= n) \/
  (exists t r, items = map Some t ++ None :: r /\ blen t <= n) \/
  (exists t x r, items = map Some t ++ Some x :: r /\ blen t <= n /\ n < blen t + clen x).
Proof.
  revert n. induction items as [|[x|] items IH]; intros n.
  - left. exists []. split; [reflexivity|]. cbn. lia.
  - destruct (N.leb_spec (clen x) n) as [L|L].
    + destruct (IH (n - clen x)) as [(t & -> & H)|[(t & r & -> & H)|(t & y & r & -> & H1 & H2)]].
      * left. exists (x :: t). split; [reflexivity|]. cbn. lia.
      * right. left. exists (x :: t), r. split; [reflexivity|]. cbn. lia.
      * right. right. exists (x :: t), y, r. split; [reflexivity|]. cbn. lia.
    + right. right. exists [], x, items. split; [reflexivity|]. cbn. lia.
  - right. left. exists [], items. split; [reflexivity|]. cbn. lia.
Qed.

Section Facts.
Variable c : cfg.
Hypothesis Hc : valid_cfg c.

Definition body_try (ch : option char) : ST astring (flow Error) :=
  match ch with
  | None => sret (Return (error_from_decode_utf16 tt))
  | Some ch => push_or_return from_oob (try_push c ch)
  end.
Definition body_trunc (ch : option char) : ST astring (flow Utf16) :=
  match ch with
  | None => sret (Return (utf16_from_decode_utf16 tt))
  | Some ch => push_or_break (try_push c ch)
  end.
Definition body_lossy (ch : option char) : ST astring (flow Empty_set) :=
  push_or_break (try_push c (match ch with Some ch => ch | None => replacement_char end)).

Lemma try_from_utf16_unfold us : try_from_utf16 c us =
  fst (from_loop (for_loop (char_fuel c) decode_utf16_next body_try (None, us) (new c)) Ok Err).
Proof. reflexivity. Qed.
Lemma from_utf16_truncate_unfold us : from_utf16_truncate c us =
  fst (from_loop (for_loop (char_fuel c) decode_utf16_next body_trunc (None, us) (new c)) Ok Err).
Proof. reflexivity. Qed.
Lemma from_utf16_lossy_unfold us : from_utf16_lossy_truncate c us =
  fst (from_loop (R := Empty_set) (for_loop (char_fuel c) decode_utf16_next body_lossy (None, us) (new c))
    (fun s => s) (fun e => match e with end)).
Proof. reflexivity. Qed.

Lemma folds_map_Some {R} (body : option char -> ST astring (flow R)) s l s' :
  folds (fun x => body (Some x)) s l s' -> folds body s (map Some l) s'.
Proof. induction 1; cbn; econstructor; eauto. Qed.

Lemma folds_try t : blen t <= cap c -> exists s, folds body_try (new c) (map Some t) s /\ rep c s t.
Proof.
  intros L. destruct (folds_chars c (fun x => body_try (Some x)) (fun x => x) t (new c) []) as (s & H1 & H2).
  - intros i s t0 _ R L0. eapply push_or_return_ok; [apply push1_fits; eassumption|exact R].
  - apply new_rep.
  - rewrite map_id. cbn [blen]. lia.
  - rewrite map_id in H2. exists s. split; [apply folds_map_Some; exact H1|exact H2].
Qed.

Lemma folds_trunc16 t : blen t <= cap c -> exists s, folds body_trunc (new c) (map Some t) s /\ rep c s t.
Proof.
  intros L. destruct (folds_chars c (fun x => body_trunc (Some x)) (fun x => x) t (new c) []) as (s & H1 & H2).
  - intros i s t0 _ R L0. eapply push_or_break_ok; [apply push1_fits; eassumption|exact R].
  - apply new_rep.
  - rewrite map_id. cbn [blen]. lia.
  - rewrite map_id in H2. exists s. split; [apply folds_map_Some; exact H1|exact H2].
Qed.

Lemma folds_lossy items : blen (lossy items) <= cap c ->
  exists s, folds body_lossy (new c) items s /\ rep c s (lossy items).
Proof.
  intros L. unfold lossy in *.
  destruct (folds_chars c body_lossy (fun o => match o with Some x => x | None => replacement_char end)
    items (new c) []) as (s & H1 & H2).
  - intros i s t0 _ R L0. eapply push_or_break_ok; [apply push1_fits; eassumption|exact R].
  - apply new_rep.
  - cbn [blen]. lia.
  - exists s. auto.
Qed.

Lemma fuel_ok t : blen t <= cap c -> (length (map (@Some char) t) < char_fuel c)%nat.
Proof.
  intros L. rewrite map_length. pose proof (length_le_cap c t L). unfold char_fuel. lia.
Qed.

Lemma ends_yields_app {S A} (next : iter S A) it l a r it' :
  ends next it (l ++ a :: r) it' -> exists it1, yields next it (l ++ [a]) it1.
Proof.
  intros (it1 & Y & _). replace (l ++ a :: r) with ((l ++ [a]) ++ r) in Y by (rewrite <- app_assoc; reflexivity).
  apply yields_split in Y as (i & Y & _). eauto.
Qed.

Lemma try_from_utf16_ok us t : utf16_items us (map Some t) -> blen t <= cap c ->
  exists s, try_from_utf16 c us = Ret (Ok s) /\ rep c s t.
Proof.
  intros U L. destruct (folds_try t L) as (s & H1 & H2).
  pose proof (decode_items us _ U (None, us) eq_refl) as E.
  exists s. split; [|exact H2]. rewrite try_from_utf16_unfold.
  rewrite (for_loop_end decode_utf16_next body_try _ _ _ _ _ _ E H1 (fuel_ok t L)). reflexivity.
Qed.

Lemma try_from_utf16_bad us t r : utf16_items us (map Some t ++ None :: r) -> blen t <= cap c ->
  try_from_utf16 c us = Ret (Err EUtf16).
Proof.
  intros U L. destruct (folds_try t L) as (s & H1 & H2).
  pose proof (decode_items us _ U (None, us) eq_refl) as E. apply ends_yields_app in E as (it1 & Y).
  rewrite try_from_utf16_unfold.
  rewrite (for_loop_return decode_utf16_next body_try _ _ EUtf16 _ _ _ _ s _ Y H1 eq_refl (fuel_ok t L)). reflexivity.
Qed.

Lemma try_from_utf16_long us t x r : utf16_items us (map Some t ++ Some x :: r) -> blen t <= cap c ->
  cap c < blen t + clen x -> try_from_utf16 c us = Ret (Err EOutOfBounds).
Proof.
  intros U L Lx. destruct (folds_try t L) as (s & H1 & H2).
  pose proof (decode_items us _ U (None, us) eq_refl) as E. apply ends_yields_app in E as (it1 & Y).
  rewrite try_from_utf16_unfold.
  assert (B : body_try (Some x) s = (Ret (Return EOutOfBounds), s)).
  { apply (push_or_return_err c from_oob _ _ _ _ (push1_fails c Hc x s t H2 Lx)). }
  rewrite (for_loop_return decode_utf16_next body_try _ _ _ _ _ _ _ _ _ Y H1 B (fuel_ok t L)). reflexivity.
Qed.

Lemma from_utf16_truncate_ok us t : utf16_items us (map Some t) -> blen t <= cap c ->
  exists s, from_utf16_truncate c us = Ret (Ok s) /\ rep c s t.
Proof.
  intros U L. destruct (folds_trunc16 t L) as (s & H1 & H2).
  pose proof (decode_items us _ U (None, us) eq_refl) as E.
  exists s. split; [|exact H2]. rewrite from_utf16_truncate_unfold.
  rewrite (for_loop_end decode_utf16_next body_trunc _ _ _ _ _ _ E H1 (fuel_ok t L)). reflexivity.
Qed.

Lemma from_utf16_truncate_bad us t r : utf16_items us (map Some t ++ None :: r) -> blen t <= cap c ->
  from_utf16_truncate c us = Ret (Err mkUtf16).
Proof.
  intros U L. destruct (folds_trunc16 t L) as (s & H1 & H2).
  pose proof (decode_items us _ U (None, us) eq_refl) as E. apply ends_yields_app in E as (it1 & Y).
  rewrite from_utf16_truncate_unfold.
  rewrite (for_loop_return decode_utf16_next body_trunc _ _ mkUtf16 _ _ _ _ s _ Y H1 eq_refl (fuel_ok t L)). reflexivity.
Qed.

Lemma from_utf16_truncate_long us t x r : utf16_items us (map Some t ++ Some x :: r) -> blen t <= cap c ->
  cap c < blen t + clen x -> exists s, from_utf16_truncate c us = Ret (Ok s) /\ rep c s t.
Proof.
  intros U L Lx. destruct (folds_trunc16 t L) as (s & H1 & H2).
  pose proof (decode_items us _ U (None, us) eq_refl) as E. apply ends_yields_app in E as (it1 & Y).
  rewrite from_utf16_truncate_unfold.
  assert (B : body_trunc (Some x) s = (Ret Break, s)).
  { apply (push_or_break_err c _ _ _ _ (push1_fails c Hc x s t H2 Lx)). }
  exists s. split; [|exact H2].
  rewrite (for_loop_stop decode_utf16_next body_trunc _ _ _ _ _ _ _ _ Y H1 B (fuel_ok t L)). reflexivity.
Qed.

Lemma from_utf16_lossy_truncate_runs us items : utf16_items us items ->
  exists s, from_utf16_lossy_truncate c us = Ret s /\ rep c s (fit (cap c) (lossy items)).
Proof.
  intros U. pose proof (decode_items us _ U (None, us) eq_refl) as E.
  destruct (chars_cases (cap c) (lossy items) 0) as [H|(l1 & x & l2 & H1 & H2 & H3)]; [lia|..].
  - rewrite fit_all by lia. destruct (folds_lossy items) as (s & F1 & F2); [lia|].
    exists s. split; [|exact F2]. rewrite from_utf16_lossy_unfold.
    rewrite (for_loop_end decode_utf16_next body_lossy _ _ _ _ _ _ E F1); [reflexivity|].
    pose proof (length_le_cap c (lossy items)) as Q. unfold lossy in Q. rewrite map_length in Q.
    unfold char_fuel. fold (lossy items) in Q. lia.
  - rewrite H1, fit_stop by lia. unfold lossy in H1. apply map_eq_app in H1 as (i1 & i2' & -> & M1 & M2).
    apply map_eq_cons in M2 as (o & i2 & -> & Mo & M2). 
    destruct (folds_lossy i1) as (s & F1 & F2). { unfold lossy. rewrite M1. lia. }
    unfold lossy in F2. rewrite M1 in F2. exists s. split; [|exact F2].
    apply ends_yields_app in E as (it1 & Y). rewrite from_utf16_lossy_unfold.
    assert (B : body_lossy o s = (Ret Break, s)).
    { unfold body_lossy. rewrite Mo. apply (push_or_break_err c _ _ _ _ (push1_fails c Hc x s l1 F2 ltac:(lia))). }
    rewrite (for_loop_stop decode_utf16_next body_lossy _ _ _ _ _ _ _ _ Y F1 B); [reflexivity|].
    pose proof (length_le_cap c l1 ltac:(lia)) as Q. rewrite <- M1, map_length in Q. unfold char_fuel. lia.
Qed.

End Facts.
