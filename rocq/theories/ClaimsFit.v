(** How much truncation keeps (C64), histories without the calls that do nothing
    (C65), truncation and order (C66). *)
From Coq Require Import ZArith ZifyBool ZifyN ZifyNat Arith Lia.
From Verif Require Import Base Char Spec RustStd RustFmt ModelError Model ModelImpl ModelDrain TextOps SpecOps ModelOps IterSpec
  SpecFit ListFacts Utf8Facts CoreFacts MethodFacts OrderFacts IterFacts ImplFacts Obs ClaimsEdit ClaimsIter ClaimsTrait ClaimsOps ClaimsOrd.

(** ** C64 *)
Lemma fit_packed n t w : blen t <= n -> packed n (t ++ w) (t ++ fit (n - blen t) w).
Proof.
  revert t. induction w as [|x w IH]; intros t L; [left; reflexivity|]. cbn [fit].
  destruct (N.leb_spec (clen x) (n - blen t)) as [Lx|Lx].
  - specialize (IH (t ++ [x])). rewrite blen_app, blen_cons in IH. cbn [blen] in IH.
    rewrite <- !app_assoc in IH. cbn [app] in IH. replace (n - (blen t + (clen x + 0))) with (n - blen t - clen x) in IH by lia.
    apply IH. lia.
  - right. exists x, w. rewrite app_nil_r. split; [reflexivity | lia].
Qed.

Lemma longest_packed n t w p : blen t <= n -> longest_fit (n - blen t) w p -> packed n (t ++ w) (t ++ p).
Proof. intros L H. apply longest_fit_fit in H. subst p. apply fit_packed. exact L. Qed.

Lemma shows_cap c s t : shows c s t -> blen t <= cap c.
Proof. intros H. apply shows_rep in H. exact (rep_cap c s t H). Qed.

Lemma c64_append c s t w : valid_cfg c -> shows c s t ->
  (exists got, makes c (from_str_truncate c (enc w)) got /\ makes c (from_ref_str c (enc w)) got /\ packed (cap c) w got) /\
  (exists got, returns c (push_str_truncate c (enc w) s) tt got /\ makes c (add c s (enc w)) got /\ packed (cap c) (t ++ w) got).
Proof.
  intros Hc Hs. split.
  - destruct (c09_from_str_truncate c w Hc) as (p & Hp & H1 & H2). exists p. split; [exact H1|]. split; [exact H2|].
    apply (longest_packed (cap c) [] w p); [cbn; lia | cbn [blen]; rewrite N.sub_0_r; exact Hp].
  - destruct (c06_push_str_truncate c s t w Hc Hs) as (p & Hp & H1). destruct (c34_add c s t w Hc Hs) as (p' & Hp' & H2 & _).
    rewrite <- (longest_fit_unique _ _ _ _ Hp Hp') in H2. exists (t ++ p). split; [exact H1|]. split; [exact H2|].
    apply longest_packed; [exact (shows_cap c s t Hs) | exact Hp].
Qed.

Lemma c64_insert c s pre post w : valid_cfg c -> shows c s (pre ++ post) ->
  exists p, returns c (insert_str_truncate c (blen pre) (enc w) s) (Ok tt) (pre ++ p ++ post) /\
    packed (cap c - blen (pre ++ post)) w p.
Proof.
  intros Hc Hs. destruct (insert_truncate_texts c s (pre ++ post) (blen pre) w Hc Hs) as (p & Hp & _ & _ & _ & H).
  exists p. split; [apply H; split; reflexivity|].
  apply (longest_packed (cap c - blen (pre ++ post)) [] w p); [cbn; lia | cbn [blen]; rewrite N.sub_0_r; exact Hp].
Qed.

Lemma c64_iterators c {IT} (next : iter IT char) it l it' s t : valid_cfg c -> shows c s t -> ends next it l it' ->
  (exists a it1 got, from_chars_truncate c (char_fuel c) next it = (Ret a, it1) /\ shows c a got /\ packed (cap c) l got) /\
  (exists s' it1 got, extend_chars c (char_fuel c) next it s = (Ret tt, it1, s') /\ shows c s' got /\ packed (cap c) (t ++ l) got).
Proof.
  intros Hc Hs He. split.
  - destruct (c13_from_chars_truncate c next it l it' Hc He) as (p & a & it1 & Hp & E & _ & Sa). exists a, it1, p.
    split; [exact E|]. split; [exact Sa|].
    apply (longest_packed (cap c) [] l p); [cbn; lia | cbn [blen]; rewrite N.sub_0_r; exact Hp].
  - destruct (c33_extend_chars c next it l it' s t Hc Hs He) as (p & s' & it1 & Hp & E & _ & Sa). exists s', it1, (t ++ p).
    split; [exact E|]. split; [exact Sa|]. apply longest_packed; [exact (shows_cap c s t Hs) | exact Hp].
Qed.

Lemma c64_pieces c {IT} (next : iter IT as_ref_item) it l it' s t fuel : valid_cfg c -> shows c s t ->
  ends next it (map item_of l) it' -> (length l < fuel)%nat ->
  (exists a it1 got, from_iterator_truncate c fuel next it = (Ret a, it1) /\ shows c a got /\ packed (cap c) (concat l) got) /\
  (exists s' it1 got, extend_strs c fuel next it s = (Ret tt, it1, s') /\ shows c s' got /\ packed (cap c) (t ++ concat l) got).
Proof.
  intros Hc Hs He Hf. split.
  - destruct (c11_from_iterator_truncate c next it l it' fuel Hc He Hf) as (p & Hp & H1 & H2).
    assert (P : packed (cap c) (concat l) p).
    { apply (longest_packed (cap c) [] (concat l) p); [cbn; lia | cbn [blen]; rewrite N.sub_0_r; exact Hp]. }
    destruct (N.leb_spec (blen (concat l)) (cap c)) as [L|L].
    + destruct (H1 L) as (a & E & Sa). exists a, it', p. auto.
    + destruct (H2 L) as (_ & _ & _ & it1 & a & _ & _ & _ & E & Sa). exists a, it1, p. auto.
  - destruct (c33_extend_strs c next it l it' s t fuel Hc Hs He Hf) as (p & s' & it1 & Hp & E & Sa & _). exists s', it1, (t ++ p).
    split; [exact E|]. split; [exact Sa|]. apply longest_packed; [exact (shows_cap c s t Hs) | exact Hp].
Qed.

Lemma c64_utf16 c us items : valid_cfg c -> utf16_items us items ->
  exists got, makes c (from_utf16_lossy_truncate c us) got /\ packed (cap c) (lossy items) got.
Proof.
  intros Hc H. destruct (c16_from_utf16_lossy_truncate c us items Hc H) as (p & Hp & Hm). exists p. split; [exact Hm|].
  apply (longest_packed (cap c) [] (lossy items) p); [cbn; lia | cbn [blen]; rewrite N.sub_0_r; exact Hp].
Qed.

(** What the caller sees of it: of a text that does not fit, at most three bytes of
    the capacity stay unused, none if the text is ASCII. *)
Lemma clen_4 x : clen x <= 4.
Proof. unfold clen. destruct (code x <? 0x80); [lia|]. destruct (code x <? 0x800); [lia|]. destruct (code x <? 0x10000); lia. Qed.

Lemma clen_ascii x : ascii x -> clen x = 1.
Proof. unfold ascii, clen. intros H. destruct (N.ltb_spec (code x) 0x80); lia. Qed.

Lemma blen_ascii t : Forall ascii t -> blen t = lenN t.
Proof.
  induction t as [|x t IH]; intros H; [reflexivity|]. inversion H; subst. cbn [blen]. rewrite IH, clen_ascii by assumption.
  rewrite lenN_cons. lia.
Qed.

Lemma c64_room c s want got : shows c s got -> packed (cap c) want got ->
  len s <= capacity c /\
  (blen want <= capacity c -> len s = blen want) /\
  (capacity c < blen want -> capacity c - len s <= 3) /\
  (Forall ascii want -> capacity c < blen want -> len s = capacity c).
Proof.
  intros Hs P. pose proof (shows_cap c s got Hs) as L. apply shows_rep in Hs. rewrite (rep_len c s got Hs).
  unfold capacity. destruct P as [->|(x & q & -> & Lx)].
  - repeat split; intros; lia.
  - rewrite blen_app, blen_cons. pose proof (clen_4 x) as L4. repeat split; try (intros; lia).
    intros H _. apply Forall_app in H. destruct H as [_ H]. inversion H as [|y l Hx Hl]; subst.
    pose proof (clen_ascii x Hx). lia.
Qed.

(** ** C65 *)
Lemma query_same c o s r s' : query o = true -> run_op c o s = (r, s') -> s' = s.
Proof.
  destruct o; intros Q; try discriminate Q; cbn [run_op]; intros E; try (injection E as _ <-; reflexivity).
  destruct (display c buffer sp s []) as [[a| | |] b]; injection E as _ <-; reflexivity.
Qed.

Lemma idle_same c o s t r s' : valid_cfg c -> shows c s t -> run_op c o s = (r, s') -> idle o r = true -> s' = s.
Proof.
  intros Hc Hs E H. unfold idle in H. apply orb_true_iff in H. destruct H as [H|H]; [exact (query_same c o s r s' H E)|].
  assert (Hw : (forall p, o <> OWriteFmt p) /\ exists r0, r = Ret r0 /\ is_error r0 = true).
  { destruct o; try discriminate H; (split; [intros ?; discriminate|]); destruct r; try discriminate H; eauto. }
  destruct Hw as (Hw & r0 & -> & He). exact (c04_unchanged c s t o r0 s' Hc Hs Hw E He).
Qed.

Lemma c65_idle_calls c s t l rs s' : valid_cfg c -> shows c s t -> Forall typed_op l ->
  run_ops c l s = (rs, s') ->
  run_ops c (map fst (busy l rs)) s = (map snd (busy l rs), s').
Proof.
  intros Hc. revert s t rs. induction l as [|o l IH]; intros s t rs Hs Hl E.
  - cbn [run_ops] in E. injection E as <- <-. reflexivity.
  - inversion Hl as [|o0 l0 Ho Hl']; subst. cbn [run_ops] in E. destruct (run_op c o s) as [r s1] eqn:E1.
    destruct (run_ops c l s1) as [rs1 s2] eqn:E2. injection E as <- <-.
    destruct (c47_text_only c s s t [o] Hc Hs Hs (Forall_cons o Ho (Forall_nil _))) as (rs0 & s3 & _ & t3 & E3 & _ & S3 & _).
    cbn [run_ops] in E3. rewrite E1 in E3. injection E3 as _ <-.
    specialize (IH s1 t3 rs1 S3 Hl' E2). unfold busy in *. cbn [combine filter fst snd].
    destruct (idle o r) eqn:I; cbn [negb].
    + rewrite (idle_same c o s t r s1 Hc Hs E1 I) in IH. exact IH.
    + cbn [map fst snd run_ops]. rewrite E1, IH. reflexivity.
Qed.

(** ** C66 *)
Lemma fit_mono_prefix n a b : prefix_of a b -> prefix_of (fit n a) (fit n b).
Proof.
  intros (r & ->). revert n. induction a as [|x a IH]; intros n; [exists (fit n ([] ++ r)); reflexivity|]. cbn [app fit].
  destruct (clen x <=? n); [|exists []; reflexivity]. destruct (IH (n - clen x)) as (q & E). exists q. cbn [app]. rewrite <- E. reflexivity.
Qed.

Lemma c66_prefix c w1 w2 : valid_cfg c -> prefix_of w1 w2 ->
  exists p1 p2, makes c (from_str_truncate c (enc w1)) p1 /\ makes c (from_str_truncate c (enc w2)) p2 /\ prefix_of p1 p2 /\
    (blen w1 <= cap c -> p1 = w1).
Proof.
  intros Hc H. destruct (c09_from_str_truncate c w1 Hc) as (p1 & H1 & M1 & _). destruct (c09_from_str_truncate c w2 Hc) as (p2 & H2 & M2 & _).
  exists p1, p2. split; [exact M1|]. split; [exact M2|]. apply longest_fit_fit in H1, H2. subst p1 p2.
  split; [apply fit_mono_prefix; exact H | intros L; apply fit_id; exact L].
Qed.

Lemma fit_lt n w : n < blen w -> text_lt (fit n w) w.
Proof.
  intros L. destruct (fit_prefix n w) as (r & E). rewrite E at 2. apply text_lt_app. intros ->. rewrite app_nil_r in E.
  pose proof (fit_le n w). rewrite <- E in H. lia.
Qed.

Lemma c66_below c w : valid_cfg c ->
  exists s p, from_str_truncate c (enc w) = Ret s /\ shows c s p /\
    eq_str c s (enc w) = Ret (blen w <=? capacity c) /\ (capacity c < blen w -> text_lt p w).
Proof.
  intros Hc. destruct (c09_from_str_truncate c w Hc) as (p & Hp & (s & E & Sp) & _). exists s, p.
  split; [exact E|]. split; [exact Sp|]. apply longest_fit_fit in Hp. subst p. unfold capacity. split.
  - unfold eq_str. destruct Sp as [_ ->]. cbn [obind]. f_equal. destruct (N.leb_spec (blen w) (cap c)) as [L|L].
    + rewrite fit_id by exact L. apply str_eq_enc. reflexivity.
    + destruct (str_eq (enc (fit (cap c) w)) (enc w)) eqn:Q; [|reflexivity]. apply str_eq_enc in Q.
      pose proof (fit_le (cap c) w). rewrite Q in H. lia.
  - apply fit_lt.
Qed.

Lemma text_cmp_refl t : text_cmp t t = Eq.
Proof. apply text_cmp_Eq. reflexivity. Qed.

Lemma clen_mono x y : code x <= code y -> clen x <= clen y.
Proof.
  unfold clen. intros H. destruct (N.ltb_spec (code x) 0x80), (N.ltb_spec (code y) 0x80); try lia;
  destruct (N.ltb_spec (code x) 0x800), (N.ltb_spec (code y) 0x800); try lia;
  destruct (N.ltb_spec (code x) 0x10000), (N.ltb_spec (code y) 0x10000); lia.
Qed.

Lemma fit_cmp : forall a b n, text_lt a b -> (text_cmp (fit n a) (fit n b) = Gt <-> wider_there n a b).
Proof.
  intros a b n H. apply text_cmp_Lt in H. revert b n H. induction a as [|x a IH]; intros b n H.
  - split; [destruct b; cbn [fit text_cmp]; [discriminate|]; destruct (clen c <=? n); discriminate|].
    intros (l & x & q & y & r & E & _). destruct l; discriminate E.
  - destruct b as [|y b]; [discriminate H|]. cbn [text_cmp] in H. cbn [fit].
    destruct (code x ?= code y) eqn:C; [| |discriminate H].
    + apply N.compare_eq in C. assert (x = y) by (apply char_eq; exact C). subst y.
      destruct (N.leb_spec (clen x) n) as [L|L].
      * cbn [text_cmp]. rewrite N.compare_refl. rewrite (IH b (n - clen x) H). split.
        -- intros (l & u & q & v & r & -> & -> & K1 & K2). exists (x :: l), u, q, v, r.
           repeat split; auto; cbn [blen]; lia.
        -- intros (l & u & q & v & r & E1 & E2 & K1 & K2). destruct l as [|z l].
           { cbn [app] in E1, E2. injection E1 as -> ->. injection E2 as -> ->. lia. }
           cbn [app] in E1, E2. injection E1 as <- ->. injection E2 as ->. exists l, u, q, v, r.
           cbn [blen] in K2. repeat split; auto; lia.
      * split; [discriminate|]. intros (l & u & q & v & r & E1 & E2 & K1 & K2). destruct l as [|z l].
        { cbn [app] in E1, E2. injection E1 as -> ->. injection E2 as -> ->. lia. }
        cbn [app] in E1. injection E1 as <- ->. cbn [blen] in K2. lia.
    + change (code x < code y) in C. assert (clen x <= clen y) by (apply clen_mono, N.lt_le_incl, C).
      destruct (N.leb_spec (clen y) n) as [Ly|Ly]; destruct (N.leb_spec (clen x) n) as [Lx|Lx]; try lia.
      * cbn [text_cmp]. assert (Q : (code x ?= code y) = Lt) by exact C. rewrite Q. split; [discriminate|].
        intros (l & u & q & v & r & E1 & E2 & K1 & K2). destruct l as [|z l]; cbn [app] in E1, E2.
        { injection E1 as -> ->. injection E2 as -> ->. cbn [blen] in K2. lia. }
        injection E1 as <- ->. injection E2 as E2 _. subst y. lia.
      * cbn [text_cmp]. split; [|reflexivity]. intros _. exists [], x, a, y, b. repeat split; auto; cbn [blen]; lia.
      * cbn [text_cmp]. split; [discriminate|].
        intros (l & u & q & v & r & E1 & E2 & K1 & K2). destruct l as [|z l]; cbn [app] in E1, E2.
        { injection E1 as -> ->. cbn [blen] in K2. lia. }
        injection E1 as <- ->. injection E2 as E2 _. subst y. lia.
Qed.

Lemma c66_order c w1 w2 : valid_cfg c -> text_lt w1 w2 ->
  exists s1 s2 o, from_str_truncate c (enc w1) = Ret s1 /\ from_str_truncate c (enc w2) = Ret s2 /\
    ord_cmp c s1 s2 = Ret o /\ (o = Gt <-> wider_there (cap c) w1 w2).
Proof.
  intros Hc H. destruct (c09_from_str_truncate c w1 Hc) as (p1 & H1 & (s1 & M1 & S1) & _).
  destruct (c09_from_str_truncate c w2 Hc) as (p2 & H2 & (s2 & M2 & S2) & _).
  apply longest_fit_fit in H1, H2. subst p1 p2. exists s1, s2, (text_cmp (fit (cap c) w1) (fit (cap c) w2)).
  split; [exact M1|]. split; [exact M2|]. split.
  - unfold ord_cmp. destruct S1 as [_ ->], S2 as [_ ->]. cbn [obind]. rewrite str_cmp_enc. reflexivity.
  - apply fit_cmp. exact H.
Qed.

(** Texts of characters of one width keep their order. *)
Lemma c66_same_width c w1 w2 k : valid_cfg c -> text_lt w1 w2 -> Forall (fun x => clen x = k) (w1 ++ w2) ->
  exists s1 s2 o, from_str_truncate c (enc w1) = Ret s1 /\ from_str_truncate c (enc w2) = Ret s2 /\
    ord_cmp c s1 s2 = Ret o /\ o <> Gt.
Proof.
  intros Hc H F. destruct (c66_order c w1 w2 Hc H) as (s1 & s2 & o & E1 & E2 & E3 & Ho). exists s1, s2, o.
  repeat split; try assumption. intros G. apply Ho in G. destruct G as (l & x & q & y & r & -> & -> & _ & K).
  rewrite !Forall_app in F. destruct F as [[_ F1] [_ F2]]. inversion F1; subst. inversion F2; subst. lia.
Qed.
