(** Comparison of encoded texts: equality and order. *)
From Coq Require Import ZArith ZifyBool ZifyN ZifyNat Arith.
From Verif Require Import Base Char Spec RustStd ListFacts Utf8Facts.

Ltac Zify.zify_post_hook ::= Z.div_mod_to_equations.

(** ** Equality *)
Lemma bytes_eqb_eq a b : bytes_eqb a b = true <-> a = b.
Proof.
  revert b; induction a as [|x a IH]; intros [|y b]; cbn; try (split; congruence).
  rewrite andb_true_iff, N.eqb_eq, IH. split; [intros [-> ->]; reflexivity | intros E; injection E; auto].
Qed.

Lemma str_eq_eq a b : str_eq a b = true <-> a = b.
Proof.
  unfold str_eq. rewrite andb_true_iff, N.eqb_eq, bytes_eqb_eq.
  split; [tauto | intros ->; auto].
Qed.

Lemma str_eq_enc a b : str_eq (enc a) (enc b) = true <-> a = b.
Proof. rewrite str_eq_eq. split; [apply enc_inj | intros ->; reflexivity]. Qed.

(** ** Lexicographic comparison of bytes *)
Fixpoint lex (a b : list N) : comparison :=
  match a, b with
  | [], [] => Eq
  | [], _ :: _ => Lt
  | _ :: _, [] => Gt
  | x :: a, y :: b => match x ?= y with Eq => lex a b | o => o end
  end.

Lemma str_cmp_cons x y a b : str_cmp (x :: a) (y :: b) = match x ?= y with Eq => str_cmp a b | o => o end.
Proof.
  unfold str_cmp. rewrite !lenN_cons.
  replace (N.to_nat (N.min (1 + lenN a) (1 + lenN b))) with (S (N.to_nat (N.min (lenN a) (lenN b)))) by lia.
  cbn [memcmp]. destruct (x ?= y) eqn:E; auto.
  destruct (memcmp _ a b); auto.
  destruct (N.compare_spec (1 + lenN a) (1 + lenN b)), (N.compare_spec (lenN a) (lenN b)); auto; lia.
Qed.

Lemma str_cmp_lex a b : str_cmp a b = lex a b.
Proof.
  revert b; induction a as [|x a IH]; intros [|y b].
  - reflexivity.
  - unfold str_cmp. rewrite lenN_cons, lenN_nil. cbn [memcmp].
    replace (N.to_nat (N.min 0 (1 + lenN b))) with O by lia. cbn.
    destruct (N.compare_spec 0 (1 + lenN b)); auto; lia.
  - unfold str_cmp. rewrite lenN_cons, lenN_nil. cbn [memcmp].
    replace (N.to_nat (N.min (1 + lenN a) 0)) with O by lia. cbn.
    destruct (N.compare_spec (1 + lenN a) 0); auto; lia.
  - rewrite str_cmp_cons, IH. reflexivity.
Qed.

Lemma lex_app_same a r r' : lex (a ++ r) (a ++ r') = lex r r'.
Proof. induction a; cbn; [reflexivity|]. rewrite N.compare_refl. exact IHa. Qed.

Lemma lex_antisym a b : lex b a = CompOpp (lex a b).
Proof.
  revert b; induction a as [|x a IH]; intros [|y b]; cbn; auto.
  rewrite (N.compare_antisym x y). destruct (x ?= y); cbn; auto.
Qed.

(** The encodings of two characters compare as the characters, before any rest. *)
Lemma lex_enc1_lt x y r r' : code x < code y -> lex (enc1 x ++ r) (enc1 y ++ r') = Lt.
Proof.
  intros H. pose proof (code_lt x) as Hx. pose proof (code_lt y) as Hy.
  unfold enc1. set (n := code x) in *. set (m := code y) in *. clearbody n m. clear x y.
  destruct (N.ltb_spec n 0x80); destruct (N.ltb_spec m 0x80); try lia;
  try destruct (N.ltb_spec n 0x800); try destruct (N.ltb_spec m 0x800); try lia;
  try destruct (N.ltb_spec n 0x10000); try destruct (N.ltb_spec m 0x10000); try lia;
  cbn [app lex];
  repeat match goal with
  | |- context [?a ?= ?b] => destruct (N.compare_spec a b); try reflexivity; try lia
  end.
Qed.

(** ** The order on texts *)
Fixpoint text_cmp (a b : text) : comparison :=
  match a, b with
  | [], [] => Eq
  | [], _ :: _ => Lt
  | _ :: _, [] => Gt
  | x :: a, y :: b => match code x ?= code y with Eq => text_cmp a b | o => o end
  end.

Lemma enc1_cons x : exists b r, enc1 x = b :: r.
Proof. destruct (enc1_shape x) as (b & r & E & _). eauto. Qed.

Lemma lex_enc a b : lex (enc a) (enc b) = text_cmp a b.
Proof.
  revert b; induction a as [|x a IH]; intros [|y b].
  - reflexivity.
  - rewrite enc_cons. destruct (enc1_cons y) as (z & r & ->). reflexivity.
  - rewrite enc_cons. destruct (enc1_cons x) as (z & r & ->). reflexivity.
  - rewrite !enc_cons. cbn [text_cmp]. destruct (N.compare_spec (code x) (code y)) as [E|L|G].
    + apply char_eq in E. subst y. rewrite lex_app_same. apply IH.
    + apply lex_enc1_lt. exact L.
    + rewrite lex_antisym, lex_enc1_lt by exact G. reflexivity.
Qed.

Lemma str_cmp_enc a b : str_cmp (enc a) (enc b) = text_cmp a b.
Proof. rewrite str_cmp_lex. apply lex_enc. Qed.

Lemma text_cmp_Eq a b : text_cmp a b = Eq <-> a = b.
Proof.
  revert b; induction a as [|x a IH]; intros [|y b]; cbn; try (split; congruence).
  destruct (N.compare_spec (code x) (code y)) as [E|L|G].
  - apply char_eq in E. subst y. rewrite IH. split; [intros ->; reflexivity | congruence].
  - split; [discriminate|]. intros E. injection E as -> ->. lia.
  - split; [discriminate|]. intros E. injection E as -> ->. lia.
Qed.

Lemma text_cmp_Lt a b : text_cmp a b = Lt <-> text_lt a b.
Proof.
  split.
  - revert b; induction a as [|x a IH]; intros [|y b]; cbn; try discriminate.
    + intros _. constructor.
    + destruct (N.compare_spec (code x) (code y)) as [E|L|G]; try discriminate.
      * apply char_eq in E. subst y. intros H. apply lt_tail. auto.
      * intros _. apply lt_head. exact L.
  - induction 1; cbn.
    + reflexivity.
    + destruct (N.compare_spec (code c) (code d)); auto; lia.
    + rewrite N.compare_refl. exact IHtext_lt.
Qed.

Lemma text_cmp_antisym a b : text_cmp b a = CompOpp (text_cmp a b).
Proof. rewrite <- !lex_enc. apply lex_antisym. Qed.

Lemma text_cmp_Gt a b : text_cmp a b = Gt <-> text_lt b a.
Proof.
  rewrite <- text_cmp_Lt, (text_cmp_antisym a b). destruct (text_cmp a b); cbn; split; congruence.
Qed.

Lemma text_lt_trans a b d : text_lt a b -> text_lt b d -> text_lt a d.
Proof.
  intros H. revert d. induction H; intros e He; inversion He; subst.
  - constructor.
  - constructor.
  - apply lt_head. lia.
  - apply lt_head. assumption.
  - apply lt_head. assumption.
  - apply lt_tail. auto.
Qed.

Lemma text_lt_irrefl a : ~ text_lt a a.
Proof. rewrite <- text_cmp_Lt. rewrite (proj2 (text_cmp_Eq a a) eq_refl). discriminate. Qed.
