(** Facts on lists indexed by [N]. *)
From Verif Require Import Base.
From Coq Require Import Arith.

Section ListN.
Context {A : Type}.
Implicit Types l a b : list A.

Lemma lenN_nil : lenN (@nil A) = 0.
Proof. reflexivity. Qed.

Lemma lenN_cons x l : lenN (x :: l) = 1 + lenN l.
Proof. unfold lenN. cbn [length]. lia. Qed.

Lemma lenN_app a b : lenN (a ++ b) = lenN a + lenN b.
Proof. unfold lenN. rewrite app_length. lia. Qed.

Lemma lenN_rev a : lenN (rev a) = lenN a.
Proof. unfold lenN. rewrite rev_length. reflexivity. Qed.

Lemma lenN_0 l : lenN l = 0 -> l = [].
Proof. destruct l; [reflexivity|]. rewrite lenN_cons. lia. Qed.

Lemma lenN_repeat (x : A) n : lenN (repeat x n) = N.of_nat n.
Proof. unfold lenN. rewrite repeat_length. reflexivity. Qed.

Lemma lenN_takeN n l : lenN (takeN n l) = N.min n (lenN l).
Proof. unfold lenN, takeN. rewrite firstn_length. lia. Qed.

Lemma lenN_dropN n l : lenN (dropN n l) = lenN l - n.
Proof. unfold lenN, dropN. rewrite skipn_length. lia. Qed.

Lemma takeN_app_exact a b : takeN (lenN a) (a ++ b) = a.
Proof.
  unfold takeN, lenN. rewrite Nat2N.id, firstn_app, firstn_all, Nat.sub_diag. cbn.
  apply app_nil_r.
Qed.

Lemma dropN_app_exact a b : dropN (lenN a) (a ++ b) = b.
Proof.
  unfold dropN, lenN. rewrite Nat2N.id, skipn_app, skipn_all, Nat.sub_diag. reflexivity.
Qed.

Lemma takeN_0 l : takeN 0 l = [].
Proof. reflexivity. Qed.

Lemma dropN_0 l : dropN 0 l = l.
Proof. reflexivity. Qed.

Lemma takeN_all n l : lenN l <= n -> takeN n l = l.
Proof. unfold takeN, lenN. intros H. apply firstn_all2. lia. Qed.

Lemma dropN_all n l : lenN l <= n -> dropN n l = [].
Proof. unfold dropN, lenN. intros H. apply skipn_all2. lia. Qed.

Lemma takeN_app_le n a b : n <= lenN a -> takeN n (a ++ b) = takeN n a.
Proof.
  unfold takeN, lenN. intros H. rewrite firstn_app.
  replace (N.to_nat n - length a)%nat with O by lia. cbn. apply app_nil_r.
Qed.

Lemma dropN_app_le n a b : n <= lenN a -> dropN n (a ++ b) = dropN n a ++ b.
Proof.
  unfold dropN, lenN. intros H. rewrite skipn_app.
  replace (N.to_nat n - length a)%nat with O by lia. reflexivity.
Qed.

Lemma takeN_app_ge n a b : lenN a <= n -> takeN n (a ++ b) = a ++ takeN (n - lenN a) b.
Proof.
  unfold takeN, lenN. intros H. rewrite firstn_app, firstn_all2 by lia.
  f_equal. f_equal. lia.
Qed.

Lemma dropN_app_ge n a b : lenN a <= n -> dropN n (a ++ b) = dropN (n - lenN a) b.
Proof.
  unfold dropN, lenN. intros H. rewrite skipn_app, skipn_all2 by lia. cbn [app].
  f_equal. lia.
Qed.

Lemma takeN_dropN n l : takeN n l ++ dropN n l = l.
Proof. apply firstn_skipn. Qed.

Lemma dropN_dropN n m l : dropN n (dropN m l) = dropN (m + n) l.
Proof.
  unfold dropN. replace (N.to_nat (m + n)) with (N.to_nat m + N.to_nat n)%nat by lia.
  generalize (N.to_nat n) as k. generalize (N.to_nat m) as j. clear n m.
  intros j; revert l; induction j as [|j IH]; intros l k; [reflexivity|].
  destruct l; cbn; [apply skipn_nil|apply IH].
Qed.

Lemma Forall_takeN (P : A -> Prop) n l : Forall P l -> Forall P (takeN n l).
Proof.
  intros H. rewrite <- (takeN_dropN n l) in H. apply Forall_app in H. tauto.
Qed.

Lemma Forall_dropN (P : A -> Prop) n l : Forall P l -> Forall P (dropN n l).
Proof.
  intros H. rewrite <- (takeN_dropN n l) in H. apply Forall_app in H. tauto.
Qed.

Lemma prefix_split a b p q : a ++ b = p ++ q -> lenN a <= lenN p -> exists m, p = a ++ m /\ b = m ++ q.
Proof.
  revert p; induction a as [|x a IH]; intros p H L.
  - exists p. auto.
  - destruct p as [|y p]; [rewrite lenN_cons, lenN_nil in L; lia|].
    cbn in H. injection H as -> H. rewrite !lenN_cons in L.
    destruct (IH p H) as (m & -> & ->); [lia|]. exists m. auto.
Qed.

Lemma app_same_len a b p q : a ++ b = p ++ q -> lenN a = lenN p -> a = p /\ b = q.
Proof.
  intros H L. destruct (prefix_split a b p q H) as (m & -> & ->); [lia|].
  rewrite lenN_app in L. rewrite (lenN_0 m) by lia. rewrite app_nil_r. auto.
Qed.

End ListN.
