(** What a caller can observe: the vocabulary of the property theorems. *)
From Coq Require Import ZArith ZifyBool ZifyN ZifyNat Arith.
From Verif Require Import Base Char Spec RustStd ModelError Model ModelDrain ListFacts Utf8Facts CoreFacts MethodFacts.

(** [s] is a value of [ArrayString<cap>] on which [as_str()] returns the text [t]. *)
Definition shows (c : cfg) (s : astring) (t : text) : Prop :=
  typed c s /\ as_str c s = Ret (enc t).

(** The call returned [r] and the string then shows [t]. *)
Definition returns {A} (c : cfg) (o : outcome A * astring) (r : A) (t : text) : Prop :=
  exists s', o = (Ret r, s') /\ shows c s' t.

(** A constructor returned a value that shows [t]. *)
Definition makes (c : cfg) (o : outcome astring) (t : text) : Prop :=
  exists s, o = Ret s /\ shows c s t.
Definition makes_ok {E} (c : cfg) (o : outcome (result astring E)) (t : text) : Prop :=
  exists s, o = Ret (Ok s) /\ shows c s t.

(** Two calls that return corresponding results and leave the same text. *)
Definition agree {A B} (c : cfg) (R : A -> B -> Prop) (o1 : outcome A * astring) (o2 : outcome B * astring) : Prop :=
  exists a b t, returns c o1 a t /\ returns c o2 b t /\ R a b.

(** A part handed over as a string and as a [Drain]: the same text, or the same error. *)
Definition same_part (c : cfg) (a : result astring Error) (b : result Drain Error) : Prop :=
  match a, b with
  | Ok d, Ok e => exists w, shows c d w /\ shows c (drained e) w
  | Err x, Err y => x = y
  | _, _ => False
  end.

(** The same build with another capacity. *)
Definition with_cap (c : cfg) (n : N) : cfg := mkcfg (usize_max c) (debug c) n.

Lemma shows_rep c s t : shows c s t <-> rep c s t.
Proof.
  split.
  - intros [H1 H2]. apply rep_of_as_str; assumption.
  - intros R. split; [exact (proj1 R) | apply as_str_rep; exact R].
Qed.

Lemma shows_fun c s t t' : shows c s t -> shows c s t' -> t = t'.
Proof. rewrite !shows_rep. apply rep_fun. Qed.

Lemma returns_runs {A} c (o : outcome A * astring) r t : runs c o r t -> returns c o r t.
Proof. intros (s' & E & R). exists s'. split; [exact E | apply shows_rep; exact R]. Qed.

Lemma returns_f {A E} c s (o : outcome (result A E) * astring) r t :
  runs_f c s o (Ok r, t) -> returns c o (Ok r) t.
Proof. intros (s' & Eo & R & _). exists s'. split; [exact Eo | apply shows_rep; exact R]. Qed.

Lemma unchanged_f {A E} c s (o : outcome (result A E) * astring) e t :
  runs_f c s o (Err e, t) -> o = (Ret (Err e), s).
Proof. intros (s' & Eo & R & H). rewrite Eo, (H e eq_refl). reflexivity. Qed.

(** ** Longest prefix that fits *)
Lemma prefix_refl {A} (l : list A) : prefix_of l l.
Proof. exists []. symmetry. apply app_nil_r. Qed.

Lemma prefix_nil {A} (l : list A) : prefix_of [] l.
Proof. exists l. reflexivity. Qed.

Lemma prefix_cons {A} (x : A) p l : prefix_of p l -> prefix_of (x :: p) (x :: l).
Proof. intros (r & ->). exists r. reflexivity. Qed.

Lemma prefix_blen (p l : text) : prefix_of p l -> blen p <= blen l.
Proof. intros (r & ->). rewrite blen_app. lia. Qed.

Lemma fit_longest n t : longest_fit n t (fit n t).
Proof.
  revert n; induction t as [|x t IH]; intros n; cbn [fit].
  - split; [apply prefix_nil | split; [cbn [blen]; lia | intros q Hq _; exact Hq]].
  - destruct (N.leb_spec (clen x) n) as [L|L].
    + destruct (IH (n - clen x)) as (P1 & P2 & P3).
      split; [apply prefix_cons; exact P1 | split; [rewrite blen_cons; lia |]].
      intros q (r & Eq) Hq. destruct q as [|y q]; [apply prefix_nil|].
      cbn [app] in Eq. injection Eq as <- E. apply prefix_cons, P3; [exists r; exact E|].
      rewrite blen_cons in Hq. lia.
    + split; [apply prefix_nil | split; [cbn [blen]; lia |]].
      intros q (r & Eq) Hq. destruct q as [|y q]; [apply prefix_nil|].
      cbn [app] in Eq. injection Eq as <- E. rewrite blen_cons in Hq. lia.
Qed.

Lemma prefix_antisym {A} (a b : list A) : prefix_of a b -> prefix_of b a -> a = b.
Proof.
  intros (r & ->) (r' & E). rewrite <- app_assoc in E.
  assert (H : r ++ r' = []) by (apply (app_inv_head a); rewrite app_nil_r; symmetry; exact E).
  apply app_eq_nil in H. destruct H as [-> _]. symmetry. apply app_nil_r.
Qed.

Lemma longest_fit_unique n t p q : longest_fit n t p -> longest_fit n t q -> p = q.
Proof.
  intros (P1 & P2 & P3) (Q1 & Q2 & Q3). apply prefix_antisym; [apply Q3 | apply P3]; assumption.
Qed.

Lemma longest_fit_fit n t p : longest_fit n t p <-> p = fit n t.
Proof.
  split; [intros H; eapply longest_fit_unique; [exact H | apply fit_longest] | intros ->; apply fit_longest].
Qed.

Lemma fit_id n t : blen t <= n -> fit n t = t.
Proof.
  intros H. symmetry. apply longest_fit_fit. split; [apply prefix_refl | split; [exact H |]].
  intros q Hq _. exact Hq.
Qed.

(** ** Boundaries *)
Lemma not_boundary_split t i : ~ boundary t i -> split_at i t = None.
Proof.
  intros H. destruct (split_at i t) as [[a b]|] eqn:E; [|reflexivity].
  exfalso. apply H. exists a, b. apply split_at_Some. exact E.
Qed.

Lemma splits_split t i a b : splits t i a b -> split_at i t = Some (a, b).
Proof. apply split_at_Some. Qed.

(** ** Trimming *)
Lemma skip_ws_app l t : Forall (fun x => white_space x = true) l -> skip_ws (l ++ t) = skip_ws t.
Proof.
  induction l as [|x l IH]; intros H; [reflexivity|]. inversion H as [|? ? Hx Hl]; subst.
  cbn [app skip_ws]. rewrite Hx. apply IH. exact Hl.
Qed.

Lemma skip_ws_id t : (forall x r, t = x :: r -> white_space x = false) -> skip_ws t = t.
Proof. destruct t as [|x r]; intros H; [reflexivity|]. cbn [skip_ws]. rewrite (H x r eq_refl). reflexivity. Qed.

Lemma trimmed_trim_text t r : trimmed t r <-> r = trim_text t.
Proof.
  split; [|intros ->; apply trim_text_spec].
  intros (l & m & -> & Hl & Hm & Hf & Hb). unfold trim_text. rewrite skip_ws_app by exact Hl.
  destruct r as [|x r].
  - cbn [app]. assert (E : skip_ws m = []).
    { rewrite <- (app_nil_r m), skip_ws_app by exact Hm. reflexivity. }
    rewrite E. reflexivity.
  - change ((x :: r) ++ m) with (x :: r ++ m). cbn [skip_ws]. rewrite (Hf x r eq_refl).
    change (x :: r ++ m) with ((x :: r) ++ m). rewrite rev_app_distr, skip_ws_app.
    2:{ apply Forall_rev. exact Hm. }
    rewrite skip_ws_id; [symmetry; apply rev_involutive|].
    intros y q E. apply (Hb y (rev q)).
    rewrite <- (rev_involutive (x :: r)), E. reflexivity.
Qed.
