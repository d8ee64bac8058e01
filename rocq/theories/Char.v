(** Rust's [char]: a Unicode scalar value. *)
From Verif Require Import Base.
From Coq Require Import Eqdep_dec.

(** Unicode scalar values: code points except surrogates. *)
Definition is_scalar (n : N) : bool :=
  (n <? 0xD800) || ((0xE000 <=? n) && (n <? 0x110000)).

(** The type [char] (used in src/arraystring.rs:185, 212, 442, 491, 561, ...). *)
Record char : Type := mkchar { code : N; code_ok : is_scalar code = true }.

(** Checked conversion ([char::from_u32]). *)
Definition char_of_N (n : N) : option char :=
  match bool_dec (is_scalar n) true with
  | left e => Some (mkchar n e)
  | right _ => None
  end.

Lemma char_eq (a b : char) : code a = code b -> a = b.
Proof.
  destruct a as [n Hn], b as [m Hm]; cbn; intros E; subst m.
  f_equal. apply UIP_dec. decide equality.
Qed.

Lemma char_of_N_code (c : char) : char_of_N (code c) = Some c.
Proof.
  unfold char_of_N. destruct (bool_dec (is_scalar (code c)) true) as [e|e].
  - f_equal. apply char_eq. reflexivity.
  - exfalso. apply e. exact (code_ok c).
Qed.

Lemma char_of_N_Some (n : N) (c : char) : char_of_N n = Some c -> code c = n.
Proof.
  unfold char_of_N. destruct (bool_dec (is_scalar n) true) as [e|e]; [|discriminate].
  intros H. injection H as <-. reflexivity.
Qed.

Lemma char_of_N_None (n : N) : char_of_N n = None <-> is_scalar n = false.
Proof.
  unfold char_of_N. destruct (bool_dec (is_scalar n) true) as [e|e].
  - split; [discriminate | congruence].
  - split; [|reflexivity]. destruct (is_scalar n); congruence.
Qed.

Definition char_eqb (a b : char) : bool := code a =? code b.

Lemma char_eqb_spec (a b : char) : char_eqb a b = true <-> a = b.
Proof.
  unfold char_eqb. rewrite N.eqb_eq. split; [apply char_eq | intros ->; reflexivity].
Qed.

(** U+FFFD. *)
Definition replacement_char : char := mkchar 0xFFFD eq_refl.
