(** Traits that core and std implement for every type with the underlying trait, at
    the types of this crate, and [catch_unwind]. Not part of /repo; the impls they
    build on are named where they are used. *)
From Verif Require Import Base RustFmt.

(** core::convert: [impl<T, U: From<T>> Into<U> for T]. *)
Definition blanket_into {A B : Type} (from : A -> outcome B) (a : A) : outcome B := from a.

(** [impl<T, U: Into<T>> TryFrom<U> for T], whose error is [Infallible], a type
    without values, and [impl<T, U: TryFrom<T>> TryInto<U> for T]. *)
Definition blanket_try_from {A B : Type} (from : A -> outcome B) (a : A) : outcome (result B Empty_set) :=
  b <- blanket_into from a ;; Ret (Ok b).
Definition blanket_try_into {A B : Type} (from : A -> outcome B) (a : A) : outcome (result B Empty_set) :=
  blanket_try_from from a.

(** [str::parse] is [FromStr::from_str]. *)
Definition str_parse {B E : Type} (from_str : list N -> outcome (result B E)) (s : list N) : outcome (result B E) :=
  from_str s.

(** [impl<T: Display> ToString for T]: what [fmt], with the options of a plain [{}],
    writes into a new [String]; an error of [fmt] panics. *)
Definition blanket_to_string (fmt : fmtspec -> ST (list N) (result unit FmtError)) : outcome (list N) :=
  match fmt default_spec [] with
  | (Ret (Ok _), b) => Ret b
  | (Ret (Err _), _) => Panic
  | (Panic, _) => Panic
  | (UB, _) => UB
  | (Diverge, _) => Diverge
  end.

(** [std::panic::catch_unwind]. *)
Definition catch_unwind {A : Type} (m : outcome A) : outcome (result A unit) :=
  match m with
  | Ret a => Ret (Ok a)
  | Panic => Ret (Err tt)
  | UB => UB
  | Diverge => Diverge
  end.
