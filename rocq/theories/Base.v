(** Base: outcomes of a Rust computation, the state monad used for [&mut self],
    machine arithmetic and the build configuration.

    These definitions model the Rust language itself, not a particular line of
    /repo; every function of the crate (src/*.rs) is written with them. *)
From Coq Require Export NArith List Bool Lia.
Export ListNotations.
Global Open Scope N_scope.

(** ** Outcomes *)

(** What running a piece of Rust code can lead to. [UB]: the contract of an
    unsafe operation was broken. [Diverge]: a loop ran out of fuel. *)
Inductive outcome (A : Type) : Type :=
| Ret (a : A)
| Panic
| UB
| Diverge.
Arguments Ret {A} a.
Arguments Panic {A}.
Arguments UB {A}.
Arguments Diverge {A}.

(** Rust's [Result]. *)
Inductive result (A E : Type) : Type :=
| Ok (a : A)
| Err (e : E).
Arguments Ok {A E} a.
Arguments Err {A E} e.

Definition obind {A B} (m : outcome A) (k : A -> outcome B) : outcome B :=
  match m with
  | Ret a => k a
  | Panic => Panic
  | UB => UB
  | Diverge => Diverge
  end.

Definition omap {A B} (f : A -> B) (m : outcome A) : outcome B :=
  obind m (fun a => Ret (f a)).

(** Rust's [Result::map_err]. *)
Definition map_err {A E F} (f : E -> F) (r : result A E) : result A F :=
  match r with Ok a => Ok a | Err e => Err (f e) end.

(** Rust's [Result::map]. *)
Definition map_ok {A B E} (f : A -> B) (r : result A E) : result B E :=
  match r with Ok a => Ok (f a) | Err e => Err e end.

(** Rust's [Result::ok]. *)
Definition ok {A E} (r : result A E) : option A :=
  match r with Ok a => Some a | Err _ => None end.

(** ** State: code that holds a [&mut S]. The state is kept in every outcome, so
    a panic shows the value an unwinding caller would find. *)
Definition ST (S A : Type) : Type := S -> outcome A * S.

Definition sret {S A} (a : A) : ST S A := fun s => (Ret a, s).

Definition sbind {S A B} (m : ST S A) (k : A -> ST S B) : ST S B := fun s =>
  match m s with
  | (Ret a, s') => k a s'
  | (Panic, s') => (Panic, s')
  | (UB, s') => (UB, s')
  | (Diverge, s') => (Diverge, s')
  end.

(** Code that only reads [&self]. *)
Definition sread {S A} (f : S -> outcome A) : ST S A := fun s => (f s, s).

(** Code that does not touch [self]. *)
Definition slift {S A} (m : outcome A) : ST S A := fun s => (m, s).

(** A plain write. *)
Definition smodify {S} (f : S -> S) : ST S unit := fun s => (Ret tt, f s).

(** The [?] operator inside a function that returns [Result<_, F>]; [conv] is
    the [From] conversion of the error. *)
Definition stry {S A B E F} (conv : E -> F) (m : ST S (result A E))
    (k : A -> ST S (result B F)) : ST S (result B F) :=
  sbind m (fun r => match r with Ok a => k a | Err e => sret (Err (conv e)) end).

(** Notations: [x <- m ;; k] for outcomes, [x <~ m ;; k] for state,
    [x <? conv ? m ;; k] for [?] with error conversion [conv]. *)
Notation "x <- m ;; k" := (obind m (fun x => k))
  (at level 61, m at next level, right associativity).
Notation "x <~ m ;; k" := (sbind m (fun x => k))
  (at level 61, m at next level, right associativity).
Notation "x <~? conv ? m ;; k" := (stry conv m (fun x => k))
  (at level 61, conv at next level, m at next level, right associativity).

(** ** Build configuration *)

(** [usize_max]: [usize::MAX] of the target. [debug]: overflow checks and
    [debug_assert!] are compiled in. [cap]: the const generic [N]. *)
Record cfg : Type := mkcfg { usize_max : N; debug : bool; cap : N }.

(** Rust guarantees [usize] has at least 16 bits; the sealed trait
    [ValidCapacity] (src/arraystring.rs:896-1154) admits exactly 1..=255. *)
Definition valid_cfg (c : cfg) : Prop :=
  65535 <= usize_max c /\ 1 <= cap c <= 255.

(** ** Machine arithmetic *)

(** [a + b] on [usize]: panics on overflow when checks are on, wraps otherwise. *)
Definition uadd (c : cfg) (a b : N) : outcome N :=
  if a + b <=? usize_max c then Ret (a + b)
  else if debug c then Panic else Ret ((a + b) mod (usize_max c + 1)).

(** [a - b] on [usize]. *)
Definition usub (c : cfg) (a b : N) : outcome N :=
  if b <=? a then Ret (a - b)
  else if debug c then Panic else Ret (a + (usize_max c + 1) - b).

(** [a - b] on [u8]. *)
Definition u8sub (c : cfg) (a b : N) : outcome N :=
  if b <=? a then Ret (a - b)
  else if debug c then Panic else Ret (a + 256 - b).

(** [usize::saturating_add]. *)
Definition sat_add (c : cfg) (a b : N) : N := N.min (a + b) (usize_max c).

(** [debug_assert!(e)]: the expression is not evaluated in release builds. *)
Definition debug_assert (c : cfg) (e : outcome bool) : outcome unit :=
  if debug c then b <- e ;; (if b then Ret tt else Panic) else Ret tt.

(** ** Lists indexed by [N] *)

Definition lenN {A} (l : list A) : N := N.of_nat (length l).
Definition takeN {A} (n : N) (l : list A) : list A := firstn (N.to_nat n) l.
Definition dropN {A} (n : N) (l : list A) : list A := skipn (N.to_nat n) l.
