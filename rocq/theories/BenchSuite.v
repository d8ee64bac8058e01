(** The benchmarks of benches/string.rs as functions of the string they are run on:
    which pairs of a type and an input are measured, and what a measured iteration
    does. The measuring itself (criterion) is left out. The string type is a
    parameter; [deref] is [&string as &str], [clone] copies the value. *)
From Verif Require Import Base RustStd RustFmt RustConv.

Section Type_.
Context {T : Type}.
Variable deref : T -> outcome (list N).

(** benches/string.rs:28-29 and 77-78: the condition of [bench_clones] and
    [bench_try_from]. *)
Definition bench_converts (from : list N -> outcome T) (param : list N) : outcome bool :=
  r <- catch_unwind (blanket_try_from from param) ;;
  match r with
  | Ok (Ok string) => b <- deref string ;; Ret (str_eq b param)
  | _ => Ret false
  end.

(** benches/string.rs:125-130: the condition of [bench_push]. *)
Definition bench_pushes {R : Type} (new : T) (push : list N -> ST T R) (param : list N) : outcome bool :=
  r <- catch_unwind (Ret new) ;;
  match r with
  | Ok string =>
      x <- catch_unwind
             (let '(o, string) := push param string in
              _ <- o ;; b <- deref string ;; Ret (str_eq b param)) ;;
      match x with Ok true => Ret true | _ => Ret false end
  | Err _ => Ret false
  end.

(** benches/string.rs:134-137: [n] iterations of the measured closure, which share
    the string of line 125. *)
Fixpoint bench_push_iter {R : Type} (push : list N -> ST T R) (clear : ST T unit) (p : list N) (n : nat) : ST T unit :=
  match n with
  | O => sret tt
  | S n => _ <~ push p ;; _ <~ clear ;; bench_push_iter push clear p n
  end.
End Type_.
