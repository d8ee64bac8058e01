(** Model of src/drain.rs. *)
From Coq Require Import String.
From Verif Require Import Base Char.
From Verif Require Export ModelImpl.

(** src/drain.rs:15-17 [struct Drain<N>(ArrayString<N>)]. *)
Record Drain : Type := mkDrain { drained : astring }.

(** A [&mut self.0] call made by a [&mut Drain] method. *)
Definition on_drained {A} (m : ST astring A) : ST Drain A := fun d =>
  let '(o, s) := m (drained d) in (o, mkDrain s).

Section WithCfg.
Variable c : cfg.

(** src/arraystring.rs:790-820 [drain] with its result wrapped (line 819). *)
Definition drain_iter (lo hi : bound) : ST astring (result Drain Error) :=
  r <~ drain c lo hi ;; sret (map_ok mkDrain r).

(** src/drain.rs:20-27 [Clone]; 28-35 [Default]. *)
Definition drain_clone (d : Drain) : Drain := mkDrain (drained d).
Definition drain_default : Drain := mkDrain (default c).

(** src/drain.rs:88-97 [as_str]. *)
Definition drain_as_str (d : Drain) : outcome (list N) := as_str c (drained d).

(** src/drain.rs:99-109 [Iterator::next]: [self.0.remove(0).ok()]. *)
Definition drain_next : ST Drain (option char) :=
  r <~ on_drained (remove c 0) ;; sret (ok r).

(** src/drain.rs:111-119 [DoubleEndedIterator::next_back]: [self.0.pop()]. *)
Definition drain_next_back : ST Drain (option char) := on_drained (pop c).

(** src/drain.rs:47-55 [PartialEq]; 58-66 [Ord]; 68-76 [PartialOrd]; 78-86 [Hash]. *)
Definition drain_eq (d e : Drain) : outcome bool :=
  a <- drain_as_str d ;; b <- drain_as_str e ;; Ret (str_eq a b).
Definition drain_cmp (d e : Drain) : outcome comparison :=
  a <- drain_as_str d ;; b <- drain_as_str e ;; Ret (str_cmp a b).
Definition drain_partial_cmp (d e : Drain) : outcome (option comparison) :=
  o <- drain_cmp d e ;; Ret (Some o).
Definition drain_hash (h : hasher) (d : Drain) (st : hstate h) : outcome (hstate h) :=
  b <- drain_as_str d ;; Ret (str_hash h b st).

(** src/drain.rs:37-45 [Debug]. *)
Definition drain_debug (str_debug : list N -> debug_impl) (u8_debug : N -> debug_impl) (d : Drain) :
    debug_impl := fun W k alt =>
  b <~ debug_start k (lit "Drain") ;;
  b <~ tuple_field k alt b (debug_fmt c str_debug u8_debug (drained d)) ;;
  tuple_finish k b.

(** [for ch in drain] / [collect]: the drain as an iterator. *)
Definition drain_iterator : iter Drain char := drain_next.

(** A series of calls: calls of [next] and [next_back] in any order. *)
Fixpoint drain_calls (sched : list bool) : ST Drain (list (option char)) :=
  match sched with
  | [] => sret []
  | f :: r =>
      o <~ (if f then drain_next else drain_next_back) ;;
      os <~ drain_calls r ;;
      sret (o :: os)
  end.

End WithCfg.
