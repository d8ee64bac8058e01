(** The methods core provides for every [Iterator] and [DoubleEndedIterator] from
    [next] and [next_back] alone, as far as callers use them on [Drain]
    (src/drain.rs:99-126 overrides none of them). *)
From Verif Require Import Base.
From Verif Require Export RustStd.

Section Provided.
Context {S A : Type}.
Variable next : iter S A.

(** [Iterator::nth]: [advance_by(n).ok()?] (core: [n] calls of [next], stopping at
    the first [None]) and then [next()]. *)
Fixpoint iter_nth (n : nat) : ST S (option A) :=
  match n with
  | O => next
  | Datatypes.S n =>
      o <~ next ;;
      match o with None => sret None | Some _ => iter_nth n end
  end.

(** [Iterator::for_each]: [while let Some(x) = self.next() { f(x) }] (core's [fold]).
    The closure has state [X]; [count], [last] and collecting into a [Vec] are
    folds, that is [for_each] with a closure that writes to a local. *)
Definition iter_for_each {X} (fuel : nat) (f : A -> ST X unit) (it : S) (x : X) : outcome unit * S * X :=
  let '(o, it, x) := for_loop (R := Empty_set) fuel next (fun a => _ <~ f a ;; sret Continue) it x in
  (omap (fun _ => tt) o, it, x).

Definition run_fold {X} (p : outcome unit * S * X) : outcome X * S :=
  let '(o, it, x) := p in (omap (fun _ => x) o, it).

(** [Iterator::count], [Iterator::last], [collect::<Vec<_>>()]. *)
Definition iter_count (fuel : nat) (it : S) : outcome N * S :=
  run_fold (iter_for_each fuel (fun _ => smodify (fun n => n + 1)) it 0).
Definition iter_last (fuel : nat) (it : S) : outcome (option A) * S :=
  run_fold (iter_for_each fuel (fun a => smodify (fun _ => Some a)) it None).
Definition iter_collect (fuel : nat) (it : S) : outcome (list A) * S :=
  run_fold (iter_for_each fuel (fun a => smodify (fun v => v ++ [a])) it []).

(** [Iterator::find] with a closure of state [X]: the first item it accepts. *)
Definition iter_find {X} (fuel : nat) (p : A -> ST X bool) (it : S) (x : X) : outcome (option A) * S * X :=
  for_loop fuel next (fun a => b <~ p a ;; sret (if b : bool then Return a else Continue)) it x.

End Provided.
