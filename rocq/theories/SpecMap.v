(** Maps from texts, as partial functions, and what the calls of a map with
    string keys answer. *)
From Verif Require Import Base Char Spec.

Section Maps.
Context {V : Type}.

Inductive map_op : Type :=
| TInsert (w : text) (v : V)
| TGet (w : text)
| TRemove (w : text).

Definition same_text (a b : text) : bool :=
  if list_eq_dec N.eq_dec (map code a) (map code b) then true else false.

Definition t_put (w : text) (x : option V) (f : text -> option V) : text -> option V :=
  fun u => if same_text u w then x else f u.

(** The value that was there before, or is there. *)
Definition t_map_op (o : map_op) (f : text -> option V) : option V * (text -> option V) :=
  match o with
  | TInsert w v => (f w, t_put w (Some v) f)
  | TGet w => (f w, f)
  | TRemove w => (f w, t_put w None f)
  end.

Fixpoint t_map_run (os : list map_op) (f : text -> option V) : list (option V) * (text -> option V) :=
  match os with
  | [] => ([], f)
  | o :: os => let '(x, f) := t_map_op o f in let '(xs, f) := t_map_run os f in (x :: xs, f)
  end.

Definition no_text (w : text) : option V := None.
End Maps.
Arguments map_op V : clear implicits.
