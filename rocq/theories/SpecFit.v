(** Vocabulary for C64-C66: how much of a text is kept, and histories without the
    calls that do nothing. Nothing here refers to the model of the crate. *)
From Verif Require Import Base Char Spec RustStd SpecOps.

(** [got] is all of [want], or the next character does not fit into [n] bytes. *)
Definition packed (n : N) (want got : text) : Prop :=
  got = want \/ exists x q, want = got ++ x :: q /\ n < blen got + clen x.

Definition ascii (x : char) : Prop := code x < 128.

(** At their first difference, [x] of [a] fits into [n] bytes and the longer [y] of
    [b] does not. *)
Definition wider_there (n : N) (a b : text) : Prop :=
  exists l x q y r, a = l ++ x :: q /\ b = l ++ y :: r /\ code x < code y /\
    blen l + clen x <= n < blen l + clen y.

(** Calls that only look at the string. *)
Definition query (o : op) : bool :=
  match o with
  | OLen | OIsEmpty | OCapacity | OAsStr | OEqStr _ | ODisplay _ | OIndex _ => true
  | _ => false
  end.

(** Did the call do nothing: it only looks, or reported an error? A [write!] may
    report an error after some pieces were written. *)
Definition idle (o : op) (r : outcome out) : bool :=
  query o ||
  match o, r with
  | OWriteFmt _, _ => false
  | _, Ret r => is_error r
  | _, _ => false
  end.

(** A history and its results without these calls. *)
Definition busy (l : list op) (rs : list (outcome out)) : list (op * outcome out) :=
  filter (fun p => negb (idle (fst p) (snd p))) (combine l rs).
