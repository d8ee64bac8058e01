(** Loggers used in the concrete cases. *)
From Verif Require Import Base Char Spec RustStd ModelLogs Cases.

(** Panics on every [len] message after the first [w]. *)
Definition len_logger (e : event) : ST N unit := fun w =>
  match e with
  | EvLen => if w =? 0 then (Panic, 0) else (Ret tt, w - 1)
  | _ => (Ret tt, w)
  end.

(** Records the messages. *)
Definition recorder (e : event) : ST (list event) unit := fun w => (Ret tt, w ++ [e]).

(** Panics on every removal of the last character. *)
Definition pop_logger (e : event) : ST N unit := fun w =>
  match e with
  | EvPop => (Panic, w)
  | _ => (Ret tt, w + 1)
  end.

(** An [as_ref] that answers by the number of messages so far, and logs too. *)
Definition moody : ST (list event) (list N) := fun w =>
  (Ret (enc (if N.even (lenN w) then [h_] else [e_; i_])), w ++ [EvClear]).

(** Panics on every removal of a character after the first [w]. *)
Definition remove_logger (e : event) : ST N unit := fun w =>
  match e with
  | EvRemove _ => if w =? 0 then (Panic, 0) else (Ret tt, w - 1)
  | _ => (Ret tt, w)
  end.
