(** Programs with several strings and a logger: the vocabulary of PropLogProg.v. *)
From Verif Require Import Base Char Spec RustStd Model ObsLogs.
From Verif Require Export ModelLogsProg ObsProg.

(** Commands that make several changes, one after the other. *)
Definition in_steps (p : cmd) : bool :=
  match p with
  | PExtend _ _ | PCollect _ _ => true
  | PCall _ o => several_steps o
  | _ => false
  end.

(** What a command of several changes may leave of the text of variable [k]: an iterator
    being read has lost characters at its front; for the calls see C71. *)
Definition leaves (p : cmd) (k : nat) (t t' : text) : Prop :=
  match p with
  | PExtend _ j | PCollect _ j => k = j /\ exists m, t' = skipn m t
  | PCall i _ => k = i
  | _ => False
  end.

(** The command did not return: [v], showing [u], became [v'], showing [u']. A command
    that makes one change made none. *)
Definition broke_off (p : cmd) (v v' : list var) (u u' : list tvar) : Prop :=
  (in_steps p = false -> v' = v /\ u' = u) /\
  length u' = length u /\
  forall k x', nth_error u' k = Some x' ->
    nth_error u k = Some x' \/
    exists x, nth_error u k = Some x /\ is_drain x' = is_drain x /\ tcap x' = tcap x /\ leaves p k (ttext x) (ttext x').
