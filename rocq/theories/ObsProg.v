(** What a variable of a program shows (C70). *)
From Verif Require Import Base Char Spec RustStd Model ModelImpl ModelDrain ModelProg.
From Verif Require Export Obs.

(** [v] is of the type of [x], a capacity in 1..=255, and shows its text. *)
Definition var_shows (c : cfg) (v : var) (x : tvar) : Prop :=
  1 <= tcap x <= 255 /\
  match v with
  | VStr n s => is_drain x = false /\ n = tcap x /\ shows (with_cap c n) s (ttext x)
  | VDrain n d => is_drain x = true /\ n = tcap x /\ shows (with_cap c n) (drained d) (ttext x)
  end.

(** All variables, in order. *)
Definition world_shows (c : cfg) (w : list var) (u : list tvar) : Prop := Forall2 (var_shows c) w u.
