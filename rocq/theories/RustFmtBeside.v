(** [DebugTuple] for a field whose [Debug] uses memory of its own beside the writer
    (core::fmt::builders, as in RustFmt.v). *)
From Coq Require Import String.
From Verif Require Import Base RustStd RustFmt.

(** What [m] does to one of two places. *)
Definition on_fst {X Y A} (m : ST X A) : ST (X * Y) A := fun p =>
  let '(o, x) := m (fst p) in (o, (x, snd p)).
Definition on_snd {X Y A} (m : ST Y A) : ST (X * Y) A := fun p =>
  let '(o, y) := m (snd p) in (o, (fst p, y)).
Definition swapped {X Y A} (m : ST (X * Y) A) : ST (Y * X) A := fun p =>
  let '(o, (x, y)) := m (snd p, fst p) in (o, (y, x)).

(** [debug_impl] with the other memory [Y]. *)
Definition debug_beside (Y : Type) : Type := forall W, sink W -> bool -> ST (Y * W) (result unit FmtError).

Section Builders.
Context {Y W : Type} (k : sink W).
(** [padded]. *)
Definition padded_beside (m : sink (W * bool) -> ST (Y * (W * bool)) (result unit FmtError)) :
    ST (Y * W) (result unit FmtError) := fun p =>
  let '(o, (y, (w, _))) := m (pad_adapter k) (fst p, (snd p, true)) in (o, (y, w)).

(** [DebugTuple::field]. *)
Definition tuple_field_beside (alt : bool) (d : builder) (v : debug_beside Y) : ST (Y * W) builder :=
  debug_and_then d
    (if alt then
       fthen (on_snd (if snd d then sret (Ok tt) else wstr k (lit "(" ++ [10])))
         (padded_beside (fun k' => fthen (v _ k' alt) (on_snd (wstr k' (lit "," ++ [10])))))
     else
       fthen (on_snd (wstr k (if snd d then lit ", " else lit "("))) (v _ k alt)).
End Builders.
