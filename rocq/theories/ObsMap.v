(** What can be seen of a map whose keys are strings: the calls made on it and the
    entries in it, with texts in place of keys. *)
From Coq Require Import Sorted.
From Verif Require Import Base Char Spec.
From Verif Require Export RustMap SpecMap.

Section Maps.
Context {K V : Type}.
(** The text that a key shows. *)
Variable kshows : K -> text -> Prop.

(** The same call: keys that show the texts, [&str]s that encode them. *)
Inductive same_call : map_call K V -> map_op V -> Prop :=
| SInsert k w v : kshows k w -> same_call (KInsert k v) (TInsert w v)
| SGet w : same_call (KGet (enc w)) (TGet w)
| SGetKey k w : kshows k w -> same_call (KGetKey k) (TGet w)
| SRemove w : same_call (KRemove (enc w)) (TRemove w).

(** The entries [m] are those of [f], each text once; [ts] are the texts of the
    keys in the order of [m]. *)
Definition entries (m : list (K * V)) (f : text -> option V) (ts : list text) : Prop :=
  Forall2 kshows (map fst m) ts /\ NoDup ts /\
  forall w v, f w = Some v <-> In (w, v) (combine ts (map snd m)).
End Maps.
