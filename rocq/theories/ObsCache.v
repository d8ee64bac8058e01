(** What a caller can observe of a [CacheString]. *)
From Verif Require Import Base Char Spec Model ModelCache Obs.

(** The configuration of [ArrayString<63>] on the same target. *)
Definition c63 (c0 : cfg) : cfg := mkcfg (usize_max c0) (debug c0) 63.

(** [CacheString] shows a text. *)
Definition cache_shows (c0 : cfg) (s : CacheString) (t : text) : Prop :=
  shows (c63 c0) (inner s) t.
