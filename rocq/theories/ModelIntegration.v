(** Model of src/integration.rs: serde and diesel. *)
From Verif Require Import Base Char.
From Verif Require Export ModelCache.

(** A [*const str]: null, pointing to no live [str], or to one. *)
Inductive str_ptr := Null | Dangling | At (b : list N).
Definition is_null (p : str_ptr) : bool := match p with Null => true | _ => false end.
(** [&*p]: defined behaviour only if [p] points to a live [str], which is UTF-8. *)
Definition str_deref (p : str_ptr) : outcome (list N) :=
  match p with At b => if from_utf8_ok b then Ret b else UB | _ => UB end.

Section WithCfg.
Variable c : cfg.

(** ** serde (feature serde-traits) *)

(** src/integration.rs:85-94 [Serialize]: [Serializer::serialize_str] of the text,
    for an arbitrary serializer. *)
Definition serialize {R} (serialize_str : list N -> R) (s : astring) : outcome R :=
  b <- as_str c s ;; Ret (serialize_str b).

(** src/integration.rs:96-105 [Deserialize], given the visitor call that the
    deserializer makes. *)
Definition deserialize {E} (v : visit E) : outcome (result astring (de_error E)) :=
  match deserialize_ref_str v with
  | Ok s => a <- from_str_truncate c s ;; Ret (Ok a)
  | Err e => Ret (Err e)
  end.

(** ** diesel (feature diesel-traits) *)

(** src/integration.rs:24-38 [FromSql]: [str_from_sql] is the backend's
    [<*const str as FromSql>::from_sql], an arbitrary function. *)
Definition from_sql {V E} (str_from_sql : V -> result str_ptr E) (v : V) :
    outcome (result astring E) :=
  match str_from_sql v with
  | Ok ptr =>
      _ <- debug_assert c (Ret (negb (is_null ptr))) ;;
      s <- str_deref ptr ;; a <- from_str_truncate c s ;; Ret (Ok a)
  | Err e => Ret (Err e)
  end.

(** src/integration.rs:39-50 [ToSql]: [str_to_sql] is the backend's
    [<str as ToSql<Text, DB>>::to_sql]. *)
Definition to_sql {O R} (str_to_sql : list N -> ST O R) (s : astring) : ST O R :=
  b <~ slift (as_str c s) ;; str_to_sql b.

End WithCfg.

Section Cache.
Variable c0 : cfg.
Let c : cfg := mkcfg (usize_max c0) (debug c0) CACHE_STRING_SIZE.

(** src/integration.rs:107-113 and 115-121: serde for [CacheString]. *)
Definition cache_serialize {R} (serialize_str : list N -> R) (s : CacheString) : outcome R :=
  serialize c serialize_str (inner s).
Definition cache_deserialize {E} (v : visit E) : outcome (result CacheString (de_error E)) :=
  r <- deserialize c v ;; Ret (map_ok mkCache r).

(** src/integration.rs:52-62 and 64-74: diesel for [CacheString]. *)
Definition cache_from_sql {V E} (str_from_sql : V -> result str_ptr E) (v : V) :
    outcome (result CacheString E) :=
  r <- from_sql c str_from_sql v ;; Ret (map_ok mkCache r).
Definition cache_to_sql {O R} (str_to_sql : list N -> ST O R) (s : CacheString) : ST O R :=
  to_sql c str_to_sql (inner s).
End Cache.
