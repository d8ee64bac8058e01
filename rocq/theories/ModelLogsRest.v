(** The feature [logs] behind the interfaces that ModelLogs.v leaves out:
    [CacheString], serde, diesel and [Debug]. None of this code has a log macro of
    its own; the messages are those of the functions it calls. *)
From Coq Require Import String.
From Verif Require Import Base Char ModelDrain.
From Verif Require Export RustFmtBeside ModelLogs ModelCacheOps ModelIntegration.

(** [self.0.call()], also through [DerefMut] (src/lib.rs:470-484). *)
Definition l_on_inner {W A} (m : ST (astring * W) A) : ST (CacheString * W) A := fun p =>
  let '(o, (i, w)) := m (inner (fst p), snd p) in (o, (mkCache i, w)).

Section Cache.
Variable c0 : cfg.
Let c : cfg := mkcfg (usize_max c0) (debug c0) CACHE_STRING_SIZE.
Variables tr db : bool.
Context {W : Type}.
Variable log : event -> ST W unit.

(** Every call on a [CacheString] (src/lib.rs:428-702, see ModelCache.v) is the same
    call on the string inside. *)
Definition l_cache_run_op (o : op) : ST (CacheString * W) out := l_on_inner (l_run_op c tr db log o).

Fixpoint l_cache_run_ops (l : list op) (s : CacheString) (w : W) : list (outcome out) * CacheString * W :=
  match l with
  | [] => ([], s, w)
  | o :: l =>
      let '(r, (s1, w1)) := l_cache_run_op o (s, w) in
      let '(rs, s2, w2) := l_cache_run_ops l s1 w1 in (r :: rs, s2, w2)
  end.

(** src/lib.rs:179-393 and 486-606: each constructor wraps what that of
    [ArrayString<63>] makes. [?] from an error to the same error does not log. *)
Definition l_cache_build (k : ctor) : ST W (result CacheString Error) :=
  r <~ l_build c tr db log k ;; sret (map_ok mkCache r).
End Cache.

Section WithCfg.
Variable c : cfg.
Variables tr db : bool.
Context {W : Type}.
Variable log : event -> ST W unit.

(** src/integration.rs:85-94 [Serialize]; 96-105 [Deserialize]. *)
Definition l_serialize {R} (serialize_str : list N -> R) (s : astring) : ST W R :=
  b <~ l_as_str c tr log s ;; sret (serialize_str b).
Definition l_deserialize {E} (v : visit E) : ST W (result astring (de_error E)) :=
  match deserialize_ref_str v with
  | Ok s => a <~ l_from_str_truncate c tr db log (sret s) ;; sret (Ok a)
  | Err e => sret (Err e)
  end.

(** src/integration.rs:24-38 [FromSql]; 39-50 [ToSql], whose output is the state
    beside the logger's. *)
Definition l_from_sql {V E} (str_from_sql : V -> result str_ptr E) (v : V) : ST W (result astring E) :=
  match str_from_sql v with
  | Ok ptr =>
      _ <~ slift (debug_assert c (Ret (negb (is_null ptr)))) ;;
      s <~ slift (str_deref ptr) ;;
      a <~ l_from_str_truncate c tr db log (sret s) ;; sret (Ok a)
  | Err e => sret (Err e)
  end.

Definition on_out {O A} (m : ST O A) : ST (O * W) A := fun p => let '(r, o) := m (fst p) in (r, (o, snd p)).
Definition on_log {O A} (m : ST W A) : ST (O * W) A := fun p => let '(r, w) := m (snd p) in (r, (fst p, w)).

Definition l_to_sql {O R} (str_to_sql : list N -> ST O R) (s : astring) : ST (O * W) R :=
  b <~ on_log (l_as_str c tr log s) ;; on_out (str_to_sql b).

(** src/implementations.rs:94-106 [Debug]. *)
Definition l_debug_fmt (str_debug : list N -> debug_impl) (u8_debug : N -> debug_impl) (s : astring)
    {O} (k : sink O) (alt : bool) : ST (O * W) (result unit FmtError) :=
  d <~ on_out (debug_start k (lit "ArrayString")) ;;
  b <~ on_log (l_as_str c tr log s) ;;
  on_out (d <~ struct_field k alt d (lit "array") (str_debug b) ;;
          d <~ struct_field k alt d (lit "size") (u8_debug (size s)) ;;
          struct_finish k alt d).
(** src/drain.rs:37-45 and (below) src/lib.rs:434-439: a tuple of one field. *)
Definition l_debug_tuple (name : list N) (str_debug : list N -> debug_impl) (u8_debug : N -> debug_impl) (s : astring)
    {O} (k : sink O) (alt : bool) : ST (O * W) (result unit FmtError) :=
  swapped
    (d <~ on_snd (debug_start k name) ;;
     d <~ tuple_field_beside k alt d (fun O k alt => swapped (l_debug_fmt str_debug u8_debug s k alt)) ;;
     on_snd (tuple_finish k d)).
Definition l_drain_debug (str_debug : list N -> debug_impl) (u8_debug : N -> debug_impl) (d : Drain) {O} :=
  @l_debug_tuple (lit "Drain") str_debug u8_debug (drained d) O.
End WithCfg.

(** src/lib.rs:434-439. *)
Definition l_cache_debug (c0 : cfg) (tr : bool) {W} (log : event -> ST W unit) (str_debug : list N -> debug_impl)
    (u8_debug : N -> debug_impl) (s : CacheString) {O} (k : sink O) (alt : bool) : ST (O * W) (result unit FmtError) :=
  l_debug_tuple (mkcfg (usize_max c0) (debug c0) CACHE_STRING_SIZE) tr log (lit "CacheString") str_debug u8_debug (inner s) k alt.
