(** The traits that only read a string, with the borrows they make, in the style of
    ModelBorrowOps.v: src/implementations.rs:94-106 and 152-196, src/drain.rs:37-86,
    src/lib.rs:434-468, src/integration.rs:39-50, 64-74, 85-94 and 107-113. *)
From Coq Require Import String.
From Verif Require Import Base Char Spec RustStd ModelError Model RustFmt RustFmtBeside ModelImpl ModelDrain ModelOps
  Borrows ModelBorrows ModelBorrowOps ModelBorrowMake.

(** A call with a [&self] to the string in the first or the second place. *)
Definition during_fst {Y A} (t : N) (m : ST (mem * Y) A) : ST (mem * Y) A := fun '((s, b), y) =>
  let '(o, ((s, b), y)) := m ((s, protect t b), y) in (o, ((s, unprotect b), y)).
Definition during_snd {X A} (t : N) (m : ST (X * mem) A) : ST (X * mem) A := fun '(x, (s, b)) =>
  let '(o, (x, (s, b))) := m (x, (s, protect t b)) in (o, (x, (s, unprotect b))).
Definition call_fst {Y A} (c : cfg) (t : N) (f : N -> ST (mem * Y) A) : ST (mem * Y) A :=
  r <~ on_fst (on_tags (reborrow SharedRO t 0 (cap c + 1))) ;; during_fst r (f r).
Definition call_snd {X A} (c : cfg) (t : N) (f : N -> ST (X * mem) A) : ST (X * mem) A :=
  r <~ on_snd (on_tags (reborrow SharedRO t 0 (cap c + 1))) ;; during_snd r (f r).

Section WithCfg.
Variable c : cfg.

(** src/implementations.rs:152-161 [Hash]; src/drain.rs:78-86; src/lib.rs:441-446. *)
Definition b_hash (h : hasher) (st : hstate h) (own : N) : ST mem (hstate h) :=
  call_self c SharedRO own (fun self => b <~ b_str c self ;; sret (str_hash h b st)).
Definition b_drain_str (own : N) : ST mem (list N) :=
  p <~ b_drain_as_str c own ;; _ <~ b_read (fst p) (lenN (snd p)) ;; sret (snd p).
Definition b_drain_hash (h : hasher) (st : hstate h) (own : N) : ST mem (hstate h) :=
  call_self c SharedRO own (fun self => b <~ b_drain_str self ;; sret (str_hash h b st)).
Definition b_cache_hash (h : hasher) (st : hstate h) (own : N) : ST mem (hstate h) :=
  call_self c SharedRO own (b_hash h st).

(** src/integration.rs:85-94 and 107-113 [Serialize]; the serializer has its own memory. *)
Definition b_serialize {R} (serialize_str : list N -> R) (own : N) : ST mem R :=
  call_self c SharedRO own (fun self => b <~ b_str c self ;; sret (serialize_str b)).
Definition b_cache_serialize {R} (serialize_str : list N -> R) (own : N) : ST mem R :=
  call_self c SharedRO own (b_serialize serialize_str).

(** src/integration.rs:39-50 and 64-74 [ToSql]: the output is the second place. *)
Definition b_to_sql {O R} (str_to_sql : list N -> ST O R) (own : N) : ST (mem * O) R :=
  call_fst c own (fun self => b <~ on_fst (b_str c self) ;; on_snd (str_to_sql b)).
Definition b_cache_to_sql {O R} (str_to_sql : list N -> ST O R) (own : N) : ST (mem * O) R :=
  call_fst c own (b_to_sql str_to_sql).

(** src/implementations.rs:163-196 [PartialEq], [Ord], [PartialOrd]; [f] is [eq] or
    [cmp] of [str]. Both references may be to the same string, as in [s == s]. *)
Definition b_compare_self {A} (f : list N -> list N -> A) (own own' : N) : ST mem A :=
  call_self c SharedRO own (fun self => call_self c SharedRO own' (fun other =>
    p <~ b_as_str c self ;;
    q <~ b_as_str c other ;;
    _ <~ b_read (fst p) (lenN (snd p)) ;;
    _ <~ b_read (fst q) (lenN (snd q)) ;;
    sret (f (snd p) (snd q)))).
Definition b_cache_compare_self {A} (f : list N -> list N -> A) (own own' : N) : ST mem A :=
  call_self c SharedRO own (fun self => call_self c SharedRO own' (fun other => b_compare_self f self other)).
(** src/drain.rs:47-76. *)
Definition b_drain_compare_self {A} (f : list N -> list N -> A) (own own' : N) : ST mem A :=
  call_self c SharedRO own (fun self => call_self c SharedRO own' (fun other =>
    p <~ b_drain_as_str c self ;;
    q <~ b_drain_as_str c other ;;
    _ <~ b_read (fst p) (lenN (snd p)) ;;
    _ <~ b_read (fst q) (lenN (snd q)) ;;
    sret (f (snd p) (snd q)))).

(** The same with two strings, each in its own place. *)
Definition b_compare {A} (f : list N -> list N -> A) (own own' : N) : ST (mem * mem) A :=
  call_fst c own (fun self => call_snd c own' (fun other =>
    p <~ on_fst (b_as_str c self) ;;
    q <~ on_snd (b_as_str c other) ;;
    _ <~ on_fst (b_read (fst p) (lenN (snd p))) ;;
    _ <~ on_snd (b_read (fst q) (lenN (snd q))) ;;
    sret (f (snd p) (snd q)))).
(** src/lib.rs:448-468. *)
Definition b_cache_compare {A} (f : list N -> list N -> A) (own own' : N) : ST (mem * mem) A :=
  call_fst c own (fun self => call_snd c own' (fun other => b_compare f self other)).
Definition b_drain_compare {A} (f : list N -> list N -> A) (own own' : N) : ST (mem * mem) A :=
  call_fst c own (fun self => call_snd c own' (fun other =>
    p <~ on_fst (b_drain_as_str c self) ;;
    q <~ on_snd (b_drain_as_str c other) ;;
    _ <~ on_fst (b_read (fst p) (lenN (snd p))) ;;
    _ <~ on_snd (b_read (fst q) (lenN (snd q))) ;;
    sret (f (snd p) (snd q)))).

(** src/implementations.rs:94-106 [Debug]: the formatter's writer is the second place. *)
Definition b_debug_fmt (str_debug : list N -> debug_impl) (u8_debug : N -> debug_impl) {W} (k : sink W)
    (alt : bool) (own : N) : ST (mem * W) (result unit FmtError) :=
  call_fst c own (fun self =>
    d <~ on_snd (debug_start k (lit "ArrayString")) ;;
    b <~ on_fst (b_str c self) ;;
    d <~ on_snd (struct_field k alt d (lit "array") (str_debug b)) ;;
    n <~ on_fst (call SharedRO self (cap c) 1 (fun r =>
           _ <~ on_tags (access false r (cap c) 1) ;; on_val (sread (fun s => Ret (size s))))) ;;
    d <~ on_snd (struct_field k alt d (lit "size") (u8_debug n)) ;;
    on_snd (struct_finish k alt d)).
(** src/lib.rs:434-439 and src/drain.rs:37-45: a tuple of one field. *)
Definition b_debug_tuple (name : list N) (str_debug : list N -> debug_impl) (u8_debug : N -> debug_impl)
    {W} (k : sink W) (alt : bool) (own : N) : ST (mem * W) (result unit FmtError) :=
  call_fst c own (fun self =>
    d <~ on_snd (debug_start k name) ;;
    d <~ tuple_field_beside k alt d (fun W k alt => b_debug_fmt str_debug u8_debug k alt self) ;;
    on_snd (tuple_finish k d)).
Definition b_cache_debug (str_debug : list N -> debug_impl) (u8_debug : N -> debug_impl) {W} :=
  @b_debug_tuple (lit "CacheString") str_debug u8_debug W.
Definition b_drain_debug (str_debug : list N -> debug_impl) (u8_debug : N -> debug_impl) {W} :=
  @b_debug_tuple (lit "Drain") str_debug u8_debug W.
End WithCfg.
