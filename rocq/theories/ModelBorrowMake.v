(** Constructors, [Drain] and [CacheString] with the borrows they make, in the style
    of ModelBorrowOps.v: src/arraystring.rs:72-323, src/drain.rs:88-119 and
    src/lib.rs:151-703. A value is moved by reading all of it. *)
From Verif Require Import Base Char Spec RustStd ModelError Model RustFmt ModelImpl ModelDrain ModelCache ModelOps
  Borrows ModelBorrows ModelBorrowOps.

Section WithCfg.
Variable c : cfg.

(** [let mut s = Self::new();] and what is done with [s]: memory that nothing else
    refers to, used through the tag of the variable. Other memory keeps its stacks. *)
Definition in_new {A} (f : N -> ST mem A) : ST borrows A := fun b =>
  let '(o, (_, b')) :=
    f (fresh b) (new c, mkborrows (fun l => if l <=? cap c then [(Unique, fresh b)] else [])
                          (fresh b + 1) (prot b)) in
  (o, mkborrows (stacks b) (fresh b') (prot b')).
Definition b_move (own : N) : ST mem astring :=
  _ <~ on_tags (access false own 0 (cap c + 1)) ;; on_val (sread Ret).

(** src/arraystring.rs:72-79 [try_from_str]. *)
Definition b_try_from_str (string : list N) : ST borrows (result astring OutOfBounds) :=
  in_new (fun own =>
    r <~ b_try_push_str c own string ;;
    match r with
    | Ok _ => s <~ b_move own ;; sret (Ok s)
    | Err e => sret (Err e)
    end).

(** src/arraystring.rs:97-104 [from_str_truncate]. *)
Definition b_from_str_truncate (string : list N) : ST borrows astring :=
  in_new (fun own => _ <~ b_push_str_truncate c own string ;; b_move own).

(** The constructors that loop over an iterator, which is in other memory. *)
Definition b_from_loop {S A R} (own : N) (l : outcome (option R) * S * mem) (ret : astring -> A)
    (early : R -> A) : outcome A * mem :=
  match l with
  | (Ret None, _, m) => (s <~ b_move own ;; sret (ret s)) m
  | (Ret (Some r), _, m) => (Ret (early r), m)
  | (Panic, _, m) => (Panic, m)
  | (UB, _, m) => (UB, m)
  | (Diverge, _, m) => (Diverge, m)
  end.
Definition b_or_return {E F} (conv : E -> F) (m : ST mem (result unit E)) : ST mem (flow F) :=
  r <~ m ;; sret (match r with Ok _ => Continue | Err e => Return (conv e) end).
Definition b_or_break {E R} (m : ST mem (result unit E)) : ST mem (flow R) :=
  r <~ m ;; sret (match r with Ok _ => Continue | Err _ => Break end).

Section Iterators.
Context {S : Type}.
Variable fuel : nat.
(** src/arraystring.rs:121-132 [try_from_iterator]. *)
Definition b_try_from_iterator (next : iter S as_ref_item) (it : S) :
    ST borrows (result astring OutOfBounds) :=
  in_new (fun own m => b_from_loop own
    (for_loop fuel next (fun x => b_or_return (fun e => e) (b_try_push_str c own (ref1 x))) it m) Ok Err).

(** src/arraystring.rs:153-165 [from_iterator_truncate]. *)
Definition b_from_iterator_truncate (next : iter S as_ref_item) (it : S) : ST borrows astring :=
  in_new (fun own m => b_from_loop (R := Empty_set) own
    (for_loop fuel next
       (fun x => r <~ b_try_push_str c own (ref1 x) ;;
                 match r with
                 | Ok _ => sret Continue
                 | Err _ => _ <~ b_push_str_truncate c own (ref2 x) ;; sret Break
                 end) it m)
    (fun s => s) (fun e => match e with end)).

(** src/arraystring.rs:183-192 [try_from_chars]; 210-221 [from_chars_truncate]. *)
Definition b_try_from_chars (next : iter S char) (it : S) : ST borrows (result astring OutOfBounds) :=
  in_new (fun own m => b_from_loop own
    (for_loop fuel next (fun ch => b_or_return (fun e => e) (b_try_push c own ch)) it m) Ok Err).
Definition b_from_chars_truncate (next : iter S char) (it : S) : ST borrows astring :=
  in_new (fun own m => b_from_loop (R := Empty_set) own
    (for_loop fuel next (fun ch => b_or_break (b_try_push c own ch)) it m)
    (fun s => s) (fun e => match e with end)).
End Iterators.

(** src/arraystring.rs:245-254 [try_from_utf16]; 278-289 [from_utf16_truncate];
    312-323 [from_utf16_lossy_truncate]. *)
Definition b_try_from_utf16 (slice : list N) : ST borrows (result astring Error) :=
  in_new (fun own m => b_from_loop own
    (for_loop (char_fuel c) decode_utf16_next
       (fun ch => match ch with
                  | None => sret (Return (error_from_decode_utf16 tt))
                  | Some ch => b_or_return from_oob (b_try_push c own ch)
                  end) (None, slice) m) Ok Err).
Definition b_from_utf16_truncate (slice : list N) : ST borrows (result astring Utf16) :=
  in_new (fun own m => b_from_loop own
    (for_loop (char_fuel c) decode_utf16_next
       (fun ch => match ch with
                  | None => sret (Return (utf16_from_decode_utf16 tt))
                  | Some ch => b_or_break (b_try_push c own ch)
                  end) (None, slice) m) Ok Err).
Definition b_from_utf16_lossy_truncate (slice : list N) : ST borrows astring :=
  in_new (fun own m => b_from_loop (R := Empty_set) own
    (for_loop (char_fuel c) decode_utf16_next
       (fun ch => b_or_break
                    (b_try_push c own (match ch with Some ch => ch | None => replacement_char end)))
       (None, slice) m)
    (fun s => s) (fun e => match e with end)).

(** All constructors ([ctor], SpecOps.v); [new] makes no reference. *)
Definition b_made {A} (f : A -> result astring Error) (m : ST borrows A) : ST borrows (result astring Error) :=
  a <~ m ;; sret (f a).
Definition b_build (k : ctor) : ST borrows (result astring Error) :=
  match k with
  | CNew => sret (Ok (new c))
  | CDefault => sret (Ok (default c))
  | CTryFromStr w | CParse w => b_made (map_err from_oob) (b_try_from_str (enc w))
  | CFromStrTruncate w | CFrom w => b_made Ok (b_from_str_truncate (enc w))
  | CTryFromIterator _ fuel next it =>
      b_made (map_err from_oob) (b_try_from_iterator fuel (map_iter item_of_pair next) it)
  | CFromIteratorTruncate _ fuel next it =>
      b_made Ok (b_from_iterator_truncate fuel (map_iter item_of_pair next) it)
  | CTryFromChars _ next it => b_made (map_err from_oob) (b_try_from_chars (char_fuel c) next it)
  | CFromCharsTruncate _ next it | CCollectChars _ next it =>
      b_made Ok (b_from_chars_truncate (char_fuel c) next it)
  | CCollectStrs _ fuel next it =>
      b_made Ok (b_from_iterator_truncate fuel (map_iter item_of_pair (map_iter same2 next)) it)
  | CTryFromUtf16 us => b_try_from_utf16 us
  | CFromUtf16Truncate us => b_made (map_err from_utf16_err) (b_from_utf16_truncate us)
  | CFromUtf16Lossy us => b_made Ok (b_from_utf16_lossy_truncate us)
  end.

(** ** [Drain]: a struct with one field, so in the same bytes as its string *)

(** src/drain.rs:99-109 [next(&mut self)]; 111-119 [next_back(&mut self)]; 88-97 [as_str(&self)]. *)
Definition b_drain_next (own : N) : ST mem (option char) :=
  call_self c Unique own (fun self => r <~ b_remove c self 0 ;; sret (ok r)).
Definition b_drain_next_back (own : N) : ST mem (option char) :=
  call_self c Unique own (fun self => b_pop c self).
Definition b_drain_as_str (own : N) : ST mem (N * list N) :=
  call_self c SharedRO own (fun self => b_as_str c self).
(** Calls in any order, the rest of the text being read before each. *)
Fixpoint b_drain_calls (own : N) (sched : list bool) : ST mem (list (option char)) :=
  match sched with
  | [] => sret []
  | f :: r =>
      p <~ b_drain_as_str own ;;
      _ <~ b_read (fst p) (lenN (snd p)) ;;
      o <~ (if f then b_drain_next own else b_drain_next_back own) ;;
      os <~ b_drain_calls own r ;;
      sret (o :: os)
  end.

(** ** [CacheString]: 64 bytes, those of its string *)

(** src/lib.rs:470-477 [deref(&self)]; 479-484 [deref_mut(&mut self)]. *)
Definition b_cache_deref (own : N) : ST mem N :=
  call_self c SharedRO own (fun self => on_tags (reborrow SharedRO self 0 (cap c + 1))).
Definition b_cache_deref_mut (own : N) : ST mem N :=
  call_self c Unique own (fun self => on_tags (reborrow Unique self 0 (cap c + 1))).

(** src/lib.rs:589-594 [write_str]. *)
Definition b_cache_write_str (own : N) (slice : list N) : ST mem (result unit FmtError) :=
  call_self c Unique own (fun self => b_write_str c self slice).

(** The calls of [op] on a [CacheString]. Those it has itself call the one of the
    field: src/lib.rs:428-431 [split_off], 498-514 [Extend], 516-521 [Display],
    553-558 [PartialEq<str>], 580-587 [Add], 589-594 [Write], 608-702 indexing. The others
    are found through [deref] and [deref_mut]. *)
Definition b_cache_op (own : N) (o : op) : ST mem out :=
  match o with
  | OSplitOff _ | OExtendChars _ _ _ | OExtendStrs _ _ _ _ =>
      call_self c Unique own (fun self => b_run_op c self o)
  | OAdd w => b_out (fun _ => RUnit) (b_add c own (enc w))
  | OWriteStr w => b_out (fun r => RFmt (is_ok r)) (b_cache_write_str own (enc w))
  | OWriteChar x =>
      b_out (fun r => RFmt (is_ok r))
        (call_self c Unique own (fun self => b <~ slift (encode_utf8 x 4) ;; b_cache_write_str self b))
  | OWriteFmt p =>
      b_out (fun r => RFmt (is_ok r))
        (call_self c Unique own (fun self => run_fprog (b_cache_write_str self) (formatting_prog p)))
  | OOverwrite r w =>
      b_out (fun _ => RUnit)
        (p <~ call_self c Unique own (fun self => b_index_mut c self r) ;;
         let '(v, a, bs) := p in
         if lenN (enc w) =? lenN bs then b_write v a (enc w) else sret tt)
  | OIndex r =>
      p <~ call_self c SharedRO own (fun self => b_index c self r) ;;
      let '(v, a, bs) := p in
      _ <~ on_tags (access false v a (lenN bs)) ;;
      sret (RBytes bs)
  | OEqStr _ | ODisplay _ => call_self c SharedRO own (fun self => b_run_op c self o)
  | OCapacity => sret (RNum (capacity c))
  | OLen | OIsEmpty | OAsStr => v <~ b_cache_deref own ;; b_run_op c v o
  | _ => v <~ b_cache_deref_mut own ;; b_run_op c v o
  end.
End WithCfg.
