(** Model of src/implementations.rs: the trait implementations of [ArrayString]
    that are not in Model.v ([AsRef], [AsMut]). *)
From Coq Require Import String.
From Verif Require Import Base Char.
From Verif Require Export RustFmt Model.

Section WithCfg.
Variable c : cfg.

(** src/implementations.rs:12-21 [Default]. *)
Definition default : astring := new c.

(** src/implementations.rs:70-79 [From<&str>]. *)
Definition from_ref_str (s : list N) : outcome astring := from_str_truncate c s.

(** src/implementations.rs:81-92 [FromStr]. *)
Definition from_str (s : list N) : outcome (result astring OutOfBounds) := try_from_str c s.

(** src/implementations.rs:234-245 [Deref]; 130-139 [Borrow<str>]. *)
Definition deref (s : astring) : outcome (list N) := as_ref_str c s.
Definition borrow (s : astring) : outcome (list N) := as_str c s.

(** src/implementations.rs:247-256 [DerefMut]; 141-150 [BorrowMut<str>]. *)
Definition deref_mut : ST astring (list N) := as_mut c.
Definition borrow_mut : ST astring (list N) := as_mut_str c.

(** src/implementations.rs:108-117 [PartialEq<str>]; 119-128 [PartialEq<&str>]. *)
Definition eq_str (s : astring) (other : list N) : outcome bool :=
  b <- as_str c s ;; Ret (str_eq b other).
Definition eq_ref_str (s : astring) (other : list N) : outcome bool := eq_str s other.

(** src/implementations.rs:163-172 [PartialEq]. *)
Definition partial_eq (s other : astring) : outcome bool :=
  a <- as_str c s ;; b <- as_str c other ;; Ret (str_eq a b).

(** src/implementations.rs:176-185 [Ord]; 187-196 [PartialOrd]. *)
Definition ord_cmp (s other : astring) : outcome comparison :=
  a <- as_str c s ;; b <- as_str c other ;; Ret (str_cmp a b).
Definition partial_cmp (s other : astring) : outcome (option comparison) :=
  o <- ord_cmp s other ;; Ret (Some o).

(** src/implementations.rs:152-161 [Hash]. *)
Definition hash (h : hasher) (s : astring) (st : hstate h) : outcome (hstate h) :=
  b <- as_str c s ;; Ret (str_hash h b st).

(** src/implementations.rs:198-210 [Add<&str>]: takes the value and returns it. *)
Definition add (s : astring) (other : list N) : outcome astring :=
  p <- run_local (push_str_truncate c other) s ;;
  let '(_, s') := p in Ret s'.

(** src/implementations.rs:212-221 [fmt::Write::write_str]. *)
Definition write_str (slice : list N) : ST astring (result unit FmtError) :=
  r <~ try_push_str c slice ;;
  sret (map_err (fun _ => mkFmtError) r).

(** [fmt::Write::write_char], not overridden by the crate: core's default encodes
    into 4 bytes and calls [write_str] (src/implementations.rs:212). *)
Definition write_char (ch : char) : ST astring (result unit FmtError) :=
  b <~ slift (encode_utf8 ch 4) ;; write_str b.

(** [fmt::Write::write_fmt] (the [write!] macro), not overridden by the crate
    (src/implementations.rs:212). *)
Definition write_fmt (p : fprog) : ST astring (result unit FmtError) := run_fprog write_str p.

(** src/implementations.rs:223-232 [Display]: [write!(f, "{}", self.as_str())].
    The formatter's own options [sp] are not used. *)
Definition display {W} (k : sink W) (sp : fmtspec) (s : astring) : ST W (result unit FmtError) :=
  b <~ slift (as_str c s) ;;
  write_one_str k b.

(** src/implementations.rs:94-106 [Debug]. [str_debug] and [u8_debug] are core's
    [Debug for str] and [Debug for u8]. *)
Definition debug_fmt (str_debug : list N -> debug_impl) (u8_debug : N -> debug_impl) (s : astring) :
    debug_impl := fun W k alt =>
  d <~ debug_start k (lit "ArrayString") ;;
  b <~ slift (as_str c s) ;;
  d <~ struct_field k alt d (lit "array") (str_debug b) ;;
  d <~ struct_field k alt d (lit "size") (u8_debug (size s)) ;;
  struct_finish k alt d.

Section Iterators.
Context {S : Type}.
Variable fuel : nat.

(** src/implementations.rs:258-266 [FromIterator<char>]. *)
Definition from_iter_chars (next : iter S char) (it : S) : outcome astring * S :=
  from_chars_truncate c fuel next it.

(** src/implementations.rs:268-276 [FromIterator<&str>]. *)
Definition from_iter_strs (next : iter S as_ref_item) (it : S) : outcome astring * S :=
  from_iterator_truncate c fuel next it.

(** The common body [self.push_str_truncate(built)] of the [extend] functions:
    [built] is evaluated before [self] is touched, then its [as_ref()] is read. *)
Definition extend_with (built : outcome astring * S) (s : astring) : outcome unit * S * astring :=
  match built with
  | (Ret a, it) =>
      let '(o, s') := (b <~ slift (as_ref_str c a) ;; push_str_truncate c b) s in (o, it, s')
  | (Panic, it) => (Panic, it, s)
  | (UB, it) => (UB, it, s)
  | (Diverge, it) => (Diverge, it, s)
  end.

(** src/implementations.rs:278-286 [Extend<char>]. *)
Definition extend_chars (next : iter S char) (it : S) (s : astring) : outcome unit * S * astring :=
  extend_with (from_chars_truncate c fuel next it) s.

(** src/implementations.rs:288-296 [Extend<&char>]. *)
Definition extend_char_refs (next : iter S char) (it : S) (s : astring) :
    outcome unit * S * astring :=
  extend_chars (cloned_iter next) it s.

(** src/implementations.rs:298-306 [Extend<&str>]. *)
Definition extend_strs (next : iter S as_ref_item) (it : S) (s : astring) :
    outcome unit * S * astring :=
  extend_with (from_iterator_truncate c fuel next it) s.
End Iterators.

(** [u8 as usize] on the ends of a range, as done in each [Index] / [IndexMut];
    an inclusive range is rebuilt with [RangeInclusive::new]. *)
Definition to_usize_range (r : range) : range :=
  match r with
  | RIncl a b _ => RIncl a b false
  | r => r
  end.

(** src/implementations.rs:376-387 [Index<RangeFrom<u8>>], 389-400 [RangeTo],
    402-412 [RangeFull], 414-425 [Range], 427-438 [RangeToInclusive],
    440-452 [RangeInclusive]. *)
Definition index (s : astring) (r : range) : outcome (list N) :=
  b <- as_str c s ;; str_index_range (usize_max c) b (to_usize_range r).

(** src/implementations.rs:308-317 [IndexMut<RangeFrom<u8>>], 319-328 [RangeTo],
    330-338 [RangeFull], 340-350 [Range], 352-362 [RangeToInclusive],
    364-374 [RangeInclusive]. Result: the position of the slice and its bytes;
    writing through it is [str_write] at that position. *)
Definition index_mut (r : range) : ST astring (N * list N) :=
  b <~ as_mut_str c ;;
  p <~ slift (str_index_pos (usize_max c) b (to_usize_range r)) ;;
  let '(a, e) := p in sret (a, takeN (e - a) (dropN a b)).

(** [s.make_ascii_uppercase()] / [make_ascii_lowercase()] through [DerefMut]
    (src/implementations.rs:247-256): every byte of the [&mut str] is rewritten. *)
Definition make_ascii_uppercase : ST astring unit :=
  b <~ deref_mut ;; str_write 0 (map to_ascii_uppercase b).
Definition make_ascii_lowercase : ST astring unit :=
  b <~ deref_mut ;; str_write 0 (map to_ascii_lowercase b).

End WithCfg.
