(** Model of [CacheString], src/lib.rs:151-703: a wrapper around
    [ArrayString<63>]. *)
From Coq Require Import String.
From Verif Require Import Base Char.
From Verif Require Export ModelDrain.

(** src/lib.rs:157 [CACHE_STRING_SIZE]. *)
Definition CACHE_STRING_SIZE : N := 63.

(** src/lib.rs:161-168 [struct CacheString(ArrayString<63>)]; [Copy], [Clone] and
    [Default] are derived. *)
Record CacheString : Type := mkCache { inner : astring }.

(** A call on [&mut self.0]; also what [DerefMut] (src/lib.rs:479-484) gives. *)
Definition on_inner {A} (m : ST astring A) : ST CacheString A := fun s =>
  let '(o, i) := m (inner s) in (o, mkCache i).

Definition wrap_fst {A} (p : outcome astring * A) : outcome CacheString * A :=
  let '(o, a) := p in (omap mkCache o, a).
Definition wrap_res_fst {A E} (p : outcome (result astring E) * A) : outcome (result CacheString E) * A :=
  let '(o, a) := p in (omap (map_ok mkCache) o, a).

Section WithTarget.
(** The target: pointer width and build profile. The capacity of [c] is not used. *)
Variable c0 : cfg.
Let c : cfg := mkcfg (usize_max c0) (debug c0) CACHE_STRING_SIZE.

(** src/lib.rs:179-182 [new]; the derived [Default] calls [ArrayString]'s. *)
Definition cache_new : CacheString := mkCache (new c).
Definition cache_default : CacheString := mkCache (default c).

(** src/lib.rs:201-204 [try_from_str]. *)
Definition cache_try_from_str (s : list N) : outcome (result CacheString OutOfBounds) :=
  r <- try_from_str c s ;; Ret (map_ok mkCache r).

(** src/lib.rs:222-225 [from_str_truncate]. *)
Definition cache_from_str_truncate (s : list N) : outcome CacheString :=
  a <- from_str_truncate c s ;; Ret (mkCache a).

Section Iterators.
Context {S : Type}.
Variable fuel : nat.
(** src/lib.rs:242-247 [try_from_iterator]. *)
Definition cache_try_from_iterator (next : iter S as_ref_item) (it : S) :=
  wrap_res_fst (try_from_iterator c fuel next it).
(** src/lib.rs:268-271 [from_iterator_truncate]. *)
Definition cache_from_iterator_truncate (next : iter S as_ref_item) (it : S) :=
  wrap_fst (from_iterator_truncate c fuel next it).
(** src/lib.rs:289-292 [try_from_chars]. *)
Definition cache_try_from_chars (next : iter S char) (it : S) :=
  wrap_res_fst (try_from_chars c fuel next it).
(** src/lib.rs:310-313 [from_chars_truncate]. *)
Definition cache_from_chars_truncate (next : iter S char) (it : S) :=
  wrap_fst (from_chars_truncate c fuel next it).
(** src/lib.rs:486-490 [FromIterator<char>]; 492-496 [FromIterator<&str>]. *)
Definition cache_from_iter_chars (next : iter S char) (it : S) :=
  wrap_fst (from_iter_chars c fuel next it).
Definition cache_from_iter_strs (next : iter S as_ref_item) (it : S) :=
  wrap_fst (from_iter_strs c fuel next it).
(** src/lib.rs:498-502, 504-508, 510-514 [Extend]. *)
Definition cache_extend_chars (next : iter S char) (it : S) (s : CacheString) :=
  let '(o, it', i) := extend_chars c fuel next it (inner s) in (o, it', mkCache i).
Definition cache_extend_char_refs (next : iter S char) (it : S) (s : CacheString) :=
  let '(o, it', i) := extend_char_refs c fuel next it (inner s) in (o, it', mkCache i).
Definition cache_extend_strs (next : iter S as_ref_item) (it : S) (s : CacheString) :=
  let '(o, it', i) := extend_strs c fuel next it (inner s) in (o, it', mkCache i).
End Iterators.

(** src/lib.rs:337-340 [try_from_utf16]; 364-367 [from_utf16_truncate];
    390-393 [from_utf16_lossy_truncate]. *)
Definition cache_try_from_utf16 (u : list N) : outcome (result CacheString Error) :=
  r <- try_from_utf16 c u ;; Ret (map_ok mkCache r).
Definition cache_from_utf16_truncate (u : list N) : outcome (result CacheString Utf16) :=
  r <- from_utf16_truncate c u ;; Ret (map_ok mkCache r).
Definition cache_from_utf16_lossy_truncate (u : list N) : outcome CacheString :=
  a <- from_utf16_lossy_truncate c u ;; Ret (mkCache a).

(** src/lib.rs:404-407 [capacity]. *)
Definition cache_capacity : N := CACHE_STRING_SIZE.

(** src/lib.rs:428-431 [split_off]. *)
Definition cache_split_off (at_ : N) : ST CacheString (result CacheString Error) :=
  r <~ on_inner (split_off c at_) ;; sret (map_ok mkCache r).

(** Methods reached through [Deref]/[DerefMut] (src/lib.rs:470-484) are those of
    [ArrayString<63>] on the inner value. *)
Definition cache_len (s : CacheString) : N := len (inner s).
Definition cache_as_str (s : CacheString) : outcome (list N) := as_str c (inner s).
Definition cache_is_empty (s : CacheString) : outcome bool := is_empty c (inner s).
Definition cache_try_push_str (w : list N) := on_inner (try_push_str c w).
Definition cache_push_str_truncate (w : list N) := on_inner (push_str_truncate c w).
Definition cache_try_push (ch : char) := on_inner (try_push c ch).
Definition cache_truncate (n : N) := on_inner (truncate c n).
Definition cache_pop := on_inner (pop c).
Definition cache_trim := on_inner (trim c).
Definition cache_remove (i : N) := on_inner (remove c i).
Definition cache_try_insert (i : N) (ch : char) := on_inner (try_insert c i ch).
Definition cache_try_insert_str (i : N) (w : list N) := on_inner (try_insert_str c i w).
Definition cache_insert_str_truncate (i : N) (w : list N) := on_inner (insert_str_truncate c i w).
Definition cache_clear := on_inner clear.
Definition cache_drain (lo hi : bound) := on_inner (drain_iter c lo hi).
Definition cache_replace_range (lo hi : bound) (w : list N) := on_inner (replace_range c lo hi w).
Definition cache_retain {F} (f : char -> ST F bool) (x : F) (s : CacheString) :=
  let '(o, i, x') := retain c f x (inner s) in (o, mkCache i, x').

(** src/lib.rs:523-528, 537-542 [AsRef]; 530-535 [AsMut<str>]; 567-572 [Borrow];
    573-578 [BorrowMut]. *)
Definition cache_as_ref (s : CacheString) : outcome (list N) := as_ref_str c (inner s).
Definition cache_as_ref_bytes (s : CacheString) : outcome (list N) := as_ref_bytes c (inner s).
Definition cache_as_mut : ST CacheString (list N) := on_inner (as_mut c).
Definition cache_borrow (s : CacheString) : outcome (list N) := borrow c (inner s).
Definition cache_borrow_mut : ST CacheString (list N) := on_inner (borrow_mut c).

(** src/lib.rs:441-446 [Hash]; 448-453 [PartialEq]; 456-461 [Ord]; 463-468
    [PartialOrd]; 553-558 [PartialEq<str>]; 560-565 [PartialEq<&str>]. *)
Definition cache_hash (h : hasher) (s : CacheString) (st : hstate h) := hash c h (inner s) st.
Definition cache_eq (s o : CacheString) : outcome bool := partial_eq c (inner s) (inner o).
Definition cache_cmp (s o : CacheString) : outcome comparison := ord_cmp c (inner s) (inner o).
Definition cache_partial_cmp (s o : CacheString) : outcome (option comparison) :=
  r <- cache_cmp s o ;; Ret (Some r).
Definition cache_eq_str (s : CacheString) (o : list N) : outcome bool := eq_str c (inner s) o.
Definition cache_eq_ref_str (s : CacheString) (o : list N) : outcome bool := eq_ref_str c (inner s) o.

(** src/lib.rs:544-551 [FromStr]; 580-587 [Add]; 589-594 [Write]; 596-600
    [From<ArrayString<63>>]; 602-606 [From<&str>]. *)
Definition cache_from_str (s : list N) : outcome (result CacheString OutOfBounds) :=
  r <- try_from_str c s ;; Ret (map_ok mkCache r).
Definition cache_add (s : CacheString) (w : list N) : outcome CacheString :=
  a <- add c (inner s) w ;; Ret (mkCache a).
Definition cache_write_str (w : list N) : ST CacheString (result unit FmtError) :=
  on_inner (write_str c w).
Definition cache_from_array (a : astring) : CacheString := mkCache a.
Definition cache_from (s : list N) : outcome CacheString :=
  a <- from_ref_str c s ;; Ret (mkCache a).

(** src/lib.rs:516-521 [Display]; 434-439 [Debug]. *)
Definition cache_display {W} (k : sink W) (sp : fmtspec) (s : CacheString) := display c k sp (inner s).
Definition cache_debug (str_debug : list N -> debug_impl) (u8_debug : N -> debug_impl) (s : CacheString) :
    debug_impl := fun W k alt =>
  b <~ debug_start k (lit "CacheString") ;;
  b <~ tuple_field k alt b (debug_fmt c str_debug u8_debug (inner s)) ;;
  tuple_finish k b.

(** src/lib.rs:608-648 [IndexMut]; 650-702 [Index]: each calls the one of the
    inner value. *)
Definition cache_index (s : CacheString) (r : range) : outcome (list N) := index c (inner s) r.
Definition cache_index_mut (r : range) : ST CacheString (N * list N) := on_inner (index_mut c r).

End WithTarget.
