(** Model of src/arraystring.rs and src/utils.rs, function by function.

    Conventions (see DESIGN.md): a [&mut self] method is a state transformer on
    [astring]; a [&str] is its list of bytes; [impl AsRef<str>] is the str it
    returns; logging macros are dropped (feature [logs] off, src/lib.rs:108-118). *)
From Verif Require Import Base Char.
From Verif Require Export RustStd ModelError.

(** src/arraystring.rs:28-33 [struct ArrayString<N>]: the array and the [u8] size. *)
Record astring : Type := mkastring { arr : list N; size : N }.

(** What the Rust types guarantee of any value: [array: [u8; N]], [size: u8]. *)
Definition typed (c : cfg) (s : astring) : Prop :=
  lenN (arr s) = cap c /\ Forall (fun b => b < 256) (arr s) /\ size s < 256.

(** Writes to the two fields. *)
Definition set_arr (a : list N) : ST astring unit := smodify (fun s => mkastring a (size s)).
Definition set_size (n : N) : ST astring unit := smodify (fun s => mkastring (arr s) n).

(** src/utils.rs:63-70 [usize::into_lossy]: [self as u8]. *)
Definition into_lossy (n : N) : N := n mod 256.

(** src/utils.rs:13-19 [is_inside_boundary]. *)
Definition is_inside_boundary (size limit : N) : result unit OutOfBounds :=
  if size <=? limit then Ok tt else Err mkOutOfBounds.

(** A local variable initialised with [Self::new()], mutated by [m] and then
    returned (or dropped, when [m] returns an error). *)
Definition run_local {A} (m : ST astring A) (s : astring) : outcome (A * astring) :=
  match m s with
  | (Ret a, s') => Ret (a, s')
  | (Panic, _) => Panic
  | (UB, _) => UB
  | (Diverge, _) => Diverge
  end.

Section WithCfg.
Variable c : cfg.

(** src/arraystring.rs:47-53 [new]. *)
Definition new : astring := mkastring (repeat 0 (N.to_nat (cap c))) 0.

(** src/arraystring.rs:368-371 [capacity]. *)
Definition capacity : N := cap c.

(** src/arraystring.rs:719-724 [len]: [self.size as usize]. *)
Definition len (s : astring) : N := size s.

(** src/implementations.rs:57-68 [AsRef<[u8]>::as_ref]. *)
Definition as_ref_bytes (s : astring) : outcome (list N) :=
  _ <- debug_assert c (Ret (len s <=? cap c)) ;;
  slice_get_unchecked_to (arr s) (len s).

(** src/implementations.rs:23-36 [AsRef<str>::as_ref]. *)
Definition as_ref_str (s : astring) : outcome (list N) :=
  _ <- debug_assert c (b <- as_ref_bytes s ;; Ret (from_utf8_ok b)) ;;
  b <- as_ref_bytes s ;;
  from_utf8_unchecked b.

(** src/arraystring.rs:336-341 [as_str]. *)
Definition as_str (s : astring) : outcome (list N) := as_ref_str s.

(** src/implementations.rs:38-55 [AsMut<str>::as_mut]: the [&mut str] handed out,
    as the bytes it shows. Writes through it are [str_write] below. *)
Definition as_mut : ST astring (list N) := sread (fun s =>
  let len := len s in
  _ <- debug_assert c (Ret (len <=? cap c)) ;;
  slice <- slice_get_unchecked_to (arr s) len ;;
  _ <- debug_assert c (Ret (from_utf8_ok slice)) ;;
  from_utf8_unchecked slice).

(** src/arraystring.rs:354-359 [as_mut_str]. *)
Definition as_mut_str : ST astring (list N) := as_mut.

(** src/utils.rs:21-33 [is_char_boundary]. *)
Definition is_char_boundary (s : astring) (idx : N) : outcome (result unit Utf8) :=
  b <- as_str s ;;
  Ret (if str_is_char_boundary b idx then Ok tt else Err mkUtf8).

(** src/utils.rs:35-61 [truncate_str]. *)
Definition truncate_str (slice : list N) (size : N) : outcome (list N) :=
  if lenN slice <=? size then Ret slice
  else if str_is_char_boundary slice size then str_get_unchecked slice 0 size
  else
    size <- usub c size 1 ;;
    if str_is_char_boundary slice size then str_get_unchecked slice 0 size
    else
      size <- usub c size 1 ;;
      if str_is_char_boundary slice size then str_get_unchecked slice 0 size
      else
        size <- usub c size 1 ;;
        str_get_unchecked slice 0 size.

(** src/arraystring.rs:846-850 (and 793-797): the start of a [RangeBounds]. *)
Definition start_of (lo : bound) : N :=
  match lo with
  | Included t => t
  | Excluded t => sat_add c t 1
  | Unbounded => 0
  end.

(** src/arraystring.rs:851-855 (and 798-802): the end of a [RangeBounds]. *)
Definition end_of (hi : bound) (len : N) : N :=
  match hi with
  | Included t => sat_add c t 1
  | Excluded t => t
  | Unbounded => len
  end.

(** src/arraystring.rs:838-892 [replace_range]. [lo], [hi] are the answers of
    [r.start_bound()] and [r.end_bound()], each called once. *)
Definition replace_range (lo hi : bound) (str : list N) : ST astring (result unit Error) := fun s0 =>
  (let start := start_of lo in
   let end_ := end_of hi (len s0) in
   if (start =? end_) && (lenN str =? 0) then sret (Ok tt)
   else
     _ <~? from_oob ? sret (is_inside_boundary start end_) ;;
     _ <~? from_oob ? sread (fun s => Ret (is_inside_boundary end_ (len s))) ;;
     _ <~? from_oob ? sret (is_inside_boundary (lenN str) capacity) ;;
     _ <~? from_utf8_err ? sread (fun s => is_char_boundary s start) ;;
     _ <~? from_utf8_err ? sread (fun s => is_char_boundary s end_) ;;
     n <~ sread (fun s => a <- uadd c (len s) (lenN str) ;; b <- uadd c a start ;; usub c b end_) ;;
     _ <~? from_oob ? sret (is_inside_boundary n capacity) ;;
     cut_start <~ slift (ptr_add (cap c) 0 start) ;;
     cut_end <~ slift (ptr_add (cap c) 0 end_) ;;
     str_end <~ slift (ptr_add (cap c) cut_start (lenN str)) ;;
     _ <~ (if negb (cut_end =? str_end) then
             a <~ sread (fun s => n <- usub c (len s) end_ ;; ptr_copy (arr s) cut_end str_end n) ;;
             set_arr a
           else sret tt) ;;
     _ <~ (if negb (lenN str =? 0) then
             a <~ sread (fun s => ptr_copy_from (arr s) str cut_start (lenN str)) ;;
             set_arr a
           else sret tt) ;;
     n <~ sread (fun s => a <- uadd c (len s) (lenN str) ;; b <- uadd c a start ;; usub c b end_) ;;
     _ <~ set_size (into_lossy n) ;;
     sret (Ok tt)) s0.

(** src/arraystring.rs:389-396 [try_push_str]. *)
Definition try_push_str (string : list N) : ST astring (result unit OutOfBounds) :=
  len <~ sread (fun s => Ret (len s)) ;;
  r <~ replace_range (Included len) (Excluded len) string ;;
  sret (map_err (fun _ => mkOutOfBounds) r).

(** src/arraystring.rs:416-421 [push_str_truncate]. *)
Definition push_str_truncate (string : list N) : ST astring unit :=
  t <~ sread (fun s => n <- usub c capacity (len s) ;; truncate_str string n) ;;
  _ <~ try_push_str t ;;
  sret tt.

(** src/arraystring.rs:440-446 [try_push]. *)
Definition try_push (ch : char) : ST astring (result unit OutOfBounds) :=
  b <~ slift (encode_utf8 ch 4) ;;
  try_push_str b.

(** src/arraystring.rs:72-79 [try_from_str]. *)
Definition try_from_str (string : list N) : outcome (result astring OutOfBounds) :=
  p <- run_local (try_push_str string) new ;;
  let '(r, s) := p in Ret (map_ok (fun _ => s) r).

(** src/arraystring.rs:97-104 [from_str_truncate]. *)
Definition from_str_truncate (string : list N) : outcome astring :=
  p <- run_local (push_str_truncate string) new ;;
  let '(_, s) := p in Ret s.

(** Result of a constructor that loops over an iterator: outcome and the
    iterator state it leaves behind (visible through [Iterator::by_ref]). *)
Definition from_loop {S A R} (l : outcome (option R) * S * astring) (ret : astring -> A)
    (early : R -> A) : outcome A * S :=
  match l with
  | (Ret None, it, s) => (Ret (ret s), it)
  | (Ret (Some r), it, _) => (Ret (early r), it)
  | (Panic, it, _) => (Panic, it)
  | (UB, it, _) => (UB, it)
  | (Diverge, it, _) => (Diverge, it)
  end.

(** The [out.try_push..(x)?] bodies: continue, or return the error. *)
Definition push_or_return {E F} (conv : E -> F) (m : ST astring (result unit E)) :
    ST astring (flow F) :=
  r <~ m ;; sret (match r with Ok _ => Continue | Err e => Return (conv e) end).

(** The [if out.try_push(x).is_err() { break; }] bodies. *)
Definition push_or_break {E R} (m : ST astring (result unit E)) : ST astring (flow R) :=
  r <~ m ;; sret (match r with Ok _ => Continue | Err _ => Break end).

Section Iterators.
Context {S : Type}.
Variable fuel : nat.

(** src/arraystring.rs:121-132 [try_from_iterator]. *)
Definition try_from_iterator (next : iter S as_ref_item) (it : S) :
    outcome (result astring OutOfBounds) * S :=
  from_loop
    (for_loop fuel next (fun x => push_or_return (fun e => e) (try_push_str (ref1 x))) it new)
    Ok Err.

(** src/arraystring.rs:153-165 [from_iterator_truncate]: on failure the item's
    [as_ref] is called a second time. *)
Definition from_iterator_truncate (next : iter S as_ref_item) (it : S) : outcome astring * S :=
  from_loop (R := Empty_set)
    (for_loop fuel next
       (fun x => r <~ try_push_str (ref1 x) ;;
                 match r with
                 | Ok _ => sret Continue
                 | Err _ => _ <~ push_str_truncate (ref2 x) ;; sret Break
                 end) it new)
    (fun s => s) (fun e => match e with end).

(** src/arraystring.rs:183-192 [try_from_chars]. *)
Definition try_from_chars (next : iter S char) (it : S) :
    outcome (result astring OutOfBounds) * S :=
  from_loop
    (for_loop fuel next (fun ch => push_or_return (fun e => e) (try_push ch)) it new)
    Ok Err.

(** src/arraystring.rs:210-221 [from_chars_truncate]. *)
Definition from_chars_truncate (next : iter S char) (it : S) : outcome astring * S :=
  from_loop (R := Empty_set)
    (for_loop fuel next (fun ch => push_or_break (try_push ch)) it new)
    (fun s => s) (fun e => match e with end).
End Iterators.

(** Number of loop rounds that any char iterator can drive: every character
    takes at least one byte. *)
Definition char_fuel : nat := N.to_nat (cap c) + 2.

(** src/arraystring.rs:245-254 [try_from_utf16]: [out.try_push(c?)?]. *)
Definition try_from_utf16 (slice : list N) : outcome (result astring Error) :=
  fst (from_loop
    (for_loop char_fuel decode_utf16_next
       (fun ch => match ch with
                  | None => sret (Return (error_from_decode_utf16 tt))
                  | Some ch => push_or_return from_oob (try_push ch)
                  end) (None, slice) new)
    Ok Err).

(** src/arraystring.rs:278-289 [from_utf16_truncate]: [if out.try_push(c?).is_err() { break; }]. *)
Definition from_utf16_truncate (slice : list N) : outcome (result astring Utf16) :=
  fst (from_loop
    (for_loop char_fuel decode_utf16_next
       (fun ch => match ch with
                  | None => sret (Return (utf16_from_decode_utf16 tt))
                  | Some ch => push_or_break (try_push ch)
                  end) (None, slice) new)
    Ok Err).

(** src/arraystring.rs:312-323 [from_utf16_lossy_truncate]. *)
Definition from_utf16_lossy_truncate (slice : list N) : outcome astring :=
  fst (from_loop (R := Empty_set)
    (for_loop char_fuel decode_utf16_next
       (fun ch => push_or_break
                    (try_push (match ch with Some ch => ch | None => replacement_char end)))
       (None, slice) new)
    (fun s => s) (fun e => match e with end)).

(** src/arraystring.rs:468-474 [truncate]. *)
Definition truncate (n : N) : ST astring (result unit Utf8) :=
  len <~ sread (fun s => Ret (N.min (len s) n)) ;;
  r <~ sread (fun s => is_char_boundary s len) ;;
  match r with
  | Ok _ => _ <~ set_size (into_lossy len) ;; sret (Ok tt)
  | Err e => sret (Err e)
  end.

(** src/arraystring.rs:489-497 [pop]. *)
Definition pop : ST astring (option char) :=
  o <~ sread (fun s => b <- as_str s ;; chars_last b) ;;
  match o with
  | None => sret None
  | Some ch =>
      n <~ sread (fun s => u8sub c (size s) (into_lossy (len_utf8 ch))) ;;
      _ <~ set_size n ;;
      sret (Some ch)
  end.

(** src/arraystring.rs:519-525: first loop of [trim]. *)
Fixpoint trim_start_loop (fuel : nat) (it : char_indices) (start : N) : outcome N :=
  match fuel with
  | O => Diverge
  | S fuel =>
      o <- char_indices_next it ;;
      match o with
      | None => Ret start
      | Some (pos, ch, it) =>
          if negb (is_whitespace ch) then Ret pos else trim_start_loop fuel it start
      end
  end.

(** src/arraystring.rs:526-536: second loop of [trim]. [None]: the early
    [self.size = 0; return]. *)
Fixpoint trim_end_loop (fuel : nat) (it : char_indices) (start end_ : N) : outcome (option N) :=
  match fuel with
  | O => Diverge
  | S fuel =>
      o <- char_indices_next_back it ;;
      match o with
      | None => Ret (Some end_)
      | Some (pos, ch, it) =>
          if pos <? start then Ret None
          else if negb (is_whitespace ch) then Ret (Some end_)
          else trim_end_loop fuel it start pos
      end
  end.

(** src/arraystring.rs:515-540 [trim]. *)
Definition trim : ST astring unit :=
  start <~ sread (fun s => b <- as_str s ;; trim_start_loop (S (length b)) (0, b) (len s)) ;;
  e <~ sread (fun s => b <- as_str s ;; trim_end_loop (S (length b)) (0, b) start (len s)) ;;
  match e with
  | None => set_size 0
  | Some end_ =>
      _ <~ replace_range (Included end_) Unbounded [] ;;
      _ <~ replace_range Unbounded (Excluded start) [] ;;
      sret tt
  end.

(** src/arraystring.rs:566-569: the loop of [remove] that looks for the end of
    the character. *)
Fixpoint next_boundary (fuel : nat) (s : astring) (end_ : N) : outcome N :=
  match fuel with
  | O => Diverge
  | S fuel =>
      b <- as_str s ;;
      if str_is_char_boundary b end_ then Ret end_
      else end_ <- uadd c end_ 1 ;; next_boundary fuel s end_
  end.

(** src/arraystring.rs:559-580 [remove]. The fuel is one more than the array size. *)
Definition remove (idx : N) : ST astring (result char Error) :=
  _ <~? from_oob ? sread (fun s => Ret (is_inside_boundary (sat_add c idx 1) (len s))) ;;
  _ <~? from_utf8_err ? sread (fun s => is_char_boundary s idx) ;;
  end_ <~ sread (fun s => e <- (if idx =? len s then Ret idx else uadd c idx 1) ;;
                          next_boundary (S (length (arr s))) s e) ;;
  sub <~? (fun e => e) ?
    sread (fun s => b <- as_str s ;;
                    Ret (match str_get b idx end_ with Some r => Ok r | None => Err EOutOfBounds end)) ;;
  ch <~? (fun e => e) ?
    slift (o <- chars_next sub ;; Ret (match o with Some (ch, _) => Ok ch | None => Err EUtf8 end)) ;;
  n <~ slift (uadd c idx (len_utf8 ch)) ;;
  _ <~? (fun e => e) ? replace_range (Included idx) (Excluded n) [] ;;
  sret (Ok ch).

(** src/arraystring.rs:594-600 [retain], with a closure [f] of state [F] that may
    panic. The new value is built first and then assigned to [*self]. Result: the
    outcome, the string and the closure state. *)
Definition retain {F} (f : char -> ST F bool) (x : F) (s : astring) :
    outcome unit * astring * F :=
  match as_str s with
  | Ret b =>
      let next := filter_next (S (length b)) chars_iter f in
      match from_chars_truncate (S (length b)) next (b, x) with
      | (Ret s', (_, x')) => (Ret tt, s', x')
      | (Panic, (_, x')) => (Panic, s, x')
      | (UB, (_, x')) => (UB, s, x')
      | (Diverge, (_, x')) => (Diverge, s, x')
      end
  | Panic => (Panic, s, x)
  | UB => (UB, s, x)
  | Diverge => (Diverge, s, x)
  end.

(** src/arraystring.rs:656-662 [try_insert_str]. *)
Definition try_insert_str (idx : N) (string : list N) : ST astring (result unit Error) :=
  _ <~? from_oob ? sread (fun s => Ret (is_inside_boundary idx (len s))) ;;
  replace_range (Included idx) (Excluded idx) string.

(** src/arraystring.rs:626-631 [try_insert]. *)
Definition try_insert (idx : N) (ch : char) : ST astring (result unit Error) :=
  b <~ slift (encode_utf8 ch 4) ;;
  try_insert_str idx b.

(** src/arraystring.rs:690-703 [insert_str_truncate]. *)
Definition insert_str_truncate (idx : N) (string : list N) : ST astring (result unit Error) :=
  t <~ sread (fun s => n <- usub c capacity (len s) ;; truncate_str string n) ;;
  _ <~? (fun e => e) ? try_insert_str idx t ;;
  sret (Ok tt).

(** src/arraystring.rs:766-771 [clear]. *)
Definition clear : ST astring unit := set_size 0.

(** src/arraystring.rs:790-820 [drain]. The [Drain] returned is the [ArrayString]
    it wraps (src/drain.rs:15). *)
Definition drain (lo hi : bound) : ST astring (result astring Error) := fun s0 =>
  (let start := start_of lo in
   let end_ := end_of hi (len s0) in
   _ <~? from_oob ? sret (is_inside_boundary start end_) ;;
   _ <~? from_oob ? sread (fun s => Ret (is_inside_boundary end_ (len s))) ;;
   _ <~? from_utf8_err ? sread (fun s => is_char_boundary s start) ;;
   _ <~? from_utf8_err ? sread (fun s => is_char_boundary s end_) ;;
   _ <~ sread (fun s => debug_assert c (Ret ((start <=? end_) && (end_ <=? len s)))) ;;
   _ <~ sread (fun s => debug_assert c (b <- as_str s ;; Ret (str_is_char_boundary b start))) ;;
   _ <~ sread (fun s => debug_assert c (b <- as_str s ;; Ret (str_is_char_boundary b end_))) ;;
   slice <~ sread (fun s => b <- as_str s ;; str_get_unchecked b start end_) ;;
   drain <~? from_oob ? slift (try_from_str slice) ;;
   _ <~? (fun e => e) ? replace_range (Included start) (Excluded end_) [] ;;
   sret (Ok drain)) s0.

(** src/arraystring.rs:745-751 [split_off]. *)
Definition split_off (at_ : N) : ST astring (result astring Error) :=
  drained <~? (fun e => e) ? drain (Included at_) Unbounded ;;
  sret (Ok drained).

(** [str::is_empty] through [Deref] (src/implementations.rs:234-245); the crate
    has no [is_empty] of its own. *)
Definition is_empty (s : astring) : outcome bool := b <- as_ref_str s ;; Ret (lenN b =? 0).

(** A write of [new] through a [&mut str] that shows bytes [a..a+len(new)] of
    the text. Safe code can only write content that keeps the [str] valid, and
    cannot change its length; anything else would be [UB] by the owner of the
    [&mut str], not by this crate. Model of the caller's side of
    src/arraystring.rs:356 and src/implementations.rs:44. *)
Definition str_write (a : N) (new : list N) : ST astring unit := fun s =>
  let whole := takeN a (arr s) ++ new ++ dropN (a + lenN new) (arr s) in
  if (a + lenN new <=? len s) && from_utf8_ok new && from_utf8_ok (takeN (len s) whole)
  then (Ret tt, mkastring whole (size s))
  else (UB, s).

End WithCfg.
