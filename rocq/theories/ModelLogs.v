(** The crate with the feature [logs]: every [trace!] and [debug!] of
    src/arraystring.rs, src/utils.rs and src/error.rs is a call of a logger, foreign
    code with a state [W] that may panic. It is called with the message's arguments
    at the very place where the macro stands.

    [tr] and [db]: the level trace (debug) is enabled. The arguments of a macro are
    evaluated only then, before the logger is called; [len()] and [as_str()] among
    them log in turn. What the logger does with the message, which includes formatting
    it, is the logger's own effect: a [{self}] in the message is passed as the string.

    A string argument [impl AsRef<str>] is foreign code as in ModelArgs.v, in the same
    state. Iterators and closures have a state of their own; bounds are the answers of
    the [RangeBounds]. *)
From Verif Require Import Base Char RustStd ModelError.
From Verif Require Export ModelArgs ModelOps.

(** One constructor per log statement, with its arguments. *)
Inductive event : Type :=
  (* src/utils.rs:17, 28, 39 *)
  | EvInside (size limit : N)
  | EvBoundary (s : list N) (idx : N)
  | EvTruncateStr (slice : list N) (size : N)
  (* src/error.rs:122, 151, 196 *)
  | EvFromUtf8
  | EvFromUtf16
  | EvFromOutOfBounds
  (* src/arraystring.rs *)
  | EvTryFromStr (s : list N)
  | EvFromStrTruncate (s : list N)
  | EvTryFromIterator
  | EvFromIteratorTruncate
  | EvTryFromChars
  | EvFromCharsTruncate
  | EvUtf16 (lossy : bool) (s : list N)
  | EvAsStr
  | EvAsMutStr (self : astring)
  | EvPushStr (s : list N)
  | EvPushStrTruncate (s : list N)
  | EvPush (ch : char)
  | EvTruncate (size : N)
  | EvPop
  | EvTrim (self : astring)
  | EvRemove (idx : N)
  | EvRetain
  | EvTryInsertStr (idx : N) (s : list N) (self : astring)
  | EvInsertStrTruncate (idx : N) (s : list N) (self : astring)
  | EvLen
  | EvSplitOff
  | EvClear
  | EvDrain (len start end_ : N)
  | EvReplace (len start end_ wlen : N) (w : list N).

Section WithCfg.
Variable c : cfg.
Variables tr db : bool.
Context {W : Type}.
Variable log : event -> ST W unit.

(** [trace!] and [debug!] with arguments that are already evaluated;
    src/lib.rs:108-118 removes them when the feature is off. *)
Definition trace (e : event) : ST W unit := if tr then log e else sret tt.
Definition dbg (e : event) : ST W unit := if db then log e else sret tt.

(** The same with an argument that is foreign code or logs itself. *)
Definition log_with {S A} (on : bool) (emit : event -> ST S unit) (arg : ST S A) (e : A -> event) : ST S unit :=
  if on then a <~ arg ;; emit (e a) else sret tt.

(** [debug_assert!] of an expression that logs. *)
Definition l_assert (m : ST W bool) : ST W unit :=
  if debug c then b <~ m ;; slift (if b then Ret tt else Panic) else sret tt.

(** Code that reads [&self]. *)
Definition seen {A} (f : astring -> ST W A) : ST (astring * W) A := fun p => on_arg (f (fst p)) p.

(** [m?] where the conversion of the error logs (src/error.rs:119-125, 148-154,
    193-199). *)
Definition l_try {A B E F} (e : event) (conv : E -> F) (m : ST (astring * W) (result A E))
    (k : A -> ST (astring * W) (result B F)) : ST (astring * W) (result B F) :=
  r <~ m ;;
  match r with
  | Ok a => k a
  | Err x => _ <~ on_arg (trace e) ;; sret (Err (conv x))
  end.
Definition l_try_oob {A B} (m : ST (astring * W) (result A OutOfBounds)) :=
  l_try (B := B) EvFromOutOfBounds from_oob m.
Definition l_try_utf8 {A B} (m : ST (astring * W) (result A Utf8)) :=
  l_try (B := B) EvFromUtf8 from_utf8_err m.

(** src/arraystring.rs:719-724 [len]. *)
Definition l_len (s : astring) : ST W N := _ <~ trace EvLen ;; sret (len s).

(** src/implementations.rs:57-68 [AsRef<[u8]>::as_ref]. *)
Definition l_as_ref_bytes (s : astring) : ST W (list N) :=
  _ <~ l_assert (n <~ l_len s ;; sret (n <=? cap c)) ;;
  n <~ l_len s ;;
  slift (slice_get_unchecked_to (arr s) n).

(** src/implementations.rs:23-36 [AsRef<str>::as_ref]. *)
Definition l_as_ref_str (s : astring) : ST W (list N) :=
  _ <~ l_assert (b <~ l_as_ref_bytes s ;; sret (from_utf8_ok b)) ;;
  b <~ l_as_ref_bytes s ;;
  slift (from_utf8_unchecked b).

(** src/arraystring.rs:336-341 [as_str]. *)
Definition l_as_str (s : astring) : ST W (list N) := _ <~ trace EvAsStr ;; l_as_ref_str s.

(** src/implementations.rs:38-55 [AsMut<str>::as_mut]; src/arraystring.rs:354-359
    [as_mut_str]. *)
Definition l_as_mut (s : astring) : ST W (list N) :=
  n <~ l_len s ;;
  _ <~ slift (debug_assert c (Ret (n <=? cap c))) ;;
  slice <~ slift (slice_get_unchecked_to (arr s) n) ;;
  _ <~ slift (debug_assert c (Ret (from_utf8_ok slice))) ;;
  slift (from_utf8_unchecked slice).
Definition l_as_mut_str (s : astring) : ST W (list N) := _ <~ trace (EvAsMutStr s) ;; l_as_mut s.

(** src/utils.rs:13-19 [is_inside_boundary]. *)
Definition l_is_inside_boundary (size limit : N) : ST W (result unit OutOfBounds) :=
  _ <~ trace (EvInside size limit) ;; sret (is_inside_boundary size limit).

(** src/utils.rs:21-33 [is_char_boundary]: [s.as_str()] is an argument of the log. *)
Definition l_is_char_boundary (s : astring) (idx : N) : ST W (result unit Utf8) :=
  _ <~ log_with tr log (l_as_str s) (fun b => EvBoundary b idx) ;;
  b <~ l_as_str s ;;
  sret (if str_is_char_boundary b idx then Ok tt else Err mkUtf8).

(** src/utils.rs:35-61 [truncate_str]. *)
Definition l_truncate_str (slice : list N) (size : N) : ST W (list N) :=
  _ <~ trace (EvTruncateStr slice size) ;; slift (truncate_str c slice size).

(** src/arraystring.rs:851-855 (and 798-802): the end of a [RangeBounds]. *)
Definition l_end_of (hi : bound) (s : astring) : ST W N :=
  match hi with
  | Unbounded => l_len s
  | _ => sret (end_of c hi 0)
  end.

(** [self.len() + str.len() + start - end] (src/arraystring.rs:873, 890). *)
Definition l_new_len (n start end_ : N) (s : astring) : ST W N :=
  l <~ l_len s ;;
  slift (a <- uadd c l n ;; b <- uadd c a start ;; usub c b end_).

(** src/arraystring.rs:838-892 [replace_range]. *)
Definition l_replace_range (lo hi : bound) (with_ : ST W (list N)) : ST (astring * W) (result unit Error) :=
  str <~ on_arg with_ ;;
  let start := start_of c lo in
  end_ <~ seen (l_end_of hi) ;;
  _ <~ seen (fun s => log_with db log
         (n <~ l_len s ;; a <~ with_ ;; b <~ with_ ;; sret (n, a, b))
         (fun x => let '(n, a, b) := x in EvReplace n start end_ (lenN a) b)) ;;
  if (start =? end_) && (lenN str =? 0) then sret (Ok tt)
  else
    l_try_oob (on_arg (l_is_inside_boundary start end_)) (fun _ =>
    l_try_oob (seen (fun s => n <~ l_len s ;; l_is_inside_boundary end_ n)) (fun _ =>
    l_try_oob (on_arg (l_is_inside_boundary (lenN str) (capacity c))) (fun _ =>
    l_try_utf8 (seen (fun s => l_is_char_boundary s start)) (fun _ =>
    l_try_utf8 (seen (fun s => l_is_char_boundary s end_)) (fun _ =>
    l_try_oob (seen (fun s => n <~ l_new_len (lenN str) start end_ s ;;
                              l_is_inside_boundary n (capacity c))) (fun _ =>
    cut_start <~ slift (ptr_add (cap c) 0 start) ;;
    cut_end <~ slift (ptr_add (cap c) 0 end_) ;;
    str_end <~ slift (ptr_add (cap c) cut_start (lenN str)) ;;
    _ <~ (if negb (cut_end =? str_end) then
            a <~ seen (fun s => l <~ l_len s ;;
                   slift (n <- usub c l end_ ;; ptr_copy (arr s) cut_end str_end n)) ;;
            on_self (set_arr a)
          else sret tt) ;;
    _ <~ (if negb (lenN str =? 0) then
            a <~ seen (fun s => slift (ptr_copy_from (arr s) str cut_start (lenN str))) ;;
            on_self (set_arr a)
          else sret tt) ;;
    n <~ seen (l_new_len (lenN str) start end_) ;;
    _ <~ on_self (set_size (into_lossy n)) ;;
    sret (Ok tt))))))).

(** src/arraystring.rs:389-396 [try_push_str]; [map_err] does not log. *)
Definition l_try_push_str (string : ST W (list N)) : ST (astring * W) (result unit OutOfBounds) :=
  _ <~ on_arg (log_with tr log string EvPushStr) ;;
  len <~ seen l_len ;;
  r <~ l_replace_range (Included len) (Excluded len) string ;;
  sret (map_err (fun _ => mkOutOfBounds) r).

(** [Self::capacity() - self.len()] next to [string.as_ref()], and [truncate_str] of
    the two (src/arraystring.rs:420, 700). *)
Definition l_room_for (string : ST W (list N)) (s : astring) : ST W (list N) :=
  b <~ string ;;
  l <~ l_len s ;;
  n <~ slift (usub c (capacity c) l) ;;
  l_truncate_str b n.

(** src/arraystring.rs:416-421 [push_str_truncate]. *)
Definition l_push_str_truncate (string : ST W (list N)) : ST (astring * W) unit :=
  _ <~ on_arg (log_with tr log string EvPushStrTruncate) ;;
  t <~ seen (l_room_for string) ;;
  _ <~ l_try_push_str (sret t) ;;
  sret tt.

(** src/arraystring.rs:440-446 [try_push]. *)
Definition l_try_push (ch : char) : ST (astring * W) (result unit OutOfBounds) :=
  _ <~ on_arg (trace (EvPush ch)) ;;
  b <~ slift (encode_utf8 ch 4) ;;
  l_try_push_str (sret b).

(** src/arraystring.rs:72-79 [try_from_str]; 97-104 [from_str_truncate]. *)
Definition l_try_from_str (string : ST W (list N)) : ST W (result astring OutOfBounds) :=
  _ <~ log_with tr log string EvTryFromStr ;;
  g_local c (l_try_push_str string) (fun r s => map_ok (fun _ => s) r).
Definition l_from_str_truncate (string : ST W (list N)) : ST W astring :=
  _ <~ log_with tr log string EvFromStrTruncate ;;
  g_local c (l_push_str_truncate string) (fun _ s => s).

(** A constructor that loops over an iterator: the outcome, the iterator's state and
    the logger's. *)
Definition l_from_loop {S A R} (e : ST W unit) (it : S) (l : W -> outcome (option R) * S * (astring * W))
    (ret : astring -> A) (early : R -> A) : W -> outcome A * S * W := fun w =>
  match e w with
  | (Ret _, w) =>
      match l w with
      | (Ret None, it, (s, w)) => (Ret (ret s), it, w)
      | (Ret (Some r), it, (_, w)) => (Ret (early r), it, w)
      | (Panic, it, (_, w)) => (Panic, it, w)
      | (UB, it, (_, w)) => (UB, it, w)
      | (Diverge, it, (_, w)) => (Diverge, it, w)
      end
  | (Panic, w) => (Panic, it, w)
  | (UB, w) => (UB, it, w)
  | (Diverge, w) => (Diverge, it, w)
  end.

(** The [out.try_push..(x)?] and [if out.try_push(x).is_err() { break; }] bodies. *)
Definition l_or_return {E F} (conv : E -> ST W F) (m : ST (astring * W) (result unit E)) :
    ST (astring * W) (flow F) :=
  r <~ m ;;
  match r with
  | Ok _ => sret Continue
  | Err e => f <~ on_arg (conv e) ;; sret (Return f)
  end.
Definition l_or_break {E R} (m : ST (astring * W) (result unit E)) : ST (astring * W) (flow R) :=
  r <~ m ;; sret (match r with Ok _ => Continue | Err _ => Break end).

Section Iterators.
Context {S : Type}.
Variable fuel : nat.

(** src/arraystring.rs:121-132 [try_from_iterator]; 153-165 [from_iterator_truncate].
    The items are strings whose [as_ref()] does not log. *)
Definition l_try_from_iterator (next : iter S as_ref_item) (it : S) :
    W -> outcome (result astring OutOfBounds) * S * W :=
  l_from_loop (trace EvTryFromIterator) it
    (fun w => for_loop fuel next (fun x => l_or_return sret (l_try_push_str (sret (ref1 x)))) it (new c, w))
    Ok Err.
Definition l_from_iterator_truncate (next : iter S as_ref_item) (it : S) : W -> outcome astring * S * W :=
  l_from_loop (R := Empty_set) (trace EvFromIteratorTruncate) it
    (fun w => for_loop fuel next
       (fun x => r <~ l_try_push_str (sret (ref1 x)) ;;
                 match r with
                 | Ok _ => sret Continue
                 | Err _ => _ <~ l_push_str_truncate (sret (ref2 x)) ;; sret Break
                 end) it (new c, w))
    (fun s => s) (fun e => match e with end).

(** src/arraystring.rs:183-192 [try_from_chars]; 210-221 [from_chars_truncate]. *)
Definition l_try_from_chars (next : iter S char) (it : S) :
    W -> outcome (result astring OutOfBounds) * S * W :=
  l_from_loop (trace EvTryFromChars) it
    (fun w => for_loop fuel next (fun ch => l_or_return sret (l_try_push ch)) it (new c, w))
    Ok Err.
Definition l_from_chars_truncate (next : iter S char) (it : S) : W -> outcome astring * S * W :=
  l_from_loop (R := Empty_set) (trace EvFromCharsTruncate) it
    (fun w => for_loop fuel next (fun ch => l_or_break (l_try_push ch)) it (new c, w))
    (fun s => s) (fun e => match e with end).
End Iterators.

(** Without the state of the iterator. *)
Definition l_drop {S A} (m : W -> outcome A * S * W) : ST W A := fun w =>
  let '(o, _, w) := m w in (o, w).

(** src/arraystring.rs:245-254 [try_from_utf16]; 278-289 [from_utf16_truncate];
    312-323 [from_utf16_lossy_truncate]. *)
Definition l_try_from_utf16 (slice : list N) : ST W (result astring Error) := l_drop
  (l_from_loop (dbg (EvUtf16 false slice)) (None, slice)
    (fun w => for_loop (char_fuel c) decode_utf16_next
       (fun ch => match ch with
                  | None => sret (Return (error_from_decode_utf16 tt))
                  | Some ch => l_or_return (fun e => _ <~ trace EvFromOutOfBounds ;; sret (from_oob e))
                                 (l_try_push ch)
                  end) (None, slice) (new c, w))
    Ok Err).
Definition l_from_utf16_truncate (slice : list N) : ST W (result astring Utf16) := l_drop
  (l_from_loop (dbg (EvUtf16 false slice)) (None, slice)
    (fun w => for_loop (char_fuel c) decode_utf16_next
       (fun ch => match ch with
                  | None => sret (Return (utf16_from_decode_utf16 tt))
                  | Some ch => l_or_break (l_try_push ch)
                  end) (None, slice) (new c, w))
    Ok Err).
Definition l_from_utf16_lossy_truncate (slice : list N) : ST W astring := l_drop
  (l_from_loop (R := Empty_set) (dbg (EvUtf16 true slice)) (None, slice)
    (fun w => for_loop (char_fuel c) decode_utf16_next
       (fun ch => l_or_break (l_try_push (match ch with Some ch => ch | None => replacement_char end)))
       (None, slice) (new c, w))
    (fun s => s) (fun e => match e with end)).

(** src/arraystring.rs:468-474 [truncate]. *)
Definition l_truncate (n : N) : ST (astring * W) (result unit Utf8) :=
  _ <~ on_arg (dbg (EvTruncate n)) ;;
  l <~ seen l_len ;;
  let len := N.min l n in
  r <~ seen (fun s => l_is_char_boundary s len) ;;
  match r with
  | Ok _ => _ <~ on_self (set_size (into_lossy len)) ;; sret (Ok tt)
  | Err e => sret (Err e)
  end.

(** src/arraystring.rs:489-497 [pop]. *)
Definition l_pop : ST (astring * W) (option char) :=
  _ <~ on_arg (dbg EvPop) ;;
  o <~ seen (fun s => b <~ l_as_str s ;; slift (chars_last b)) ;;
  match o with
  | None => sret None
  | Some ch =>
      n <~ seen (fun s => slift (u8sub c (size s) (into_lossy (len_utf8 ch)))) ;;
      _ <~ on_self (set_size n) ;;
      sret (Some ch)
  end.

(** src/arraystring.rs:515-540 [trim]. *)
Definition l_trim : ST (astring * W) unit :=
  _ <~ seen (fun s => trace (EvTrim s)) ;;
  start <~ seen (fun s => l <~ l_len s ;; b <~ l_as_str s ;;
                          slift (trim_start_loop (S (length b)) (0, b) l)) ;;
  e <~ seen (fun s => l <~ l_len s ;; b <~ l_as_str s ;;
                      slift (trim_end_loop (S (length b)) (0, b) start l)) ;;
  match e with
  | None => on_self (set_size 0)
  | Some end_ =>
      _ <~ l_replace_range (Included end_) Unbounded (sret []) ;;
      _ <~ l_replace_range Unbounded (Excluded start) (sret []) ;;
      sret tt
  end.

(** src/arraystring.rs:567-569: the loop of [remove]. *)
Fixpoint l_next_boundary (fuel : nat) (s : astring) (end_ : N) : ST W N :=
  match fuel with
  | O => slift Diverge
  | S fuel =>
      b <~ l_as_str s ;;
      if str_is_char_boundary b end_ then sret end_
      else e <~ slift (uadd c end_ 1) ;; l_next_boundary fuel s e
  end.

(** src/arraystring.rs:559-580 [remove]. *)
Definition l_remove (idx : N) : ST (astring * W) (result char Error) :=
  _ <~ on_arg (dbg (EvRemove idx)) ;;
  l_try_oob (seen (fun s => n <~ l_len s ;; l_is_inside_boundary (sat_add c idx 1) n)) (fun _ =>
  l_try_utf8 (seen (fun s => l_is_char_boundary s idx)) (fun _ =>
  end_ <~ seen (fun s => l <~ l_len s ;;
                         e <~ slift (if idx =? l then Ret idx else uadd c idx 1) ;;
                         l_next_boundary (S (length (arr s))) s e) ;;
  sub <~? (fun e => e) ?
    seen (fun s => b <~ l_as_str s ;;
                   sret (match str_get b idx end_ with Some r => Ok r | None => Err EOutOfBounds end)) ;;
  ch <~? (fun e => e) ?
    slift (o <- chars_next sub ;; Ret (match o with Some (ch, _) => Ok ch | None => Err EUtf8 end)) ;;
  n <~ slift (uadd c idx (len_utf8 ch)) ;;
  _ <~? (fun e => e) ? l_replace_range (Included idx) (Excluded n) (sret []) ;;
  sret (Ok ch))).

(** src/arraystring.rs:594-600 [retain]. Result: the outcome, the string, the
    closure's state and the logger's. *)
Definition l_retain {F} (f : char -> ST F bool) (x : F) (s : astring) :
    W -> outcome unit * astring * F * W := fun w =>
  match (_ <~ trace EvRetain ;; l_as_str s) w with
  | (Ret b, w) =>
      let next := filter_next (S (length b)) chars_iter f in
      match l_from_chars_truncate (S (length b)) next (b, x) w with
      | (Ret s', (_, x'), w) => (Ret tt, s', x', w)
      | (Panic, (_, x'), w) => (Panic, s, x', w)
      | (UB, (_, x'), w) => (UB, s, x', w)
      | (Diverge, (_, x'), w) => (Diverge, s, x', w)
      end
  | (Panic, w) => (Panic, s, x, w)
  | (UB, w) => (UB, s, x, w)
  | (Diverge, w) => (Diverge, s, x, w)
  end.

(** src/arraystring.rs:656-662 [try_insert_str]; 626-631 [try_insert], which does not log. *)
Definition l_try_insert_str (idx : N) (string : ST W (list N)) : ST (astring * W) (result unit Error) :=
  _ <~ seen (fun s => log_with tr log string (fun b => EvTryInsertStr idx b s)) ;;
  l_try_oob (seen (fun s => n <~ l_len s ;; l_is_inside_boundary idx n)) (fun _ =>
  l_replace_range (Included idx) (Excluded idx) string).
Definition l_try_insert (idx : N) (ch : char) : ST (astring * W) (result unit Error) :=
  b <~ slift (encode_utf8 ch 4) ;;
  l_try_insert_str idx (sret b).

(** src/arraystring.rs:690-703 [insert_str_truncate]. *)
Definition l_insert_str_truncate (idx : N) (string : ST W (list N)) : ST (astring * W) (result unit Error) :=
  _ <~ seen (fun s => log_with tr log string (fun b => EvInsertStrTruncate idx b s)) ;;
  t <~ seen (l_room_for string) ;;
  _ <~? (fun e => e) ? l_try_insert_str idx (sret t) ;;
  sret (Ok tt).

(** src/arraystring.rs:766-771 [clear]. *)
Definition l_clear : ST (astring * W) unit := _ <~ on_arg (trace EvClear) ;; on_self clear.

(** src/arraystring.rs:790-820 [drain]: the assertion in 809 does not call [len()]
    when [start <= end] is false. *)
Definition l_drain (lo hi : bound) : ST (astring * W) (result astring Error) :=
  let start := start_of c lo in
  end_ <~ seen (l_end_of hi) ;;
  _ <~ seen (fun s => log_with db log (l_len s) (fun n => EvDrain n start end_)) ;;
  l_try_oob (on_arg (l_is_inside_boundary start end_)) (fun _ =>
  l_try_oob (seen (fun s => n <~ l_len s ;; l_is_inside_boundary end_ n)) (fun _ =>
  l_try_utf8 (seen (fun s => l_is_char_boundary s start)) (fun _ =>
  l_try_utf8 (seen (fun s => l_is_char_boundary s end_)) (fun _ =>
  _ <~ seen (fun s => l_assert (if start <=? end_ then n <~ l_len s ;; sret (end_ <=? n) else sret false)) ;;
  _ <~ seen (fun s => l_assert (b <~ l_as_str s ;; sret (str_is_char_boundary b start))) ;;
  _ <~ seen (fun s => l_assert (b <~ l_as_str s ;; sret (str_is_char_boundary b end_))) ;;
  slice <~ seen (fun s => b <~ l_as_str s ;; slift (str_get_unchecked b start end_)) ;;
  l_try_oob (on_arg (l_try_from_str (sret slice))) (fun drain =>
  _ <~? (fun e => e) ? l_replace_range (Included start) (Excluded end_) (sret []) ;;
  sret (Ok drain)))))).

(** src/arraystring.rs:745-751 [split_off]. *)
Definition l_split_off (at_ : N) : ST (astring * W) (result astring Error) :=
  _ <~ on_arg (dbg EvSplitOff) ;;
  drained <~? (fun e => e) ? l_drain (Included at_) Unbounded ;;
  sret (Ok drained).

(** src/drain.rs:99-109 [Drain::next]; 111-119 [next_back]: on the string inside. *)
Definition l_drain_next : ST (astring * W) (option char) := r <~ l_remove 0 ;; sret (ok r).
Definition l_drain_next_back : ST (astring * W) (option char) := l_pop.

(** src/implementations.rs:212-221 [fmt::Write::write_str]; 198-210 [Add<&str>], on
    the value taken and returned. *)
Definition l_write_str (slice : list N) : ST (astring * W) (result unit FmtError) :=
  r <~ l_try_push_str (sret slice) ;;
  sret (map_err (fun _ => mkFmtError) r).
Definition l_add (s : astring) (other : list N) : ST W astring := fun w =>
  let '(o, (s, w)) := l_push_str_truncate (sret other) (s, w) in (omap (fun _ => s) o, w).

(** src/implementations.rs:278-306 [extend]: the string built is read through its
    [as_ref()], which logs. Result: the outcome, the iterator's state, the string and
    the logger's state. *)
Definition l_extend_with {S} (built : W -> outcome astring * S * W) (s : astring) :
    W -> outcome unit * S * astring * W := fun w =>
  match built w with
  | (Ret a, it, w) =>
      let '(o, (s', w)) := l_push_str_truncate (l_as_ref_str a) (s, w) in (o, it, s', w)
  | (Panic, it, w) => (Panic, it, s, w)
  | (UB, it, w) => (UB, it, s, w)
  | (Diverge, it, w) => (Diverge, it, s, w)
  end.
Definition l_extend_chars {S} (fuel : nat) (next : iter S char) (it : S) (s : astring) :=
  l_extend_with (l_from_chars_truncate fuel next it) s.
Definition l_extend_strs {S} (fuel : nat) (next : iter S as_ref_item) (it : S) (s : astring) :=
  l_extend_with (l_from_iterator_truncate fuel next it) s.

(** src/implementations.rs:152-161 [Hash]; 163-172 [PartialEq]; 176-185 [Ord]. *)
Definition l_hash (h : hasher) (s : astring) (st : hstate h) : ST W (hstate h) :=
  b <~ l_as_str s ;; sret (str_hash h b st).
Definition l_partial_eq (s other : astring) : ST W bool :=
  a <~ l_as_str s ;; b <~ l_as_str other ;; sret (str_eq a b).
Definition l_ord_cmp (s other : astring) : ST W comparison :=
  a <~ l_as_str s ;; b <~ l_as_str other ;; sret (str_cmp a b).

(** src/implementations.rs:308-374 [IndexMut]; see [index_mut]. *)
Definition l_index_mut (r : range) : ST (astring * W) (N * list N) :=
  b <~ seen l_as_mut_str ;;
  p <~ slift (str_index_pos (usize_max c) b (to_usize_range r)) ;;
  let '(a, e) := p in sret (a, takeN (e - a) (dropN a b)).

(** The calls of SpecOps.v with logs: [run_op] of ModelOps.v over the functions above. *)
Definition l_out {A} (f : A -> out) (m : ST (astring * W) A) : ST (astring * W) out :=
  a <~ m ;; sret (f a).

Definition l_run_op (o : op) : ST (astring * W) out :=
  match o with
  | OTryPushStr w => l_out ROob (l_try_push_str (sret (enc w)))
  | OPushStrTruncate w => l_out (fun _ => RUnit) (l_push_str_truncate (sret (enc w)))
  | OTryPush x => l_out ROob (l_try_push x)
  | OTruncate n => l_out RUtf8 (l_truncate n)
  | OPop => l_out ROptChar l_pop
  | OTrim => l_out (fun _ => RUnit) l_trim
  | ORemove i => l_out RChar (l_remove i)
  | ORetain _ f x => fun p =>
      let '(r, s', _, w') := l_retain f x (fst p) (snd p) in (omap (fun _ => RUnit) r, (s', w'))
  | OTryInsert i x => l_out RErr (l_try_insert i x)
  | OTryInsertStr i w => l_out RErr (l_try_insert_str i (sret (enc w)))
  | OInsertStrTruncate i w => l_out RErr (l_insert_str_truncate i (sret (enc w)))
  | OClear => l_out (fun _ => RUnit) l_clear
  | ODrain lo hi => r <~ l_drain lo hi ;; slift (part_out c r)
  | OSplitOff i => r <~ l_split_off i ;; slift (part_out c r)
  | OReplaceRange lo hi w => l_out RErr (l_replace_range lo hi (sret (enc w)))
  | OExtendChars _ next it => fun p =>
      let '(r, _, s', w') := l_extend_chars (char_fuel c) next it (fst p) (snd p) in
      (omap (fun _ => RUnit) r, (s', w'))
  | OExtendStrs _ fuel next it => fun p =>
      let '(r, _, s', w') :=
        l_extend_strs fuel (map_iter item_of_pair (map_iter same2 next)) it (fst p) (snd p) in
      (omap (fun _ => RUnit) r, (s', w'))
  | OAdd w => fun p =>
      match l_add (fst p) (enc w) (snd p) with
      | (Ret s', w') => (Ret RUnit, (s', w'))
      | (Panic, w') => (Panic, (fst p, w'))
      | (UB, w') => (UB, (fst p, w'))
      | (Diverge, w') => (Diverge, (fst p, w'))
      end
  | OWriteStr w => l_out (fun r => RFmt (is_ok r)) (l_write_str (enc w))
  | OWriteChar x => l_out (fun r => RFmt (is_ok r)) (b <~ slift (encode_utf8 x 4) ;; l_write_str b)
  | OWriteFmt p => l_out (fun r => RFmt (is_ok r)) (run_fprog l_write_str (formatting_prog p))
  | OOverwrite r w =>
      l_out (fun _ => RUnit)
        (p <~ l_index_mut r ;;
         if lenN (enc w) =? lenN (snd p) then on_self (str_write (fst p) (enc w)) else sret tt)
  | OUpper => l_out (fun _ => RUnit) (b <~ seen l_as_mut ;; on_self (str_write 0 (map to_ascii_uppercase b)))
  | OLower => l_out (fun _ => RUnit) (b <~ seen l_as_mut ;; on_self (str_write 0 (map to_ascii_lowercase b)))
  | OLen => l_out RNum (seen l_len)
  | OIsEmpty => l_out RBool (seen (fun s => b <~ l_as_ref_str s ;; sret (lenN b =? 0)))
  | OCapacity => sret (RNum (capacity c))
  | OAsStr => l_out RBytes (seen l_as_str)
  | OEqStr w => l_out RBool (seen (fun s => b <~ l_as_str s ;; sret (str_eq b (enc w))))
  | ODisplay sp =>
      seen (fun s => b <~ l_as_str s ;;
        slift (match write_one_str buffer b [] with
               | (Ret _, b) => Ret (RBytes b)
               | (Panic, _) => Panic
               | (UB, _) => UB
               | (Diverge, _) => Diverge
               end))
  | OIndex r =>
      l_out RBytes (seen (fun s => b <~ l_as_str s ;; slift (str_index_range (usize_max c) b (to_usize_range r))))
  end.

Fixpoint l_run_ops (l : list op) (s : astring) (w : W) : list (outcome out) * astring * W :=
  match l with
  | [] => ([], s, w)
  | o :: l =>
      let '(r, (s1, w1)) := l_run_op o (s, w) in
      let '(rs, s2, w2) := l_run_ops l s1 w1 in (r :: rs, s2, w2)
  end.

(** The constructors, likewise ([build] of ModelOps.v). *)
Definition l_map {A B} (f : A -> B) (m : ST W A) : ST W B := a <~ m ;; sret (f a).

Definition l_build (k : ctor) : ST W (result astring Error) :=
  match k with
  | CNew => sret (Ok (new c))
  | CDefault => sret (Ok (default c))
  | CTryFromStr w | CParse w => l_map (map_err from_oob) (l_try_from_str (sret (enc w)))
  | CFromStrTruncate w | CFrom w => l_map Ok (l_from_str_truncate (sret (enc w)))
  | CTryFromIterator _ fuel next it =>
      l_map (map_err from_oob) (l_drop (l_try_from_iterator fuel (map_iter item_of_pair next) it))
  | CFromIteratorTruncate _ fuel next it =>
      l_map Ok (l_drop (l_from_iterator_truncate fuel (map_iter item_of_pair next) it))
  | CTryFromChars _ next it =>
      l_map (map_err from_oob) (l_drop (l_try_from_chars (char_fuel c) next it))
  | CFromCharsTruncate _ next it => l_map Ok (l_drop (l_from_chars_truncate (char_fuel c) next it))
  | CCollectStrs _ fuel next it =>
      l_map Ok (l_drop (l_from_iterator_truncate fuel (map_iter item_of_pair (map_iter same2 next)) it))
  | CCollectChars _ next it => l_map Ok (l_drop (l_from_chars_truncate (char_fuel c) next it))
  | CTryFromUtf16 us => l_try_from_utf16 us
  | CFromUtf16Truncate us => l_map (map_err from_utf16_err) (l_from_utf16_truncate us)
  | CFromUtf16Lossy us => l_map Ok (l_from_utf16_lossy_truncate us)
  end.

End WithCfg.
