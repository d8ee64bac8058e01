(** The other methods of [ArrayString] with the borrows they make, in the style of
    ModelBorrows.v: src/arraystring.rs:336-892 and src/implementations.rs:108-452,
    for every call of [op] (SpecOps.v).

    Arguments of a method are evaluated before [self] is reborrowed for the call.
    Strings built along the way and arguments are in other memory. *)
From Verif Require Import Base Char Spec RustStd ModelError Model RustFmt ModelImpl ModelDrain ModelOps
  Borrows ModelBorrows.

Section WithCfg.
Variable c : cfg.

(** A function of core that reads a [&str] made by [as_str]. *)
Definition b_read (t n : N) : ST mem unit := call SharedRO t 0 n (fun r => on_tags (access false r 0 n)).
Definition b_str (t : N) : ST mem (list N) :=
  p <~ b_as_str c t ;;
  _ <~ b_read (fst p) (lenN (snd p)) ;;
  sret (snd p).

(** [self.size = n] and [*self = s] through a [&mut self] with tag [t]. *)
Definition b_set_size (t n : N) : ST mem unit :=
  _ <~ on_tags (access true t (cap c) 1) ;; on_val (set_size n).
Definition b_assign (t : N) (s : astring) : ST mem unit :=
  _ <~ on_tags (access true t 0 (cap c + 1)) ;; on_val (smodify (fun _ => s)).

(** src/arraystring.rs:389-396 [try_push_str]. *)
Definition b_try_push_str (own : N) (string : list N) : ST mem (result unit OutOfBounds) :=
  call_self c Unique own (fun self =>
    n <~ b_len c self ;;
    r <~ b_replace_range c self (Included n) (Excluded n) string ;;
    sret (map_err (fun _ => mkOutOfBounds) r)).

(** src/arraystring.rs:416-421 [push_str_truncate]. *)
Definition b_push_str_truncate (own : N) (string : list N) : ST mem unit :=
  call_self c Unique own (fun self =>
    n <~ b_len c self ;;
    t <~ slift (n <- usub c (capacity c) n ;; truncate_str c string n) ;;
    _ <~ b_try_push_str self t ;;
    sret tt).

(** src/arraystring.rs:440-446 [try_push]. *)
Definition b_try_push (own : N) (ch : char) : ST mem (result unit OutOfBounds) :=
  call_self c Unique own (fun self =>
    b <~ slift (encode_utf8 ch 4) ;;
    b_try_push_str self b).

(** src/arraystring.rs:468-474 [truncate]. *)
Definition b_truncate (own n : N) : ST mem (result unit Utf8) :=
  call_self c Unique own (fun self =>
    l <~ b_len c self ;;
    let len := N.min l n in
    r <~ b_is_char_boundary c self len ;;
    match r with
    | Ok _ => _ <~ b_set_size self (into_lossy len) ;; sret (Ok tt)
    | Err e => sret (Err e)
    end).

(** src/arraystring.rs:489-497 [pop]: the closure holds a [&mut self.size]. *)
Definition b_pop (own : N) : ST mem (option char) :=
  call_self c Unique own (fun self =>
    b <~ b_str self ;;
    o <~ slift (chars_last b) ;;
    size_ <~ on_tags (reborrow Unique self (cap c) 1) ;;
    match o with
    | None => sret None
    | Some ch =>
        _ <~ on_tags (access false size_ (cap c) 1) ;;
        n <~ on_val (sread (fun s => u8sub c (size s) (into_lossy (len_utf8 ch)))) ;;
        _ <~ b_set_size size_ n ;;
        sret (Some ch)
    end).

(** src/arraystring.rs:515-540 [trim]. *)
Definition b_trim (own : N) : ST mem unit :=
  call_self c Unique own (fun self =>
    n <~ b_len c self ;;
    b <~ b_str self ;;
    start <~ slift (trim_start_loop (S (length b)) (0, b) n) ;;
    n <~ b_len c self ;;
    b <~ b_str self ;;
    e <~ slift (trim_end_loop (S (length b)) (0, b) start n) ;;
    match e with
    | None => b_set_size self 0
    | Some end_ =>
        _ <~ b_replace_range c self (Included end_) Unbounded [] ;;
        _ <~ b_replace_range c self Unbounded (Excluded start) [] ;;
        sret tt
    end).

(** src/arraystring.rs:566-569: the loop of [remove]. *)
Fixpoint b_next_boundary (fuel : nat) (self end_ : N) : ST mem N :=
  match fuel with
  | O => slift Diverge
  | S fuel =>
      b <~ b_str self ;;
      if str_is_char_boundary b end_ then sret end_
      else end_ <~ slift (uadd c end_ 1) ;; b_next_boundary fuel self end_
  end.

(** src/arraystring.rs:559-580 [remove]. *)
Definition b_remove (own idx : N) : ST mem (result char Error) :=
  call_self c Unique own (fun self =>
    n <~ b_len c self ;;
    _ <~? from_oob ? sret (is_inside_boundary (sat_add c idx 1) n) ;;
    _ <~? from_utf8_err ? b_is_char_boundary c self idx ;;
    n <~ b_len c self ;;
    end_ <~ (e <~ slift (if idx =? n then Ret idx else uadd c idx 1) ;;
             b_next_boundary (S (N.to_nat (cap c))) self e) ;;
    b <~ b_str self ;;
    sub <~? (fun e => e) ?
      sret (match str_get b idx end_ with Some r => Ok r | None => Err EOutOfBounds end) ;;
    ch <~? (fun e => e) ?
      slift (o <- chars_next sub ;; Ret (match o with Some (ch, _) => Ok ch | None => Err EUtf8 end)) ;;
    n <~ slift (uadd c idx (len_utf8 ch)) ;;
    _ <~? (fun e => e) ? b_replace_range c self (Included idx) (Excluded n) [] ;;
    sret (Ok ch)).

(** src/arraystring.rs:594-600 [retain]: the [&str] that is filtered is used until
    the new value is complete; the closure cannot reach [*self]. *)
Definition b_retain {F} (own : N) (f : char -> ST F bool) (x : F) : ST mem unit :=
  call_self c Unique own (fun self =>
    s <~ (p <~ b_as_str c self ;;
          s <~ slift (fst (from_chars_truncate c (S (length (snd p)))
                             (filter_next (S (length (snd p))) chars_iter f) (snd p, x))) ;;
          _ <~ b_read (fst p) (lenN (snd p)) ;;
          sret s) ;;
    b_assign self s).

(** src/arraystring.rs:656-662 [try_insert_str]. *)
Definition b_try_insert_str (own idx : N) (string : list N) : ST mem (result unit Error) :=
  call_self c Unique own (fun self =>
    n <~ b_len c self ;;
    _ <~? from_oob ? sret (is_inside_boundary idx n) ;;
    b_replace_range c self (Included idx) (Excluded idx) string).

(** src/arraystring.rs:626-631 [try_insert]. *)
Definition b_try_insert (own idx : N) (ch : char) : ST mem (result unit Error) :=
  call_self c Unique own (fun self =>
    b <~ slift (encode_utf8 ch 4) ;;
    b_try_insert_str self idx b).

(** src/arraystring.rs:690-703 [insert_str_truncate]. *)
Definition b_insert_str_truncate (own idx : N) (string : list N) : ST mem (result unit Error) :=
  call_self c Unique own (fun self =>
    n <~ b_len c self ;;
    t <~ slift (n <- usub c (capacity c) n ;; truncate_str c string n) ;;
    _ <~? (fun e => e) ? b_try_insert_str self idx t ;;
    sret (Ok tt)).

(** src/arraystring.rs:766-771 [clear]. *)
Definition b_clear (own : N) : ST mem unit := call_self c Unique own (fun self => b_set_size self 0).

(** src/arraystring.rs:790-820 [drain]; lines 813-816 are the unsafe block: a part of
    the [&str] is copied into a new string before [replace_range] is called. *)
Definition b_drain (own : N) (lo hi : bound) : ST mem (result astring Error) :=
  call_self c Unique own (fun self =>
    let start := start_of c lo in
    end_ <~ match hi with
            | Unbounded => b_len c self
            | _ => sret (end_of c hi 0)
            end ;;
    _ <~? from_oob ? sret (is_inside_boundary start end_) ;;
    n <~ b_len c self ;;
    _ <~? from_oob ? sret (is_inside_boundary end_ n) ;;
    _ <~? from_utf8_err ? b_is_char_boundary c self start ;;
    _ <~? from_utf8_err ? b_is_char_boundary c self end_ ;;
    _ <~ (if debug c then
            n <~ b_len c self ;;
            slift (debug_assert c (Ret ((start <=? end_) && (end_ <=? n))))
          else sret tt) ;;
    _ <~ (if debug c then
            b <~ b_str self ;; slift (debug_assert c (Ret (str_is_char_boundary b start)))
          else sret tt) ;;
    _ <~ (if debug c then
            b <~ b_str self ;; slift (debug_assert c (Ret (str_is_char_boundary b end_)))
          else sret tt) ;;
    slice <~ (p <~ b_as_str c self ;;
              slice <~ slift (str_get_unchecked (snd p) start end_) ;;
              v <~ call SharedRO (fst p) 0 (lenN (snd p)) (fun r =>
                     on_tags (reborrow SharedRO r start (end_ - start))) ;;
              _ <~ call SharedRO v start (end_ - start) (fun r =>
                     on_tags (access false r start (end_ - start))) ;;
              sret slice) ;;
    drain <~? from_oob ? slift (try_from_str c slice) ;;
    _ <~? (fun e => e) ? b_replace_range c self (Included start) (Excluded end_) [] ;;
    sret (Ok drain)).

(** src/arraystring.rs:745-751 [split_off]. *)
Definition b_split_off (own at_ : N) : ST mem (result astring Error) :=
  call_self c Unique own (fun self =>
    drained <~? (fun e => e) ? b_drain self (Included at_) Unbounded ;;
    sret (Ok drained)).

(** src/implementations.rs:278-286 [Extend<char>], 298-306 [Extend<&str>]: [built] is
    the string made from the items. *)
Definition b_extend (own : N) (built : outcome astring) : ST mem unit :=
  call_self c Unique own (fun self =>
    a <~ slift built ;;
    b <~ slift (as_ref_str c a) ;;
    b_push_str_truncate self b).

(** src/implementations.rs:198-210 [Add<&str>], as in [s = s + other]: the value is
    moved into the function, which works on its own copy, and the result is moved back. *)
Definition b_add (own : N) (other : list N) : ST mem unit :=
  _ <~ on_tags (access false own 0 (cap c + 1)) ;;
  a <~ on_val (sread (fun s => add c s other)) ;;
  b_assign own a.

(** src/implementations.rs:212-221 [write_str], and core's [write_char] and [write_fmt]. *)
Definition b_write_str (own : N) (slice : list N) : ST mem (result unit FmtError) :=
  call_self c Unique own (fun self =>
    r <~ b_try_push_str self slice ;;
    sret (map_err (fun _ => mkFmtError) r)).
Definition b_write_char (own : N) (ch : char) : ST mem (result unit FmtError) :=
  call_self c Unique own (fun self =>
    b <~ slift (encode_utf8 ch 4) ;; b_write_str self b).
Definition b_write_fmt (own : N) (p : fprog) : ST mem (result unit FmtError) :=
  call_self c Unique own (fun self => run_fprog (b_write_str self) p).

(** src/arraystring.rs:354-359 [as_mut_str]; src/implementations.rs:247-256 [deref_mut]. *)
Definition b_as_mut_str (own : N) : ST mem (N * list N) := call_self c Unique own (b_as_mut c).

(** [make_ascii_uppercase] and [make_ascii_lowercase] of [str]. *)
Definition b_recase (own : N) (f : N -> N) : ST mem unit :=
  p <~ b_as_mut_str own ;;
  b_write (fst p) 0 (map f (snd p)).

(** src/implementations.rs:308-374 [IndexMut]: tag, position and bytes of the slice. *)
Definition b_index_mut (own : N) (r : range) : ST mem (N * N * list N) :=
  call_self c Unique own (fun self =>
    p <~ b_as_mut_str self ;;
    ae <~ slift (str_index_pos (usize_max c) (snd p) (to_usize_range r)) ;;
    let '(a, e) := ae in
    v <~ call Unique (fst p) 0 (lenN (snd p)) (fun r => on_tags (reborrow Unique r a (e - a))) ;;
    sret (v, a, takeN (e - a) (dropN a (snd p)))).

(** src/implementations.rs:376-452 [Index]: the slice, read by the caller. *)
Definition b_index (own : N) (r : range) : ST mem (N * N * list N) :=
  call_self c SharedRO own (fun self =>
    p <~ b_as_str c self ;;
    ae <~ slift (str_index_pos (usize_max c) (snd p) (to_usize_range r)) ;;
    let '(a, e) := ae in
    v <~ call SharedRO (fst p) 0 (lenN (snd p)) (fun r => on_tags (reborrow SharedRO r a (e - a))) ;;
    sret (v, a, takeN (e - a) (dropN a (snd p)))).

(** ** All calls of [op] *)
Definition b_out {A} (f : A -> out) (m : ST mem A) : ST mem out := a <~ m ;; sret (f a).

Definition b_run_op (own : N) (o : op) : ST mem out :=
  match o with
  | OTryPushStr w => b_out ROob (b_try_push_str own (enc w))
  | OPushStrTruncate w => b_out (fun _ => RUnit) (b_push_str_truncate own (enc w))
  | OTryPush x => b_out ROob (b_try_push own x)
  | OTruncate n => b_out RUtf8 (b_truncate own n)
  | OPop => b_out ROptChar (b_pop own)
  | OTrim => b_out (fun _ => RUnit) (b_trim own)
  | ORemove i => b_out RChar (b_remove own i)
  | ORetain _ f x => b_out (fun _ => RUnit) (b_retain own f x)
  | OTryInsert i x => b_out RErr (b_try_insert own i x)
  | OTryInsertStr i w => b_out RErr (b_try_insert_str own i (enc w))
  | OInsertStrTruncate i w => b_out RErr (b_insert_str_truncate own i (enc w))
  | OClear => b_out (fun _ => RUnit) (b_clear own)
  | ODrain lo hi => r <~ b_drain own lo hi ;; slift (part_out c r)
  | OSplitOff i => r <~ b_split_off own i ;; slift (part_out c r)
  | OReplaceRange lo hi w => b_out RErr (b_replace_range c own lo hi (enc w))
  | OExtendChars _ next it =>
      b_out (fun _ => RUnit) (b_extend own (fst (from_chars_truncate c (char_fuel c) next it)))
  | OExtendStrs _ fuel next it =>
      b_out (fun _ => RUnit) (b_extend own (fst (from_iterator_truncate c fuel
        (map_iter item_of_pair (map_iter same2 next)) it)))
  | OAdd w => b_out (fun _ => RUnit) (b_add own (enc w))
  | OWriteStr w => b_out (fun r => RFmt (is_ok r)) (b_write_str own (enc w))
  | OWriteChar x => b_out (fun r => RFmt (is_ok r)) (b_write_char own x)
  | OWriteFmt p => b_out (fun r => RFmt (is_ok r)) (b_write_fmt own (formatting_prog p))
  | OOverwrite r w =>
      b_out (fun _ => RUnit)
        (p <~ b_index_mut own r ;;
         let '(v, a, bs) := p in
         if lenN (enc w) =? lenN bs then b_write v a (enc w) else sret tt)
  | OUpper => b_out (fun _ => RUnit) (b_recase own to_ascii_uppercase)
  | OLower => b_out (fun _ => RUnit) (b_recase own to_ascii_lowercase)
  | OLen => b_out RNum (b_len c own)
  | OIsEmpty => b_out (fun b => RBool (lenN b =? 0)) (b_str own)
  | OCapacity => sret (RNum (capacity c))
  | OAsStr => b_out RBytes (b_str own)
  | OEqStr w =>
      b_out (fun b => RBool (str_eq b (enc w))) (call_self c SharedRO own b_str)
  | ODisplay _ =>
      call_self c SharedRO own (fun self =>
        b <~ b_str self ;;
        slift (match write_one_str buffer b [] with
               | (Ret _, w) => Ret (RBytes w)
               | (Panic, _) => Panic
               | (UB, _) => UB
               | (Diverge, _) => Diverge
               end))
  | OIndex r =>
      p <~ b_index own r ;;
      let '(v, a, bs) := p in
      _ <~ on_tags (access false v a (lenN bs)) ;;
      sret (RBytes bs)
  end.

Fixpoint b_run_ops (own : N) (l : list op) (m : mem) : list (outcome out) * mem :=
  match l with
  | [] => ([], m)
  | o :: l =>
      let '(r, m1) := b_run_op own o m in
      let '(rs, m2) := b_run_ops own l m1 in (r :: rs, m2)
  end.
End WithCfg.
