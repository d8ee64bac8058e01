(** Running the calls of SpecOps.v on [CacheString]: a dispatcher over the
    functions of ModelCache.v (which cite /repo), and histories. *)
From Verif Require Import Base Char.
From Verif Require Export ModelCache ModelOps.

Section WithTarget.
Variable c0 : cfg.
Let c : cfg := mkcfg (usize_max c0) (debug c0) CACHE_STRING_SIZE.

Definition cache_out {A} (f : A -> out) (m : ST CacheString A) : ST CacheString out :=
  a <~ m ;; sret (f a).

(** [fmt::Write]'s provided methods on [CacheString] (src/lib.rs:589-594 overrides
    only [write_str]). *)
Definition cache_write_char (ch : char) : ST CacheString (result unit FmtError) :=
  b <~ slift (encode_utf8 ch 4) ;; cache_write_str c0 b.
Definition cache_write_fmt (p : fprog) : ST CacheString (result unit FmtError) :=
  run_fprog (cache_write_str c0) p.

Definition cache_run_op (o : op) : ST CacheString out := fun s =>
  match o with
  | OTryPushStr w => cache_out ROob (cache_try_push_str c0 (enc w)) s
  | OPushStrTruncate w => cache_out (fun _ => RUnit) (cache_push_str_truncate c0 (enc w)) s
  | OTryPush x => cache_out ROob (cache_try_push c0 x) s
  | OTruncate n => cache_out RUtf8 (cache_truncate c0 n) s
  | OPop => cache_out ROptChar (cache_pop c0) s
  | OTrim => cache_out (fun _ => RUnit) (cache_trim c0) s
  | ORemove i => cache_out RChar (cache_remove c0 i) s
  | ORetain _ f x => let '(r, s', _) := cache_retain c0 f x s in (omap (fun _ => RUnit) r, s')
  | OTryInsert i x => cache_out RErr (cache_try_insert c0 i x) s
  | OTryInsertStr i w => cache_out RErr (cache_try_insert_str c0 i (enc w)) s
  | OInsertStrTruncate i w => cache_out RErr (cache_insert_str_truncate c0 i (enc w)) s
  | OClear => cache_out (fun _ => RUnit) cache_clear s
  | ODrain lo hi =>
      (r <~ cache_drain c0 lo hi ;; slift (part_out c (map_ok drained r))) s
  | OSplitOff i =>
      (r <~ cache_split_off c0 i ;;
       slift (match r with
              | Ok d => b <- cache_as_str c0 d ;; Ret (RPart (Ok b))
              | Err e => Ret (RPart (Err e))
              end)) s
  | OReplaceRange lo hi w => cache_out RErr (cache_replace_range c0 lo hi (enc w)) s
  | OExtendChars _ next it =>
      let '(r, _, s') := cache_extend_chars c0 (char_fuel c) next it s in (omap (fun _ => RUnit) r, s')
  | OExtendStrs _ fuel next it =>
      let '(r, _, s') := cache_extend_strs c0 fuel (map_iter item_of_pair (map_iter same2 next)) it s in
      (omap (fun _ => RUnit) r, s')
  | OAdd w => match cache_add c0 s (enc w) with
              | Ret s' => (Ret RUnit, s')
              | Panic => (Panic, s)
              | UB => (UB, s)
              | Diverge => (Diverge, s)
              end
  | OWriteStr w => cache_out (fun r => RFmt (is_ok r)) (cache_write_str c0 (enc w)) s
  | OWriteChar x => cache_out (fun r => RFmt (is_ok r)) (cache_write_char x) s
  | OWriteFmt p => cache_out (fun r => RFmt (is_ok r)) (cache_write_fmt (formatting_prog p)) s
  | OOverwrite r w =>
      cache_out (fun _ => RUnit)
        (p <~ cache_index_mut c0 r ;;
         if lenN (enc w) =? lenN (snd p) then on_inner (str_write (fst p) (enc w)) else sret tt) s
  | OUpper => cache_out (fun _ => RUnit) (on_inner (make_ascii_uppercase c)) s
  | OLower => cache_out (fun _ => RUnit) (on_inner (make_ascii_lowercase c)) s
  | OLen => (Ret (RNum (cache_len s)), s)
  | OIsEmpty => (omap RBool (cache_is_empty c0 s), s)
  | OCapacity => (Ret (RNum cache_capacity), s)
  | OAsStr => (omap RBytes (cache_as_str c0 s), s)
  | OEqStr w => (omap RBool (cache_eq_str c0 s (enc w)), s)
  | ODisplay sp =>
      match cache_display c0 buffer sp s [] with
      | (Ret _, b) => (Ret (RBytes b), s)
      | (Panic, _) => (Panic, s)
      | (UB, _) => (UB, s)
      | (Diverge, _) => (Diverge, s)
      end
  | OIndex r => (omap RBytes (cache_index c0 s r), s)
  end.

Fixpoint cache_run_ops (l : list op) (s : CacheString) : list (outcome out) * CacheString :=
  match l with
  | [] => ([], s)
  | o :: l =>
      let '(r, s1) := cache_run_op o s in
      let '(rs, s2) := cache_run_ops l s1 in (r :: rs, s2)
  end.

Definition cache_build (k : ctor) : outcome (result CacheString Error) :=
  match k with
  | CNew => Ret (Ok (cache_new c0))
  | CDefault => Ret (Ok (cache_default c0))
  | CTryFromStr w => omap (map_err from_oob) (cache_try_from_str c0 (enc w))
  | CParse w => omap (map_err from_oob) (cache_from_str c0 (enc w))
  | CFromStrTruncate w => omap Ok (cache_from_str_truncate c0 (enc w))
  | CFrom w => omap Ok (cache_from c0 (enc w))
  | CTryFromIterator _ fuel next it =>
      omap (map_err from_oob) (fst (cache_try_from_iterator c0 fuel (map_iter item_of_pair next) it))
  | CFromIteratorTruncate _ fuel next it =>
      omap Ok (fst (cache_from_iterator_truncate c0 fuel (map_iter item_of_pair next) it))
  | CTryFromChars _ next it =>
      omap (map_err from_oob) (fst (cache_try_from_chars c0 (char_fuel c) next it))
  | CFromCharsTruncate _ next it => omap Ok (fst (cache_from_chars_truncate c0 (char_fuel c) next it))
  | CCollectStrs _ fuel next it =>
      omap Ok (fst (cache_from_iter_strs c0 fuel (map_iter item_of_pair (map_iter same2 next)) it))
  | CCollectChars _ next it => omap Ok (fst (cache_from_iter_chars c0 (char_fuel c) next it))
  | CTryFromUtf16 us => cache_try_from_utf16 c0 us
  | CFromUtf16Truncate us => omap (map_err from_utf16_err) (cache_from_utf16_truncate c0 us)
  | CFromUtf16Lossy us => omap Ok (cache_from_utf16_lossy_truncate c0 us)
  end.

End WithTarget.
