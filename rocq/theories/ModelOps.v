(** Running the calls of SpecOps.v on the model: a dispatcher over the functions
    of Model.v, ModelImpl.v and ModelDrain.v (which cite /repo), and histories. *)
From Verif Require Import Base Char.
From Verif Require Export ModelDrain SpecOps.

(** Result of a state transformer, with the value returned turned into [out]. *)
Definition to_out {A} (f : A -> out) (m : ST astring A) : ST astring out :=
  a <~ m ;; sret (f a).

Definition is_ok {A E} (r : result A E) : bool := match r with Ok _ => true | Err _ => false end.

(** A sink that collects what is written; for [to_string] and friends. *)
Definition buffer : sink (list N) := mksink
  (fun b w => (Ret (Ok tt), w ++ b))
  (fun x w => (b <~ slift (encode_utf8 x 4) ;; _ <~ smodify (fun w => w ++ b) ;; sret (Ok tt)) w).

(** The byte level program of a formatting: see [fprog]. *)
Fixpoint formatting_prog (p : formatting) : fprog :=
  match p with
  | FStop b => PEnd (if b then Ok tt else Err mkFmtError)
  | FPanic => PPanic
  | FPiece w next => PWrite (enc w) (fun r => formatting_prog (next (is_ok r)))
  end.

Definition item_of_pair (p : text * text) : as_ref_item := mkitem (enc (fst p)) (enc (snd p)).

Section WithCfg.
Variable c : cfg.

(** A part handed out by [drain] / [split_off], shown by its [as_str]. *)
Definition part_out (r : result astring Error) : outcome out :=
  match r with
  | Ok d => b <- as_str c d ;; Ret (RPart (Ok b))
  | Err e => Ret (RPart (Err e))
  end.

Definition run_op (o : op) : ST astring out := fun s =>
  match o with
  | OTryPushStr w => to_out ROob (try_push_str c (enc w)) s
  | OPushStrTruncate w => to_out (fun _ => RUnit) (push_str_truncate c (enc w)) s
  | OTryPush x => to_out ROob (try_push c x) s
  | OTruncate n => to_out RUtf8 (truncate c n) s
  | OPop => to_out ROptChar (pop c) s
  | OTrim => to_out (fun _ => RUnit) (trim c) s
  | ORemove i => to_out RChar (remove c i) s
  | ORetain _ f x => let '(r, s', _) := retain c f x s in (omap (fun _ => RUnit) r, s')
  | OTryInsert i x => to_out RErr (try_insert c i x) s
  | OTryInsertStr i w => to_out RErr (try_insert_str c i (enc w)) s
  | OInsertStrTruncate i w => to_out RErr (insert_str_truncate c i (enc w)) s
  | OClear => to_out (fun _ => RUnit) clear s
  | ODrain lo hi =>
      (r <~ drain_iter c lo hi ;; slift (part_out (map_ok drained r))) s
  | OSplitOff i => (r <~ split_off c i ;; slift (part_out r)) s
  | OReplaceRange lo hi w => to_out RErr (replace_range c lo hi (enc w)) s
  | OExtendChars _ next it =>
      let '(r, _, s') := extend_chars c (char_fuel c) next it s in (omap (fun _ => RUnit) r, s')
  | OExtendStrs _ fuel next it =>
      let '(r, _, s') := extend_strs c fuel (map_iter item_of_pair (map_iter same2 next)) it s in
      (omap (fun _ => RUnit) r, s')
  | OAdd w => match add c s (enc w) with
              | Ret s' => (Ret RUnit, s')
              | Panic => (Panic, s)
              | UB => (UB, s)
              | Diverge => (Diverge, s)
              end
  | OWriteStr w => to_out (fun r => RFmt (is_ok r)) (write_str c (enc w)) s
  | OWriteChar x => to_out (fun r => RFmt (is_ok r)) (write_char c x) s
  | OWriteFmt p => to_out (fun r => RFmt (is_ok r)) (write_fmt c (formatting_prog p)) s
  | OOverwrite r w =>
      to_out (fun _ => RUnit)
        (p <~ index_mut c r ;;
         if lenN (enc w) =? lenN (snd p) then str_write (fst p) (enc w) else sret tt) s
  | OUpper => to_out (fun _ => RUnit) (make_ascii_uppercase c) s
  | OLower => to_out (fun _ => RUnit) (make_ascii_lowercase c) s
  | OLen => (Ret (RNum (len s)), s)
  | OIsEmpty => (omap RBool (is_empty c s), s)
  | OCapacity => (Ret (RNum (capacity c)), s)
  | OAsStr => (omap RBytes (as_str c s), s)
  | OEqStr w => (omap RBool (eq_str c s (enc w)), s)
  | ODisplay sp =>
      match display c buffer sp s [] with
      | (Ret _, b) => (Ret (RBytes b), s)
      | (Panic, _) => (Panic, s)
      | (UB, _) => (UB, s)
      | (Diverge, _) => (Diverge, s)
      end
  | OIndex r => (omap RBytes (index c s r), s)
  end.

Fixpoint run_ops (l : list op) (s : astring) : list (outcome out) * astring :=
  match l with
  | [] => ([], s)
  | o :: l =>
      let '(r, s1) := run_op o s in
      let '(rs, s2) := run_ops l s1 in (r :: rs, s2)
  end.

(** The value a constructor makes, or its error in the common error type. *)
Definition build (k : ctor) : outcome (result astring Error) :=
  match k with
  | CNew => Ret (Ok (new c))
  | CDefault => Ret (Ok (default c))
  | CTryFromStr w => omap (map_err from_oob) (try_from_str c (enc w))
  | CParse w => omap (map_err from_oob) (from_str c (enc w))
  | CFromStrTruncate w => omap Ok (from_str_truncate c (enc w))
  | CFrom w => omap Ok (from_ref_str c (enc w))
  | CTryFromIterator _ fuel next it =>
      omap (map_err from_oob) (fst (try_from_iterator c fuel (map_iter item_of_pair next) it))
  | CFromIteratorTruncate _ fuel next it =>
      omap Ok (fst (from_iterator_truncate c fuel (map_iter item_of_pair next) it))
  | CTryFromChars _ next it =>
      omap (map_err from_oob) (fst (try_from_chars c (char_fuel c) next it))
  | CFromCharsTruncate _ next it => omap Ok (fst (from_chars_truncate c (char_fuel c) next it))
  | CCollectStrs _ fuel next it =>
      omap Ok (fst (from_iter_strs c fuel (map_iter item_of_pair (map_iter same2 next)) it))
  | CCollectChars _ next it => omap Ok (fst (from_iter_chars c (char_fuel c) next it))
  | CTryFromUtf16 us => try_from_utf16 c us
  | CFromUtf16Truncate us => omap (map_err from_utf16_err) (from_utf16_truncate c us)
  | CFromUtf16Lossy us => omap Ok (from_utf16_lossy_truncate c us)
  end.

(** Values a program can get hold of: made by a constructor, left by a call
    (also one that panicked and was caught), handed out by [split_off], or held
    by a [Drain] in any stage of its use. *)
Inductive reachable : astring -> Prop :=
| reach_build k s : typed_ctor k -> build k = Ret (Ok s) -> reachable s
| reach_op o s r s' : reachable s -> typed_op o -> run_op o s = (r, s') -> reachable s'
| reach_split i s d s' : reachable s -> split_off c i s = (Ret (Ok d), s') -> reachable d
| reach_drain lo hi s d s' : reachable s -> drain_iter c lo hi s = (Ret (Ok d), s') -> reachable (drained d)
| reach_next d r d' : reachable (drained d) -> drain_next c d = (r, d') -> reachable (drained d')
| reach_back d r d' : reachable (drained d) -> drain_next_back c d = (r, d') -> reachable (drained d').

End WithCfg.
