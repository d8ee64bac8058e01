(** What the calls tell the logger at level debug: the vocabulary of PropLogLines.v.
    Nothing here refers to the functions of the model, only to its [event]s. *)
From Verif Require Import Base Char Spec RustStd RustFmt ModelError.
From Verif Require Export ObsLogs SpecOps.

(** A logger that keeps the messages. *)
Definition record (e : event) : ST (list event) unit := fun l => (Ret tt, l ++ [e]).

(** The messages of level debug. *)
Definition debug_level (e : event) : bool :=
  match e with
  | EvUtf16 _ _ | EvTruncate _ | EvPop | EvRemove _ | EvSplitOff | EvDrain _ _ _ | EvReplace _ _ _ _ _ => true
  | _ => false
  end.

(** The log grew from [l] to [l'] by the debug messages [news], if that level is on;
    between them messages of level trace stand if that one is. *)
Definition log_grew (tr db : bool) (l : list event) (news : list event) (l' : list event) : Prop :=
  exists m, l' = l ++ m /\ filter debug_level m = (if db then news else []) /\
    (tr = false -> filter debug_level m = m).

(** "Bytes [a..b] of [t] become [w]"; "[w] goes to the end of [t]". *)
Definition edit_line (t : text) (a b : N) (w : text) : event := EvReplace (blen t) a b (blen w) (enc w).
Definition push_line (t w : text) : event := edit_line t (blen t) (blen t) w.

(** Adding characters one by one to [t], until one does not fit. *)
Fixpoint char_lines (cap : N) (t : text) (l : text) : list event :=
  match l with
  | [] => []
  | x :: l => push_line t [x] :: (if blen t + clen x <=? cap then char_lines cap (t ++ [x]) l else [])
  end.

(** The same for the characters that an iterator hands out. *)
Fixpoint pull_lines {IT} (fuel : nat) (cap : N) (next : iter IT char) (it : IT) (t : text) : list event :=
  match fuel with
  | O => []
  | S fuel =>
      match next it with
      | (Ret (Some x), it) =>
          push_line t [x] :: (if blen t + clen x <=? cap then pull_lines fuel cap next it (t ++ [x]) else [])
      | _ => []
      end
  end.

(** Strings: [cut] says that the first that does not fit is tried again, cut. *)
Fixpoint pull_str_lines {IT} (cut : bool) (fuel : nat) (cap : N) (next : iter IT (text * text)) (it : IT) (t : text) :
    list event :=
  match fuel with
  | O => []
  | S fuel =>
      match next it with
      | (Ret (Some (w, w2)), it) =>
          push_line t w ::
          (if blen t + blen w <=? cap then pull_str_lines cut fuel cap next it (t ++ w)
           else if cut then [push_line t (fit (cap - blen t) w2)] else [])
      | _ => []
      end
  end.

(** The characters a closure keeps before it fails, if it does. *)
Fixpoint kept {F} (f : char -> ST F bool) (x : F) (t : text) : text :=
  match t with
  | [] => []
  | a :: r =>
      match f a x with
      | (Ret keep, x1) => if keep then a :: kept f x1 r else kept f x1 r
      | _ => []
      end
  end.

Fixpoint fmt_lines (cap : N) (p : formatting) (t : text) : list event :=
  match p with
  | FStop _ | FPanic => []
  | FPiece w next => push_line t w :: (let '(b, t') := t_write_str cap w t in fmt_lines cap (next b) t')
  end.

Definition drain_lines (umax : N) (lo hi : bound) (t : text) : list event :=
  let a := range_from umax lo in
  let b := range_to umax (blen t) hi in
  EvDrain (blen t) a b ::
  match fst (t_drain umax lo hi t) with
  | Ok part => [push_line [] part; edit_line t a b []]
  | Err _ => []
  end.

(** An index behind the end is refused without a message. *)
Definition insert_lines (i : N) (w t : text) : list event :=
  if blen t <? i then [] else [edit_line t i i w].

(** The debug messages of a call on a text, in order. *)
Definition debug_lines (umax cap : N) (o : op) (t : text) : list event :=
  match o with
  | OTryPushStr w | OWriteStr w => [push_line t w]
  | OPushStrTruncate w | OAdd w => [push_line t (fit (cap - blen t) w)]
  | OTryPush x | OWriteChar x => [push_line t [x]]
  | OTruncate n => [EvTruncate n]
  | OPop => [EvPop]
  | OTrim =>
      let shorter := rev (skip_ws (rev t)) in
      match t, shorter with
      | _ :: _, [] => []
      | _, _ => [edit_line t (blen shorter) (blen t) []; edit_line shorter 0 (blen t - blen (skip_ws t)) []]
      end
  | ORemove i =>
      EvRemove i :: match fst (t_remove i t) with
                    | Ok x => [edit_line t i (i + clen x) []]
                    | Err _ => []
                    end
  | ORetain _ f x => char_lines cap [] (kept f x t)
  | OTryInsert i x => insert_lines i [x] t
  | OTryInsertStr i w => insert_lines i w t
  | OInsertStrTruncate i w => insert_lines i (fit (cap - blen t) w) t
  | ODrain lo hi => drain_lines umax lo hi t
  | OSplitOff i => EvSplitOff :: drain_lines umax (Included i) Unbounded t
  | OReplaceRange lo hi w => [edit_line t (range_from umax lo) (range_to umax (blen t) hi) w]
  | OExtendChars _ next it =>
      pull_lines (N.to_nat cap + 2) cap next it [] ++
      match fst (t_collect (N.to_nat cap + 2) cap next it) with
      | Ret u => [push_line t (fit (cap - blen t) u)]
      | _ => []
      end
  | OExtendStrs _ fuel next it =>
      pull_str_lines true fuel cap (map_iter same2 next) it [] ++
      match fst (t_collect_strs fuel cap (map_iter same2 next) it) with
      | Ret u => [push_line t (fit (cap - blen t) u)]
      | _ => []
      end
  | OWriteFmt p => fmt_lines cap p t
  | OClear | OOverwrite _ _ | OUpper | OLower | OLen | OIsEmpty | OCapacity | OAsStr | OEqStr _ | ODisplay _ | OIndex _ => []
  end.

(** A history of calls. *)
Fixpoint history_lines (umax cap : N) (l : list op) (t : text) : list event :=
  match l with
  | [] => []
  | o :: l => debug_lines umax cap o t ++ history_lines umax cap l (snd (t_op umax cap o t))
  end.

(** The debug messages of a constructor. *)
Definition build_lines (cap : N) (k : ctor) : list event :=
  match k with
  | CNew | CDefault => []
  | CTryFromStr w | CParse w => [push_line [] w]
  | CFromStrTruncate w | CFrom w => [push_line [] (fit cap w)]
  | CTryFromIterator _ fuel next it => pull_str_lines false fuel cap next it []
  | CFromIteratorTruncate _ fuel next it => pull_str_lines true fuel cap next it []
  | CTryFromChars _ next it | CFromCharsTruncate _ next it | CCollectChars _ next it =>
      pull_lines (N.to_nat cap + 2) cap next it []
  | CCollectStrs _ fuel next it => pull_str_lines true fuel cap (map_iter same2 next) it []
  | CTryFromUtf16 us | CFromUtf16Truncate us =>
      EvUtf16 false us :: char_lines cap [] (valid_prefix (t_decode16 us))
  | CFromUtf16Lossy us => EvUtf16 true us :: char_lines cap [] (lossy (t_decode16 us))
  end.

(** The message with which a call begins. *)
Definition announces (s : astring) (o : op) : option event :=
  match o with
  | OTryPushStr w | OWriteStr w => Some (EvPushStr (enc w))
  | OPushStrTruncate w | OAdd w => Some (EvPushStrTruncate (enc w))
  | OTryPush x => Some (EvPush x)
  | OWriteChar x => Some (EvPushStr (enc [x]))
  | OWriteFmt (FPiece w _) => Some (EvPushStr (enc w))
  | OWriteFmt _ | OCapacity => None
  | OTruncate n => Some (EvTruncate n)
  | OPop => Some EvPop
  | OTrim => Some (EvTrim s)
  | ORemove i => Some (EvRemove i)
  | ORetain _ _ _ => Some EvRetain
  | OTryInsert i x => Some (EvTryInsertStr i (enc [x]) s)
  | OTryInsertStr i w => Some (EvTryInsertStr i (enc w) s)
  | OInsertStrTruncate i w => Some (EvInsertStrTruncate i (enc w) s)
  | OClear => Some EvClear
  | OSplitOff _ => Some EvSplitOff
  | OExtendChars _ _ _ => Some EvFromCharsTruncate
  | OExtendStrs _ _ _ _ => Some EvFromIteratorTruncate
  | OLen | OIsEmpty | ODrain _ _ | OReplaceRange _ _ _ | OUpper | OLower => Some EvLen
  | OAsStr | OEqStr _ | ODisplay _ | OIndex _ => Some EvAsStr
  | OOverwrite _ _ => Some (EvAsMutStr s)
  end.

Definition announces_new (k : ctor) : option event :=
  match k with
  | CNew | CDefault => None
  | CTryFromStr w | CParse w => Some (EvTryFromStr (enc w))
  | CFromStrTruncate w | CFrom w => Some (EvFromStrTruncate (enc w))
  | CTryFromIterator _ _ _ _ => Some EvTryFromIterator
  | CFromIteratorTruncate _ _ _ _ | CCollectStrs _ _ _ _ => Some EvFromIteratorTruncate
  | CTryFromChars _ _ _ => Some EvTryFromChars
  | CFromCharsTruncate _ _ _ | CCollectChars _ _ _ => Some EvFromCharsTruncate
  | CTryFromUtf16 us | CFromUtf16Truncate us => Some (EvUtf16 false us)
  | CFromUtf16Lossy us => Some (EvUtf16 true us)
  end.
