(** Everything the calls tell the logger: the vocabulary of PropLogStory.v. Nothing here
    refers to the functions of the model, only to its [event]s and, for the [{self}] of a
    message, to the value shown. *)
From Verif Require Import Base Char Spec RustStd RustFmt ModelError.
From Verif Require Export Obs ObsLogLines.

(** All messages but "Len" and "As str": those two come from every look at the string, and
    how often the code looks depends on the debug assertions. *)
Definition speaks (e : event) : bool :=
  match e with
  | EvLen | EvAsStr => false
  | _ => true
  end.

(** The log grew from [l] to [l'], by messages of levels that are on; without "Len" and
    "As str" they are those of the story [news] whose level is on. *)
Definition story_grew (tr db : bool) (l : list event) (news : list event) (l' : list event) : Prop :=
  exists m, l' = l ++ m /\ Forall (fun e => level_on tr db e = true) m /\
    filter speaks m = filter (level_on tr db) news.

(** A check on a string with text [t] that does not hold is followed by the message of the
    error it is turned into. *)
Definition fails (t : text) (e : event) : option event :=
  match e with
  | EvInside n limit => if n <=? limit then None else Some EvFromOutOfBounds
  | EvBoundary _ i => match split_at i t with Some _ => None | None => Some EvFromUtf8 end
  | _ => None
  end.

(** Checks one after the other up to the first that does not hold; if all hold, [rest]. *)
Fixpoint checks (t : text) (l : list event) (rest : list event) : list event :=
  match l with
  | [] => rest
  | e :: l => e :: match fails t e with Some x => [x] | None => checks t l rest end
  end.

Section Cap.
Variable cap : N.

(** Bytes [a..b] of [t] become [w]. *)
Definition edit_story (t : text) (a b : N) (w : text) : list event :=
  edit_line t a b w ::
  if (a =? b) && (blen w =? 0) then []
  else checks t [EvInside a b; EvInside b (blen t); EvInside (blen w) cap;
                 EvBoundary (enc t) a; EvBoundary (enc t) b;
                 EvInside (blen t + blen w + a - b) cap] [].

(** [w] goes to the end of [t], all of it or as much as fits; one character does. *)
Definition push_story (t w : text) : list event :=
  EvPushStr (enc w) :: edit_story t (blen t) (blen t) w.
Definition push_cut_story (t w : text) : list event :=
  EvPushStrTruncate (enc w) :: EvTruncateStr (enc w) (cap - blen t) :: push_story t (fit (cap - blen t) w).
Definition push_char_story (t : text) (x : char) : list event := EvPush x :: push_story t [x].

(** Characters one by one, until one does not fit: then [refusal] follows. *)
Fixpoint char_story (refusal : list event) (t : text) (l : text) : list event :=
  match l with
  | [] => []
  | x :: l => push_char_story t x ++ (if blen t + clen x <=? cap then char_story refusal (t ++ [x]) l else refusal)
  end.

(** The same for what an iterator hands out; strings that do not fit may be tried again. *)
Fixpoint pull_story {IT} (fuel : nat) (next : iter IT char) (it : IT) (t : text) : list event :=
  match fuel with
  | O => []
  | S fuel =>
      match next it with
      | (Ret (Some x), it) =>
          push_char_story t x ++ (if blen t + clen x <=? cap then pull_story fuel next it (t ++ [x]) else [])
      | _ => []
      end
  end.
Fixpoint pull_str_story {IT} (cut : bool) (fuel : nat) (next : iter IT (text * text)) (it : IT) (t : text) :
    list event :=
  match fuel with
  | O => []
  | S fuel =>
      match next it with
      | (Ret (Some (w, w2)), it) =>
          push_story t w ++
          (if blen t + blen w <=? cap then pull_str_story cut fuel next it (t ++ w)
           else if cut then push_cut_story t w2 else [])
      | _ => []
      end
  end.

Fixpoint fmt_story (p : formatting) (t : text) : list event :=
  match p with
  | FStop _ | FPanic => []
  | FPiece w next => push_story t w ++ (let '(b, t') := t_write_str cap w t in fmt_story (next b) t')
  end.

(** [self]: the value that the call finds, shown in the message. *)
Definition insert_story (self : astring) (i : N) (w t : text) : list event :=
  EvTryInsertStr i (enc w) self :: checks t [EvInside i (blen t)] (edit_story t i i w).

Definition drain_story (umax : N) (lo hi : bound) (t : text) : list event :=
  let a := range_from umax lo in
  let b := range_to umax (blen t) hi in
  EvDrain (blen t) a b ::
  checks t [EvInside a b; EvInside b (blen t); EvBoundary (enc t) a; EvBoundary (enc t) b]
    match fst (t_drain umax lo hi t) with
    | Ok part => EvTryFromStr (enc part) :: push_story [] part ++ edit_story t a b []
    | Err _ => []
    end.

(** The messages of a call on a string [self] with text [t], in order. *)
Definition story (umax : N) (self : astring) (o : op) (t : text) : list event :=
  match o with
  | OTryPushStr w | OWriteStr w => push_story t w
  | OPushStrTruncate w | OAdd w => push_cut_story t w
  | OTryPush x => push_char_story t x
  | OWriteChar x => push_story t [x]
  | OTruncate n => [EvTruncate n; EvBoundary (enc t) (N.min (blen t) n)]
  | OPop => [EvPop]
  | OTrim =>
      let shorter := rev (skip_ws (rev t)) in
      EvTrim self ::
      match t, shorter with
      | _ :: _, [] => []
      | _, _ => edit_story t (blen shorter) (blen t) [] ++ edit_story shorter 0 (blen t - blen (skip_ws t)) []
      end
  | ORemove i =>
      EvRemove i ::
      checks t [EvInside (N.min (i + 1) umax) (blen t); EvBoundary (enc t) i]
        match fst (t_remove i t) with
        | Ok x => edit_story t i (i + clen x) []
        | Err _ => []
        end
  | ORetain _ f x => EvRetain :: EvFromCharsTruncate :: char_story [] [] (kept f x t)
  | OTryInsert i x => insert_story self i [x] t
  | OTryInsertStr i w => insert_story self i w t
  | OInsertStrTruncate i w =>
      EvInsertStrTruncate i (enc w) self :: EvTruncateStr (enc w) (cap - blen t) ::
      insert_story self i (fit (cap - blen t) w) t
  | OClear => [EvClear]
  | ODrain lo hi => drain_story umax lo hi t
  | OSplitOff i => EvSplitOff :: drain_story umax (Included i) Unbounded t
  | OReplaceRange lo hi w => edit_story t (range_from umax lo) (range_to umax (blen t) hi) w
  | OExtendChars _ next it =>
      EvFromCharsTruncate :: pull_story (N.to_nat cap + 2) next it [] ++
      match fst (t_collect (N.to_nat cap + 2) cap next it) with
      | Ret u => push_cut_story t u
      | _ => []
      end
  | OExtendStrs _ fuel next it =>
      EvFromIteratorTruncate :: pull_str_story true fuel (map_iter same2 next) it [] ++
      match fst (t_collect_strs fuel cap (map_iter same2 next) it) with
      | Ret u => push_cut_story t u
      | _ => []
      end
  | OWriteFmt p => fmt_story p t
  | OOverwrite _ _ => [EvAsMutStr self]
  | OUpper | OLower | OLen | OIsEmpty | OCapacity | OAsStr | OEqStr _ | ODisplay _ | OIndex _ => []
  end.

(** The messages of a constructor. *)
Definition build_story (k : ctor) : list event :=
  match k with
  | CNew | CDefault => []
  | CTryFromStr w | CParse w => EvTryFromStr (enc w) :: push_story [] w
  | CFromStrTruncate w | CFrom w => EvFromStrTruncate (enc w) :: push_cut_story [] w
  | CTryFromIterator _ fuel next it => EvTryFromIterator :: pull_str_story false fuel next it []
  | CFromIteratorTruncate _ fuel next it => EvFromIteratorTruncate :: pull_str_story true fuel next it []
  | CTryFromChars _ next it => EvTryFromChars :: pull_story (N.to_nat cap + 2) next it []
  | CFromCharsTruncate _ next it | CCollectChars _ next it =>
      EvFromCharsTruncate :: pull_story (N.to_nat cap + 2) next it []
  | CCollectStrs _ fuel next it => EvFromIteratorTruncate :: pull_str_story true fuel (map_iter same2 next) it []
  | CTryFromUtf16 us => EvUtf16 false us :: char_story [EvFromOutOfBounds] [] (valid_prefix (t_decode16 us))
  | CFromUtf16Truncate us => EvUtf16 false us :: char_story [] [] (valid_prefix (t_decode16 us))
  | CFromUtf16Lossy us => EvUtf16 true us :: char_story [] [] (lossy (t_decode16 us))
  end.
End Cap.

(** A history of calls: the log is that of the calls one after the other, each with the
    story of its call on a string [self] that shows the text at that time. *)
Fixpoint history_told (c : cfg) (tr db : bool) (h : list op) (t : text) (m : list event) : Prop :=
  match h with
  | [] => m = []
  | o :: h => exists self m1 m2, m = m1 ++ m2 /\ shows c self t /\
      story_grew tr db [] (story (cap c) (usize_max c) self o t) m1 /\
      history_told c tr db h (snd (t_op (usize_max c) (cap c) o t)) m2
  end.
