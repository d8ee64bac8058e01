(** All calls of the public API as data, and what each should do to a text.
    [op] is a call on an existing value, [ctor] a way to make a value. Nothing
    here refers to the model of the crate. *)
From Verif Require Import Base Char Spec RustStd RustFmt ModelError.
From Verif Require Export TextOps.

(** ** Calls *)
Inductive op : Type :=
| OTryPushStr (w : text)
| OPushStrTruncate (w : text)
| OTryPush (x : char)
| OTruncate (n : N)
| OPop
| OTrim
| ORemove (i : N)
| ORetain (F : Type) (f : char -> ST F bool) (x : F)
| OTryInsert (i : N) (x : char)
| OTryInsertStr (i : N) (w : text)
| OInsertStrTruncate (i : N) (w : text)
| OClear
| ODrain (lo hi : bound)
| OSplitOff (i : N)
| OReplaceRange (lo hi : bound) (w : text)
| OExtendChars (IT : Type) (next : iter IT char) (it : IT)
| OExtendStrs (IT : Type) (fuel : nat) (next : iter IT text) (it : IT)
| OAdd (w : text)
| OWriteStr (w : text)
| OWriteChar (x : char)
| OWriteFmt (p : formatting)
| OOverwrite (r : range) (w : text)  (* write [w] through index_mut when the lengths agree *)
| OUpper
| OLower
| OLen
| OIsEmpty
| OCapacity
| OAsStr
| OEqStr (w : text)
| ODisplay (sp : fmtspec)
| OIndex (r : range).

(** What a call returns. Strings handed out are given by their bytes. *)
Inductive out : Type :=
| RUnit
| RBool (b : bool)
| RNum (n : N)
| RBytes (b : list N)
| ROptChar (o : option char)
| RChar (r : result char Error)
| RErr (r : result unit Error)
| ROob (r : result unit OutOfBounds)
| RUtf8 (r : result unit Utf8)
| RFmt (ok : bool)
| RPart (r : result (list N) Error).

(** ** Collecting from iterators *)

(** Characters are taken while they fit in [n] bytes; the first that does not is
    pulled and dropped. *)
Fixpoint t_collect {IT} (fuel : nat) (n : N) (next : iter IT char) (it : IT) : outcome text * IT :=
  match fuel with
  | O => (Diverge, it)
  | S fuel =>
      match next it with
      | (Ret None, it) => (Ret [], it)
      | (Ret (Some x), it) =>
          if clen x <=? n then
            match t_collect fuel (n - clen x) next it with
            | (Ret u, it) => (Ret (x :: u), it)
            | p => p
            end
          else (Ret [], it)
      | (Panic, it) => (Panic, it)
      | (UB, it) => (UB, it)
      | (Diverge, it) => (Diverge, it)
      end
  end.

(** The same, reporting a character that does not fit. *)
Fixpoint t_try_collect {IT} (fuel : nat) (n : N) (next : iter IT char) (it : IT) :
    outcome (result text OutOfBounds) * IT :=
  match fuel with
  | O => (Diverge, it)
  | S fuel =>
      match next it with
      | (Ret None, it) => (Ret (Ok []), it)
      | (Ret (Some x), it) =>
          if clen x <=? n then
            match t_try_collect fuel (n - clen x) next it with
            | (Ret (Ok u), it) => (Ret (Ok (x :: u)), it)
            | p => p
            end
          else (Ret (Err mkOutOfBounds), it)
      | (Panic, it) => (Panic, it)
      | (UB, it) => (UB, it)
      | (Diverge, it) => (Diverge, it)
      end
  end.

(** Strings: each item has the answers of its first and second [as_ref()]; the
    second counts only for the item that does not fit. *)
Fixpoint t_collect_strs {IT} (fuel : nat) (n : N) (next : iter IT (text * text)) (it : IT) :
    outcome text * IT :=
  match fuel with
  | O => (Diverge, it)
  | S fuel =>
      match next it with
      | (Ret None, it) => (Ret [], it)
      | (Ret (Some (w, w2)), it) =>
          if blen w <=? n then
            match t_collect_strs fuel (n - blen w) next it with
            | (Ret u, it) => (Ret (w ++ u), it)
            | p => p
            end
          else (Ret (fit n w2), it)
      | (Panic, it) => (Panic, it)
      | (UB, it) => (UB, it)
      | (Diverge, it) => (Diverge, it)
      end
  end.

Fixpoint t_try_collect_strs {IT} (fuel : nat) (n : N) (next : iter IT (text * text)) (it : IT) :
    outcome (result text OutOfBounds) * IT :=
  match fuel with
  | O => (Diverge, it)
  | S fuel =>
      match next it with
      | (Ret None, it) => (Ret (Ok []), it)
      | (Ret (Some (w, _)), it) =>
          if blen w <=? n then
            match t_try_collect_strs fuel (n - blen w) next it with
            | (Ret (Ok u), it) => (Ret (Ok (w ++ u)), it)
            | p => p
            end
          else (Ret (Err mkOutOfBounds), it)
      | (Panic, it) => (Panic, it)
      | (UB, it) => (UB, it)
      | (Diverge, it) => (Diverge, it)
      end
  end.

(** An iterator whose items are changed by [f]. *)
Definition map_iter {IT A B} (f : A -> B) (next : iter IT A) : iter IT B := fun it =>
  match next it with
  | (Ret o, it) => (Ret (option_map f o), it)
  | (Panic, it) => (Panic, it)
  | (UB, it) => (UB, it)
  | (Diverge, it) => (Diverge, it)
  end.

(** Items whose [as_ref()] always answers the same. *)
Definition same2 (w : text) : text * text := (w, w).

(** A closure run over a text (as [filter_run] of IterSpec.v, stated there). *)
Fixpoint t_retain {F} (f : char -> ST F bool) (x : F) (t : text) : outcome text :=
  match t with
  | [] => Ret []
  | a :: r =>
      match f a x with
      | (Ret keep, x1) => l <- t_retain f x1 r ;; Ret (if keep then a :: l else l)
      | (Panic, _) => Panic
      | (UB, _) => UB
      | (Diverge, _) => Diverge
      end
  end.

(** ** Slices of a text *)

(** First and one-past-last byte a range denotes in a text of [n] bytes. *)
Definition ends_of_range (n : N) (r : range) : N * N :=
  match r with
  | RFrom a => (a, n)
  | RTo b => (0, b)
  | RFull => (0, n)
  | RRange a b => (a, b)
  | RToIncl b => (0, b + 1)
  | RIncl a b _ => (a, b + 1)
  end.

(** The text before, inside and after bytes [a..b]; [None] when that is not a
    slice between characters. *)
Definition t_slice (a b : N) (t : text) : option (text * text * text) :=
  if a <=? b then
    match split_at a t with
    | Some (pre, rest) =>
        match split_at (b - a) rest with
        | Some (mid, post) => Some (pre, mid, post)
        | None => None
        end
    | None => None
    end
  else None.

(** ** Effect of a call on a text. [umax] is [usize::MAX]. *)
Definition t_op (umax cap : N) (o : op) (t : text) : outcome out * text :=
  match o with
  | OTryPushStr w => let '(r, t') := t_try_push_str cap w t in (Ret (ROob r), t')
  | OPushStrTruncate w => (Ret RUnit, t_push_str_truncate cap w t)
  | OTryPush x => let '(r, t') := t_try_push_str cap [x] t in (Ret (ROob r), t')
  | OTruncate n => let '(r, t') := t_truncate n t in (Ret (RUtf8 r), t')
  | OPop => let '(r, t') := t_pop t in (Ret (ROptChar r), t')
  | OTrim => (Ret RUnit, trim_text t)
  | ORemove i => let '(r, t') := t_remove i t in (Ret (RChar r), t')
  | ORetain _ f x =>
      match t_retain f x t with
      | Ret t' => (Ret RUnit, t')
      | Panic => (Panic, t)
      | UB => (UB, t)
      | Diverge => (Diverge, t)
      end
  | OTryInsert i x => let '(r, t') := t_try_insert_str cap i [x] t in (Ret (RErr r), t')
  | OTryInsertStr i w => let '(r, t') := t_try_insert_str cap i w t in (Ret (RErr r), t')
  | OInsertStrTruncate i w => let '(r, t') := t_insert_str_truncate cap i w t in (Ret (RErr r), t')
  | OClear => (Ret RUnit, [])
  | ODrain lo hi => let '(r, t') := t_drain umax lo hi t in (Ret (RPart (map_ok enc r)), t')
  | OSplitOff i => let '(r, t') := t_split_off i t in (Ret (RPart (map_ok enc r)), t')
  | OReplaceRange lo hi w => let '(r, t') := t_replace_range umax cap lo hi w t in (Ret (RErr r), t')
  | OExtendChars _ next it =>
      match fst (t_collect (N.to_nat cap + 2) cap next it) with
      | Ret u => (Ret RUnit, t_extend cap u t)
      | Panic => (Panic, t)
      | UB => (UB, t)
      | Diverge => (Diverge, t)
      end
  | OExtendStrs _ fuel next it =>
      match fst (t_collect_strs fuel cap (map_iter same2 next) it) with
      | Ret u => (Ret RUnit, t_extend cap u t)
      | Panic => (Panic, t)
      | UB => (UB, t)
      | Diverge => (Diverge, t)
      end
  | OAdd w => (Ret RUnit, t_push_str_truncate cap w t)
  | OWriteStr w => let '(b, t') := t_write_str cap w t in (Ret (RFmt b), t')
  | OWriteChar x => let '(b, t') := t_write_str cap [x] t in (Ret (RFmt b), t')
  | OWriteFmt p =>
      let '(o, t') := t_write_fmt cap p t in
      (match o with Some b => Ret (RFmt b) | None => Panic end, t')
  | OOverwrite r w =>
      let '(a, b) := ends_of_range (blen t) r in
      match t_slice a b t with
      | Some (pre, mid, post) =>
          if blen w =? blen mid then (Ret RUnit, pre ++ w ++ post) else (Ret RUnit, t)
      | None => (Panic, t)
      end
  | OUpper => (Ret RUnit, map ascii_upper t)
  | OLower => (Ret RUnit, map ascii_lower t)
  | OLen => (Ret (RNum (blen t)), t)
  | OIsEmpty => (Ret (RBool (match t with [] => true | _ => false end)), t)
  | OCapacity => (Ret (RNum cap), t)
  | OAsStr => (Ret (RBytes (enc t)), t)
  | OEqStr w =>
      (Ret (RBool (if list_eq_dec N.eq_dec (map code t) (map code w) then true else false)), t)
  | ODisplay sp => (Ret (RBytes (enc t)), t)
  | OIndex r =>
      let '(a, b) := ends_of_range (blen t) r in
      match t_slice a b t with
      | Some (_, mid, _) => (Ret (RBytes (enc mid)), t)
      | None => (Panic, t)
      end
  end.

(** A history of calls: the results in order and the last text. A call that
    panics is as if caught by the caller, who goes on using the value. *)
Fixpoint t_ops (umax cap : N) (l : list op) (t : text) : list (outcome out) * text :=
  match l with
  | [] => ([], t)
  | o :: l =>
      let '(r, t1) := t_op umax cap o t in
      let '(rs, t2) := t_ops umax cap l t1 in (r :: rs, t2)
  end.

(** The ranges in a call are ranges of [u8], as the types say. *)
Definition range_u8 (r : range) : Prop :=
  match r with
  | RFrom a => a < 256 | RTo b => b < 256 | RFull => True
  | RRange a b => a < 256 /\ b < 256
  | RToIncl b => b < 256 | RIncl a b _ => a < 256 /\ b < 256
  end.
Definition typed_op (o : op) : Prop :=
  match o with OOverwrite r _ | OIndex r => range_u8 r | _ => True end.

(** ** Constructors *)
Inductive ctor : Type :=
| CNew
| CDefault
| CTryFromStr (w : text)
| CParse (w : text)
| CFromStrTruncate (w : text)
| CFrom (w : text)
| CTryFromIterator (IT : Type) (fuel : nat) (next : iter IT (text * text)) (it : IT)
| CFromIteratorTruncate (IT : Type) (fuel : nat) (next : iter IT (text * text)) (it : IT)
| CTryFromChars (IT : Type) (next : iter IT char) (it : IT)
| CFromCharsTruncate (IT : Type) (next : iter IT char) (it : IT)
| CCollectStrs (IT : Type) (fuel : nat) (next : iter IT text) (it : IT)
| CCollectChars (IT : Type) (next : iter IT char) (it : IT)
| CTryFromUtf16 (us : list N)
| CFromUtf16Truncate (us : list N)
| CFromUtf16Lossy (us : list N).

(** Reading UTF-16 by a function (Spec.v has the relation). *)
Fixpoint t_decode16 (us : list N) : list (option char) :=
  match us with
  | [] => []
  | u :: r =>
      if (0xD800 <=? u) && (u <=? 0xDBFF) then
        match r with
        | v :: r' =>
            if (0xDC00 <=? v) && (v <=? 0xDFFF)
            then char_of_N (0x10000 + (u - 0xD800) * 0x400 + (v - 0xDC00)) :: t_decode16 r'
            else None :: t_decode16 r
        | [] => [None]
        end
      else char_of_N u :: t_decode16 r
  end.

(** Taking decoded items while they fit in [n] bytes. [bad] and [long] are the
    results for an unpaired surrogate and for a character that does not fit. *)
Fixpoint t_take16 {E} (bad : E) (long : result text E) (n : N) (l : list (option char)) :
    result text E :=
  match l with
  | [] => Ok []
  | None :: _ => Err bad
  | Some x :: r =>
      if clen x <=? n then map_ok (cons x) (t_take16 bad long (n - clen x) r) else long
  end.

(** The text made, or the error, in the common error type. *)
Definition t_ctor (cap : N) (k : ctor) : outcome (result text Error) :=
  match k with
  | CNew | CDefault => Ret (Ok [])
  | CTryFromStr w | CParse w => Ret (if blen w <=? cap then Ok w else Err EOutOfBounds)
  | CFromStrTruncate w | CFrom w => Ret (Ok (fit cap w))
  | CTryFromIterator _ fuel next it =>
      r <- fst (t_try_collect_strs fuel cap next it) ;; Ret (map_err from_oob r)
  | CFromIteratorTruncate _ fuel next it =>
      u <- fst (t_collect_strs fuel cap next it) ;; Ret (Ok u)
  | CTryFromChars _ next it =>
      r <- fst (t_try_collect (N.to_nat cap + 2) cap next it) ;; Ret (map_err from_oob r)
  | CFromCharsTruncate _ next it | CCollectChars _ next it =>
      u <- fst (t_collect (N.to_nat cap + 2) cap next it) ;; Ret (Ok u)
  | CCollectStrs _ fuel next it =>
      u <- fst (t_collect_strs fuel cap (map_iter same2 next) it) ;; Ret (Ok u)
  | CTryFromUtf16 us => Ret (t_take16 EUtf16 (Err EOutOfBounds) cap (t_decode16 us))
  | CFromUtf16Truncate us => Ret (t_take16 EUtf16 (Ok []) cap (t_decode16 us))
  | CFromUtf16Lossy us => Ret (Ok (fit cap (lossy (t_decode16 us))))
  end.

(** The UTF-16 units are [u16], as the types say. *)
Definition typed_ctor (k : ctor) : Prop :=
  match k with
  | CTryFromUtf16 us | CFromUtf16Truncate us | CFromUtf16Lossy us => Forall (fun u => u < 65536) us
  | _ => True
  end.

(** ** Well-behaved arguments: closures and iterators that always return, string
    iterators that end, formattings that do not panic *)
Inductive no_panic : formatting -> Prop :=
| np_stop b : no_panic (FStop b)
| np_piece w next : (forall b, no_panic (next b)) -> no_panic (FPiece w next).

Definition always_returns {IT A} (next : iter IT A) : Prop :=
  forall it, exists o it', next it = (Ret o, it').

(** From [it], [next] answers [None] after fewer than [fuel] items. *)
Fixpoint finite_run {IT A} (fuel : nat) (next : iter IT A) (it : IT) : Prop :=
  match fuel with
  | O => False
  | S fuel => match next it with
              | (Ret (Some _), it') => finite_run fuel next it'
              | (Ret None, _) => True
              | _ => False
              end
  end.

Definition benign (o : op) : Prop :=
  match o with
  | ORetain _ f x => forall a x, exists b x', f a x = (Ret b, x')
  | OExtendChars _ next it => always_returns next
  | OExtendStrs _ fuel next it => finite_run fuel next it
  | OWriteFmt p => no_panic p
  | OOverwrite _ _ | OIndex _ => False
  | _ => True
  end.

Definition benign_ctor (k : ctor) : Prop :=
  match k with
  | CTryFromChars _ next it | CFromCharsTruncate _ next it | CCollectChars _ next it =>
      always_returns next
  | CTryFromIterator _ fuel next it | CFromIteratorTruncate _ fuel next it =>
      finite_run fuel next it
  | CCollectStrs _ fuel next it => finite_run fuel next it
  | _ => True
  end.

(** ** Arguments that may panic but are otherwise safe code *)
Definition calm {A} (o : outcome A) : Prop :=
  match o with Ret _ | Panic => True | UB | Diverge => False end.

(** From [it], [next] answers [None] or panics after fewer than [fuel] items. *)
Fixpoint calm_run {IT A} (fuel : nat) (next : iter IT A) (it : IT) : Prop :=
  match fuel with
  | O => False
  | S fuel => match next it with
              | (Ret (Some _), it') => calm_run fuel next it'
              | (Ret None, _) | (Panic, _) => True
              | _ => False
              end
  end.

Definition harmless (o : op) : Prop :=
  match o with
  | ORetain _ f x => forall a x, calm (fst (f a x))
  | OExtendChars _ next it => forall it, calm (fst (next it))
  | OExtendStrs _ fuel next it => calm_run fuel next it
  | _ => True
  end.

Definition harmless_ctor (k : ctor) : Prop :=
  match k with
  | CTryFromChars _ next it | CFromCharsTruncate _ next it | CCollectChars _ next it =>
      forall it, calm (fst (next it))
  | CTryFromIterator _ fuel next it | CFromIteratorTruncate _ fuel next it =>
      calm_run fuel next it
  | CCollectStrs _ fuel next it => calm_run fuel next it
  | _ => True
  end.

(** Answers that report an error. *)
Definition is_error (r : out) : bool :=
  match r with
  | RChar (Err _) | RErr (Err _) | ROob (Err _) | RUtf8 (Err _) | RFmt false | RPart (Err _) => true
  | _ => false
  end.

(** The numbers in the range bounds of a call are below [m]. *)
Definition bound_below (m : N) (b : bound) : Prop :=
  match b with Included n | Excluded n => n < m | Unbounded => True end.
Definition bounds_below (m : N) (o : op) : Prop :=
  match o with
  | ODrain lo hi | OReplaceRange lo hi _ => bound_below m lo /\ bound_below m hi
  | _ => True
  end.
