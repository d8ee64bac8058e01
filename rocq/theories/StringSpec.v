(** The standard library's [String] on texts, as documented (alloc::string), for
    the comparison of C43. It has no capacity limit; [None] is a panic, which
    leaves the text as it was. Nothing here refers to the model of the crate. *)
From Verif Require Import Base Char Spec RustStd SpecOps.

(** Methods of [String] that [ArrayString] has too. [trunc] chooses between the
    fallible and the truncating method of [ArrayString]. *)
Inductive sop : Type :=
| SPushStr (trunc : bool) (w : text)
| SPush (x : char)
| STruncate (n : N)
| SPop
| SRemove (i : N)
| SRetain (F : Type) (g : F -> char -> bool * F) (x : F)
| SInsert (i : N) (x : char)
| SInsertStr (trunc : bool) (i : N) (w : text)
| SClear
| SDrain (lo hi : bound)
| SSplitOff (i : N)
| SReplaceRange (lo hi : bound) (w : text)
| SExtendChars (l : text)
| SExtendStrs (l : list text)
| SAdd (w : text)
| SWriteStr (w : text)
| SWriteChar (x : char)
| SUpper
| SLower
| SLen
| SIsEmpty
| SAsStr
| SEqStr (w : text).

(** What they return. *)
Inductive sout : Type :=
| VUnit
| VBool (b : bool)
| VNum (n : N)
| VText (t : text)
| VChar (x : char)
| VOptChar (o : option char)
| VDone.  (* Ok(()) of fmt::Write *)

(** [slice::range(r, ..len)]: one past [usize::MAX] panics, and so do [start > end]
    and [end > len]. *)
Definition s_range (umax len : N) (lo hi : bound) : option (N * N) :=
  let start := match lo with
               | Included n => Some n
               | Excluded n => if n =? umax then None else Some (n + 1)
               | Unbounded => Some 0
               end in
  let end_ := match hi with
              | Included n => if n =? umax then None else Some (n + 1)
              | Excluded n => Some n
              | Unbounded => Some len
              end in
  match start, end_ with
  | Some a, Some b => if (a <=? b) && (b <=? len) then Some (a, b) else None
  | _, _ => None
  end.

(** The parts of a text around a range whose ends must be character boundaries. *)
Definition s_slices (umax : N) (lo hi : bound) (t : text) : option (text * text * text) :=
  match s_range umax (blen t) lo hi with
  | Some (a, b) => t_slice a b t
  | None => None
  end.

Definition string_op (umax : N) (o : sop) (t : text) : option (sout * text) :=
  match o with
  | SPushStr _ w => Some (VUnit, t ++ w)
  | SPush x => Some (VUnit, t ++ [x])
  | STruncate n =>
      if n <=? blen t then
        match split_at n t with Some (pre, _) => Some (VUnit, pre) | None => None end
      else Some (VUnit, t)
  | SPop => match rev t with
            | [] => Some (VOptChar None, t)
            | x :: r => Some (VOptChar (Some x), rev r)
            end
  | SRemove i => match split_at i t with
                 | Some (pre, x :: post) => Some (VChar x, pre ++ post)
                 | _ => None
                 end
  | SRetain _ g x => Some (VUnit, fst (filter_st g x t))
  | SInsert i x => match split_at i t with
                   | Some (pre, post) => Some (VUnit, pre ++ x :: post)
                   | None => None
                   end
  | SInsertStr _ i w => match split_at i t with
                        | Some (pre, post) => Some (VUnit, pre ++ w ++ post)
                        | None => None
                        end
  | SClear => Some (VUnit, [])
  | SDrain lo hi => match s_slices umax lo hi t with
                    | Some (pre, mid, post) => Some (VText mid, pre ++ post)
                    | None => None
                    end
  | SSplitOff i => match split_at i t with
                   | Some (pre, post) => Some (VText post, pre)
                   | None => None
                   end
  | SReplaceRange lo hi w => match s_slices umax lo hi t with
                             | Some (pre, _, post) => Some (VUnit, pre ++ w ++ post)
                             | None => None
                             end
  | SExtendChars l => Some (VUnit, t ++ l)
  | SExtendStrs l => Some (VUnit, t ++ concat l)
  | SAdd w => Some (VUnit, t ++ w)
  | SWriteStr w => Some (VDone, t ++ w)
  | SWriteChar x => Some (VDone, t ++ [x])
  | SUpper => Some (VUnit, map ascii_upper t)
  | SLower => Some (VUnit, map ascii_lower t)
  | SLen => Some (VNum (blen t), t)
  | SIsEmpty => Some (VBool (match t with [] => true | _ => false end), t)
  | SAsStr => Some (VText t, t)
  | SEqStr w =>
      Some (VBool (if list_eq_dec N.eq_dec (map code t) (map code w) then true else false), t)
  end.

(** The call of [ArrayString] that corresponds to it. *)
Definition to_op (o : sop) : op :=
  match o with
  | SPushStr false w => OTryPushStr w
  | SPushStr true w => OPushStrTruncate w
  | SPush x => OTryPush x
  | STruncate n => OTruncate n
  | SPop => OPop
  | SRemove i => ORemove i
  | SRetain F g x => ORetain F (fun a y => (Ret (fst (g y a)), snd (g y a))) x
  | SInsert i x => OTryInsert i x
  | SInsertStr false i w => OTryInsertStr i w
  | SInsertStr true i w => OInsertStrTruncate i w
  | SClear => OClear
  | SDrain lo hi => ODrain lo hi
  | SSplitOff i => OSplitOff i
  | SReplaceRange lo hi w => OReplaceRange lo hi w
  | SExtendChars l => OExtendChars (list char) list_iter l
  | SExtendStrs l => OExtendStrs (list text) (S (length l)) list_iter l
  | SAdd w => OAdd w
  | SWriteStr w => OWriteStr w
  | SWriteChar x => OWriteChar x
  | SUpper => OUpper
  | SLower => OLower
  | SLen => OLen
  | SIsEmpty => OIsEmpty
  | SAsStr => OAsStr
  | SEqStr w => OEqStr w
  end.

(** The answer of [ArrayString] that corresponds to [String]'s: [Ok] of the same
    value; an error where [String] panics. *)
Definition answer (v : option sout) (r : out) : Prop :=
  match v with
  | None => is_error r = true
  | Some VUnit => r = RUnit \/ r = ROob (Ok tt) \/ r = RErr (Ok tt) \/ r = RUtf8 (Ok tt)
  | Some (VBool b) => r = RBool b
  | Some (VNum n) => r = RNum n
  | Some (VText u) => r = RBytes (enc u) \/ r = RPart (Ok (enc u))
  | Some (VChar x) => r = RChar (Ok x)
  | Some (VOptChar x) => r = ROptChar x
  | Some VDone => r = RFmt true
  end.

(** The calls that [String] rejects and [ArrayString] accepts: nothing inserted
    inside a character, and nothing put in place of an empty range elsewhere than
    at a boundary. *)
Definition quirk (umax cap : N) (o : sop) (t : text) : Prop :=
  match o with
  | SInsertStr false i w => i <= blen t /\ w = [] /\ ~ boundary t i
  | SInsertStr true i w => i <= blen t /\ fit (cap - blen t) w = [] /\ ~ boundary t i
  | SReplaceRange lo hi w =>
      range_from umax lo = range_to umax (blen t) hi /\ w = [] /\ ~ boundary t (range_from umax lo)
  | _ => False
  end.

(** One call: answer and text. *)
Definition string_step (umax : N) (o : sop) (t : text) : option sout * text :=
  match string_op umax o t with
  | Some (v, t') => (Some v, t')
  | None => (None, t)
  end.

Fixpoint string_ops (umax : N) (l : list sop) (t : text) : list (option sout) * text :=
  match l with
  | [] => ([], t)
  | o :: l =>
      let '(v, t1) := string_step umax o t in
      let '(vs, t2) := string_ops umax l t1 in (v :: vs, t2)
  end.

(** The history stays within [cap] bytes and has none of the calls above. *)
Fixpoint stays_within (umax cap : N) (l : list sop) (t : text) : Prop :=
  match l with
  | [] => True
  | o :: l =>
      let t1 := snd (string_step umax o t) in
      blen t1 <= cap /\ ~ quirk umax cap o t /\ stays_within umax cap l t1
  end.
