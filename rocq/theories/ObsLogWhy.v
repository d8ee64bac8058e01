(** The log tells why a call failed: the vocabulary of PropLogWhy.v. Nothing here
    refers to the functions of the model, only to its [event]s. *)
From Verif Require Import Base Char Spec RustStd RustFmt ModelError.
From Verif Require Export ObsLogLines.

(** A check that the log shows and that does not hold, on a string with text [t], and
    the error that it stands for: "Out of bounds: ensures {} <= {}" and "Is char
    boundary: {} at {}". *)
Inductive refused (t : text) : event -> Error -> Prop :=
| refused_inside n limit : limit < n -> refused t (EvInside n limit) EOutOfBounds
| refused_boundary i : ~ boundary t i -> refused t (EvBoundary (enc t) i) EUtf8.

(** Any other message: no check, or one that holds. *)
Definition passed (e : event) : Prop := forall t x, ~ refused t e x.

(** The messages [m] explain the error: one check among them was refused, and it stands
    for that error. Without an error none was. *)
Definition explained (t : text) (why : option Error) (m : list event) : Prop :=
  match why with
  | None => Forall passed m
  | Some x => exists before e after, m = before ++ e :: after /\
      refused t e x /\ Forall passed before /\ Forall passed after
  end.

(** The error in an answer; [fmt::Error] is the only one that [write_str] can give. *)
Definition error_of (r : outcome out) : option Error :=
  match r with
  | Ret (ROob (Err _)) | Ret (RFmt false) => Some EOutOfBounds
  | Ret (RUtf8 (Err _)) => Some EUtf8
  | Ret (RChar (Err x)) | Ret (RErr (Err x)) | Ret (RPart (Err x)) => Some x
  | _ => None
  end.

(** The calls that end at the first failure. [extend] goes on and cuts its input; the
    [Display] code behind [write!] may go on after an error. *)
Definition ends_at_failure (o : op) : bool :=
  match o with
  | OExtendChars _ _ _ | OExtendStrs _ _ _ _ | OWriteFmt _ => false
  | _ => true
  end.

(** The same for constructors. An unpaired surrogate is found by the standard library,
    no message tells of it. *)
Definition error_of_new (r : outcome (result text Error)) : option Error :=
  match r with
  | Ret (Err EOutOfBounds) => Some EOutOfBounds
  | _ => None
  end.
Definition ends_at_failure_new (k : ctor) : bool :=
  match k with
  | CFromIteratorTruncate _ _ _ _ | CFromCharsTruncate _ _ _ | CCollectStrs _ _ _ _ | CCollectChars _ _ _
  | CFromUtf16Truncate _ | CFromUtf16Lossy _ => false
  | _ => true
  end.

(** A history of calls: the log of the calls one after the other, each explained. *)
Fixpoint history_explained (umax cap : N) (h : list op) (t : text) (m : list event) : Prop :=
  match h with
  | [] => m = []
  | o :: h => exists m1 m2, m = m1 ++ m2 /\
      (ends_at_failure o = true -> explained t (error_of (fst (t_op umax cap o t))) m1) /\
      history_explained umax cap h (snd (t_op umax cap o t)) m2
  end.
