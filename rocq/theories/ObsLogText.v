(** What a logger may expect of the messages it gets: the vocabulary of
    PropLogText.v. *)
From Coq Require Import String List.
From Verif Require Import Base Char Spec RustStd RustFmt ModelError Model ModelOps.
From Verif Require Export Obs ObsLogs ModelLogPrint.
Import ListNotations.

(** The bytes of a [&str]. *)
Definition is_text (b : list N) : Prop := exists t, b = enc t.

(** A message about the string [s] that can be shown: the strings in it are UTF-8, the
    units of UTF-16 have 16 bits, and [{self}] is [s]. *)
Definition about (s : astring) (e : event) : Prop :=
  match e with
  | EvBoundary b _ | EvTruncateStr b _ | EvTryFromStr b | EvFromStrTruncate b | EvPushStr b
  | EvPushStrTruncate b => is_text b
  | EvReplace _ _ _ _ b => is_text b
  | EvUtf16 _ us => Forall (fun u => u < 65536) us
  | EvAsMutStr x | EvTrim x => x = s
  | EvTryInsertStr _ b x | EvInsertStrTruncate _ b x => is_text b /\ x = s
  | _ => True
  end.

(** The string that a message shows with [{self}] or [{self:?}]. *)
Definition self_of (e : event) : option astring :=
  match e with
  | EvAsMutStr x | EvTrim x | EvTryInsertStr _ _ x | EvInsertStrTruncate _ _ x => Some x
  | _ => None
  end.

(** The message can be shown: its own string shows a text too. *)
Definition legible (c : cfg) (e : event) : Prop :=
  exists s, about s e /\ (self_of e = None \/ exists t, shows c s t).

(** Loggers that rely on this: they return, or return or panic, when the message is
    legible. *)
Definition quiet_reader {W} (c : cfg) (tr db : bool) (log : event -> ST W unit) : Prop :=
  forall e w, level_on tr db e = true -> legible c e -> fst (log e w) = Ret tt.
Definition reader_logger {W} (c : cfg) (tr db : bool) (log : event -> ST W unit) : Prop :=
  forall e, level_on tr db e = true -> legible c e -> comes_back (log e).

(** ** Printed messages *)

(** [m] returns; a sink whose calls do, or return or panic. *)
Definition returns_always {W A} (m : ST W A) : Prop := forall w, exists a w', m w = (Ret a, w').
Definition sink_with {W} (P : ST W (result unit FmtError) -> Prop) (k : sink W) : Prop :=
  (forall b, P (wstr k b)) /\ (forall x, P (wchar k x)).

(** A printer of safe code; one that also never panics. [Debug for str] has no effect
    but on the sink, so it does what the sink does. *)
Definition safe_printer {W} (p : printer W) : Prop :=
  (forall e, comes_back (p_begin p e)) /\ sink_with comes_back (p_out p) /\ (forall r, comes_back (p_end p r)).
Definition quiet_printer {W} (p : printer W) : Prop :=
  (forall e, returns_always (p_begin p e)) /\ sink_with returns_always (p_out p) /\ (forall r, returns_always (p_end p r)).
Definition safe_debug (str_debug : list N -> debug_impl) : Prop :=
  forall b W (k : sink W),
    (sink_with comes_back k -> comes_back (str_debug b W k false)) /\
    (sink_with returns_always k -> returns_always (str_debug b W k false)).

(** A printer that collects lines. *)
Definition line_printer : printer (list N) := mkprinter (fun _ => sret tt) buffer (fun _ => smodify (fun w => w ++ [10])).

(** [l] is the number [n] written with decimal digits, without leading zeros. *)
Definition is_decimal (n : N) (l : list N) : Prop :=
  Forall (fun d => 48 <= d <= 57) l /\ fold_left (fun v d => 10 * v + (d - 48)) l 0 = n /\ l <> [] /\
  (hd 0 l = 48 -> l = [48]).

(** What [{:?}] makes of a list of numbers, and of an [ArrayString] that shows [t];
    [q] is what it makes of a str. *)
Fixpoint listed (l : list (list N)) : list N :=
  match l with
  | [] => []
  | [x] => x
  | x :: l => x ++ lit ", " ++ listed l
  end.
Definition self_text (q : list N -> list N) (t : text) : list N :=
  lit " { array: " ++ q (enc t) ++ lit ", size: " ++ decimal (blen t) ++ lit " }".

(** The line of a message, up to the place where the text of [self] comes, and the
    rest, when [self] shows [t]. *)
Definition line_of (q : list N -> list N) (e : event) (t : text) : list N * list N :=
  match e with
  | EvAsMutStr _ => (lit "As mut str: ", enc t)
  | EvTrim _ => (lit "Trim: ArrayString", self_text q t)
  | EvTryInsertStr i b _ => (lit "Try insert at " ++ decimal i ++ lit " str: " ++ q b ++ lit " to ArrayString", self_text q t)
  | EvInsertStrTruncate i b _ => (lit "Insert str at " ++ decimal i ++ lit ": " ++ b ++ lit " to ", enc t)
  | EvInside a b => (lit "Out of bounds: ensures " ++ decimal a ++ lit " <= " ++ decimal b, [])
  | EvBoundary b i => (lit "Is char boundary: " ++ b ++ lit " at " ++ decimal i, [])
  | EvTruncateStr b n => (lit "Truncate str: " ++ b ++ lit " at " ++ decimal n, [])
  | EvFromUtf8 => (lit "From Utf8", [])
  | EvFromUtf16 => (lit "From Utf16", [])
  | EvFromOutOfBounds => (lit "From OutOfBounds", [])
  | EvTryFromStr b => (lit "Try from str: " ++ b, [])
  | EvFromStrTruncate b => (lit "FromStr truncate: " ++ b, [])
  | EvTryFromIterator => (lit "FromIterator", [])
  | EvFromIteratorTruncate => (lit "FromIterator truncate", [])
  | EvTryFromChars => (lit "TryFrom chars", [])
  | EvFromCharsTruncate => (lit "From chars truncate", [])
  | EvUtf16 lossy us => (lit (if lossy then "From utf16 lossy: " else "From utf16: ") ++ lit "[" ++ listed (map decimal us) ++ lit "]", [])
  | EvAsStr => (lit "As str", [])
  | EvPushStr b => (lit "Push str: " ++ b, [])
  | EvPushStrTruncate b => (lit "Push str truncate: " ++ b, [])
  | EvPush x => (lit "Push: " ++ enc [x], [])
  | EvTruncate n => (lit "Truncate: " ++ decimal n, [])
  | EvPop => (lit "Pop", [])
  | EvRemove i => (lit "Remove: " ++ decimal i, [])
  | EvRetain => (lit "Retain", [])
  | EvLen => (lit "Len", [])
  | EvSplitOff => (lit "Split off", [])
  | EvClear => (lit "Clear", [])
  | EvDrain n a b => (lit "Drain iterator (len: " ++ decimal n ++ lit "): " ++ decimal a ++ lit ".." ++ decimal b, [])
  | EvReplace n a b l w =>
      (lit "Replace range (len: " ++ decimal n ++ lit ") (" ++ decimal a ++ lit ".." ++ decimal b ++
       lit ") with (len: " ++ decimal l ++ lit ") " ++ w, [])
  end.

(** The lines that printing [self] itself produces, in the middle of the line. *)
Definition inner_lines (c : cfg) (tr : bool) (e : event) : list N :=
  match self_of e with
  | Some _ => if tr then lit "As str" ++ [10] ++ concat (repeat (lit "Len" ++ [10]) (if debug c then 4 else 1)) else []
  | None => []
  end.

(** The whole line. *)
Definition printed (c : cfg) (tr : bool) (q : list N -> list N) (t : text) (e : event) : list N :=
  fst (line_of q e t) ++ inner_lines c tr e ++ snd (line_of q e t) ++ [10].

(** A printer that holds a lock while it prints, and panics when it finds it held. *)
Definition locking : printer (bool * list N) := mkprinter
  (fun _ (w : bool * list N) => if fst w then (Panic, w) else (Ret tt, (true, snd w)))
  (mksink (fun b (w : bool * list N) => (Ret (Ok tt), (fst w, snd w ++ b))) (fun x (w : bool * list N) => (Ret (Ok tt), (fst w, snd w ++ enc [x]))))
  (fun _ (w : bool * list N) => (Ret tt, (false, snd w))).
