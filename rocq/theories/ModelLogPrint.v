(** A logger that prints: [log::Log::log] is given the message as [fmt::Arguments]
    and writes it to a sink of its own. Printing [{self}] runs the crate's [Display] or
    [Debug], which call [as_str], which logs: the logger is called again before it has
    returned.

    Not part of /repo; the messages are. *)
From Coq Require Import String DecimalString.
From Verif Require Import Base Char RustStd RustFmt ModelError.
From Verif Require Export ModelLogs.

(** [Display] and [Debug] of an unsigned integer, without options: one [write_str]. *)
Definition decimal (n : N) : list N := lit (NilEmpty.string_of_uint (N.to_uint n)).

(** The pieces of a [format_args!]. *)
Inductive piece : Type :=
| PLit (l : string)
| PStr (b : list N)          (* {} of a str *)
| PStrDebug (b : list N)     (* {:?} of a str *)
| PNum (n : N)               (* {} of a usize *)
| PChar (x : char)           (* {} of a char *)
| PUnits (us : list N)       (* {:?} of a [u16] *)
| PSelf (s : astring)        (* {self} *)
| PSelfDebug (s : astring).  (* {self:?} *)

(** The messages: src/utils.rs:17, 28, 39; src/error.rs:122, 151, 196;
    src/arraystring.rs:75, 100, 126, 156, 186, 213, 248, 281, 315, 339, 357, 392, 419,
    443, 471, 492, 518, 562, 597, 659, 697, 722, 748, 769, 804, 856-863. *)
Definition message (e : event) : list piece :=
  match e with
  | EvInside a b => [PLit "Out of bounds: ensures "; PNum a; PLit " <= "; PNum b]
  | EvBoundary b i => [PLit "Is char boundary: "; PStr b; PLit " at "; PNum i]
  | EvTruncateStr b n => [PLit "Truncate str: "; PStr b; PLit " at "; PNum n]
  | EvFromUtf8 => [PLit "From Utf8"]
  | EvFromUtf16 => [PLit "From Utf16"]
  | EvFromOutOfBounds => [PLit "From OutOfBounds"]
  | EvTryFromStr b => [PLit "Try from str: "; PStr b]
  | EvFromStrTruncate b => [PLit "FromStr truncate: "; PStr b]
  | EvTryFromIterator => [PLit "FromIterator"]
  | EvFromIteratorTruncate => [PLit "FromIterator truncate"]
  | EvTryFromChars => [PLit "TryFrom chars"]
  | EvFromCharsTruncate => [PLit "From chars truncate"]
  | EvUtf16 false us => [PLit "From utf16: "; PUnits us]
  | EvUtf16 true us => [PLit "From utf16 lossy: "; PUnits us]
  | EvAsStr => [PLit "As str"]
  | EvAsMutStr s => [PLit "As mut str: "; PSelf s]
  | EvPushStr b => [PLit "Push str: "; PStr b]
  | EvPushStrTruncate b => [PLit "Push str truncate: "; PStr b]
  | EvPush x => [PLit "Push: "; PChar x]
  | EvTruncate n => [PLit "Truncate: "; PNum n]
  | EvPop => [PLit "Pop"]
  | EvTrim s => [PLit "Trim: "; PSelfDebug s]
  | EvRemove i => [PLit "Remove: "; PNum i]
  | EvRetain => [PLit "Retain"]
  | EvTryInsertStr i b s => [PLit "Try insert at "; PNum i; PLit " str: "; PStrDebug b; PLit " to "; PSelfDebug s]
  | EvInsertStrTruncate i b s => [PLit "Insert str at "; PNum i; PLit ": "; PStr b; PLit " to "; PSelf s]
  | EvLen => [PLit "Len"]
  | EvSplitOff => [PLit "Split off"]
  | EvClear => [PLit "Clear"]
  | EvDrain n a b => [PLit "Drain iterator (len: "; PNum n; PLit "): "; PNum a; PLit ".."; PNum b]
  | EvReplace n a b l w =>
      [PLit "Replace range (len: "; PNum n; PLit ") ("; PNum a; PLit ".."; PNum b; PLit ") with (len: "; PNum l; PLit ") "; PStr w]
  end.

Section Print.
Variable c : cfg.
Variable tr : bool.
(** core's [Debug for str]. *)
Variable str_debug : list N -> debug_impl.
Context {W : Type}.

(** [<[u16] as Debug>::fmt] without options: [debug_list]. *)
Fixpoint show_entries (k : sink W) (first : bool) (us : list N) : ST W (result unit FmtError) :=
  match us with
  | [] => wstr k (lit "]")
  | u :: us => fthen (if first then sret (Ok tt) else wstr k (lit ", ")) (fthen (wstr k (decimal u)) (show_entries k false us))
  end.

(** src/implementations.rs:229-231 [Display]; 100-105 [Debug]. *)
Definition show_self (log : event -> ST W unit) (k : sink W) (s : astring) : ST W (result unit FmtError) :=
  b <~ l_as_str c tr log s ;; write_one_str k b.
Definition show_self_debug (log : event -> ST W unit) (k : sink W) (s : astring) : ST W (result unit FmtError) :=
  d <~ debug_start k (lit "ArrayString") ;;
  b <~ l_as_str c tr log s ;;
  d <~ struct_field k false d (lit "array") (str_debug b) ;;
  d <~ struct_field k false d (lit "size") (fun W k _ => wstr k (decimal (size s))) ;;
  struct_finish k false d.

Definition show_piece (log : event -> ST W unit) (k : sink W) (p : piece) : ST W (result unit FmtError) :=
  match p with
  | PLit l => wstr k (lit l)
  | PStr b => write_one_str k b
  | PStrDebug b => str_debug b W k false
  | PNum n => wstr k (decimal n)
  | PChar x => wchar k x
  | PUnits us => fthen (wstr k (lit "[")) (show_entries k true us)
  | PSelf s => show_self log k s
  | PSelfDebug s => show_self_debug log k s
  end.

(** [fmt::write]. *)
Fixpoint show_pieces (log : event -> ST W unit) (k : sink W) (l : list piece) : ST W (result unit FmtError) :=
  match l with
  | [] => sret (Ok tt)
  | p :: l => fthen (show_piece log k p) (show_pieces log k l)
  end.

(** A logger that prints: what it does before, where it writes, what it does after. *)
Record printer : Type := mkprinter {
  p_begin : event -> ST W unit;
  p_out : sink W;
  p_end : result unit FmtError -> ST W unit
}.

(** Its function [log], which runs inside itself. *)
Definition print_with (p : printer) (log : event -> ST W unit) (e : event) : ST W unit :=
  _ <~ p_begin p e ;; r <~ show_pieces log (p_out p) (message e) ;; p_end p r.

Definition prints (p : printer) (log : event -> ST W unit) : Prop := forall e w, log e w = print_with p log e w.

(** The same with at most [n] calls inside each other. *)
Fixpoint print_log (n : nat) (p : printer) (e : event) : ST W unit :=
  match n with
  | O => slift Diverge
  | S n => print_with p (print_log n p) e
  end.
End Print.
Arguments printer : clear implicits.
Arguments mkprinter {W}.
