(** Model of further parts of Rust's core library that the trait implementations
    use: formatting, str indexing by ranges, ASCII case, and (for the optional
    integrations) the visitor protocol of serde. Not part of /repo; call sites
    are named in the comments. *)
From Coq Require Import String.
From Verif Require Import Base Char RustStd.

(** ** core::fmt *)

(** [fmt::Error] carries no data. *)
Inductive FmtError : Type := mkFmtError.

(** [dyn fmt::Write]: a sink with state [W] that may fail or panic. *)
Record sink (W : Type) : Type := mksink {
  wstr : list N -> ST W (result unit FmtError);
  wchar : char -> ST W (result unit FmtError)
}.
Arguments wstr {W}.
Arguments wchar {W}.
Arguments mksink {W}.

Inductive alignment : Type := ALeft | ARight | ACenter.

(** Options of a [Formatter] that [Display for str] looks at. *)
Record fmtspec : Type := mkspec {
  fill : char;
  align : option alignment;
  width : option N;
  precision : option N
}.

Definition space : char := mkchar 32 eq_refl.

(** [Formatter] options for a plain [{}]. *)
Definition default_spec : fmtspec := mkspec space None None None.

Section Sink.
Context {W : Type} (k : sink W).

(** [?] on [fmt::Result]. *)
Definition fthen (m n : ST W (result unit FmtError)) : ST W (result unit FmtError) :=
  stry (fun e => e) m (fun _ => n).

Fixpoint write_chars (n : nat) (ch : char) : ST W (result unit FmtError) :=
  match n with
  | O => sret (Ok tt)
  | S n => fthen (wchar k ch) (write_chars n ch)
  end.

(** The first [n] characters of a str, as [s.get(..i)] at the position [i] that
    [char_indices().nth(n)] finds. *)
Fixpoint first_chars (fuel : nat) (n : N) (bs : list N) : outcome (list N) :=
  if n =? 0 then Ret []
  else match fuel with
       | O => Diverge
       | S fuel =>
           o <- chars_next bs ;;
           match o with
           | None => Ret []
           | Some (_, r) =>
               rest <- first_chars fuel (n - 1) r ;;
               Ret (takeN (lenN bs - lenN r) bs ++ rest)
           end
       end.

(** [str.chars().count()]. *)
Fixpoint count_chars (fuel : nat) (bs : list N) : outcome N :=
  match fuel with
  | O => Diverge
  | S fuel =>
      o <- chars_next bs ;;
      match o with
      | None => Ret 0
      | Some (_, r) => n <- count_chars fuel r ;; Ret (1 + n)
      end
  end.

(** [Formatter::pad] (core::fmt): what [Display for str] does. *)
Definition pad (sp : fmtspec) (bs : list N) : ST W (result unit FmtError) :=
  match width sp, precision sp with
  | None, None => wstr k bs
  | _, _ =>
      bs <~ slift (match precision sp with
                   | Some n => first_chars (S (length bs)) n bs
                   | None => Ret bs
                   end) ;;
      match width sp with
      | None => wstr k bs
      | Some w =>
          n <~ slift (count_chars (S (length bs)) bs) ;;
          if w <=? n then wstr k bs
          else
            let padding := w - n in
            let '(pre, post) :=
              match align sp with
              | None | Some ALeft => (0, padding)
              | Some ARight => (padding, 0)
              | Some ACenter => (padding / 2, (padding + 1) / 2)
              end in
            fthen (write_chars (N.to_nat pre) (fill sp))
              (fthen (wstr k bs) (write_chars (N.to_nat post) (fill sp)))
      end
  end.

(** [<str as Display>::fmt]. *)
Definition str_display (sp : fmtspec) (bs : list N) : ST W (result unit FmtError) := pad sp bs.

(** [f.write_fmt(format_args!("{}", s))] on a formatter [f] that writes to [k]:
    [fmt::write] makes a new formatter with default options for the argument;
    the literal pieces around [{}] are empty and not written. *)
Definition write_one_str (bs : list N) : ST W (result unit FmtError) :=
  str_display default_spec bs.

End Sink.

(** ** Debug output (core::fmt::builders) *)

(** A call on a writer. *)
Inductive wcall : Type := WStr (bs : list N) | WChar (ch : char).

(** A series of calls, each followed by [?]. *)
Fixpoint do_calls {W} (k : sink W) (l : list wcall) : ST W (result unit FmtError) :=
  match l with
  | [] => sret (Ok tt)
  | WStr bs :: l => fthen (wstr k bs) (do_calls k l)
  | WChar ch :: l => fthen (wchar k ch) (do_calls k l)
  end.

(** [<T as Debug>::fmt] for a given value: works for every writer; the flag is
    [Formatter::alternate], set by [{:#?}]. *)
Definition debug_impl : Type := forall W, sink W -> bool -> ST W (result unit FmtError).

(** [str::split_inclusive('\n')]. *)
Fixpoint split_inclusive (bs : list N) : list (list N) :=
  match bs with
  | [] => []
  | b :: r =>
      if b =? 10 then [b] :: split_inclusive r
      else match split_inclusive r with
           | [] => [[b]]
           | p :: ps => (b :: p) :: ps
           end
  end.

(** [str::ends_with('\n')]. *)
Definition ends_with_newline (bs : list N) : bool :=
  match rev bs with b :: _ => b =? 10 | [] => false end.

Section Builders.
Context {W : Type} (k : sink W).

(** A call on the writer under a [PadAdapter]. *)
Definition pad_under {A} (m : ST W A) : ST (W * bool) A := fun s =>
  let '(o, w) := m (fst s) in (o, (w, snd s)).

(** The common part of [PadAdapter::write_str] and [write_char]: indent at the
    start of a line, then write. The [bool] is [on_newline]. *)
Definition pad_one (newline : bool) (m : ST W (result unit FmtError)) :
    ST (W * bool) (result unit FmtError) :=
  nl <~ sread (fun s : W * bool => Ret (snd s)) ;;
  fthen (if nl then pad_under (wstr k (lit "    ")) else sret (Ok tt))
    (_ <~ smodify (fun s : W * bool => (fst s, newline)) ;; pad_under m).

Fixpoint pad_lines (l : list (list N)) : ST (W * bool) (result unit FmtError) :=
  match l with
  | [] => sret (Ok tt)
  | p :: l => fthen (pad_one (ends_with_newline p) (wstr k p)) (pad_lines l)
  end.

(** [PadAdapter]: the writer handed to fields under [{:#?}]. *)
Definition pad_adapter : sink (W * bool) :=
  mksink (fun bs => pad_lines (split_inclusive bs))
         (fun ch => pad_one (code ch =? 10) (wchar k ch)).

(** Run something on a fresh [PadAdapter] ([on_newline] starts as [true]). *)
Definition padded (m : sink (W * bool) -> ST (W * bool) (result unit FmtError)) :
    ST W (result unit FmtError) := fun w =>
  let '(o, (w', _)) := m pad_adapter (w, true) in (o, w').

(** [DebugStruct] / [DebugTuple]: the result so far, and whether there are fields. *)
Definition builder : Type := (result unit FmtError * bool)%type.

(** [Formatter::debug_struct(name)] and [debug_tuple(name)]. *)
Definition debug_start (name : list N) : ST W builder := r <~ wstr k name ;; sret (r, false).

(** [self.result = self.result.and_then(..)] with [self.has_fields = true] after it. *)
Definition debug_and_then (d : builder) (m : ST W (result unit FmtError)) : ST W builder :=
  match fst d with
  | Ok _ => r <~ m ;; sret (r, true)
  | Err e => sret (Err e, true)
  end.

(** [DebugStruct::field]. *)
Definition struct_field (alt : bool) (d : builder) (name : list N) (v : debug_impl) : ST W builder :=
  debug_and_then d
    (if alt then
       fthen (if snd d then sret (Ok tt) else wstr k (lit " {" ++ [10]))
         (padded (fun k' => fthen (wstr k' name) (fthen (wstr k' (lit ": "))
                   (fthen (v _ k' alt) (wstr k' (lit "," ++ [10]))))))
     else
       fthen (wstr k (if snd d then lit ", " else lit " { "))
         (fthen (wstr k name) (fthen (wstr k (lit ": ")) (v _ k alt)))).

(** [DebugStruct::finish]. *)
Definition struct_finish (alt : bool) (d : builder) : ST W (result unit FmtError) :=
  if snd d then
    match fst d with
    | Ok _ => wstr k (if alt then lit "}" else lit " }")
    | Err e => sret (Err e)
    end
  else sret (fst d).

(** [DebugTuple::field]. *)
Definition tuple_field (alt : bool) (d : builder) (v : debug_impl) : ST W builder :=
  debug_and_then d
    (if alt then
       fthen (if snd d then sret (Ok tt) else wstr k (lit "(" ++ [10]))
         (padded (fun k' => fthen (v _ k' alt) (wstr k' (lit "," ++ [10]))))
     else
       fthen (wstr k (if snd d then lit ", " else lit "(")) (v _ k alt)).

(** [DebugTuple::finish] of a tuple struct with a name. *)
Definition tuple_finish (d : builder) : ST W (result unit FmtError) :=
  if snd d then
    match fst d with
    | Ok _ => wstr k (lit ")")
    | Err e => sret (Err e)
    end
  else sret (fst d).
End Builders.

(** What [fmt::write(out, args)] does to [out]: the literal pieces and the
    arguments' own [fmt] make a series of [write_str] calls, and may look at each
    result. Every possible behaviour of arbitrary [Display] implementations is
    such a tree; [PPanic]: an argument's [fmt] panics. *)
Inductive fprog : Type :=
| PEnd (r : result unit FmtError)
| PPanic
| PWrite (bs : list N) (next : result unit FmtError -> fprog).

Fixpoint run_fprog {S} (w : list N -> ST S (result unit FmtError)) (p : fprog) :
    ST S (result unit FmtError) :=
  match p with
  | PEnd r => sret r
  | PPanic => slift Panic
  | PWrite bs next => r <~ w bs ;; run_fprog w (next r)
  end.

(** A formatting whose pieces are [l], each followed by [?]. *)
Fixpoint pieces (l : list (list N)) : fprog :=
  match l with
  | [] => PEnd (Ok tt)
  | p :: l => PWrite p (fun r => match r with Ok _ => pieces l | Err e => PEnd (Err e) end)
  end.

(** ** Indexing *)

(** The six range types. [RIncl]'s last field is [RangeInclusive::exhausted]. *)
Inductive range : Type :=
| RFrom (a : N)
| RTo (b : N)
| RFull
| RRange (a b : N)
| RToIncl (b : N)
| RIncl (a b : N) (exhausted : bool).

(** [RangeInclusive::into_slice_range] after the overflow check of
    [<RangeInclusive<usize> as SliceIndex<str>>::index]. *)
Definition incl_to_range (umax a b : N) (exhausted : bool) : option (N * N) :=
  if b =? umax then None else Some (if exhausted then b + 1 else a, b + 1).

(** [str::index] (core::str::traits): first and one-past-last byte of the slice,
    or a panic. Called at src/implementations.rs:384, 397, 410, 423, 436, 450. *)
Definition str_index_pos (umax : N) (bs : list N) (r : range) : outcome (N * N) :=
  let check a b := if (a <=? b) && str_is_char_boundary bs a && str_is_char_boundary bs b
                   then Ret (a, b) else Panic in
  match r with
  | RFrom a => if str_is_char_boundary bs a then Ret (a, lenN bs) else Panic
  | RTo b => if str_is_char_boundary bs b then Ret (0, b) else Panic
  | RFull => Ret (0, lenN bs)
  | RRange a b => check a b
  | RToIncl b => match incl_to_range umax 0 b false with
                 | Some (a, b) => check a b | None => Panic end
  | RIncl a b e => match incl_to_range umax a b e with
                   | Some (a, b) => check a b | None => Panic end
  end.

Definition str_index_range (umax : N) (bs : list N) (r : range) : outcome (list N) :=
  p <- str_index_pos umax bs r ;; let '(a, b) := p in Ret (takeN (b - a) (dropN a bs)).

(** ** ASCII case: [str::make_ascii_uppercase] / [make_ascii_lowercase] change
    the bytes in place ([u8::to_ascii_uppercase]: flip bit 5 of a..z). *)
Definition to_ascii_uppercase (b : N) : N := if in_range 97 122 b then N.lxor b 0x20 else b.
Definition to_ascii_lowercase (b : N) : N := if in_range 65 90 b then N.lor b 0x20 else b.

(** ** serde *)

(** The call a [Deserializer<'de>] makes on the visitor when asked for a str:
    borrowed means it lives as long as the input. [DeErr]: the format reports an
    error by itself. *)
Inductive visit (E : Type) : Type :=
| VBorrowedStr (s : list N)
| VStr (s : list N)
| VString (s : list N)
| VBorrowedBytes (b : list N)
| VBytes (b : list N)
| VByteBuf (b : list N)
| VOther
| DeErr (e : E).
Arguments VBorrowedStr {E}.
Arguments VStr {E}.
Arguments VString {E}.
Arguments VBorrowedBytes {E}.
Arguments VBytes {E}.
Arguments VByteBuf {E}.
Arguments VOther {E}.
Arguments DeErr {E}.

(** Errors of deserialization: the format's own, or what a visitor reports. *)
Inductive de_error (E : Type) : Type := FromFormat (e : E) | InvalidType | InvalidValue.
Arguments FromFormat {E}.
Arguments InvalidType {E}.
Arguments InvalidValue {E}.

Definition valid_or {E} (b : list N) : result (list N) (de_error E) :=
  if from_utf8_ok b then Ok b else Err InvalidValue.

(** [<&str as Deserialize>::deserialize] (serde::de::impls::StrVisitor: only
    [visit_borrowed_str] and [visit_borrowed_bytes]); called at
    src/integration.rs:103. *)
Definition deserialize_ref_str {E} (v : visit E) : result (list N) (de_error E) :=
  match v with
  | VBorrowedStr s => Ok s
  | VBorrowedBytes b => valid_or b
  | DeErr e => Err (FromFormat e)
  | _ => Err InvalidType
  end.

(** [<String as Deserialize>::deserialize] (serde::de::impls::StringVisitor), for
    comparison: transient and owned input is accepted too. *)
Definition deserialize_string {E} (v : visit E) : result (list N) (de_error E) :=
  match v with
  | VBorrowedStr s | VStr s | VString s => Ok s
  | VBorrowedBytes b | VBytes b | VByteBuf b => valid_or b
  | VOther => Err InvalidType
  | DeErr e => Err (FromFormat e)
  end.
