(** What [Debug] output looks like: specification, independent of the model of
    core's builders; the names of the errors. *)
From Coq Require Import String.
From Verif Require Import Base Char Spec RustStd RustFmt ModelError.

(** The bytes a series of writes asks for. *)
Definition call_bytes (w : wcall) : list N :=
  match w with WStr bs => bs | WChar ch => enc1 ch end.
Definition calls_bytes (l : list wcall) : list N := concat (map call_bytes l).

(** A value whose [Debug] makes the writes [l], whoever receives them. *)
Definition emits (d : debug_impl) (alt : bool) (l : list wcall) : Prop :=
  forall W (k : sink W) w, d W k alt w = do_calls k l w.

(** Four spaces in front of every line. *)
Fixpoint indent_from (line_start : bool) (bs : list N) : list N :=
  match bs with
  | [] => []
  | b :: r => (if line_start then lit "    " else []) ++ b :: indent_from (b =? 10) r
  end.
Definition indent (bs : list N) : list N := indent_from true bs.

Definition newline : list N := [10].

(** The [Debug] text of an [ArrayString], from those of its text and its length. *)
Definition struct_text (alt : bool) (d_text d_len : list N) : list N :=
  if alt then
    lit "ArrayString {" ++ newline ++
    indent (lit "array: " ++ d_text ++ lit "," ++ newline) ++
    indent (lit "size: " ++ d_len ++ lit "," ++ newline) ++
    lit "}"
  else lit "ArrayString { array: " ++ d_text ++ lit ", size: " ++ d_len ++ lit " }".

(** That of a newtype around it. *)
Definition newtype_text (alt : bool) (name d_inner : list N) : list N :=
  if alt then name ++ lit "(" ++ newline ++ indent (d_inner ++ lit "," ++ newline) ++ lit ")"
  else name ++ lit "(" ++ d_inner ++ lit ")".

(** The names of the variants of [Error]. *)
Definition variant_name (e : Error) : string :=
  match e with EUtf8 => "Utf8" | EUtf16 => "Utf16" | EOutOfBounds => "OutOfBounds" end.
