(** Model of the parts of serde_json 1.0 that the tests of src/integration.rs:146-180
    run on strings: [to_string], and [from_str] for a type that asks for a str. Not
    part of /repo. The derived impls of the tests' newtype structs hand the call on to
    the field (serde_json writes and reads a newtype as its field). *)
From Coq Require Import String.
From Verif Require Import Base Char RustStd RustFmt.

(** ** Writing: [format_escaped_str] *)

Definition hex_digit (n : N) : N := nth (N.to_nat n) (lit "0123456789abcdef") 0.

(** The table [ESCAPE] and [write_char_escape]. *)
Definition json_escape (b : N) : list N :=
  if b =? 0x22 then [0x5C; 0x22]
  else if b =? 0x5C then [0x5C; 0x5C]
  else if b =? 0x08 then lit "\b"
  else if b =? 0x09 then lit "\t"
  else if b =? 0x0A then lit "\n"
  else if b =? 0x0C then lit "\f"
  else if b =? 0x0D then lit "\r"
  else if b <? 0x20 then lit "\u00" ++ [hex_digit (b / 16); hex_digit (b mod 16)]
  else [b].

(** [Serializer::serialize_str]. *)
Definition json_str (bs : list N) : list N := [0x22] ++ flat_map json_escape bs ++ [0x22].

(** ** Reading *)

(** Errors of the format. [NotAString]: the document is something else. *)
Inductive json_error : Type := Syntax | NotAString.

(** [decode_hex_val]. *)
Definition hex_val (b : N) : option N :=
  if in_range 48 57 b then Some (b - 48)
  else if in_range 65 70 b then Some (b - 65 + 10)
  else if in_range 97 102 b then Some (b - 97 + 10)
  else None.

(** [decode_hex_escape]: four digits. *)
Definition hex4 (bs : list N) : option (N * list N) :=
  match bs with
  | a :: b :: c :: d :: r =>
      match hex_val a, hex_val b, hex_val c, hex_val d with
      | Some a, Some b, Some c, Some d => Some (((a * 16 + b) * 16 + c) * 16 + d, r)
      | _, _, _, _ => None
      end
  | _ => None
  end.

(** The bytes pushed for a code point; surrogates do not get here. *)
Definition push_code (n : N) (r : list N) : option (list N * list N) :=
  match char_of_N n with
  | Some x => match encode_utf8 x 4 with Ret b => Some (b, r) | _ => None end
  | None => None
  end.

(** [parse_unicode_escape] after [\u]: the bytes pushed and the rest. *)
Definition unicode_escape (bs : list N) : option (list N * list N) :=
  match hex4 bs with
  | None => None
  | Some (n, r) =>
      if in_range 0xDC00 0xDFFF n then None
      else if negb (in_range 0xD800 0xDBFF n) then push_code n r
      else match r with
           | b :: u :: r =>
               if (b =? 0x5C) && (u =? 117) then
                 match hex4 r with
                 | Some (n2, r) =>
                     if in_range 0xDC00 0xDFFF n2
                     then push_code ((n - 0xD800) * 0x400 + (n2 - 0xDC00) + 0x10000) r
                     else None
                 | None => None
                 end
               else None
           | _ => None
           end
  end.

(** [parse_escape] after the backslash. *)
Definition parse_escape (bs : list N) : option (list N * list N) :=
  match bs with
  | [] => None
  | b :: r =>
      if (b =? 0x22) || (b =? 0x5C) || (b =? 47) then Some ([b], r)
      else if b =? 98 then Some ([0x08], r)
      else if b =? 102 then Some ([0x0C], r)
      else if b =? 110 then Some ([0x0A], r)
      else if b =? 114 then Some ([0x0D], r)
      else if b =? 116 then Some ([0x09], r)
      else if b =? 117 then unicode_escape r
      else None
  end.

(** [Reference]: a slice of the input, or a copy made in the scratch buffer. *)
Inductive reference : Type := Borrowed (s : list N) | Copied (s : list N).

(** [SliceRead::parse_str_bytes] after the opening quote: [scratch], the bytes since
    [start], and the input from [index] on. The fuel is the length of the input: each
    step takes at least one byte. *)
Fixpoint parse_str (fuel : nat) (scratch slice bs : list N) : option (reference * list N) :=
  match fuel, bs with
  | S fuel, b :: r =>
      if b =? 0x22 then
        match scratch with
        | [] => Some (Borrowed slice, r)
        | _ => Some (Copied (scratch ++ slice), r)
        end
      else if b =? 0x5C then
        match parse_escape r with
        | Some (pushed, r) => parse_str fuel (scratch ++ slice ++ pushed) [] r
        | None => None
        end
      else if b <? 0x20 then None
      else parse_str fuel scratch (slice ++ [b]) r
  | _, _ => None
  end.

(** [parse_whitespace]. *)
Definition json_ws (b : N) : bool := (b =? 0x20) || (b =? 0x0A) || (b =? 0x09) || (b =? 0x0D).
Fixpoint skip_json_ws (bs : list N) : list N :=
  match bs with
  | b :: r => if json_ws b then skip_json_ws r else bs
  | [] => []
  end.

(** [Deserializer::deserialize_str]: the call made on the visitor, and the input after it. *)
Definition json_visit (bs : list N) : visit json_error * list N :=
  match skip_json_ws bs with
  | [] => (DeErr Syntax, [])
  | b :: r =>
      if b =? 0x22 then
        match parse_str (length r) [] [] r with
        | Some (Borrowed s, r) => (VBorrowedStr s, r)
        | Some (Copied s, r) => (VStr s, r)
        | None => (DeErr Syntax, [])
        end
      else (DeErr NotAString, r)
  end.

(** [serde_json::from_str]: the value, then [Deserializer::end]. *)
Definition json_from_str {A} (deserialize : visit json_error -> outcome (result A (de_error json_error)))
    (bs : list N) : outcome (result A (de_error json_error)) :=
  let '(v, rest) := json_visit bs in
  r <- deserialize v ;;
  Ret (match r with
       | Ok a => match skip_json_ws rest with [] => Ok a | _ => Err (FromFormat Syntax) end
       | Err e => Err e
       end).
