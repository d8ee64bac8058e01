(** Model of src/error.rs. *)
From Verif Require Import Base Char RustStd.
From Coq Require Import String.

(** src/error.rs:11-19 [enum Error]. *)
Inductive Error : Type := EUtf8 | EUtf16 | EOutOfBounds.

(** src/error.rs:92-93 [struct Utf8]; 128-129 [struct Utf16]; 173-174 [struct OutOfBounds]. *)
Inductive Utf8 : Type := mkUtf8.
Inductive Utf16 : Type := mkUtf16.
Inductive OutOfBounds : Type := mkOutOfBounds.

(** src/error.rs:119-125, 148-154, 193-199: [From] conversions into [Error]. *)
Definition from_utf8_err (_ : Utf8) : Error := EUtf8.
Definition from_utf16_err (_ : Utf16) : Error := EUtf16.
Definition from_oob (_ : OutOfBounds) : Error := EOutOfBounds.

(** src/error.rs:77-82 and 156-161: conversions from core's [DecodeUtf16Error]
    (whose content is ignored, modelled by [unit]); 70-75 and 112-117: from
    [Utf8Error]; 84-89 and 163-168: from [EncodeUtf16]. *)
Definition error_from_decode_utf16 (_ : unit) : Error := EUtf16.
Definition utf16_from_decode_utf16 (_ : unit) : Utf16 := mkUtf16.
Definition error_from_utf8_error (_ : unit) : Error := EUtf8.
Definition utf8_from_utf8_error (_ : unit) : Utf8 := mkUtf8.
Definition error_from_encode_utf16 (_ : unit) : Error := EUtf16.
Definition utf16_from_encode_utf16 (_ : unit) : Utf16 := mkUtf16.

(** src/error.rs:21-30 [PartialEq for Error]: [matches!] on the pair. *)
Definition error_eq (a b : Error) : bool :=
  match a, b with
  | EUtf8, EUtf8 | EUtf16, EUtf16 | EOutOfBounds, EOutOfBounds => true
  | _, _ => false
  end.

(** src/error.rs:34-43 [Hash for Error]. *)
Definition error_hash (h : hasher) (e : Error) (st : hstate h) : hstate h :=
  match e with
  | EUtf8 => str_hash h (lit "Utf8") st
  | EUtf16 => str_hash h (lit "Utf16") st
  | EOutOfBounds => str_hash h (lit "OutOfBounds") st
  end.

(** src/error.rs:45-54 [Display for Error]: the bytes written. *)
Definition error_display (e : Error) : list N :=
  match e with
  | EUtf8 => lit "Utf8"
  | EUtf16 => lit "Utf16"
  | EOutOfBounds => lit "OutOfBounds"
  end.

(** src/error.rs:56-65 [Debug for Error]. *)
Definition error_debug (e : Error) : list N :=
  match e with
  | EUtf8 => lit "Error::Utf8"
  | EUtf16 => lit "Error::Utf16"
  | EOutOfBounds => lit "Error::OutOfBounds"
  end.

(** src/error.rs:95-107 (Utf8), 131-146 (Utf16), 176-188 (OutOfBounds): [Debug]
    and [Display] write the same literal. *)
Definition utf8_display (_ : Utf8) : list N := lit "Utf8".
Definition utf8_debug (_ : Utf8) : list N := lit "Utf8".
Definition utf16_display (_ : Utf16) : list N := lit "Utf16".
Definition utf16_debug (_ : Utf16) : list N := lit "Utf16".
Definition oob_display (_ : OutOfBounds) : list N := lit "OutOfBounds".
Definition oob_debug (_ : OutOfBounds) : list N := lit "OutOfBounds".
