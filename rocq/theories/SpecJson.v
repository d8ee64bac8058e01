(** JSON strings (RFC 8259), in terms of characters. *)
From Coq Require Import String.
From Verif Require Import Base Char Spec RustStd.

(** Characters that a JSON string cannot contain as they are. *)
Definition json_special (x : char) : Prop := code x < 32 \/ code x = 34 \/ code x = 92.
Definition json_plain (t : text) : Prop := Forall (fun x => ~ json_special x) t.

(** White space between tokens. *)
Definition json_space (x : char) : Prop := code x = 32 \/ code x = 9 \/ code x = 10 \/ code x = 13.

Definition json_quote : char := mkchar 34 eq_refl.

(** The document [d] is the string [t], written without escapes. *)
Definition json_doc (d t : text) : Prop :=
  json_plain t /\
  exists l r, d = l ++ [json_quote] ++ t ++ [json_quote] ++ r /\ Forall json_space l /\ Forall json_space r.

(** A character as serde_json writes it: with a short escape where there is one, in
    the form \u00hh for the other control characters, else as it is. *)
Definition json_short : list (N * list N) :=
  [(34, [92; 34]); (92, [92; 92]); (8, lit "\b"); (9, lit "\t"); (10, lit "\n"); (12, lit "\f"); (13, lit "\r")].
Definition json_hex (n : N) : N := if n <? 10 then 48 + n else 87 + n.
Definition json_char (x : char) : list N :=
  match find (fun p => fst p =? code x) json_short with
  | Some p => snd p
  | None => if code x <? 16 then lit "\u000" ++ [json_hex (code x)]
            else if code x <? 32 then lit "\u001" ++ [json_hex (code x - 16)]
            else enc1 x
  end.

(** ** Strings with escapes *)

(** A hexadecimal digit and its value, in either case; four digits. *)
Definition json_digit (x : char) (v : N) : Prop :=
  v < 16 /\ (nth (N.to_nat v) (lit "0123456789ABCDEF") 0 = code x \/ nth (N.to_nat v) (lit "0123456789abcdef") 0 = code x).
Definition json_number (ds : text) (n : N) : Prop :=
  exists a b c d va vb vc vd, ds = [a; b; c; d] /\
    json_digit a va /\ json_digit b vb /\ json_digit c vc /\ json_digit d vd /\
    n = 4096 * va + 256 * vb + 16 * vc + vd.

(** What a character stands for behind a backslash. *)
Definition json_letters : list (N * N) :=
  [(34, 34); (92, 92); (47, 47); (98, 8); (102, 12); (110, 10); (114, 13); (116, 9)].

Definition json_u (ds : text) : text := mkchar 92 eq_refl :: mkchar 117 eq_refl :: ds.

(** How one character may be written; [e]: with an escape. *)
Inductive json_piece : text -> char -> bool -> Prop :=
| piece_plain x : ~ json_special x -> json_piece [x] x false
| piece_letter l x : In (code l, code x) json_letters -> json_piece [mkchar 92 eq_refl; l] x true
| piece_number ds x : json_number ds (code x) -> json_piece (json_u ds) x true
| piece_pair hs ls x hi lo : json_number hs hi -> json_number ls lo ->
    0xD800 <= hi < 0xDC00 -> 0xDC00 <= lo < 0xE000 ->
    code x = 0x10000 + 0x400 * (hi - 0xD800) + (lo - 0xDC00) ->
    json_piece (json_u hs ++ json_u ls) x true.

Inductive json_body : text -> text -> bool -> Prop :=
| body_end : json_body [] [] false
| body_piece p x e b t e' : json_piece p x e -> json_body b t e' -> json_body (p ++ b) (x :: t) (e || e').

(** The document [d] is the string [t]; [e]: some character is escaped. *)
Definition json_string (d t : text) (e : bool) : Prop :=
  exists l b r, d = l ++ [json_quote] ++ b ++ [json_quote] ++ r /\
    Forall json_space l /\ Forall json_space r /\ json_body b t e.

(** A text of ASCII characters, for concrete documents. *)
Definition ascii_text (bs : list N) : text :=
  map (fun n => match char_of_N n with Some x => x | None => json_quote end) bs.
