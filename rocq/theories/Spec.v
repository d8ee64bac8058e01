(** Specification vocabulary. Nothing here refers to the model of the crate: a
    text is a list of Unicode scalar values, a byte position is a number, and the
    encodings are written from the tables of the Unicode standard. *)
From Verif Require Import Base Char.

(** A text: what the user means by "the string". *)
Definition text : Type := list char.

(** ** UTF-8 (Unicode standard, table 3-6), by division and remainder *)
Definition enc1 (c : char) : list N :=
  let n := code c in
  if n <? 0x80 then [n]
  else if n <? 0x800 then [192 + n / 64; 128 + n mod 64]
  else if n <? 0x10000 then [224 + n / 4096; 128 + (n / 64) mod 64; 128 + n mod 64]
  else [240 + n / 262144; 128 + (n / 4096) mod 64; 128 + (n / 64) mod 64; 128 + n mod 64].

(** The bytes of a text. *)
Definition enc (t : text) : list N := flat_map enc1 t.

(** Number of bytes of a character and of a text. *)
Definition clen (c : char) : N :=
  let n := code c in
  if n <? 0x80 then 1 else if n <? 0x800 then 2 else if n <? 0x10000 then 3 else 4.

Fixpoint blen (t : text) : N :=
  match t with [] => 0 | c :: r => clen c + blen r end.

(** ** Positions *)

(** Byte position [i] separates [t] into [pre] and [post]. *)
Definition splits (t : text) (i : N) (pre post : text) : Prop :=
  t = pre ++ post /\ blen pre = i.

(** [i] is a character boundary of [t] (0 and the length included). *)
Definition boundary (t : text) (i : N) : Prop := exists pre post, splits t i pre post.

(** The same, computed. *)
Fixpoint split_at (i : N) (t : text) : option (text * text) :=
  if i =? 0 then Some ([], t)
  else match t with
       | [] => None
       | c :: r =>
           if clen c <=? i then
             match split_at (i - clen c) r with
             | Some (pre, post) => Some (c :: pre, post)
             | None => None
             end
           else None
       end.

(** ** Prefixes *)

Definition prefix_of {A} (p l : list A) : Prop := exists r, l = p ++ r.

(** [p] is the longest prefix of [t], cut between characters, of at most [n] bytes. *)
Definition longest_fit (n : N) (t p : text) : Prop :=
  prefix_of p t /\ blen p <= n /\
  forall q, prefix_of q t -> blen q <= n -> prefix_of q p.

(** The same, computed. *)
Fixpoint fit (n : N) (t : text) : text :=
  match t with
  | [] => []
  | c :: r => if clen c <=? n then c :: fit (n - clen c) r else []
  end.

(** ** Whitespace: the Unicode White_Space property *)
Definition white_space (c : char) : bool :=
  let n := code c in
  ((9 <=? n) && (n <=? 13)) || (n =? 0x20) || (n =? 0x85) || (n =? 0xA0) || (n =? 0x1680)
  || ((0x2000 <=? n) && (n <=? 0x200A)) || (n =? 0x2028) || (n =? 0x2029) || (n =? 0x202F)
  || (n =? 0x205F) || (n =? 0x3000).

(** [r] is [t] without its leading and trailing whitespace. *)
Definition trimmed (t r : text) : Prop :=
  exists l s, t = l ++ r ++ s /\
    Forall (fun c => white_space c = true) l /\
    Forall (fun c => white_space c = true) s /\
    (forall c r', r = c :: r' -> white_space c = false) /\
    (forall c r', r = r' ++ [c] -> white_space c = false).

Fixpoint skip_ws (t : text) : text :=
  match t with
  | [] => []
  | c :: r => if white_space c then skip_ws r else t
  end.

Definition trim_text (t : text) : text := rev (skip_ws (rev (skip_ws t))).

(** ** Filtering with a stateful predicate: [f] is called once per character, in
    order, starting from state [x]. Result: kept characters and final state. *)
Fixpoint filter_st {X} (f : X -> char -> bool * X) (x : X) (t : text) : text * X :=
  match t with
  | [] => ([], x)
  | c :: r =>
      let '(keep, x1) := f x c in
      let '(r', x2) := filter_st f x1 r in
      (if keep then c :: r' else r', x2)
  end.

(** ** UTF-16 *)
Definition is_high (u : N) : Prop := 0xD800 <= u <= 0xDBFF.
Definition is_low (u : N) : Prop := 0xDC00 <= u <= 0xDFFF.

(** The units [us] read as a sequence of characters ([Some]) and unpaired
    surrogates ([None]). *)
Inductive utf16_items : list N -> list (option char) -> Prop :=
| u16_nil : utf16_items [] []
| u16_bmp c us r : (* a unit that is not a surrogate is a character *)
    code c < 0x10000 -> utf16_items us r ->
    utf16_items (code c :: us) (Some c :: r)
| u16_pair h l c us r : (* a high surrogate followed by a low one is a character *)
    is_high h -> is_low l -> code c = 0x10000 + (h - 0xD800) * 0x400 + (l - 0xDC00) ->
    utf16_items us r -> utf16_items (h :: l :: us) (Some c :: r)
| u16_low l us r : (* a low surrogate not preceded by a high one *)
    is_low l -> utf16_items us r -> utf16_items (l :: us) (None :: r)
| u16_high h us r : (* a high surrogate not followed by a low one *)
    is_high h -> (forall l us', us = l :: us' -> ~ is_low l) ->
    utf16_items us r -> utf16_items (h :: us) (None :: r).

(** UTF-16 encoding of a text. *)
Definition enc16_1 (c : char) : list N :=
  let n := code c in
  if n <? 0x10000 then [n]
  else [0xD800 + (n - 0x10000) / 0x400; 0xDC00 + (n - 0x10000) mod 0x400].
Definition enc16 (t : text) : list N := flat_map enc16_1 t.

(** Every unpaired surrogate replaced by U+FFFD. *)
Definition lossy (items : list (option char)) : text :=
  map (fun o => match o with Some c => c | None => replacement_char end) items.

(** The characters before the first unpaired surrogate. *)
Fixpoint valid_prefix (items : list (option char)) : text :=
  match items with Some c :: r => c :: valid_prefix r | _ => [] end.

(** ** Order: lexicographic on scalar values *)
Inductive text_lt : text -> text -> Prop :=
| lt_nil c b : text_lt [] (c :: b)
| lt_head c d a b : code c < code d -> text_lt (c :: a) (d :: b)
| lt_tail c a b : text_lt a b -> text_lt (c :: a) (c :: b).

(** ** Ranges of [usize] as given by [RangeBounds] *)
Inductive bound : Type := Included (n : N) | Excluded (n : N) | Unbounded.

(** First byte and one-past-last byte a pair of bounds denotes in a text of [len]
    bytes. [umax] is [usize::MAX]: one past it is not representable, and [umax]
    stands for it. *)
Definition range_from (umax : N) (b : bound) : N :=
  match b with Included n => n | Excluded n => N.min (n + 1) umax | Unbounded => 0 end.
Definition range_to (umax len : N) (b : bound) : N :=
  match b with Included n => N.min (n + 1) umax | Excluded n => n | Unbounded => len end.
