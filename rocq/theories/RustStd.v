(** Model of the parts of Rust's core library that the crate calls. The library
    is not part of /repo; each comment names the core function and a call site in
    /repo. Bytes and code points are [N]; bit operations are those of core. *)
From Coq Require String Ascii.
From Verif Require Import Base Char.
From Verif Require Export Spec.

(** An ASCII literal as bytes. *)
Definition lit (s : String.string) : list N := map Ascii.N_of_ascii (String.list_ascii_of_string s).

(** ** char *)

(** [char::len_utf8] (core::char::methods::len_utf8); called at src/arraystring.rs:494, 578. *)
Definition len_utf8 (c : char) : N :=
  let n := code c in
  if n <? 0x80 then 1 else if n <? 0x800 then 2 else if n <? 0x10000 then 3 else 4.

(** [x as u8] for a [u32]. *)
Definition as_u8 (n : N) : N := n mod 256.

(** [char::encode_utf8] into a buffer of [buflen] bytes
    (core::char::methods::encode_utf8_raw; panics when the buffer is too small);
    called at src/arraystring.rs:445, 630 with a 4 byte buffer. *)
Definition encode_utf8 (c : char) (buflen : N) : outcome (list N) :=
  let n := code c in
  if buflen <? len_utf8 c then Panic
  else match len_utf8 c with
       | 1 => Ret [as_u8 n]
       | 2 => Ret [N.lor (as_u8 (N.land (N.shiftr n 6) 0x1F)) 0xC0;
                   N.lor (as_u8 (N.land n 0x3F)) 0x80]
       | 3 => Ret [N.lor (as_u8 (N.land (N.shiftr n 12) 0x0F)) 0xE0;
                   N.lor (as_u8 (N.land (N.shiftr n 6) 0x3F)) 0x80;
                   N.lor (as_u8 (N.land n 0x3F)) 0x80]
       | _ => Ret [N.lor (as_u8 (N.land (N.shiftr n 18) 0x07)) 0xF0;
                   N.lor (as_u8 (N.land (N.shiftr n 12) 0x3F)) 0x80;
                   N.lor (as_u8 (N.land (N.shiftr n 6) 0x3F)) 0x80;
                   N.lor (as_u8 (N.land n 0x3F)) 0x80]
       end.

(** [char::is_whitespace] (core: match on ' ', \x09..=\x0d, then the
    White_Space table above 0x7f); called at src/arraystring.rs:521, 532. *)
Definition is_whitespace (c : char) : bool :=
  let n := code c in
  if (n =? 0x20) || ((0x09 <=? n) && (n <=? 0x0d)) then true
  else if n <=? 0x7f then false
  else match N.shiftr n 8 with
       | 0x00 => (n =? 0x85) || (n =? 0xA0)
       | 0x16 => n =? 0x1680
       | 0x20 => ((0x2000 <=? n) && (n <=? 0x200A)) || (n =? 0x2028) || (n =? 0x2029)
                 || (n =? 0x202F) || (n =? 0x205F)
       | 0x30 => n =? 0x3000
       | _ => false
       end.

(** [char::from_u32_unchecked] (unsafe: the argument must be a scalar value). *)
Definition from_u32_unchecked (n : N) : outcome char :=
  match char_of_N n with Some c => Ret c | None => UB end.

(** ** slices *)

(** [<[T]>::get_unchecked(..n)] (unsafe: [n] must not exceed the length);
    called at src/implementations.rs:48, 66. *)
Definition slice_get_unchecked_to {A} (l : list A) (n : N) : outcome (list A) :=
  if n <=? lenN l then Ret (takeN n l) else UB.

(** ** str *)

(** [u8 as i8 >= -0x40] (core::num::is_utf8_char_boundary). *)
Definition is_utf8_char_boundary (b : N) : bool := (b <? 128) || (192 <=? b).

(** [str::is_char_boundary]; called at src/utils.rs:29, 47, 51, 55 and
    src/arraystring.rs:567, 810, 811. *)
Definition str_is_char_boundary (bs : list N) (i : N) : bool :=
  if i =? 0 then true
  else if lenN bs <=? i then i =? lenN bs
  else is_utf8_char_boundary (nth (N.to_nat i) bs 0).

(** [str::get(a..b)]; called at src/arraystring.rs:573. *)
Definition str_get (bs : list N) (a b : N) : option (list N) :=
  if (a <=? b) && str_is_char_boundary bs a && str_is_char_boundary bs b
  then Some (takeN (b - a) (dropN a bs)) else None.

(** [str::get_unchecked(a..b)] (unsafe: [a <= b], both in bounds and on
    boundaries); called at src/arraystring.rs:815 and src/utils.rs:48, 52, 56, 59. *)
Definition str_get_unchecked (bs : list N) (a b : N) : outcome (list N) :=
  match str_get bs a b with Some r => Ret r | None => UB end.

(** *** Validation: [str::from_utf8] (core::str::validations::run_utf8_validation,
    without its word-at-a-time ASCII shortcut, which does not change the result);
    called at src/implementations.rs:33, 52. *)
Definition in_range (lo hi b : N) : bool := (lo <=? b) && (b <=? hi).
Definition is_cont (b : N) : bool := in_range 0x80 0xBF b.

Definition utf8_char_width (b : N) : N :=
  if b <? 0x80 then 1
  else if in_range 0xC2 0xDF b then 2
  else if in_range 0xE0 0xEF b then 3
  else if in_range 0xF0 0xF4 b then 4 else 0.

Definition second_of_3 (b y : N) : bool :=
  ((b =? 0xE0) && in_range 0xA0 0xBF y) || (in_range 0xE1 0xEC b && in_range 0x80 0xBF y)
  || ((b =? 0xED) && in_range 0x80 0x9F y) || (in_range 0xEE 0xEF b && in_range 0x80 0xBF y).

Definition second_of_4 (b y : N) : bool :=
  ((b =? 0xF0) && in_range 0x90 0xBF y) || (in_range 0xF1 0xF3 b && in_range 0x80 0xBF y)
  || ((b =? 0xF4) && in_range 0x80 0x8F y).

Fixpoint from_utf8_ok_fuel (fuel : nat) (bs : list N) : bool :=
  match fuel with
  | O => match bs with [] => true | _ => false end
  | S fuel =>
      match bs with
      | [] => true
      | b :: r =>
          match utf8_char_width b with
          | 1 => from_utf8_ok_fuel fuel r
          | 2 => match r with y :: r => is_cont y && from_utf8_ok_fuel fuel r | _ => false end
          | 3 => match r with
                 | y :: z :: r => second_of_3 b y && is_cont z && from_utf8_ok_fuel fuel r
                 | _ => false end
          | 4 => match r with
                 | y :: z :: w :: r =>
                     second_of_4 b y && is_cont z && is_cont w && from_utf8_ok_fuel fuel r
                 | _ => false end
          | _ => false
          end
      end
  end.

(** The fuel is the number of bytes, so it never runs out before the input. *)
Definition from_utf8_ok (bs : list N) : bool := from_utf8_ok_fuel (length bs) bs.

(** [str::from_utf8_unchecked] / [from_utf8_unchecked_mut] (unsafe: the bytes must
    be valid UTF-8); called at src/implementations.rs:34, 53. *)
Definition from_utf8_unchecked (bs : list N) : outcome (list N) :=
  if from_utf8_ok bs then Ret bs else UB.

(** *** Decoding: the state of [Chars] is the remaining bytes. *)
Definition utf8_first_byte (b width : N) : N := N.land b (N.shiftr 0x7F width).
Definition utf8_acc_cont_byte (ch b : N) : N := N.lor (N.shiftl ch 6) (N.land b 0x3F).

(** [Chars::next] (core::str::validations::next_code_point: bytes past the first
    are read without checking that they exist). *)
Definition chars_next (bs : list N) : outcome (option (char * list N)) :=
  match bs with
  | [] => Ret None
  | x :: r =>
      if x <? 128 then c <- from_u32_unchecked x ;; Ret (Some (c, r))
      else
        let init := utf8_first_byte x 2 in
        match r with
        | [] => UB
        | y :: r =>
            if x <? 0xE0 then
              c <- from_u32_unchecked (utf8_acc_cont_byte init y) ;; Ret (Some (c, r))
            else
              match r with
              | [] => UB
              | z :: r =>
                  let y_z := utf8_acc_cont_byte (N.land y 0x3F) z in
                  if x <? 0xF0 then
                    c <- from_u32_unchecked (N.lor (N.shiftl init 12) y_z) ;; Ret (Some (c, r))
                  else
                    match r with
                    | [] => UB
                    | w :: r =>
                        c <- from_u32_unchecked
                               (N.lor (N.shiftl (N.land init 7) 18) (utf8_acc_cont_byte y_z w)) ;;
                        Ret (Some (c, r))
                    end
              end
        end
  end.

(** core::str::validations::utf8_is_cont_byte: [(b as i8) < -64]. *)
Definition utf8_is_cont_byte (b : N) : bool := (128 <=? b) && (b <? 192).

(** [Chars::next_back] (next_code_point_reverse), on the reversed bytes. Result:
    the character and the reversed rest. *)
Definition chars_next_back_rev (rb : list N) : outcome (option (char * list N)) :=
  match rb with
  | [] => Ret None
  | w :: r =>
      if w <? 128 then c <- from_u32_unchecked w ;; Ret (Some (c, r))
      else
        match r with
        | [] => UB
        | z :: r =>
            if negb (utf8_is_cont_byte z) then
              c <- from_u32_unchecked (utf8_acc_cont_byte (utf8_first_byte z 2) w) ;;
              Ret (Some (c, r))
            else
              match r with
              | [] => UB
              | y :: r =>
                  if negb (utf8_is_cont_byte y) then
                    c <- from_u32_unchecked
                           (utf8_acc_cont_byte (utf8_acc_cont_byte (utf8_first_byte y 3) z) w) ;;
                    Ret (Some (c, r))
                  else
                    match r with
                    | [] => UB
                    | x :: r =>
                        c <- from_u32_unchecked
                               (utf8_acc_cont_byte
                                  (utf8_acc_cont_byte
                                     (utf8_acc_cont_byte (utf8_first_byte x 4) y) z) w) ;;
                        Ret (Some (c, r))
                    end
              end
        end
  end.

(** [Chars::next_back] on the bytes in order. *)
Definition chars_next_back (bs : list N) : outcome (option (char * list N)) :=
  o <- chars_next_back_rev (rev bs) ;;
  Ret (match o with Some (c, r) => Some (c, rev r) | None => None end).

(** [str.chars().last()]: core overrides [Chars::last] with [next_back];
    called at src/arraystring.rs:493. *)
Definition chars_last (bs : list N) : outcome (option char) :=
  o <- chars_next_back bs ;; Ret (match o with Some (c, _) => Some c | None => None end).

(** [CharIndices]: [front_offset] and the remaining bytes. *)
Definition char_indices : Type := N * list N.

(** [CharIndices::next]; used at src/arraystring.rs:520. *)
Definition char_indices_next (it : char_indices) : outcome (option (N * char * char_indices)) :=
  let '(off, bs) := it in
  o <- chars_next bs ;;
  Ret (match o with
       | None => None
       | Some (c, r) => Some (off, c, (off + (lenN bs - lenN r), r))
       end).

(** [CharIndices::next_back]; used at src/arraystring.rs:527 ([.rev()]). *)
Definition char_indices_next_back (it : char_indices) : outcome (option (N * char * char_indices)) :=
  let '(off, bs) := it in
  o <- chars_next_back bs ;;
  Ret (match o with
       | None => None
       | Some (c, r) => Some (off + lenN r, c, (off, r))
       end).

(** *** Comparison of [str] (byte-wise; core::slice::cmp). *)

(** [<str as PartialEq>::eq]: equal lengths, then memcmp. *)
Fixpoint bytes_eqb (a b : list N) : bool :=
  match a, b with
  | [], [] => true
  | x :: a, y :: b => (x =? y) && bytes_eqb a b
  | _, _ => false
  end.
Definition str_eq (a b : list N) : bool := (lenN a =? lenN b) && bytes_eqb a b.

(** memcmp over the first [n] bytes. *)
Fixpoint memcmp (n : nat) (a b : list N) : comparison :=
  match n, a, b with
  | S n, x :: a, y :: b => match x ?= y with Eq => memcmp n a b | o => o end
  | _, _, _ => Eq
  end.
(** [<str as Ord>::cmp]: memcmp over the common length, then lengths. *)
Definition str_cmp (a b : list N) : comparison :=
  match memcmp (N.to_nat (N.min (lenN a) (lenN b))) a b with
  | Eq => lenN a ?= lenN b
  | o => o
  end.

(** ** Iterators: arbitrary state machines *)

(** [Iterator::next] of an iterator with state [S]; it may panic or diverge. *)
Definition iter (S A : Type) : Type := S -> outcome (option A) * S.

(** How a [for] body ends. *)
Inductive flow (R : Type) : Type := Continue | Break | Return (r : R).
Arguments Continue {R}.
Arguments Break {R}.
Arguments Return {R} r.

(** [for x in it { body }] with loop state [X] and at most [fuel] calls of
    [next]. [Ret None]: the loop ended; [Ret (Some r)]: [return r]. The iterator
    state and loop state reached are returned in every case. *)
Fixpoint for_loop {S A X R} (fuel : nat) (next : iter S A) (body : A -> ST X (flow R))
    (it : S) (x : X) : outcome (option R) * S * X :=
  match fuel with
  | O => (Diverge, it, x)
  | S fuel =>
      match next it with
      | (Ret None, it) => (Ret None, it, x)
      | (Ret (Some a), it) =>
          match body a x with
          | (Ret Continue, x) => for_loop fuel next body it x
          | (Ret Break, x) => (Ret None, it, x)
          | (Ret (Return r), x) => (Ret (Some r), it, x)
          | (Panic, x) => (Panic, it, x)
          | (UB, x) => (UB, it, x)
          | (Diverge, x) => (Diverge, it, x)
          end
      | (Panic, it) => (Panic, it, x)
      | (UB, it) => (UB, it, x)
      | (Diverge, it) => (Diverge, it, x)
      end
  end.

(** [str::chars()] as an iterator; called at src/arraystring.rs:575, 599. *)
Definition chars_iter : iter (list N) char := fun bs =>
  match chars_next bs with
  | Ret None => (Ret None, bs)
  | Ret (Some (c, r)) => (Ret (Some c), r)
  | Panic => (Panic, bs)
  | UB => (UB, bs)
  | Diverge => (Diverge, bs)
  end.

(** [Iterator::filter] with a closure [f] that has state [F] and may panic
    (core::iter::Filter::next = find); called at src/arraystring.rs:599. *)
Fixpoint filter_next {S A F} (fuel : nat) (next : iter S A) (f : A -> ST F bool)
    (st : S * F) : outcome (option A) * (S * F) :=
  match fuel with
  | O => (Diverge, st)
  | Datatypes.S fuel =>
      let '(it, x) := st in
      match next it with
      | (Ret None, it) => (Ret None, (it, x))
      | (Ret (Some a), it) =>
          match f a x with
          | (Ret true, x) => (Ret (Some a), (it, x))
          | (Ret false, x) => filter_next fuel next f (it, x)
          | (Panic, x) => (Panic, (it, x))
          | (UB, x) => (UB, (it, x))
          | (Diverge, x) => (Diverge, (it, x))
          end
      | (Panic, it) => (Panic, (it, x))
      | (UB, it) => (UB, (it, x))
      | (Diverge, it) => (Diverge, (it, x))
      end
  end.

(** [Iterator::cloned] / [map(|x| *x)]: references to values are the values;
    called at src/implementations.rs:294. *)
Definition cloned_iter {S A} (next : iter S A) : iter S A := next.

(** An item of [impl IntoIterator<Item = impl AsRef<str>>]: what its first and
    second [as_ref()] calls return (src/arraystring.rs:124-131 and 155-164). *)
Record as_ref_item : Type := mkitem { ref1 : list N; ref2 : list N }.

(** An iterator that hands out a list; used for concrete runs. *)
Definition list_iter {A} : iter (list A) A := fun l =>
  match l with [] => (Ret None, []) | a :: r => (Ret (Some a), r) end.

(** ** UTF-16: [char::decode_utf16] (core::char::decode::DecodeUtf16). State: the
    put-back unit and the remaining units. [None] is [DecodeUtf16Error]. Called
    at src/arraystring.rs:250, 283, 317. *)
Definition is_utf16_surrogate (u : N) : bool := N.land u 0xF800 =? 0xD800.

Definition decode_utf16_next : iter (option N * list N) (option char) := fun st =>
  let pull := match st with
              | (Some u, us) => Some (u, us)
              | (None, u :: us) => Some (u, us)
              | (None, []) => None
              end in
  match pull with
  | None => (Ret None, (None, []))
  | Some (u, us) =>
      if negb (is_utf16_surrogate u) then
        match from_u32_unchecked u with
        | Ret c => (Ret (Some (Some c)), (None, us))
        | Panic => (Panic, (None, us))
        | UB => (UB, (None, us))
        | Diverge => (Diverge, (None, us))
        end
      else if 0xDC00 <=? u then (Ret (Some None), (None, us))
      else match us with
           | [] => (Ret (Some None), (None, []))
           | u2 :: us =>
               if (u2 <? 0xDC00) || (0xDFFF <? u2) then (Ret (Some None), (Some u2, us))
               else
                 match from_u32_unchecked
                         (N.lor (N.shiftl (N.land u 0x3ff) 10) (N.land u2 0x3ff) + 0x10000) with
                 | Ret c => (Ret (Some (Some c)), (None, us))
                 | Panic => (Panic, (None, us))
                 | UB => (UB, (None, us))
                 | Diverge => (Diverge, (None, us))
                 end
           end
  end.

(** ** Raw pointers into one allocation of [size] bytes: offsets from its start *)

(** [ptr::add] (unsafe: the result must stay inside the allocation or one past
    its end); called at src/arraystring.rs:879-881. *)
Definition ptr_add (size p n : N) : outcome N := if p + n <=? size then Ret (p + n) else UB.

(** [ptr::copy(src, dst, n)] (memmove) inside one allocation; called at
    src/arraystring.rs:884. *)
Definition ptr_copy (mem : list N) (src dst n : N) : outcome (list N) :=
  if (src + n <=? lenN mem) && (dst + n <=? lenN mem)
  then Ret (takeN dst mem ++ takeN n (dropN src mem) ++ dropN (dst + n) mem)
  else UB.

(** [ptr::copy_nonoverlapping(src, dst, n)] from another allocation; called at
    src/arraystring.rs:887. *)
Definition ptr_copy_from (mem src : list N) (dst n : N) : outcome (list N) :=
  if (n <=? lenN src) && (dst + n <=? lenN mem)
  then Ret (takeN dst mem ++ takeN n src ++ dropN (dst + n) mem)
  else UB.

(** ** Hashing: an arbitrary [core::hash::Hasher] *)
Record hasher : Type := mkhasher {
  hstate : Type;
  hwrite : list N -> hstate -> hstate;
  hwrite_u8 : N -> hstate -> hstate
}.

(** [<str as Hash>::hash]: [state.write_str(s)], by default [write(bytes)] then
    [write_u8(0xff)]; called at src/implementations.rs:159, src/drain.rs:84 and
    src/error.rs:38-40. *)
Definition str_hash (h : hasher) (bs : list N) (st : hstate h) : hstate h :=
  hwrite_u8 h 0xff (hwrite h bs st).
