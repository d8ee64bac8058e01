(** What each method should do, as a function on texts: the result and the new
    text. [cap] is the capacity and [umax] is [usize::MAX]. These functions know
    nothing about arrays, bytes left over, pointers or build modes. *)
From Verif Require Import Base Char Spec ModelError.

(** Result of a fallible method together with the text it leaves. *)
Definition fallible (E : Type) : Type := (result unit E * text)%type.

Definition t_try_push_str (cap : N) (w t : text) : fallible OutOfBounds :=
  if blen t + blen w <=? cap then (Ok tt, t ++ w) else (Err mkOutOfBounds, t).

Definition t_push_str_truncate (cap : N) (w t : text) : text := t ++ fit (cap - blen t) w.

Definition t_replace_range (umax cap : N) (lo hi : bound) (w t : text) : fallible Error :=
  let a := range_from umax lo in
  let b := range_to umax (blen t) hi in
  if (a =? b) && (blen w =? 0) then (Ok tt, t)
  else if b <? a then (Err EOutOfBounds, t)
  else if blen t <? b then (Err EOutOfBounds, t)
  else if cap <? blen w then (Err EOutOfBounds, t)
  else match split_at a t, split_at b t with
       | Some (pre, _), Some (_, post) =>
           if blen pre + blen w + blen post <=? cap then (Ok tt, pre ++ w ++ post)
           else (Err EOutOfBounds, t)
       | _, _ => (Err EUtf8, t)
       end.

Definition t_truncate (n : N) (t : text) : fallible Utf8 :=
  if blen t <=? n then (Ok tt, t)
  else match split_at n t with
       | Some (pre, _) => (Ok tt, pre)
       | None => (Err mkUtf8, t)
       end.

Definition t_pop (t : text) : option char * text :=
  match rev t with
  | [] => (None, [])
  | c :: r => (Some c, rev r)
  end.

Definition t_remove (i : N) (t : text) : result char Error * text :=
  if blen t <=? i then (Err EOutOfBounds, t)
  else match split_at i t with
       | Some (pre, c :: post) => (Ok c, pre ++ post)
       | _ => (Err EUtf8, t)
       end.

Definition t_try_insert_str (cap i : N) (w t : text) : fallible Error :=
  if blen t <? i then (Err EOutOfBounds, t)
  else if blen w =? 0 then (Ok tt, t)
  else if cap <? blen w then (Err EOutOfBounds, t)
  else match split_at i t with
       | None => (Err EUtf8, t)
       | Some (pre, post) =>
           if blen t + blen w <=? cap then (Ok tt, pre ++ w ++ post) else (Err EOutOfBounds, t)
       end.

Definition t_insert_str_truncate (cap i : N) (w t : text) : fallible Error :=
  t_try_insert_str cap i (fit (cap - blen t) w) t.

(** Drained part and what is left. *)
Definition t_drain (umax : N) (lo hi : bound) (t : text) : result text Error * text :=
  let a := range_from umax lo in
  let b := range_to umax (blen t) hi in
  if b <? a then (Err EOutOfBounds, t)
  else if blen t <? b then (Err EOutOfBounds, t)
  else match split_at a t with
       | None => (Err EUtf8, t)
       | Some (pre, rest) =>
           match split_at (b - a) rest with
           | None => (Err EUtf8, t)
           | Some (mid, post) => (Ok mid, pre ++ post)
           end
       end.

Definition t_split_off (i : N) (t : text) : result text Error * text :=
  if blen t <? i then (Err EOutOfBounds, t)
  else match split_at i t with
       | None => (Err EUtf8, t)
       | Some (pre, post) => (Ok post, pre)
       end.

(** ** fmt::Write *)

(** Appends the whole piece or nothing; [false] reports the failure. *)
Definition t_write_str (cap : N) (w t : text) : bool * text :=
  if blen t + blen w <=? cap then (true, t ++ w) else (false, t).

(** Any formatting, as the series of pieces it writes: it sees after each piece
    whether it was accepted, and may go on, stop or panic. *)
Inductive formatting : Type :=
| FStop (ok : bool)
| FPanic
| FPiece (w : text) (next : bool -> formatting).

(** Result ([None]: panic) and text after a formatting. *)
Fixpoint t_write_fmt (cap : N) (p : formatting) (t : text) : option bool * text :=
  match p with
  | FStop b => (Some b, t)
  | FPanic => (None, t)
  | FPiece w next => let '(b, t') := t_write_str cap w t in t_write_fmt cap (next b) t'
  end.

(** ** Extend: the text of all items together, cut to what fits *)
Definition t_extend (cap : N) (u t : text) : text := t ++ fit (cap - blen t) u.

(** ** In-place ASCII case *)
Definition ascii_upper (c : char) : char :=
  if (97 <=? code c) && (code c <=? 122)
  then match char_of_N (code c - 32) with Some d => d | None => c end else c.
Definition ascii_lower (c : char) : char :=
  if (65 <=? code c) && (code c <=? 90)
  then match char_of_N (code c + 32) with Some d => d | None => c end else c.

(** ** Drain: one call of [next] ([front = true]) or [next_back] *)
Definition t_deque_step (front : bool) (t : text) : option char * text :=
  if front then match t with [] => (None, []) | c :: r => (Some c, r) end
  else t_pop t.

Fixpoint t_deque (sched : list bool) (t : text) : list (option char) * text :=
  match sched with
  | [] => ([], t)
  | f :: r =>
      let '(o, t1) := t_deque_step f t in
      let '(os, t2) := t_deque r t1 in (o :: os, t2)
  end.

(** What a schedule of calls with answers [os] took from the front ([front = true])
    or from the back. *)
Fixpoint taken (front : bool) (sched : list bool) (os : list (option char)) : text :=
  match sched, os with
  | f :: r, o :: os =>
      match o with
      | Some x => if Bool.eqb f front then x :: taken front r os else taken front r os
      | None => taken front r os
      end
  | _, _ => []
  end.
