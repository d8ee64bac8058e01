(** The unsafe code that writes to the backing array, with the borrows it makes:
    src/arraystring.rs:838-892 [replace_range] and src/implementations.rs:38-55
    [as_mut], together with the [&self] functions they call. Values come from the
    model of the functions (Model.v); this file adds every reborrow and every
    access to the bytes of [*self]. A function that reads part of a string is taken
    to read all of it (more accesses only make it harder to be accepted). *)
From Verif Require Import Base Char Spec RustStd ModelError Model Borrows.

(** A value of [ArrayString] in memory: the array at addresses [0..cap], the size at
    address [cap]. *)
Definition mem : Type := (astring * borrows)%type.

Definition on_val {A} (m : ST astring A) : ST mem A := fun '(s, b) =>
  let '(o, s) := m s in (o, (s, b)).
Definition on_tags {A} (m : ST borrows A) : ST mem A := fun '(s, b) =>
  let '(o, b) := m b in (o, (s, b)).
Definition during {A} (t : N) (m : ST mem A) : ST mem A := fun '(s, b) =>
  let '(o, (s, b)) := m (s, protect t b) in (o, (s, unprotect b)).

(** A call with a reference to the [n] bytes from [lo] as an argument: the argument is
    a reborrow of [t], protected while the call runs. *)
Definition call {A} (p : perm) (t lo n : N) (f : N -> ST mem A) : ST mem A :=
  r <~ on_tags (reborrow p t lo n) ;; during r (f r).

Section WithCfg.
Variable c : cfg.

(** [*self] is the [cap] bytes of the array and the byte of the size. *)
Definition call_self {A} (p : perm) (t : N) (f : N -> ST mem A) : ST mem A := call p t 0 (cap c + 1) f.

(** src/arraystring.rs:719-724 [len(&self)]. *)
Definition b_len (t : N) : ST mem N :=
  call_self SharedRO t (fun self =>
    _ <~ on_tags (access false self (cap c) 1) ;;
    on_val (sread (fun s => Ret (len s)))).

(** src/implementations.rs:57-68 [AsRef<[u8]>::as_ref(&self)], calling [as_slice] and
    [get_unchecked]: the tag of the slice and its bytes. *)
Definition b_as_ref_bytes (t : N) : ST mem (N * list N) :=
  call_self SharedRO t (fun self =>
    _ <~ (if debug c then b_len self else sret 0) ;;
    a <~ call SharedRO self 0 (cap c) (fun a => sret a) ;;
    n <~ b_len self ;;
    v <~ call SharedRO a 0 (cap c) (fun a => on_tags (reborrow SharedRO a 0 n)) ;;
    bs <~ on_val (sread (as_ref_bytes c)) ;;
    sret (v, bs)).

(** src/implementations.rs:23-36 [AsRef<str>::as_ref(&self)]. *)
Definition b_as_ref (t : N) : ST mem (N * list N) :=
  call_self SharedRO t (fun self =>
    _ <~ (if debug c then
            p <~ b_as_ref_bytes self ;;
            call SharedRO (fst p) 0 (lenN (snd p)) (fun r =>
              on_tags (access false r 0 (lenN (snd p))))
          else sret tt) ;;
    p <~ b_as_ref_bytes self ;;
    bs <~ on_val (sread (as_str c)) ;;
    sret (fst p, bs)).

(** src/arraystring.rs:336-341 [as_str(&self)]. *)
Definition b_as_str (t : N) : ST mem (N * list N) := call_self SharedRO t b_as_ref.

(** src/utils.rs:21-33 [is_char_boundary(s: &ArrayString, idx)]. *)
Definition b_is_char_boundary (t idx : N) : ST mem (result unit Utf8) :=
  call_self SharedRO t (fun s =>
    p <~ b_as_str s ;;
    _ <~ call SharedRO (fst p) 0 (lenN (snd p)) (fun r =>
           on_tags (access false r 0 (lenN (snd p)))) ;;
    on_val (sread (fun s => is_char_boundary c s idx))).

(** src/arraystring.rs:873 [self.array.as_mut_ptr()]: a unique reference to the
    array, handed to [as_mut_ptr(&mut self)], which turns it into a raw pointer. *)
Definition b_as_mut_ptr (t : N) : ST mem N :=
  a <~ on_tags (reborrow Unique t 0 (cap c)) ;;
  call Unique a 0 (cap c) (fun a => on_tags (reborrow SharedRW a 0 (cap c))).

(** src/arraystring.rs:838-892 [replace_range(&mut self, ..)], called through a
    reference with tag [own]. The replacement is in other memory: a [&str] that lives
    while [&mut self] does cannot overlap [*self]. *)
Definition b_replace_range (own : N) (lo hi : bound) (str : list N) : ST mem (result unit Error) :=
  call_self Unique own (fun self =>
    let start := start_of c lo in
    end_ <~ match hi with
            | Unbounded => b_len self
            | _ => sret (end_of c hi 0)
            end ;;
    if (start =? end_) && (lenN str =? 0) then sret (Ok tt)
    else
      _ <~? from_oob ? sret (is_inside_boundary start end_) ;;
      n <~ b_len self ;;
      _ <~? from_oob ? sret (is_inside_boundary end_ n) ;;
      _ <~? from_oob ? sret (is_inside_boundary (lenN str) (capacity c)) ;;
      _ <~? from_utf8_err ? b_is_char_boundary self start ;;
      _ <~? from_utf8_err ? b_is_char_boundary self end_ ;;
      n <~ b_len self ;;
      n <~ slift (a <- uadd c n (lenN str) ;; b <- uadd c a start ;; usub c b end_) ;;
      _ <~? from_oob ? sret (is_inside_boundary n (capacity c)) ;;
      ptr <~ b_as_mut_ptr self ;;
      cut_start <~ slift (ptr_add (cap c) 0 start) ;;
      cut_end <~ slift (ptr_add (cap c) 0 end_) ;;
      str_end <~ slift (ptr_add (cap c) cut_start (lenN str)) ;;
      _ <~ (if negb (cut_end =? str_end) then
              n <~ b_len self ;;
              n <~ slift (usub c n end_) ;;
              a <~ on_val (sread (fun s => ptr_copy (arr s) cut_end str_end n)) ;;
              _ <~ on_tags (access false ptr cut_end n) ;;
              _ <~ on_tags (access true ptr str_end n) ;;
              on_val (set_arr a)
            else sret tt) ;;
      _ <~ (if negb (lenN str =? 0) then
              a <~ on_val (sread (fun s => ptr_copy_from (arr s) str cut_start (lenN str))) ;;
              _ <~ on_tags (access true ptr cut_start (lenN str)) ;;
              on_val (set_arr a)
            else sret tt) ;;
      n <~ b_len self ;;
      n <~ slift (a <- uadd c n (lenN str) ;; b <- uadd c a start ;; usub c b end_) ;;
      _ <~ on_tags (access true self (cap c) 1) ;;
      _ <~ on_val (set_size (into_lossy n)) ;;
      sret (Ok tt)).

(** src/implementations.rs:38-55 [as_mut(&mut self)], called through a reference with
    tag [own]: the tag of the [&mut str] and its bytes. *)
Definition b_as_mut (own : N) : ST mem (N * list N) :=
  call_self Unique own (fun self =>
    n <~ b_len self ;;
    a <~ on_tags (reborrow Unique self 0 (cap c)) ;;
    a <~ call Unique a 0 (cap c) (fun a => sret a) ;;
    slice <~ call Unique a 0 (cap c) (fun a => on_tags (reborrow Unique a 0 n)) ;;
    _ <~ (if debug c then
            call SharedRO slice 0 n (fun r => on_tags (access false r 0 n))
          else sret tt) ;;
    v <~ call Unique slice 0 n (fun v => sret v) ;;
    bs <~ on_val (as_mut c) ;;
    sret (v, bs)).

(** Safe code writing [new] at offset [a] of the [&mut str] with tag [v]. *)
Definition b_write (v a : N) (new : list N) : ST mem unit :=
  _ <~ on_tags (access true v a (lenN new)) ;;
  on_val (str_write a new).
End WithCfg.
