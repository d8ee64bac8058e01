(** Stacked Borrows: the aliasing rules Rust's unsafe code is checked against
    (Jung, Dang, Kang, Dreyer, POPL 2020; implemented by Miri). Every byte of
    memory has a stack of permissions, each held by a tag; a reference or a raw
    pointer carries a tag. Using a pointer whose permission is gone is undefined
    behaviour. Nothing here refers to the crate.

    Simplifications, all of them on the strict side (a program accepted here is
    accepted there, because an access can only take permissions away): making a raw
    pointer counts as a write, and a write through a raw pointer also removes the
    raw pointers made from it. *)
From Verif Require Import Base.

Inductive perm : Type := Unique | SharedRW | SharedRO | Disabled.
Definition entry : Type := (perm * N)%type.
Definition stack : Type := list entry. (* the top first *)

Definition may_read (p : perm) : bool := match p with Disabled => false | _ => true end.
Definition may_write (p : perm) : bool := match p with Unique | SharedRW => true | _ => false end.
Definition is_unique (p : perm) : bool := match p with Unique => true | _ => false end.
Definition inb (t : N) (l : list N) : bool := existsb (N.eqb t) l.

(** Reading through [t]: needs a permission of [t]; unique permissions above it are
    disabled. Writing: permissions above it are removed. Neither may touch a
    permission protected by a running call. *)
Fixpoint acc_read (prot : list N) (t : N) (k : stack) : option stack :=
  match k with
  | [] => None
  | (p, u) :: r =>
      if (u =? t) && may_read p then Some k
      else match acc_read prot t r with
           | None => None
           | Some r' =>
               if is_unique p then if inb u prot then None else Some ((Disabled, u) :: r')
               else Some ((p, u) :: r')
           end
  end.
Fixpoint acc_write (prot : list N) (t : N) (k : stack) : option stack :=
  match k with
  | [] => None
  | (p, u) :: r =>
      if (u =? t) && may_write p then Some k
      else if inb u prot then None else acc_write prot t r
  end.

(** ** The machine: stacks by address, the next unused tag, tags protected by the
    calls that are running *)
Record borrows : Type := mkborrows { stacks : N -> stack; fresh : N; prot : list N }.

Definition addresses (lo n : N) : list N := map (fun k => lo + N.of_nat k) (seq 0 (N.to_nat n)).
Definition within (lo n l : N) : bool := (lo <=? l) && (l <? lo + n).

(** Access to the [n] bytes from [lo] through tag [t]. *)
Definition access (write : bool) (t lo n : N) : ST borrows unit := fun b =>
  let acc l := (if write then acc_write else acc_read) (prot b) t (stacks b l) in
  if forallb (fun l => match acc l with Some _ => true | None => false end) (addresses lo n)
  then (Ret tt, mkborrows (fun l => if within lo n l
                                    then match acc l with Some k => k | None => [] end
                                    else stacks b l) (fresh b) (prot b))
  else (UB, b).

(** [&mut *p], [&*p] and [p as *mut]: a new tag for the [n] bytes from [lo]. *)
Definition reborrow (p : perm) (t lo n : N) : ST borrows N := fun b =>
  match access (may_write p) t lo n b with
  | (Ret _, b) =>
      (Ret (fresh b),
       mkborrows (fun l => if within lo n l then (p, fresh b) :: stacks b l else stacks b l)
         (fresh b + 1) (prot b))
  | (Panic, b) => (Panic, b)
  | (UB, b) => (UB, b)
  | (Diverge, b) => (Diverge, b)
  end.

(** A call whose argument is a reference with tag [t]: protected while it runs. *)
Definition protect (t : N) (b : borrows) : borrows := mkborrows (stacks b) (fresh b) (t :: prot b).
Definition unprotect (b : borrows) : borrows := mkborrows (stacks b) (fresh b) (tl (prot b)).
