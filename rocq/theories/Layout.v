(** Sizes of the types, from the layout rules of the Rust reference. The compiler
    itself is not modelled. *)
From Verif Require Import Base.

Record layout : Type := mklayout { size_of : N; align_of : N }.

(** Reference, "Primitive data layout" and "Array layout". *)
Definition u8_layout : layout := mklayout 1 1.
Definition usize_layout (word : N) : layout := mklayout word word.
Definition array_layout (e : layout) (n : N) : layout := mklayout (n * size_of e) (align_of e).

(** Smallest multiple of [a] that is at least [n]. *)
Definition round_up (n a : N) : N := (n + a - 1) / a * a.

(** Fields placed one after the other, each at the next multiple of its
    alignment: end of the last field and largest alignment. *)
Fixpoint place (fields : list layout) (end_ al : N) : N * N :=
  match fields with
  | [] => (end_, al)
  | f :: r => place r (round_up end_ (align_of f) + size_of f) (N.max al (align_of f))
  end.

(** A struct with the fields in some order, and with [repr(align(al))]. *)
Definition struct_layout (fields : list layout) (al : N) : layout :=
  let '(e, a) := place fields 0 al in mklayout (round_up e a) a.

(** src/arraystring.rs:28-33 [struct ArrayString<N> { array: [u8; N], size: u8 }].
    [repr(Rust)] may reorder the fields: [swap] chooses the order. *)
Definition arraystring_layout (swap : bool) (n : N) : layout :=
  let fs := [array_layout u8_layout n; u8_layout] in
  struct_layout (if swap then rev fs else fs) 1.

(** src/lib.rs:161-168 [#[repr(align(64))] struct CacheString(ArrayString<63>)]. *)
Definition cachestring_layout (swap : bool) : layout :=
  struct_layout [arraystring_layout swap 63] 64.

(** src/drain.rs:15-17 [struct Drain<N>(ArrayString<N>)]. *)
Definition drain_layout (swap : bool) (n : N) : layout :=
  struct_layout [arraystring_layout swap n] 1.

(** src/lib.rs:141-146 [SmallString = ArrayString<{ size_of::<usize>() * 3 }>]. *)
Definition small_capacity (word : N) : N := size_of (usize_layout word) * 3.
Definition smallstring_layout (swap : bool) (word : N) : layout :=
  arraystring_layout swap (small_capacity word).

(** src/lib.rs:149 [MaxString = ArrayString<255>]. *)
Definition maxstring_layout (swap : bool) : layout := arraystring_layout swap 255.

(** The standard library's [String]: pointer, capacity and length. *)
Definition string_layout (word : N) : layout :=
  struct_layout [usize_layout word; usize_layout word; usize_layout word] 1.
