(** The methods core provides for every [PartialEq], [PartialOrd] and [Ord] from
    [eq], [partial_cmp] and [cmp]; the crate overrides none of them
    (src/implementations.rs:108-196, src/drain.rs:47-76, src/lib.rs:448-468). *)
From Verif Require Import Base.
From Verif Require Export RustStd.

Section Provided.
Context {T : Type}.

(** [PartialEq::ne], the operator [!=]: [!self.eq(other)]. *)
Definition op_ne (teq : T -> T -> outcome bool) (a b : T) : outcome bool :=
  r <- teq a b ;; Ret (negb r).

(** [PartialOrd::lt], [le], [gt], [ge], the operators [<], [<=], [>], [>=]:
    [matches!(self.partial_cmp(other), ...)]. *)
Section Partial.
Variable pcmp : T -> T -> outcome (option comparison).
Definition op_lt (a b : T) : outcome bool :=
  o <- pcmp a b ;; Ret (match o with Some Lt => true | _ => false end).
Definition op_le (a b : T) : outcome bool :=
  o <- pcmp a b ;; Ret (match o with Some Lt | Some Eq => true | _ => false end).
Definition op_gt (a b : T) : outcome bool :=
  o <- pcmp a b ;; Ret (match o with Some Gt => true | _ => false end).
Definition op_ge (a b : T) : outcome bool :=
  o <- pcmp a b ;; Ret (match o with Some Gt | Some Eq => true | _ => false end).

(** [Ord::clamp]: [assert!(min <= max)], then [if self < min { min } else if
    self > max { max } else { self }]. *)
Definition ord_clamp (a min max : T) : outcome T :=
  ok <- op_le min max ;;
  if negb ok then Panic else
  low <- op_lt a min ;;
  if low then Ret min else
  high <- op_gt a max ;;
  if high then Ret max else Ret a.
End Partial.

(** [Ord::max], [Ord::min]: [max_by(self, other, Ord::cmp)] and [min_by]. *)
Definition ord_max (tcmp : T -> T -> outcome comparison) (a b : T) : outcome T :=
  o <- tcmp a b ;; match o with Gt => Ret a | _ => Ret b end.
Definition ord_min (tcmp : T -> T -> outcome comparison) (a b : T) : outcome T :=
  o <- tcmp a b ;; match o with Gt => Ret b | _ => Ret a end.

End Provided.
