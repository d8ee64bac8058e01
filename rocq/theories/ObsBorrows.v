(** Who may use the bytes of an [ArrayString], in terms of Stacked Borrows. *)
From Verif Require Import Base Model Borrows ModelBorrows.

(** Permissions that an access may remove: the tags are in use, unprotected, and none of [keep]. *)
Definition removable (b : borrows) (keep : list N) (k : stack) : Prop :=
  forall i, In i k -> snd i < fresh b /\ ~ In (snd i) (prot b) /\ ~ In (snd i) keep.

(** [own] is the tag of a [&mut ArrayString] (or of the variable itself) that can be
    used: on each of the [cap] bytes of the array and on the size it has a unique
    permission, and nothing above that must stay. *)
Definition owns (c : cfg) (own : N) (b : borrows) : Prop :=
  own < fresh b /\ (forall u, In u (prot b) -> u < fresh b) /\
  forall l, l <= cap c -> exists above below,
    stacks b l = above ++ (Unique, own) :: below /\ removable b [own] above.

(** [v] was made from [own] later, with permission [p] for the first [n] bytes, and can be used. *)
Definition lends (c : cfg) (p : perm) (own v n : N) (b : borrows) : Prop :=
  owns c own b /\ own < v < fresh b /\ ~ In v (prot b) /\
  forall l, l < n -> exists above between below,
    stacks b l = above ++ (p, v) :: between ++ (Unique, own) :: below /\
    removable b [v; own] above /\ removable b [own] between /\ (forall i, In i between -> snd i < v).

(** [t] is the tag of a reference through which the string can be read; [K] says who may use it:
    [t] owns it; [t] owns it and has lent [v]; [t] itself is a shared reference to all of it. *)
Inductive reader (c : cfg) : N -> (borrows -> Prop) -> Prop :=
| by_owner own : reader c own (owns c own)
| by_lender own v n : n <= cap c + 1 -> reader c own (lends c SharedRO own v n)
| by_shared own v : reader c v (lends c SharedRO own v (cap c + 1)).

(** [m], given a reference to [s], returns [o] and changes nothing; all these references stay usable. *)
Definition only_reads {A} (c : cfg) (m : N -> ST mem A) (s : astring) (o : outcome A) : Prop :=
  forall t K b, reader c t K -> K b ->
    exists b', m t (s, b) = (o, (s, b')) /\ K b' /\ prot b' = prot b.

(** The same with a place of other code beside the string, on which [m] does what [m'] does, *)
Definition only_reads_beside {A Y} (c : cfg) (m : N -> ST (mem * Y) A) (s : astring) (m' : ST Y A) : Prop :=
  forall t K b y, reader c t K -> K b ->
    exists b', m t ((s, b), y) = (fst (m' y), ((s, b'), snd (m' y))) /\ K b' /\ prot b' = prot b.

(** and with two strings. *)
Definition only_reads_both {A} (c : cfg) (m : N -> N -> ST (mem * mem) A) (s s' : astring) (o : outcome A) : Prop :=
  forall t K b u L d, reader c t K -> K b -> reader c u L -> L d ->
    exists b' d', m t u ((s, b), (s', d)) = (o, ((s, b'), (s', d'))) /\
      K b' /\ prot b' = prot b /\ L d' /\ prot d' = prot d.
