(** How an iterator behaves, seen from outside: specification vocabulary. *)
From Verif Require Import Base Char Spec RustStd.

(** Calling [next] again and again from state [it] hands out the items [l] one
    after the other and reaches state [it']. *)
Inductive yields {S A} (next : iter S A) : S -> list A -> S -> Prop :=
| yields_nil it : yields next it [] it
| yields_cons it a it1 l it2 :
    next it = (Ret (Some a), it1) -> yields next it1 l it2 -> yields next it (a :: l) it2.

(** The iterator hands out exactly [l] and then [None]; [it'] is the state after that. *)
Definition ends {S A} (next : iter S A) (it : S) (l : list A) (it' : S) : Prop :=
  exists it1, yields next it l it1 /\ next it1 = (Ret None, it').

(** The iterator hands out [l] and then panics. *)
Definition panics {S A} (next : iter S A) (it : S) (l : list A) (it' : S) : Prop :=
  exists it1, yields next it l it1 /\ next it1 = (Panic, it').

(** [next] always comes back: it may panic, but has no undefined behaviour and
    does not loop for ever. *)
Definition well_behaved {S A} (next : iter S A) : Prop :=
  forall it, fst (next it) <> UB /\ fst (next it) <> Diverge.

(** A closure over characters with its own state, run over a text in order:
    the characters for which it said [true], or how it failed, and its last state. *)
Fixpoint filter_run {F} (f : char -> ST F bool) (x : F) (t : text) : outcome text * F :=
  match t with
  | [] => (Ret [], x)
  | a :: r =>
      match f a x with
      | (Ret keep, x1) =>
          match filter_run f x1 r with
          | (Ret l, x2) => (Ret (if keep then a :: l else l), x2)
          | p => p
          end
      | (Panic, x1) => (Panic, x1)
      | (UB, x1) => (UB, x1)
      | (Diverge, x1) => (Diverge, x1)
      end
  end.

(** Items of an iterator over strings: [as_ref()] always answers [w]; the first and
    the second call answer differently. *)
Definition item_of (w : text) : as_ref_item := mkitem (enc w) (enc w).
Definition item2 (p : text * text) : as_ref_item := mkitem (enc (fst p)) (enc (snd p)).

(** A closure with its own state called on the items of [l] one after the other,
    returning each time; its state goes from [x] to [x']. *)
Inductive visits {A X B} (f : A -> ST X B) : X -> list A -> list B -> X -> Prop :=
| visits_nil x : visits f x [] [] x
| visits_cons x a b x1 l bs x2 :
    f a x = (Ret b, x1) -> visits f x1 l bs x2 -> visits f x (a :: l) (b :: bs) x2.

(** ** Foreign code behind a generic argument *)
(** It comes back or panics; an [AsRef<str>] answers with a [str]. *)
Definition comes_back {W A} (a : ST W A) : Prop :=
  forall w, fst (a w) <> UB /\ fst (a w) <> Diverge.
Definition str_arg {W} (a : ST W (list N)) : Prop :=
  comes_back a /\ forall w b w', a w = (Ret b, w') -> exists x, b = enc x.

(** [a] was called any number of times, its state going from [w] to [w'], and
    answered each time. *)
Inductive called {W A} (a : ST W A) : W -> W -> Prop :=
| called_not w : called a w w
| called_more w b w1 w2 : a w = (Ret b, w1) -> called a w1 w2 -> called a w w2.

(** [a] was called from state [w] on until state [w'] and one of its answers was
    [b]; the last call panicked. When [quiet], that was the only call. *)
Definition answered {W A} (quiet : Prop) (a : ST W A) (w : W) (b : A) (w' : W) : Prop :=
  exists w1 w2, called a w w1 /\ a w1 = (Ret b, w2) /\ called a w2 w' /\ (quiet -> w1 = w /\ w' = w2).
Definition broke {W A} (quiet : Prop) (a : ST W A) (w w' : W) : Prop :=
  exists w1, called a w w1 /\ a w1 = (Panic, w') /\ (quiet -> w1 = w).

(** The call [g] on [s], with foreign code [a] in state [w]: either [a] panicked and
    [s] is untouched, or the call did what [plain] does with one of [a]'s answers.
    When [quiet], [a] was called exactly once. *)
Definition one_answer {S W A} (quiet : Prop) (a : ST W (list N)) (plain : list N -> ST S A)
    (g : ST (S * W) A) (s : S) (w : W) : Prop :=
  exists o s' w', g (s, w) = (o, (s', w')) /\
  ((o = Panic /\ s' = s /\ broke quiet a w w') \/
   (exists b, answered quiet a w b w' /\ plain b s = (o, s'))).

(** The same for a constructor. *)
Definition one_answer_new {W A} (quiet : Prop) (a : ST W (list N)) (plain : list N -> outcome A)
    (g : ST W A) (w : W) : Prop :=
  exists o w', g w = (o, w') /\
  ((o = Panic /\ broke quiet a w w') \/ (exists b, answered quiet a w b w' /\ plain b = o)).

(** Pulling items from [next] and asking each for its text, which may change from call
    to call: the answers [l], one per item. *)
Inductive hears {W A} (quiet : Prop) (next : iter W A) (as_ref : A -> ST W (list N)) : W -> list text -> W -> Prop :=
| hears_nil w : hears quiet next as_ref w [] w
| hears_cons w x w1 t w2 l w3 :
    next w = (Ret (Some x), w1) -> answered quiet (as_ref x) w1 (enc t) w2 ->
    hears quiet next as_ref w2 l w3 -> hears quiet next as_ref w (t :: l) w3.

(** After the answers [l] comes the end, or a panic of [next] or of the next item. *)
Definition hears_all {W A} (quiet : Prop) (next : iter W A) (as_ref : A -> ST W (list N)) (w : W) (l : list text) (w' : W) : Prop :=
  exists w1, hears quiet next as_ref w l w1 /\ next w1 = (Ret None, w').
Definition hears_panic {W A} (quiet : Prop) (next : iter W A) (as_ref : A -> ST W (list N)) (w : W) (l : list text) (w' : W) : Prop :=
  exists w1, hears quiet next as_ref w l w1 /\
  (next w1 = (Panic, w') \/ exists x w2, next w1 = (Ret (Some x), w2) /\ broke quiet (as_ref x) w2 w').

(** Honest items: an iterator over texts seen as one over [impl AsRef<str>] items. *)
Definition as_items {W} (next : iter W text) : iter W as_ref_item := fun w =>
  match next w with
  | (Ret o, w) => (Ret (option_map item_of o), w)
  | (Panic, w) => (Panic, w)
  | (UB, w) => (UB, w)
  | (Diverge, w) => (Diverge, w)
  end.
