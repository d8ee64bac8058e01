(** Concrete memory states for the claims about borrows, and programs that the
    machine must refuse. *)
From Verif Require Import Base Char Spec RustStd ModelError Model ModelOps Borrows ModelBorrows
  ModelBorrowOps ModelBorrowMake ObsBorrows.

(** A local variable: one unique permission, tag 0, on every byte. *)
Definition b_local : borrows := mkborrows (fun _ => [(Unique, 0)]) 1 [].
(** The same inside a call that was given [&mut] as tag 3, after two shared reborrows of it. *)
Definition b_inner : borrows :=
  mkborrows (fun l => if l =? 1 then [(SharedRO, 5); (SharedRO, 4); (Unique, 3); (Unique, 0)]
                      else [(Unique, 3); (Unique, 0)]) 6 [3; 0].

(** The stacks of the addresses [0..n], the next tag and the protected tags. *)
Definition seen (n : N) (b : borrows) : list stack * N * list N :=
  (map (stacks b) (addresses 0 (n + 1)), fresh b, prot b).
Definition run_seen {A} (n : N) (r : outcome A * mem) : outcome A * astring * (list stack * N * list N) :=
  let '(o, (s, b)) := r in (o, s, seen n b).

Section Wrong.
Variable c : cfg.

(** [self.array.as_ptr() as *mut u8] in place of [as_mut_ptr()]. *)
Definition wrong_const_ptr (own : N) : ST mem unit :=
  call_self c Unique own (fun self =>
    ptr <~ call SharedRO self 0 (cap c) (fun a => sret a) ;;
    on_tags (access true ptr 0 1)).

(** The raw pointer used after another [&mut self] method was called. *)
Definition wrong_kept_ptr (own : N) : ST mem unit :=
  call_self c Unique own (fun self =>
    ptr <~ b_as_mut_ptr c self ;;
    _ <~ b_as_mut c self ;;
    on_tags (access true ptr 0 1)).

(** The [&mut str] used after the string was changed by its owner. *)
Definition wrong_kept_str (own : N) : ST mem unit :=
  p <~ b_as_mut c own ;;
  _ <~ b_replace_range c own (Included 0) (Excluded 1) [] ;;
  b_write (fst p) 0 [104].

(** The [&str] read after the string was changed by its owner. *)
Definition wrong_kept_shared (own : N) : ST mem unit :=
  p <~ b_as_str c own ;;
  _ <~ b_replace_range c own (Included 0) (Excluded 1) [] ;;
  on_tags (access false (fst p) 0 1).

(** A write through a [&str]. *)
Definition wrong_shared_write (own : N) : ST mem unit :=
  p <~ b_as_str c own ;;
  b_write (fst p) 0 [104].

(** A write through the caller's reference while [&mut self] is in use. *)
Definition wrong_owner_write (own : N) : ST mem unit :=
  call_self c Unique own (fun self => on_tags (access true own 0 1)).

(** [drain] that shortens the string first and copies the slice afterwards. *)
Definition wrong_drain (own start end_ : N) : ST mem (result astring Error) :=
  call_self c Unique own (fun self =>
    p <~ b_as_str c self ;;
    slice <~ slift (str_get_unchecked (snd p) start end_) ;;
    v <~ call SharedRO (fst p) 0 (lenN (snd p)) (fun r =>
           on_tags (reborrow SharedRO r start (end_ - start))) ;;
    _ <~? (fun e => e) ? b_replace_range c self (Included start) (Excluded end_) [] ;;
    _ <~ call SharedRO v start (end_ - start) (fun r =>
           on_tags (access false r start (end_ - start))) ;;
    drain <~? from_oob ? slift (try_from_str c slice) ;;
    sret (Ok drain)).

(** [retain] that pushes the characters to keep while it still reads the text. *)
Definition wrong_retain (own : N) : ST mem unit :=
  call_self c Unique own (fun self =>
    p <~ b_as_str c self ;;
    _ <~ on_tags (access false (fst p) 0 1) ;;
    _ <~ b_clear c self ;;
    _ <~ b_try_push_str c self [104] ;;
    b_read (fst p) (lenN (snd p))).

(** [pop] that clears the string while the closure holds [&mut self.size]. *)
Definition wrong_pop (own : N) : ST mem unit :=
  call_self c Unique own (fun self =>
    size_ <~ on_tags (reborrow Unique self (cap c) 1) ;;
    _ <~ b_clear c self ;;
    b_set_size c size_ 1).

(** The caller's variable used while a reference made from it is used again later. *)
Definition wrong_through (own : N) : ST mem out :=
  v <~ on_tags (reborrow Unique own 0 (cap c + 1)) ;;
  _ <~ b_run_op c v OPop ;;
  _ <~ b_run_op c own OClear ;;
  b_run_op c v OPop.

(** The text of a [Drain] read again after [next]. *)
Definition wrong_drain_str (own : N) : ST mem unit :=
  p <~ b_drain_as_str c own ;;
  _ <~ b_drain_next c own ;;
  b_read (fst p) (lenN (snd p)).

(** The reference of [deref_mut] used after a call on the [CacheString] itself. *)
Definition wrong_deref_mut (own : N) : ST mem out :=
  v <~ b_cache_deref_mut c own ;;
  _ <~ b_cache_op c own (OWriteStr []) ;;
  b_run_op c v OClear.

(** A constructor that pushes through a shared reference to its own variable. *)
Definition wrong_from_str : ST borrows (result unit OutOfBounds) :=
  in_new c (fun own =>
    r <~ on_tags (reborrow SharedRO own 0 (cap c + 1)) ;;
    b_try_push_str c r []).

(** A [hash] that takes [&mut self], called while the text is lent. *)
Definition wrong_hash (own : N) : ST mem unit :=
  p <~ b_as_str c own ;;
  _ <~ call_self c Unique own (fun self => b_str c self) ;;
  b_read (fst p) (lenN (snd p)).

(** An [eq] of a string with itself that takes [other] as [&mut]. *)
Definition wrong_eq (own : N) : ST mem bool :=
  call_self c SharedRO own (fun self => call_self c Unique own (fun other =>
    p <~ b_as_str c self ;;
    q <~ b_as_str c other ;;
    sret (str_eq (snd p) (snd q)))).

(** A [&mut] read after the variable it was made from was read. *)
Definition wrong_disabled (own : N) : ST mem unit :=
  v <~ on_tags (reborrow Unique own 0 1) ;;
  _ <~ on_tags (access false own 0 1) ;;
  on_tags (access false v 0 1).
End Wrong.

Lemma local_owned c : owns c 0 b_local.
Proof.
  split; [reflexivity|]. split; [intros u []|]. intros l _. exists [], []. split; [reflexivity|intros i []].
Qed.
Lemma inner_owned c : owns c 3 b_inner.
Proof.
  split; [reflexivity|]. split; [intros u [<-|[<-|[]]]; reflexivity|]. intros l _. cbn [b_inner stacks].
  destruct (l =? 1).
  - exists [(SharedRO, 5); (SharedRO, 4)], [(Unique, 0)]. split; [reflexivity|].
    intros i [<-|[<-|[]]]; cbn; (split; [reflexivity|]); (split; [intros [H|[H|[]]]|intros [H|[]]]); discriminate.
  - exists [], [(Unique, 0)]. split; [reflexivity|intros i []].
Qed.

(** The variable with tag 0 lent as [&mut] with tag 3, while another call runs. *)
Definition b_lent : borrows :=
  mkborrows (fun l => if l =? 1 then [(SharedRO, 5); (Unique, 3); (SharedRO, 2); (Unique, 0)]
                      else [(Unique, 3); (Unique, 0)]) 6 [1].
Lemma lent_owned c : owns c 0 b_lent.
Proof.
  split; [reflexivity|]. split; [intros u [<-|[]]; reflexivity|]. intros l _. cbn [b_lent stacks].
  destruct (l =? 1).
  - exists [(SharedRO, 5); (Unique, 3); (SharedRO, 2)], []. split; [reflexivity|].
    intros i [<-|[<-|[<-|[]]]]; cbn; (split; [reflexivity|]); (split; intros [H|[]]; discriminate).
  - exists [(Unique, 3)], []. split; [reflexivity|].
    intros i [<-|[]]; cbn; (split; [reflexivity|]); (split; intros [H|[]]; discriminate).
Qed.
Lemma lent_lends c n : lends c Unique 0 3 n b_lent.
Proof.
  split; [apply lent_owned|]. split; [split; reflexivity|]. split; [intros [H|[]]; discriminate|].
  intros l _. cbn [b_lent stacks]. destruct (l =? 1).
  - exists [(SharedRO, 5)], [(SharedRO, 2)], []. split; [reflexivity|]. split; [|split].
    + intros i [<-|[]]; cbn; (split; [reflexivity|]); (split; [intros [H|[]]|intros [H|[H|[]]]]); discriminate.
    + intros i [<-|[]]; cbn; (split; [reflexivity|]); (split; intros [H|[]]; discriminate).
    + intros i [<-|[]]. reflexivity.
  - exists [], [], []. split; [reflexivity|]. split; [intros i []|]. split; intros i [].
Qed.

(** The variable with tag 0 lent as [&] with tag 3. *)
Definition b_shared : borrows :=
  mkborrows (fun l => if l =? 1 then [(SharedRO, 5); (SharedRO, 3); (SharedRO, 2); (Unique, 0)]
                      else [(SharedRO, 3); (Unique, 0)]) 6 [1].
Lemma shared_lends c n : lends c SharedRO 0 3 n b_shared.
Proof.
  assert (N1 : forall i : perm * N, snd i = 2 \/ snd i = 3 \/ snd i = 5 ->
            snd i < 6 /\ ~ In (snd i) [1] /\ ~ In (snd i) [0]).
  { intros i H. split; [destruct H as [->|[->| ->]]; reflexivity|].
    split; intros [Q|[]]; destruct H as [H|[H|H]]; rewrite H in Q; discriminate. }
  split.
  { split; [reflexivity|]. split; [intros u [<-|[]]; reflexivity|]. intros l _. cbn [b_shared stacks].
    destruct (l =? 1).
    - exists [(SharedRO, 5); (SharedRO, 3); (SharedRO, 2)], []. split; [reflexivity|].
      intros i [<-|[<-|[<-|[]]]]; apply N1; auto.
    - exists [(SharedRO, 3)], []. split; [reflexivity|]. intros i [<-|[]]; apply N1; auto. }
  split; [split; reflexivity|]. split; [intros [H|[]]; discriminate|].
  intros l _. cbn [b_shared stacks]. destruct (l =? 1).
  - exists [(SharedRO, 5)], [(SharedRO, 2)], []. split; [reflexivity|]. split; [|split].
    + intros i [<-|[]]; cbn; (split; [reflexivity|]); (split; [intros [H|[]]|intros [H|[H|[]]]]); discriminate.
    + intros i [<-|[]]; apply N1; auto.
    + intros i [<-|[]]. reflexivity.
  - exists [], [], []. split; [reflexivity|]. split; [intros i []|]. split; intros i [].
Qed.
