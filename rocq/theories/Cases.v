(** Concrete values and a tactic for the cases beside the property theorems. *)
From Coq Require Import ZArith ZifyBool ZifyN ZifyNat Arith.
From Verif Require Import Base Char Spec RustStd ModelError Model RustFmt SpecFmt ModelImpl ModelDrain TextOps SpecOps
  ModelOps ModelCache StringSpec IterSpec ListFacts Utf8Facts CoreFacts MethodFacts OpsFacts Obs ObsCache.

(** ** Builds: capacity 5 with and without debug assertions, capacity 1, a 64 bit
    target *)
Definition c5 : cfg := mkcfg 65535 true 5.
Definition c5r : cfg := mkcfg 65535 false 5.
Definition c1 : cfg := mkcfg 65535 true 1.
Definition c5w : cfg := mkcfg 18446744073709551615 true 5.

Definition c255 : cfg := mkcfg 65535 true 255. (* the tests' capacity *)

(** ** Characters of one to four bytes *)
Definition h_ : char := mkchar 104 eq_refl.
Definition i_ : char := mkchar 105 eq_refl.
Definition sp_ : char := mkchar 32 eq_refl.
Definition e_ : char := mkchar 233 eq_refl.      (* two bytes: 195 169 *)
Definition euro : char := mkchar 8364 eq_refl.   (* three bytes: 226 130 172 *)
Definition smile : char := mkchar 128512 eq_refl. (* four bytes: 240 159 152 128 *)
Definition ideo_sp : char := mkchar 12288 eq_refl. (* U+3000, white space of three bytes *)

(** ** Values of capacity 5, with bytes left over behind the text *)
Definition s_he : astring := mkastring [104; 195; 169; 7; 9] 3.       (* "h" "e_" *)
Definition s_he' : astring := mkastring [104; 195; 169; 255; 0] 3.    (* the same text *)
Definition s_full : astring := mkastring [226; 130; 172; 195; 169] 5. (* "euro" "e_" *)
Definition s_empty : astring := mkastring [1; 2; 3; 4; 5] 0.
Definition s_sp : astring := mkastring [32; 104; 32; 105; 32] 5.      (* " h i " *)

(** ** Values of [CacheString] with the text "h" "e_" *)
Definition k_he : CacheString := mkCache (mkastring ([104; 195; 169] ++ repeat 7 60) 3).
Definition k_he' : CacheString := mkCache (mkastring ([104; 195; 169] ++ repeat 0 60) 3).

(** ** [Debug] for [str] without characters to escape, and for [u8] below ten *)
Definition quote : char := mkchar 34 eq_refl.
Definition str_debug (bs : list N) : debug_impl :=
  fun W k _ => do_calls k [WChar quote; WStr bs; WChar quote].
Definition digit_debug (n : N) : debug_impl := fun W k _ => do_calls k [WStr [48 + n]].

(** ** A hasher that adds up the bytes *)
Definition sum_hasher : hasher := mkhasher N (fold_left N.add) N.add.

(** ** Deciding the vocabulary *)
Definition list_eqb (a b : list N) : bool := if list_eq_dec N.eq_dec a b then true else false.
Definition showsb (c : cfg) (s : astring) (t : text) : bool :=
  (lenN (arr s) =? cap c) && forallb (fun b => b <? 256) (arr s) && (size s <? 256) &&
  match as_str c s with Ret b => list_eqb b (enc t) | _ => false end.

Lemma showsb_ok c s t : showsb c s t = true -> shows c s t.
Proof.
  unfold showsb. intros H. apply andb_prop in H as [H H4]. apply andb_prop in H as [H H3].
  apply andb_prop in H as [H1 H2]. split.
  - split; [apply N.eqb_eq; exact H1 | split; [|apply N.ltb_lt; exact H3]].
    apply Forall_forall. intros b Hb. apply N.ltb_lt. rewrite forallb_forall in H2. apply H2. exact Hb.
  - destruct (as_str c s) as [b| | |]; try discriminate H4. unfold list_eqb in H4.
    destruct (list_eq_dec N.eq_dec b (enc t)) as [->|]; [reflexivity | discriminate H4].
Qed.

Lemma returns_case {A} c (o : outcome A * astring) r t s' :
  o = (Ret r, s') -> showsb c s' t = true -> returns c o r t.
Proof. intros E H. exists s'. split; [exact E | apply showsb_ok; exact H]. Qed.
Lemma makes_case c o t s : o = Ret s -> showsb c s t = true -> makes c o t.
Proof. intros E H. exists s. split; [exact E | apply showsb_ok; exact H]. Qed.
Lemma makes_ok_case {E} c (o : outcome (result astring E)) t s :
  o = Ret (Ok s) -> showsb c s t = true -> makes_ok c o t.
Proof. intros Eo H. exists s. split; [exact Eo | apply showsb_ok; exact H]. Qed.

Lemma splits_case t i a b : split_at i t = Some (a, b) -> splits t i a b.
Proof. apply split_at_Some. Qed.
Lemma boundary_case t i p : split_at i t = Some p -> boundary t i.
Proof. destruct p as [a b]. intros H. exists a, b. apply split_at_Some. exact H. Qed.
Lemma not_boundary_case t i : split_at i t = None -> ~ boundary t i.
Proof. intros H (a & b & S). apply split_at_Some in S. congruence. Qed.
Lemma longest_case n t p : fit n t = p -> longest_fit n t p.
Proof. intros <-. apply fit_longest. Qed.
Lemma trimmed_case t r : trim_text t = r -> trimmed t r.
Proof. intros <-. apply trim_text_spec. Qed.
Lemma utf16_case us items : forallb (fun u => u <? 65536) us = true -> t_decode16 us = items ->
  utf16_items us items.
Proof.
  intros H <-. apply t_decode16_items. apply Forall_forall. intros u Hu. apply N.ltb_lt.
  rewrite forallb_forall in H. apply H. exact Hu.
Qed.

(** Vectors as iterators. *)
Lemma yields_list {A} (l r : list A) : yields list_iter (l ++ r) l r.
Proof. induction l as [|a l IH]; [constructor | econstructor; [reflexivity | exact IH]]. Qed.
Lemma ends_list {A} (l : list A) : ends list_iter l l [].
Proof.
  exists []. split; [|reflexivity]. pose proof (yields_list l []) as H. rewrite app_nil_r in H. exact H.
Qed.

(** An iterator that never ends, and one that panics after the items of a list. *)
Definition forever {A} (a : A) : iter N A := fun n => (Ret (Some a), n + 1).
Definition then_panic {A} : iter (list A) A := fun l =>
  match l with [] => (Panic, []) | a :: r => (Ret (Some a), r) end.

Lemma forever_behaved {A} (a : A) : well_behaved (forever a).
Proof. intros it. split; discriminate. Qed.
Lemma then_panic_behaved {A} : well_behaved (@then_panic A).
Proof. intros [|a l]; split; discriminate. Qed.
Lemma list_iter_behaved {A} : well_behaved (@list_iter A).
Proof. intros [|a l]; split; discriminate. Qed.
Lemma panics_then_panic {A} (l : list A) : panics then_panic l l [].
Proof.
  exists []. split; [|reflexivity]. induction l as [|a l IH]; [constructor | econstructor; [reflexivity | exact IH]].
Qed.

(** An [AsRef<str>] that answers "e_", then "euro", and then panics; one that counts
    how often it is asked; range bounds that are always the same. *)
Definition fickle : ST N (list N) := fun n =>
  if n =? 0 then (Ret (enc [e_]), 1) else if n =? 1 then (Ret (enc [euro]), 2) else (Panic, 3).
Lemma fickle_back : comes_back fickle.
Proof. intros w. unfold fickle. destruct (w =? 0); [split; discriminate|]. destruct (w =? 1); split; discriminate. Qed.
Lemma fickle_str : str_arg fickle.
Proof.
  split; [exact fickle_back|]. intros w b w'. unfold fickle. destruct (w =? 0).
  - intros E. injection E as <- _. exists [e_]. reflexivity.
  - destruct (w =? 1); intros E; [injection E as <- _; exists [euro]; reflexivity | discriminate E].
Qed.
Definition counted (t : text) : ST N (list N) := fun n => (Ret (enc t), n + 1).
Lemma counted_str t : str_arg (counted t).
Proof. split; [intros w; split; discriminate|]. intros w b w' E. injection E as <- _. exists t. reflexivity. Qed.
Definition asked (b : bound) : ST N bound := fun n => (Ret b, n).
Lemma asked_back b : comes_back (asked b).
Proof. intros w. split; discriminate. Qed.

(** ** Solving closed goals *)
Ltac solve_case :=
  lazymatch goal with
  | |- _ /\ _ => split; [solve_case | solve_case]
  | |- valid_cfg _ => repeat split; vm_compute; discriminate
  | |- cache_shows _ _ _ => apply showsb_ok; vm_compute; reflexivity
  | |- shows _ _ _ => apply showsb_ok; vm_compute; reflexivity
  | |- returns _ _ _ _ => eapply returns_case; [vm_compute; reflexivity | vm_compute; reflexivity]
  | |- makes _ _ _ => eapply makes_case; [vm_compute; reflexivity | vm_compute; reflexivity]
  | |- makes_ok _ _ _ => eapply makes_ok_case; [vm_compute; reflexivity | vm_compute; reflexivity]
  | |- splits _ _ _ _ => apply splits_case; vm_compute; reflexivity
  | |- boundary _ _ => eapply boundary_case; vm_compute; reflexivity
  | |- ~ boundary _ _ => apply not_boundary_case; vm_compute; reflexivity
  | |- longest_fit _ _ _ => apply longest_case; vm_compute; reflexivity
  | |- trimmed _ _ => apply trimmed_case; vm_compute; reflexivity
  | |- utf16_items _ _ => apply utf16_case; vm_compute; reflexivity
  | |- ends list_iter _ _ _ => apply ends_list
  | |- panics then_panic _ _ _ => apply panics_then_panic
  | |- well_behaved (forever _) => apply forever_behaved
  | |- well_behaved then_panic => apply then_panic_behaved
  | |- well_behaved list_iter => apply list_iter_behaved
  | |- str_arg fickle => exact fickle_str
  | |- str_arg (counted _) => apply counted_str
  | |- comes_back fickle => exact fickle_back
  | |- comes_back (asked _) => apply asked_back
  | |- visits _ _ _ _ _ => repeat (econstructor; [vm_compute; reflexivity|]); constructor
  | |- emits _ _ _ => intros ? ? ?; reflexivity
  | |- (_ < _)%nat => vm_compute; lia
  | |- _ < _ => vm_compute; reflexivity
  | |- _ <= _ => vm_compute; discriminate
  | |- _ <> _ => vm_compute; discriminate
  | |- _ = _ => vm_compute; reflexivity
  | |- True => exact Logic.I
  | |- Forall _ [] => apply Forall_nil
  | |- Forall _ (_ :: _) => apply Forall_cons; [solve_case | solve_case]
  | |- typed_op _ => cbn [typed_op range_u8]; solve_case
  | |- range_u8 _ => cbn [range_u8]; solve_case
  | |- typed_ctor _ => cbn [typed_ctor]; solve_case
  | |- benign _ => exact Logic.I
  | |- benign_ctor _ => exact Logic.I
  | |- quirk _ _ _ _ => cbn [quirk]; solve_case
  | |- (fun _ => _) _ => cbv beta; solve_case
  end.
