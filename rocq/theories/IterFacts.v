(** Loops over iterators: the constructors that take iterators, UTF-16 input and
    retain. *)
From Coq Require Import ZArith ZifyBool ZifyN ZifyNat Arith.
From Verif Require Import Base Char Spec RustStd ModelError Model TextOps IterSpec
  ListFacts Utf8Facts CoreFacts MethodFacts.

(** ** yields *)

Lemma yields_app {S A} (next : iter S A) it l1 it1 l2 it2 :
  yields next it l1 it1 -> yields next it1 l2 it2 -> yields next it (l1 ++ l2) it2.
Proof. induction 1; cbn; [auto|]. intros. econstructor; eauto. Qed.

Lemma yields_one {S A} (next : iter S A) it a it1 :
  next it = (Ret (Some a), it1) -> yields next it [a] it1.
Proof. intros H. econstructor; [exact H|constructor]. Qed.

Lemma yields_split {S A} (next : iter S A) l1 l2 it it2 :
  yields next it (l1 ++ l2) it2 -> exists it1, yields next it l1 it1 /\ yields next it1 l2 it2.
Proof.
  revert it. induction l1 as [|a l1 IH]; cbn; intros it H.
  - exists it. split; [constructor|exact H].
  - inversion H; subst. destruct (IH _ H5) as (it' & P & Q). exists it'. split; [econstructor; eauto|exact Q].
Qed.

Lemma yields_fun {S A} (next : iter S A) it l it1 it2 :
  yields next it l it1 -> yields next it l it2 -> it1 = it2.
Proof.
  intros H. revert it2. induction H; intros it' K; inversion K; subst; [reflexivity|].
  apply IHyields. congruence.
Qed.

(** ** Folding a loop body *)
Inductive folds {A X R} (body : A -> ST X (flow R)) : X -> list A -> X -> Prop :=
| folds_nil x : folds body x [] x
| folds_cons x a x1 l x2 : body a x = (Ret Continue, x1) -> folds body x1 l x2 -> folds body x (a :: l) x2.

Lemma for_loop_folds {S A X R} (next : iter S A) (body : A -> ST X (flow R)) l it it' x x' fuel :
  yields next it l it' -> folds body x l x' -> (length l <= fuel)%nat ->
  for_loop fuel next body it x = for_loop (fuel - length l) next body it' x'.
Proof.
  intros Y. revert x fuel. induction Y as [it|it a it1 l it2 H Y IH]; intros x fuel Fo L.
  - inversion Fo; subst. cbn. rewrite Nat.sub_0_r. reflexivity.
  - inversion Fo; subst. cbn in L. destruct fuel as [|fuel]; [lia|].
    cbn [for_loop]. rewrite H, H3. cbn [length Nat.sub]. apply IH; [assumption|lia].
Qed.

Section ForLoop.
Context {S A X R : Type} (next : iter S A) (body : A -> ST X (flow R)).

Lemma for_loop_end l it it' x x' fuel :
  ends next it l it' -> folds body x l x' -> (length l < fuel)%nat ->
  for_loop fuel next body it x = (Ret None, it', x').
Proof.
  intros (it1 & Y & E) Fo L. rewrite (for_loop_folds _ _ _ _ _ _ _ _ Y Fo) by lia.
  destruct (fuel - length l)%nat eqn:D; [lia|]. cbn [for_loop]. rewrite E. reflexivity.
Qed.

Lemma for_loop_panic l it it' x x' fuel :
  panics next it l it' -> folds body x l x' -> (length l < fuel)%nat ->
  for_loop fuel next body it x = (Panic, it', x').
Proof.
  intros (it1 & Y & E) Fo L. rewrite (for_loop_folds _ _ _ _ _ _ _ _ Y Fo) by lia.
  destruct (fuel - length l)%nat eqn:D; [lia|]. cbn [for_loop]. rewrite E. reflexivity.
Qed.

Lemma for_loop_stop l a it it' x x' x'' fuel :
  yields next it (l ++ [a]) it' -> folds body x l x' -> body a x' = (Ret Break, x'') -> (length l < fuel)%nat ->
  for_loop fuel next body it x = (Ret None, it', x'').
Proof.
  intros Y Fo B L. apply yields_split in Y as (it1 & Y1 & Y2).
  rewrite (for_loop_folds _ _ _ _ _ _ _ _ Y1 Fo) by lia.
  inversion Y2 as [|? ? ? ? ? N Y3]; subst. inversion Y3; subst.
  destruct (fuel - length l)%nat eqn:D; [lia|]. cbn [for_loop]. rewrite N, B. reflexivity.
Qed.

Lemma for_loop_return l a r it it' x x' x'' fuel :
  yields next it (l ++ [a]) it' -> folds body x l x' -> body a x' = (Ret (Return r), x'') -> (length l < fuel)%nat ->
  for_loop fuel next body it x = (Ret (Some r), it', x'').
Proof.
  intros Y Fo B L. apply yields_split in Y as (it1 & Y1 & Y2).
  rewrite (for_loop_folds _ _ _ _ _ _ _ _ Y1 Fo) by lia.
  inversion Y2 as [|? ? ? ? ? N Y3]; subst. inversion Y3; subst.
  destruct (fuel - length l)%nat eqn:D; [lia|]. cbn [for_loop]. rewrite N, B. reflexivity.
Qed.
End ForLoop.

(** ** Which of the three ways a loop over characters ends *)

Definition text_of (l : list text) : text := concat l.

(** [l] is taken up to where a piece does not fit: [l1] fits, [l1 ++ [x]] does not. *)
Lemma pieces_cases (n : N) (l : list text) (b : N) : b <= n ->
  (b + blen (concat l) <= n) \/
  (exists l1 x l2, l = l1 ++ x :: l2 /\ b + blen (concat l1) <= n /\ n < b + blen (concat l1) + blen x).
Proof.
  revert b. induction l as [|w l IH]; intros b Hb.
  - left. cbn. lia.
  - cbn [concat]. destruct (N.leb_spec (b + blen w) n) as [L|L].
    + destruct (IH (b + blen w) L) as [H|(l1 & x & l2 & E & H1 & H2)].
      * left. rewrite blen_app. lia.
      * right. exists (w :: l1), x, l2. split; [cbn; congruence|]. cbn [concat]. rewrite blen_app. lia.
    + right. exists [], w, l. split; [reflexivity|]. cbn. lia.
Qed.

Lemma chars_cases (n : N) (t : text) (b : N) : b <= n ->
  (b + blen t <= n) \/
  (exists l1 x l2, t = l1 ++ x :: l2 /\ b + blen l1 <= n /\ n < b + blen l1 + clen x).
Proof.
  revert b. induction t as [|w l IH]; intros b Hb.
  - left. cbn. lia.
  - cbn [blen]. destruct (N.leb_spec (b + clen w) n) as [L|L].
    + destruct (IH (b + clen w) L) as [H|(l1 & x & l2 & E & H1 & H2)].
      * left. lia.
      * right. exists (w :: l1), x, l2. split; [cbn; congruence|]. cbn [blen]. lia.
    + right. exists [], w, l. split; [reflexivity|]. cbn. lia.
Qed.

Lemma fit_app_fits n a b : blen a <= n -> fit n (a ++ b) = a ++ fit (n - blen a) b.
Proof.
  revert n. induction a as [|x a IH]; intros n H; cbn [app fit blen] in *.
  - rewrite N.sub_0_r. reflexivity.
  - replace (clen x <=? n) with true by lia. rewrite IH by lia. do 3 f_equal. lia.
Qed.

Lemma fit_app_exceeds n a b : n < blen a -> fit n (a ++ b) = fit n a.
Proof.
  revert n. induction a as [|x a IH]; intros n H; cbn [app fit blen] in *; [lia|].
  destruct (N.leb_spec (clen x) n) as [L|L]; [|reflexivity]. rewrite IH by lia. reflexivity.
Qed.

Lemma fit_stop n a x b : blen a <= n -> n < blen a + clen x -> fit n (a ++ x :: b) = a.
Proof.
  intros H1 H2. rewrite fit_app_fits by exact H1. cbn [fit].
  replace (clen x <=? n - blen a) with false by lia. apply app_nil_r.
Qed.

Section Facts.
Variable c : cfg.
Hypothesis Hc : valid_cfg c.

(** ** Bodies of the loops *)

Lemma push_or_return_ok {E F} (conv : E -> F) m s t t' :
  runs_f c s (m s) (Ok tt, t') -> rep c s t ->
  exists s', push_or_return conv m s = (Ret Continue, s') /\ rep c s' t'.
Proof.
  intros (s' & H & H2 & _) _. cbn in H, H2. exists s'. split; [|exact H2].
  unfold push_or_return. erewrite sbind_ret by exact H. reflexivity.
Qed.

Lemma push_or_return_err {E F} (conv : E -> F) m s e t' :
  runs_f c s (m s) (Err e, t') -> push_or_return conv m s = (Ret (Return (conv e)), s).
Proof.
  intros (s' & H & H2 & H3). cbn in H, H2, H3.
  unfold push_or_return. erewrite sbind_ret by exact H. rewrite (H3 e eq_refl). reflexivity.
Qed.

Lemma push_or_break_ok {E R} m s t t' :
  runs_f (E := E) c s (m s) (Ok tt, t') -> rep c s t ->
  exists s', push_or_break (R := R) m s = (Ret Continue, s') /\ rep c s' t'.
Proof.
  intros (s' & H & H2 & _) _. cbn in H, H2. exists s'. split; [|exact H2].
  unfold push_or_break. erewrite sbind_ret by exact H. reflexivity.
Qed.

Lemma push_or_break_err {E R} m s e t' :
  runs_f (E := E) c s (m s) (Err e, t') -> push_or_break (R := R) m s = (Ret Break, s).
Proof.
  intros (s' & H & H2 & H3). cbn in H, H2, H3.
  unfold push_or_break. erewrite sbind_ret by exact H. rewrite (H3 e eq_refl). reflexivity.
Qed.

Lemma push_fits w s t : rep c s t -> blen t + blen w <= cap c ->
  runs_f c s (try_push_str c (enc w) s) (Ok tt, t ++ w).
Proof.
  intros R L. pose proof (try_push_str_runs c Hc w s t R) as H. unfold t_try_push_str in H.
  replace (blen t + blen w <=? cap c) with true in H by lia. exact H.
Qed.

Lemma push_fails w s t : rep c s t -> cap c < blen t + blen w ->
  runs_f c s (try_push_str c (enc w) s) (Err mkOutOfBounds, t).
Proof.
  intros R L. pose proof (try_push_str_runs c Hc w s t R) as H. unfold t_try_push_str in H.
  replace (blen t + blen w <=? cap c) with false in H by lia. exact H.
Qed.

Lemma push1_fits x s t : rep c s t -> blen t + clen x <= cap c ->
  runs_f c s (try_push c x s) (Ok tt, t ++ [x]).
Proof.
  intros R L. pose proof (try_push_runs c Hc x s t R) as H. unfold t_try_push_str in H. cbn [blen] in H.
  replace (blen t + (clen x + 0) <=? cap c) with true in H by lia. exact H.
Qed.

Lemma push1_fails x s t : rep c s t -> cap c < blen t + clen x ->
  runs_f c s (try_push c x s) (Err mkOutOfBounds, t).
Proof.
  intros R L. pose proof (try_push_runs c Hc x s t R) as H. unfold t_try_push_str in H. cbn [blen] in H.
  replace (blen t + (clen x + 0) <=? cap c) with false in H by lia. exact H.
Qed.

(** A body that continues on characters that fit. *)
Lemma folds_chars {I R} (body : I -> ST astring (flow R)) (ch : I -> char) l s t :
  (forall i s t, In i l -> rep c s t -> blen t + clen (ch i) <= cap c ->
     exists s', body i s = (Ret Continue, s') /\ rep c s' (t ++ [ch i])) ->
  rep c s t -> blen t + blen (map ch l) <= cap c ->
  exists s', folds body s l s' /\ rep c s' (t ++ map ch l).
Proof.
  revert s t. induction l as [|i l IH]; intros s t B Rp L.
  - exists s. split; [constructor|]. cbn. rewrite app_nil_r. exact Rp.
  - cbn [map blen] in L. destruct (B i s t (or_introl eq_refl) Rp) as (s1 & H1 & H2); [lia|].
    destruct (IH s1 (t ++ [ch i])) as (s2 & H3 & H4).
    + intros j s0 t0 Hj. apply B. right. exact Hj.
    + exact H2.
    + rewrite blen_app. cbn [blen]. lia.
    + exists s2. split; [econstructor; eauto|]. cbn [map]. rewrite <- app_assoc in H4. exact H4.
Qed.

Lemma folds_texts {I R} (body : I -> ST astring (flow R)) (tx : I -> text) l s t :
  (forall i s t, In i l -> rep c s t -> blen t + blen (tx i) <= cap c ->
     exists s', body i s = (Ret Continue, s') /\ rep c s' (t ++ tx i)) ->
  rep c s t -> blen t + blen (concat (map tx l)) <= cap c ->
  exists s', folds body s l s' /\ rep c s' (t ++ concat (map tx l)).
Proof.
  revert s t. induction l as [|i l IH]; intros s t B Rp L.
  - exists s. split; [constructor|]. cbn. rewrite app_nil_r. exact Rp.
  - cbn [map concat] in L. rewrite blen_app in L.
    destruct (B i s t (or_introl eq_refl) Rp) as (s1 & H1 & H2); [lia|].
    destruct (IH s1 (t ++ tx i)) as (s2 & H3 & H4).
    + intros j s0 t0 Hj. apply B. right. exact Hj.
    + exact H2.
    + rewrite blen_app. lia.
    + exists s2. split; [econstructor; eauto|]. cbn [map concat]. rewrite <- app_assoc in H4. exact H4.
Qed.

Lemma length_le_cap (t : text) : blen t <= cap c -> (length t <= N.to_nat (cap c))%nat.
Proof. intros H. pose proof (length_le_blen t). unfold lenN in *. lia. Qed.

(** ** Characters *)
Section Chars.
Context {S : Type} (next : iter S char).

Lemma body_return_char (x : char) s t : rep c s t -> blen t + clen x <= cap c ->
  exists s', push_or_return (fun e => e) (try_push c x) s = (Ret Continue, s') /\ rep c s' (t ++ [x]).
Proof. intros R L. eapply push_or_return_ok; [apply push1_fits; eassumption|exact R]. Qed.

Lemma body_break_char {R} (x : char) s t : rep c s t -> blen t + clen x <= cap c ->
  exists s', push_or_break (R := R) (try_push c x) s = (Ret Continue, s') /\ rep c s' (t ++ [x]).
Proof. intros Rp L. eapply push_or_break_ok; [apply push1_fits; eassumption|exact Rp]. Qed.

Lemma folds_return_char l s t : rep c s t -> blen t + blen l <= cap c ->
  exists s', folds (fun x => push_or_return (fun e => e) (try_push c x)) s l s' /\ rep c s' (t ++ l).
Proof.
  intros R L. destruct (folds_chars (fun x => push_or_return (fun e => e) (try_push c x)) (fun x => x) l s t)
    as (s' & H1 & H2); rewrite ?map_id in *; eauto.
  intros i s0 t0 _. apply body_return_char.
Qed.

Lemma folds_break_char {R} l s t : rep c s t -> blen t + blen l <= cap c ->
  exists s', folds (R := R) (fun x => push_or_break (try_push c x)) s l s' /\ rep c s' (t ++ l).
Proof.
  intros Rp L. destruct (folds_chars (R := R) (fun x => push_or_break (try_push c x)) (fun x => x) l s t)
    as (s' & H1 & H2); rewrite ?map_id in *; eauto.
  intros i s0 t0 _. apply body_break_char.
Qed.

Lemma from_chars_truncate_end fuel it l it' : ends next it l it' -> blen l <= cap c -> (length l < fuel)%nat ->
  exists s, from_chars_truncate c fuel next it = (Ret s, it') /\ rep c s l.
Proof.
  intros E L F. destruct (folds_break_char (R := Empty_set) l (new c) [] (new_rep c)) as (s & H1 & H2).
  { cbn [blen]. rewrite N.add_0_l. exact L. }
  exists s. split; [|exact H2]. unfold from_chars_truncate.
  rewrite (for_loop_end _ _ _ _ _ _ _ _ E H1 F). reflexivity.
Qed.

Lemma from_chars_truncate_stop fuel it l x it' :
  yields next it (l ++ [x]) it' -> blen l <= cap c -> cap c < blen l + clen x -> (length l < fuel)%nat ->
  exists s, from_chars_truncate c fuel next it = (Ret s, it') /\ rep c s l.
Proof.
  intros Y L Lx F. destruct (folds_break_char (R := Empty_set) l (new c) [] (new_rep c)) as (s & H1 & H2).
  { cbn [blen]. rewrite N.add_0_l. exact L. }
  exists s. split; [|exact H2]. unfold from_chars_truncate.
  pose proof (push_or_break_err (R := Empty_set) _ _ _ _ (push1_fails x s l H2 Lx)) as B.
  rewrite (for_loop_stop _ _ _ _ _ _ _ _ _ _ Y H1 B F). reflexivity.
Qed.

Lemma from_chars_truncate_panic fuel it l it' : panics next it l it' -> blen l <= cap c -> (length l < fuel)%nat ->
  from_chars_truncate c fuel next it = (Panic, it').
Proof.
  intros E L F. destruct (folds_break_char (R := Empty_set) l (new c) [] (new_rep c)) as (s & H1 & H2).
  { cbn [blen]. rewrite N.add_0_l. exact L. }
  unfold from_chars_truncate. rewrite (for_loop_panic _ _ _ _ _ _ _ _ E H1 F). reflexivity.
Qed.

Lemma try_from_chars_end fuel it l it' : ends next it l it' -> blen l <= cap c -> (length l < fuel)%nat ->
  exists s, try_from_chars c fuel next it = (Ret (Ok s), it') /\ rep c s l.
Proof.
  intros E L F. destruct (folds_return_char l (new c) [] (new_rep c)) as (s & H1 & H2).
  { cbn [blen]. rewrite N.add_0_l. exact L. }
  exists s. split; [|exact H2]. unfold try_from_chars.
  rewrite (for_loop_end _ _ _ _ _ _ _ _ E H1 F). reflexivity.
Qed.

Lemma try_from_chars_stop fuel it l x it' :
  yields next it (l ++ [x]) it' -> blen l <= cap c -> cap c < blen l + clen x -> (length l < fuel)%nat ->
  try_from_chars c fuel next it = (Ret (Err mkOutOfBounds), it').
Proof.
  intros Y L Lx F. destruct (folds_return_char l (new c) [] (new_rep c)) as (s & H1 & H2).
  { cbn [blen]. rewrite N.add_0_l. exact L. }
  unfold try_from_chars.
  pose proof (push_or_return_err (fun e : OutOfBounds => e) _ _ _ _ (push1_fails x s l H2 Lx)) as B.
  rewrite (for_loop_return _ _ _ _ _ _ _ _ _ _ _ Y H1 B F). reflexivity.
Qed.

Lemma try_from_chars_panic fuel it l it' : panics next it l it' -> blen l <= cap c -> (length l < fuel)%nat ->
  try_from_chars c fuel next it = (Panic, it').
Proof.
  intros E L F. destruct (folds_return_char l (new c) [] (new_rep c)) as (s & H1 & H2).
  { cbn [blen]. rewrite N.add_0_l. exact L. }
  unfold try_from_chars. rewrite (for_loop_panic _ _ _ _ _ _ _ _ E H1 F). reflexivity.
Qed.

(** Every iterator that always comes back falls into one of these cases. *)
Lemma chars_trichotomy (it : S) : well_behaved next ->
  (exists l it', ends next it l it' /\ blen l <= cap c) \/
  (exists l x it', yields next it (l ++ [x]) it' /\ blen l <= cap c /\ cap c < blen l + clen x) \/
  (exists l it', panics next it l it' /\ blen l <= cap c).
Proof.
  intros W.
  assert (G : forall k n it, (N.to_nat n <= k)%nat ->
    (exists l it', ends next it l it' /\ blen l <= n) \/
    (exists l x it', yields next it (l ++ [x]) it' /\ blen l <= n /\ n < blen l + clen x) \/
    (exists l it', panics next it l it' /\ blen l <= n)).
  { clear it. induction k as [|k IH]; intros n it Hk; destruct (next it) as [[[x|]| | |] it1] eqn:E.
    - right. left. exists [], x, it1. split; [apply yields_one; exact E|]. cbn.
      pose proof (clen_range x). lia.
    - left. exists [], it1. split; [exists it; split; [constructor|exact E]|]. cbn. lia.
    - right. right. exists [], it1. split; [exists it; split; [constructor|exact E]|]. cbn. lia.
    - exfalso. destruct (W it) as [W1 _]. rewrite E in W1. apply W1. reflexivity.
    - exfalso. destruct (W it) as [_ W2]. rewrite E in W2. apply W2. reflexivity.
    - pose proof (clen_range x) as Cx. destruct (N.leb_spec (clen x) n) as [L|L].
      + destruct (IH (n - clen x) it1) as [(l & it' & (i1 & Y & En) & B)|[(l & y & it' & Y & B1 & B2)|(l & it' & (i1 & Y & En) & B)]];
          [lia|..].
        * left. exists (x :: l), it'. split; [exists i1; split; [econstructor; eauto|exact En]|]. cbn. lia.
        * right. left. exists (x :: l), y, it'. split; [econstructor; eauto|]. cbn. lia.
        * right. right. exists (x :: l), it'. split; [exists i1; split; [econstructor; eauto|exact En]|]. cbn. lia.
      + right. left. exists [], x, it1. split; [apply yields_one; exact E|]. cbn. lia.
    - left. exists [], it1. split; [exists it; split; [constructor|exact E]|]. cbn. lia.
    - right. right. exists [], it1. split; [exists it; split; [constructor|exact E]|]. cbn. lia.
    - exfalso. destruct (W it) as [W1 _]. rewrite E in W1. apply W1. reflexivity.
    - exfalso. destruct (W it) as [_ W2]. rewrite E in W2. apply W2. reflexivity. }
  apply (G (N.to_nat (cap c))). apply le_n.
Qed.
End Chars.

(** ** Strings *)

Section Strs.
Context {S : Type} (next : iter S as_ref_item).

Lemma folds_return_str l s t : rep c s t -> blen t + blen (concat (map fst l)) <= cap c ->
  exists s', folds (fun x => push_or_return (fun e => e) (try_push_str c (ref1 x))) s (map item2 l) s' /\
    rep c s' (t ++ concat (map fst l)).
Proof.
  intros R L.
  assert (G : forall l s t, rep c s t -> blen t + blen (concat (map fst l)) <= cap c ->
    exists s', folds (fun p => push_or_return (fun e => e) (try_push_str c (ref1 (item2 p)))) s l s' /\
    rep c s' (t ++ concat (map fst l))).
  { clear - Hc. intros l s t R L. apply folds_texts; auto.
    intros i s0 t0 _ R0 L0. eapply push_or_return_ok; [apply push_fits; eassumption|exact R0]. }
  destruct (G l s t R L) as (s' & H1 & H2). exists s'. split; [|exact H2].
  clear - H1. induction H1; cbn [map]; econstructor; eauto.
Qed.

Definition trunc_body (x : as_ref_item) : ST astring (flow Empty_set) :=
  r <~ try_push_str c (ref1 x) ;;
  match r with
  | Ok _ => sret Continue
  | Err _ => _ <~ push_str_truncate c (ref2 x) ;; sret Break
  end.

Lemma trunc_body_ok p s t : rep c s t -> blen t + blen (fst p) <= cap c ->
  exists s', trunc_body (item2 p) s = (Ret Continue, s') /\ rep c s' (t ++ fst p).
Proof.
  intros R L. destruct (push_fits (fst p) s t R L) as (s' & H & H2 & _). cbn in H, H2.
  exists s'. split; [|exact H2]. unfold trunc_body. erewrite sbind_ret by exact H. reflexivity.
Qed.

Lemma trunc_body_stop p s t : rep c s t -> cap c < blen t + blen (fst p) ->
  exists s', trunc_body (item2 p) s = (Ret Break, s') /\ rep c s' (t ++ fit (cap c - blen t) (snd p)).
Proof.
  intros R L. destruct (push_fails (fst p) s t R L) as (s1 & H & H2 & H3). cbn in H, H2, H3.
  rewrite (H3 _ eq_refl) in H. clear H3 H2 s1.
  destruct (push_str_truncate_runs c Hc (snd p) s t R) as (s' & P1 & P2).
  exists s'. split; [|exact P2]. unfold trunc_body. erewrite sbind_ret by exact H. cbv beta iota.
  erewrite sbind_ret by exact P1. reflexivity.
Qed.

Lemma folds_trunc l s t : rep c s t -> blen t + blen (concat (map fst l)) <= cap c ->
  exists s', folds trunc_body s (map item2 l) s' /\ rep c s' (t ++ concat (map fst l)).
Proof.
  intros R L.
  assert (G : forall l s t, rep c s t -> blen t + blen (concat (map fst l)) <= cap c ->
    exists s', folds (fun p => trunc_body (item2 p)) s l s' /\ rep c s' (t ++ concat (map fst l))).
  { clear - Hc. intros l s t R L. apply folds_texts; auto.
    intros i s0 t0 _ R0 L0. apply trunc_body_ok; assumption. }
  destruct (G l s t R L) as (s' & H1 & H2). exists s'. split; [|exact H2].
  clear - H1. induction H1; cbn [map]; econstructor; eauto.
Qed.

Lemma from_iterator_truncate_unfold fuel (it : S) :
  from_iterator_truncate c fuel next it =
  from_loop (R := Empty_set) (for_loop fuel next trunc_body it (new c)) (fun s => s) (fun e => match e with end).
Proof. reflexivity. Qed.

Lemma from_iterator_truncate_end fuel it l it' :
  ends next it (map item2 l) it' -> blen (concat (map fst l)) <= cap c -> (length l < fuel)%nat ->
  exists s, from_iterator_truncate c fuel next it = (Ret s, it') /\ rep c s (concat (map fst l)).
Proof.
  intros E L F. destruct (folds_trunc l (new c) [] (new_rep c)) as (s & H1 & H2).
  { cbn [blen]. rewrite N.add_0_l. exact L. }
  exists s. split; [|exact H2]. rewrite from_iterator_truncate_unfold.
  rewrite (for_loop_end _ _ _ _ _ _ _ _ E H1); [reflexivity|]. rewrite map_length. exact F.
Qed.

Lemma from_iterator_truncate_stop fuel it l p it' :
  yields next it (map item2 (l ++ [p])) it' -> blen (concat (map fst l)) <= cap c ->
  cap c < blen (concat (map fst l)) + blen (fst p) -> (length l < fuel)%nat ->
  exists s, from_iterator_truncate c fuel next it = (Ret s, it') /\
    rep c s (concat (map fst l) ++ fit (cap c - blen (concat (map fst l))) (snd p)).
Proof.
  intros Y L Lx F. destruct (folds_trunc l (new c) [] (new_rep c)) as (s & H1 & H2).
  { cbn [blen]. rewrite N.add_0_l. exact L. }
  cbn [app] in H2. destruct (trunc_body_stop p s _ H2 Lx) as (s' & B1 & B2).
  exists s'. split; [|exact B2]. rewrite from_iterator_truncate_unfold.
  rewrite map_app in Y. cbn [map] in Y.
  rewrite (for_loop_stop _ _ _ _ _ _ _ _ _ _ Y H1 B1); [reflexivity|]. rewrite map_length. exact F.
Qed.

Lemma from_iterator_truncate_panic fuel it l it' :
  panics next it (map item2 l) it' -> blen (concat (map fst l)) <= cap c -> (length l < fuel)%nat ->
  from_iterator_truncate c fuel next it = (Panic, it').
Proof.
  intros E L F. destruct (folds_trunc l (new c) [] (new_rep c)) as (s & H1 & H2).
  { cbn [blen]. rewrite N.add_0_l. exact L. }
  rewrite from_iterator_truncate_unfold.
  rewrite (for_loop_panic _ _ _ _ _ _ _ _ E H1); [reflexivity|]. rewrite map_length. exact F.
Qed.

Lemma try_from_iterator_end fuel it l it' :
  ends next it (map item2 l) it' -> blen (concat (map fst l)) <= cap c -> (length l < fuel)%nat ->
  exists s, try_from_iterator c fuel next it = (Ret (Ok s), it') /\ rep c s (concat (map fst l)).
Proof.
  intros E L F. destruct (folds_return_str l (new c) [] (new_rep c)) as (s & H1 & H2).
  { cbn [blen]. rewrite N.add_0_l. exact L. }
  exists s. split; [|exact H2]. unfold try_from_iterator.
  rewrite (for_loop_end _ _ _ _ _ _ _ _ E H1); [reflexivity|]. rewrite map_length. exact F.
Qed.

Lemma try_from_iterator_stop fuel it l p it' :
  yields next it (map item2 (l ++ [p])) it' -> blen (concat (map fst l)) <= cap c ->
  cap c < blen (concat (map fst l)) + blen (fst p) -> (length l < fuel)%nat ->
  try_from_iterator c fuel next it = (Ret (Err mkOutOfBounds), it').
Proof.
  intros Y L Lx F. destruct (folds_return_str l (new c) [] (new_rep c)) as (s & H1 & H2).
  { cbn [blen]. rewrite N.add_0_l. exact L. }
  cbn [app] in H2. unfold try_from_iterator.
  pose proof (push_or_return_err (fun e : OutOfBounds => e) _ _ _ _ (push_fails (fst p) s _ H2 Lx)) as B.
  rewrite map_app in Y. cbn [map] in Y.
  rewrite (for_loop_return next (fun x => push_or_return (fun e => e) (try_push_str c (ref1 x)))
    _ _ _ _ _ _ _ _ _ Y H1 B); [reflexivity|]. rewrite map_length. exact F.
Qed.

Lemma try_from_iterator_panic fuel it l it' :
  panics next it (map item2 l) it' -> blen (concat (map fst l)) <= cap c -> (length l < fuel)%nat ->
  try_from_iterator c fuel next it = (Panic, it').
Proof.
  intros E L F. destruct (folds_return_str l (new c) [] (new_rep c)) as (s & H1 & H2).
  { cbn [blen]. rewrite N.add_0_l. exact L. }
  unfold try_from_iterator.
  rewrite (for_loop_panic _ _ _ _ _ _ _ _ E H1); [reflexivity|]. rewrite map_length. exact F.
Qed.
End Strs.

(** ** retain *)
Section Retain.
Context {F : Type} (f : char -> ST F bool).

(** [Filter::next] on characters, without fuel. *)
Fixpoint filter_step (t : text) (x : F) : outcome (option char) * (list N * F) :=
  match t with
  | [] => (Ret None, ([], x))
  | a :: r =>
      match f a x with
      | (Ret true, x1) => (Ret (Some a), (enc r, x1))
      | (Ret false, x1) => filter_step r x1
      | (Panic, x1) => (Panic, (enc r, x1))
      | (UB, x1) => (UB, (enc r, x1))
      | (Diverge, x1) => (Diverge, (enc r, x1))
      end
  end.

Lemma filter_next_step t x fuel : (length t < fuel)%nat ->
  filter_next fuel chars_iter f (enc t, x) = filter_step t x.
Proof.
  revert x fuel. induction t as [|a t IH]; intros x fuel L; destruct fuel as [|fuel]; cbn in L; try lia.
  - reflexivity.
  - cbn [filter_next filter_step]. rewrite chars_iter_enc.
    destruct (f a x) as [[[|]| | |] x1]; try reflexivity. apply IH. lia.
Qed.

Lemma filter_run_Ret t x l x' fuel : (length t < fuel)%nat -> filter_run f x t = (Ret l, x') ->
  ends (filter_next fuel chars_iter f) (enc t, x) l ([], x') /\
  (length l <= length t)%nat /\ blen l <= blen t.
Proof.
  intros L. revert x l. induction t as [|a t IH]; intros x l H.
  - cbn in H. injection H as <- <-. split; [|cbn; lia].
    exists (enc [], x). split; [constructor|]. rewrite filter_next_step by exact L. reflexivity.
  - cbn in L. cbn [filter_run] in H. destruct (f a x) as [[keep| | |] x1] eqn:Ef; try discriminate.
    destruct (filter_run f x1 t) as [[l1| | |] x2] eqn:E; try discriminate. injection H as <- <-.
    destruct (IH ltac:(lia) x1 l1 E) as ((it1 & Y & En) & Ln & Lb).
    assert (Nx : filter_next fuel chars_iter f (enc (a :: t), x) =
                 if keep then (Ret (Some a), (enc t, x1)) else filter_next fuel chars_iter f (enc t, x1)).
    { rewrite !filter_next_step by (cbn; lia). cbn [filter_step]. rewrite Ef. destruct keep; reflexivity. }
    split; [|destruct keep; cbn; lia].
    destruct keep.
    + exists it1. split; [econstructor; eauto|exact En].
    + inversion Y; subst.
      * exists (enc (a :: t), x). split; [constructor|]. rewrite Nx. exact En.
      * exists it1. split; [|exact En]. econstructor; [|eassumption]. rewrite Nx. assumption.
Qed.

(** The failing cases: characters kept so far, then the failure. *)
Lemma filter_run_fail t x o x' fuel : (length t < fuel)%nat -> filter_run f x t = (o, x') ->
  (forall l, o <> Ret l) ->
  exists l it1 r, yields (filter_next fuel chars_iter f) (enc t, x) l it1 /\
    filter_next fuel chars_iter f it1 = (match o with Ret _ => Ret None | Panic => Panic | UB => UB | Diverge => Diverge end, (r, x')) /\
    (length l <= length t)%nat /\ blen l <= blen t.
Proof.
  intros L. revert x. induction t as [|a t IH]; intros x H No.
  - cbn in H. injection H as <- <-. exfalso. eapply No. reflexivity.
  - cbn in L. cbn [filter_run] in H.
    assert (Nx : forall keep x1, f a x = (Ret keep, x1) -> filter_next fuel chars_iter f (enc (a :: t), x) =
                 if keep then (Ret (Some a), (enc t, x1)) else filter_next fuel chars_iter f (enc t, x1)).
    { intros keep x1 Ef. rewrite !filter_next_step by (cbn; lia). cbn [filter_step]. rewrite Ef. destruct keep; reflexivity. }
    destruct (f a x) as [[keep| | |] x1] eqn:Ef.
    + assert (H' : filter_run f x1 t = (o, x')).
      { destruct (filter_run f x1 t) as [[l1| | |] x2]; injection H as <- <-;
          try reflexivity. exfalso. eapply No. reflexivity. }
      destruct (IH ltac:(lia) x1 H' No) as (l & it1 & r & Y & En & Ln & Lb).
      specialize (Nx keep x1 eq_refl). destruct keep.
      * exists (a :: l), it1, r. split; [econstructor; eauto|]. split; [exact En|]. cbn. lia.
      * inversion Y; subst.
        -- exists [], (enc (a :: t), x), r. split; [constructor|]. split; [rewrite Nx; exact En|]. cbn. lia.
        -- eexists (_ :: _), it1, r. split; [econstructor; [rewrite Nx; eassumption|eassumption]|].
           split; [exact En|]. cbn in *. lia.
    + injection H as <- <-. exists [], (enc (a :: t), x), (enc t). split; [constructor|].
      rewrite filter_next_step by (cbn; lia). cbn [filter_step]. rewrite Ef. split; [reflexivity|]. cbn. lia.
    + injection H as <- <-. exists [], (enc (a :: t), x), (enc t). split; [constructor|].
      rewrite filter_next_step by (cbn; lia). cbn [filter_step]. rewrite Ef. split; [reflexivity|]. cbn. lia.
    + injection H as <- <-. exists [], (enc (a :: t), x), (enc t). split; [constructor|].
      rewrite filter_next_step by (cbn; lia). cbn [filter_step]. rewrite Ef. split; [reflexivity|]. cbn. lia.
Qed.

Lemma retain_Ret x s t l x' : rep c s t -> filter_run f x t = (Ret l, x') ->
  exists s', retain c f x s = (Ret tt, s', x') /\ rep c s' l.
Proof.
  intros R H. pose proof (rep_cap c s t R) as K. pose proof (length_le_enc t) as Le.
  destruct (filter_run_Ret t x l x' (Datatypes.S (length (enc t)))) as (E & L1 & L2); [lia|exact H|].
  destruct (from_chars_truncate_end _ (Datatypes.S (length (enc t))) _ _ _ E) as (s' & P1 & P2); [lia|lia|].
  exists s'. split; [|exact P2]. unfold retain. rewrite (as_str_rep c s t R). rewrite P1. reflexivity.
Qed.

Lemma retain_Panic x s t x' : rep c s t -> filter_run f x t = (Panic, x') ->
  retain c f x s = (Panic, s, x').
Proof.
  intros R H. pose proof (rep_cap c s t R) as K. pose proof (length_le_enc t) as Le.
  destruct (filter_run_fail t x _ x' (Datatypes.S (length (enc t))) ltac:(lia) H) as (l & it1 & r & Y & E & L1 & L2);
    [discriminate|].
  assert (P : from_chars_truncate c (Datatypes.S (length (enc t))) (filter_next (Datatypes.S (length (enc t))) chars_iter f) (enc t, x)
              = (Panic, (r, x'))).
  { apply (from_chars_truncate_panic _ _ _ l); [exists it1; auto|lia|lia]. }
  unfold retain. rewrite (as_str_rep c s t R). rewrite P. reflexivity.
Qed.
End Retain.

End Facts.
