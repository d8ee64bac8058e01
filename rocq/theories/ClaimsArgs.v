(** Foreign code in the generic arguments (C57). *)
From Coq Require Import ZArith ZifyBool ZifyN ZifyNat Arith.
From Verif Require Import Base Char Spec RustStd ModelError Model ModelArgs ModelImpl TextOps IterSpec
  ListFacts Utf8Facts CoreFacts MethodFacts IterFacts ImplFacts Obs ClaimsEdit ClaimsIter ClaimsLaws.

Section Facts.
Context {W : Type}.

Lemma arg_cases {A} (a : ST W A) w : comes_back a ->
  (exists b w', a w = (Ret b, w')) \/ (exists w', a w = (Panic, w')).
Proof.
  intros H. destruct (H w) as [H1 H2]. destruct (a w) as [[b| | |] w']; cbn in H1, H2; try congruence;
    [left | right]; eauto.
Qed.

(** The evaluation of a logged argument. *)
Lemma logged_cases {A} on (a : ST W A) w : comes_back a ->
  (exists w', logged on a w = (Ret tt, w') /\ called a w w' /\ (on = false -> w' = w)) \/
  (exists w', logged on a w = (Panic, w') /\ on = true /\ a w = (Panic, w')).
Proof.
  intros H. destruct on; cbn [logged]; [|left; exists w; repeat split; constructor].
  unfold sbind. destruct (arg_cases a w H) as [(x & w' & E)|(w' & E)]; rewrite E; [left | right]; exists w'.
  - split; [reflexivity|]. split; [|discriminate]. econstructor; [exact E|constructor].
  - repeat split.
Qed.
Lemma called_trans {A} (a : ST W A) w1 w2 w3 : called a w1 w2 -> called a w2 w3 -> called a w1 w3.
Proof. induction 1; [auto|]. intros. econstructor; eauto. Qed.
Lemma called_once {A} (a : ST W A) w b w' : a w = (Ret b, w') -> called a w w'.
Proof. intros E. econstructor; [exact E|constructor]. Qed.
Lemma answered_before {A} (a : ST W A) (q p : Prop) w w0 b w' : called a w w0 -> (p -> w0 = w) -> (p -> q) ->
  answered q a w0 b w' -> answered p a w b w'.
Proof.
  intros C P PQ (w1 & w2 & C1 & E & C2 & Q). exists w1, w2. split; [exact (called_trans _ _ _ _ C C1)|]. split; [exact E|].
  split; [exact C2|]. intros D. destruct (Q (PQ D)) as [-> ->]. split; [exact (P D)|reflexivity].
Qed.
Lemma broke_before {A} (a : ST W A) (q p : Prop) w w0 w' : called a w w0 -> (p -> w0 = w) -> (p -> q) ->
  broke q a w0 w' -> broke p a w w'.
Proof.
  intros C P PQ (w1 & C1 & E & Q). exists w1. split; [exact (called_trans _ _ _ _ C C1)|]. split; [exact E|].
  intros D. rewrite (Q (PQ D)). exact (P D).
Qed.
Lemma answered_once {A} (a : ST W A) (q : Prop) w b w' : a w = (Ret b, w') -> answered q a w b w'.
Proof. intros E. exists w, w'. split; [constructor|]. split; [exact E|]. split; [constructor|auto]. Qed.
Lemma broke_once {A} (a : ST W A) (q : Prop) w w' : a w = (Panic, w') -> broke q a w w'.
Proof. intros E. exists w. split; [constructor|]. split; [exact E|auto]. Qed.
Lemma answered_weaken {A} (a : ST W A) (q p : Prop) w b w' : (p -> q) -> answered q a w b w' -> answered p a w b w'.
Proof. intros H. apply answered_before; [constructor|reflexivity|exact H]. Qed.
Lemma broke_weaken {A} (a : ST W A) (q p : Prop) w w' : (p -> q) -> broke q a w w' -> broke p a w w'.
Proof. intros H. apply broke_before; [constructor|reflexivity|exact H]. Qed.
Lemma logged_on {A} on (a : ST W A) (s : astring) w :
  logged on (on_arg a) (s, w) = on_arg (logged on a) (s, w).
Proof.
  destruct on; cbn [logged]; [|reflexivity]. unfold on_arg, sbind. cbn [fst snd].
  destruct (a w) as [[b| | |] w']; reflexivity.
Qed.
Lemma on_arg_eq {A} (a : ST W A) (s : astring) w o w' : a w = (o, w') -> on_arg a (s, w) = (o, (s, w')).
Proof. intros E. unfold on_arg. cbn [fst snd]. rewrite E. reflexivity. Qed.
Lemma on_self_eq {A} (m : ST astring A) s (w : W) o s' : m s = (o, s') -> on_self m (s, w) = (o, (s', w)).
Proof. intros E. unfold on_self. cbn [fst snd]. rewrite E. reflexivity. Qed.
Lemma bind_eq {S A B} (m : ST S A) (k : A -> ST S B) s a s' : m s = (Ret a, s') -> sbind m k s = k a s'.
Proof. intros E. unfold sbind. rewrite E. reflexivity. Qed.
Lemma bind_panic {S A B} (m : ST S A) (k : A -> ST S B) s s' : m s = (Panic, s') -> sbind m k s = (Panic, s').
Proof. intros E. unfold sbind. rewrite E. reflexivity. Qed.
End Facts.

(** Runs the next foreign call: two goals, it answered or it panicked. *)
Ltac arg_step H :=
  match type of H with
  | comes_back ?a =>
    match goal with
    | |- context [sbind (on_arg a) _ (?s, ?w)] =>
        let b := fresh "b" in let w' := fresh "w" in let E := fresh "E" in
        destruct (arg_cases a w H) as [(b & w' & E)|(w' & E)];
        [rewrite (bind_eq _ _ _ _ _ (on_arg_eq a s w _ _ E)) | rewrite (bind_panic _ _ _ _ (on_arg_eq a s w _ _ E))]
    end
  end.
Ltac log_step H :=
  match goal with
  | |- context [sbind (logged ?on (on_arg ?a)) _ (?s, ?w)] =>
      let w' := fresh "w" in let E := fresh "E" in let Q := fresh "Q" in let P := fresh "P" in
      let C := fresh "C" in
      destruct (logged_cases on a w H) as [(w' & E & C & Q)|(w' & E & Q & P)];
      [rewrite (bind_eq (logged on (on_arg a)) _ _ tt (s, w')) by (rewrite logged_on; exact (on_arg_eq _ _ _ _ _ E))
      |rewrite (bind_panic (logged on (on_arg a)) _ _ (s, w')) by (rewrite logged_on; exact (on_arg_eq _ _ _ _ _ E))]
  end.

(** ** Composing [one_answer] *)
Section One.
Context {W : Type}.
Variable a : ST W (list N).
Hypothesis Ha : comes_back a.

Lemma one_ext {A} q (p p' : list N -> ST astring A) g s w : (forall b, p b s = p' b s) ->
  one_answer q a p g s w -> one_answer q a p' g s w.
Proof.
  intros H (o & s' & w' & G & [K|(b & E & R)]); exists o, s', w'; (split; [exact G|]); [left; exact K|].
  right. exists b. rewrite <- H. auto.
Qed.

Lemma one_log {A} q on (p : list N -> ST astring A) g s w : (forall w, one_answer q a p g s w) ->
  one_answer (on = false /\ q) a p (_ <~ logged on (on_arg a) ;; g) s w.
Proof.
  intros H. unfold one_answer. log_step Ha.
  - destruct (H w0) as (o & s' & w' & G & K). exists o, s', w'. split; [exact G|].
    destruct K as [(K1 & K2 & K3)|(b & E1 & R)].
    + left. repeat (split; [assumption|]). exact (broke_before a q _ _ _ _ C (fun D => Q (proj1 D)) (@proj2 _ _) K3).
    + right. exists b. split; [|exact R]. exact (answered_before a q _ _ _ _ _ C (fun D => Q (proj1 D)) (@proj2 _ _) E1).
  - exists Panic, s, w0. split; [reflexivity|]. left. split; [reflexivity|]. split; [reflexivity|]. apply broke_once. exact P.
Qed.

Lemma one_map {A B} q (f : A -> B) (p : list N -> ST astring A) g s w : one_answer q a p g s w ->
  one_answer q a (fun b => r <~ p b ;; sret (f r)) (r <~ g ;; sret (f r)) s w.
Proof.
  intros (o & s' & w' & G & K). unfold one_answer, sbind. rewrite G.
  destruct K as [(-> & K2 & K3)|(b & E1 & R)].
  - exists Panic, s', w'. split; [reflexivity|]. left. auto.
  - destruct o as [r| | |].
    + exists (Ret (f r)), s', w'. split; [reflexivity|]. right. exists b. rewrite R. auto.
    + exists Panic, s', w'. split; [reflexivity|]. right. exists b. rewrite R. auto.
    + exists UB, s', w'. split; [reflexivity|]. right. exists b. rewrite R. auto.
    + exists Diverge, s', w'. split; [reflexivity|]. right. exists b. rewrite R. auto.
Qed.

(** Ask once, then run the plain method. *)
Lemma one_ask {A} (p : list N -> ST astring A) s w :
  one_answer True a p (b <~ on_arg a ;; on_self (p b)) s w.
Proof.
  unfold one_answer. arg_step Ha.
  - destruct (p b s) as [o s'] eqn:Er. exists o, s', w0. split; [exact (on_self_eq _ s w0 o s' Er)|]. right.
    exists b. split; [apply answered_once; exact E|exact Er].
  - exists Panic, s, w0. split; [reflexivity|]. left. repeat (split; [reflexivity|]). apply broke_once. exact E.
Qed.

Lemma one_replace c db l h s w :
  one_answer (db = false) a (replace_range c l h) (g_replace_range c db (sret l) (sret h) a) s w.
Proof.
  unfold one_answer, g_replace_range. arg_step Ha.
  2:{ exists Panic, s, w0. split; [reflexivity|]. left. repeat (split; [reflexivity|]). apply broke_once. exact E. }
  rewrite (bind_eq (on_arg (sret l)) _ _ l (s, w0)) by reflexivity.
  rewrite (bind_eq (on_arg (sret h)) _ _ h (s, w0)) by reflexivity.
  pose proof (called_once a _ _ _ E) as C0.
  log_step Ha.
  2:{ exists Panic, s, w1. split; [reflexivity|]. left. repeat (split; [reflexivity|]).
      exists w0. split; [exact C0|]. split; [exact P|congruence]. }
  log_step Ha.
  2:{ exists Panic, s, w2. split; [reflexivity|]. left. repeat (split; [reflexivity|]).
      exists w1. split; [exact (called_trans a _ _ _ C0 C)|]. split; [exact P|congruence]. }
  destruct (replace_range c l h b s) as [o s'] eqn:Er.
  exists o, s', w2. split; [exact (on_self_eq _ s w2 o s' Er)|]. right. exists b. split; [|exact Er].
  exists w, w0. split; [constructor|]. split; [exact E|]. split; [exact (called_trans a _ _ _ C C1)|].
  intros D. split; [reflexivity|]. rewrite (Q0 D). exact (Q D).
Qed.

Lemma one_weaken {A} (q q' : Prop) (p : list N -> ST astring A) g s w : (q' -> q) ->
  one_answer q a p g s w -> one_answer q' a p g s w.
Proof.
  intros H (o & s' & w' & G & [(K1 & K2 & K3)|(b & E & R)]); exists o, s', w'; (split; [exact G|]).
  - left. split; [exact K1|]. split; [exact K2|]. exact (broke_weaken a q q' _ _ H K3).
  - right. exists b. split; [exact (answered_weaken a q q' _ _ _ H E)|exact R].
Qed.

(** Constructors: the method on a new string. *)
Lemma one_new {A B} q c (p : list N -> ST astring A) g (k : A -> astring -> B) w :
  one_answer q a p g (new c) w ->
  one_answer_new q a (fun b => r <- run_local (p b) (new c) ;; let '(x, s) := r in Ret (k x s)) (g_local c g k) w.
Proof.
  intros (o & s' & w' & G & K). unfold one_answer_new, g_local. rewrite G.
  destruct K as [(-> & K2 & K3)|(b & E1 & R)].
  - exists Panic, w'. split; [reflexivity|]. left. auto.
  - eexists _, w'. split; [reflexivity|]. right. exists b. split; [exact E1|].
    unfold run_local. rewrite R. destruct o; reflexivity.
Qed.
Lemma one_new_log {A} q on (p : list N -> outcome A) g w : (forall w, one_answer_new q a p g w) ->
  one_answer_new (on = false /\ q) a p (_ <~ logged on a ;; g) w.
Proof.
  intros H. unfold one_answer_new. destruct (logged_cases on a w Ha) as [(w0 & E & C & Q)|(w0 & E & Q & P)].
  - rewrite (bind_eq _ _ _ _ _ E). destruct (H w0) as (o & w' & G & K). exists o, w'. split; [exact G|].
    destruct K as [(K1 & K3)|(b & E1 & R)].
    + left. split; [exact K1|]. exact (broke_before a q _ _ _ _ C (fun D => Q (proj1 D)) (@proj2 _ _) K3).
    + right. exists b. split; [|exact R]. exact (answered_before a q _ _ _ _ _ C (fun D => Q (proj1 D)) (@proj2 _ _) E1).
  - rewrite (bind_panic _ _ _ _ E). exists Panic, w0. split; [reflexivity|]. left. split; [reflexivity|].
    apply broke_once. exact P.
Qed.
Lemma one_new_ext {A} (q q' : Prop) (p p' : list N -> outcome A) g w : (q' -> q) -> (forall b, p b = p' b) ->
  one_answer_new q a p g w -> one_answer_new q' a p' g w.
Proof.
  intros Hq H (o & w' & G & [(K1 & K2)|(b & E & R)]); exists o, w'; (split; [exact G|]).
  - left. split; [exact K1|]. exact (broke_weaken a q q' _ _ Hq K2).
  - right. exists b. rewrite <- H. split; [exact (answered_weaken a q q' _ _ _ Hq E)|exact R].
Qed.
Lemma one_new_ask {A} (p : list N -> outcome A) w : one_answer_new True a p (b <~ a ;; slift (p b)) w.
Proof.
  unfold one_answer_new. destruct (arg_cases a w Ha) as [(b & w' & E)|(w' & E)].
  - rewrite (bind_eq _ _ _ _ _ E). exists (p b), w'. split; [reflexivity|]. right. exists b.
    split; [apply answered_once; exact E|reflexivity].
  - rewrite (bind_panic _ _ _ _ E). exists Panic, w'. split; [reflexivity|]. left. split; [reflexivity|].
    apply broke_once. exact E.
Qed.

Lemma one_try_push c tr db s w :
  one_answer (tr = false /\ db = false) a (try_push_str c) (g_try_push_str c tr db a) s w.
Proof.
  unfold g_try_push_str. apply one_log. clear w. intros w.
  apply (one_ext (db = false) (fun b => r <~ replace_range c (Included (len s)) (Excluded (len s)) b ;;
    sret (map_err (fun _ => mkOutOfBounds) r))); [reflexivity|].
  pose proof (one_map (db = false) (map_err (fun _ : Error => mkOutOfBounds)) _ _ s w
    (one_replace c db (Included (len s)) (Excluded (len s)) s w)) as H.
  unfold one_answer in *. rewrite (bind_eq (on_self _) _ _ (len s) (s, w)) by reflexivity. exact H.
Qed.
Lemma one_push_truncate c tr s w :
  one_answer (tr = false) a (push_str_truncate c) (g_push_str_truncate c tr a) s w.
Proof.
  apply (one_weaken (tr = false /\ True)); [auto|]. unfold g_push_str_truncate. apply one_log. intros w'. apply one_ask.
Qed.
End One.

(** ** C57 *)
(** [replace_range] and [drain]: every argument is asked in a fixed order before
    anything is written. *)
Lemma c57_ranges {W} c db (lo hi : ST W bound) (a : ST W (list N)) s w :
  comes_back lo -> comes_back hi -> str_arg a ->
  (exists o s' w', g_replace_range c db lo hi a (s, w) = (o, (s', w')) /\
   ((o = Panic /\ s' = s /\ a w = (Panic, w')) \/
    (exists b w1, a w = (Ret b, w1) /\
     ((o = Panic /\ s' = s /\ lo w1 = (Panic, w')) \/
      (exists l w2, lo w1 = (Ret l, w2) /\
       ((o = Panic /\ s' = s /\ hi w2 = (Panic, w')) \/
        (exists h w3, hi w2 = (Ret h, w3) /\
         ((o = Panic /\ s' = s /\ db = true /\ broke False a w3 w') \/
          (replace_range c l h b s = (o, s') /\ called a w3 w' /\ (db = false -> w' = w3)))))))))) /\
  (exists o s' w', g_drain c lo hi (s, w) = (o, (s', w')) /\
   ((o = Panic /\ s' = s /\ lo w = (Panic, w')) \/
    (exists l w1, lo w = (Ret l, w1) /\
     ((o = Panic /\ s' = s /\ hi w1 = (Panic, w')) \/
      (exists h, hi w1 = (Ret h, w') /\ drain c l h s = (o, s')))))).
Proof.
  intros Hlo Hhi [Ha _]. split.
  - unfold g_replace_range. arg_step Ha.
    2:{ exists Panic, s, w0. split; [reflexivity|]. left. auto. }
    arg_step Hlo.
    2:{ exists Panic, s, w1. split; [reflexivity|]. right. exists b, w0. split; [exact E|]. left. auto. }
    arg_step Hhi.
    2:{ exists Panic, s, w2. split; [reflexivity|]. right. exists b, w0. split; [exact E|]. right. exists b0, w1.
        split; [exact E0|]. left. auto. }
    log_step Ha.
    2:{ exists Panic, s, w3. split; [reflexivity|]. right. exists b, w0. split; [exact E|]. right. exists b0, w1.
        split; [exact E0|]. right. exists b1, w2. split; [exact E1|]. left. repeat (split; [first [reflexivity|assumption]|]).
        apply broke_once. exact P. }
    log_step Ha.
    2:{ exists Panic, s, w4. split; [reflexivity|]. right. exists b, w0. split; [exact E|]. right. exists b0, w1.
        split; [exact E0|]. right. exists b1, w2. split; [exact E1|]. left. repeat (split; [first [reflexivity|assumption]|]).
        exists w3. split; [exact C|]. split; [exact P|intros []]. }
    destruct (replace_range c b0 b1 b s) as [o s'] eqn:Er.
    exists o, s', w4. split; [exact (on_self_eq _ s w4 o s' Er)|]. right. exists b, w0. split; [exact E|]. right. exists b0, w1.
    split; [exact E0|]. right. exists b1, w2. split; [exact E1|]. right. split; [exact Er|].
    split; [exact (called_trans a _ _ _ C C0)|]. intros D. rewrite (Q0 D). exact (Q D).
  - unfold g_drain. arg_step Hlo.
    2:{ exists Panic, s, w0. split; [reflexivity|]. left. auto. }
    arg_step Hhi.
    2:{ exists Panic, s, w1. split; [reflexivity|]. right. exists b, w0. split; [exact E|]. left. auto. }
    destruct (drain c b b0 s) as [o s'] eqn:Er.
    exists o, s', w1. split; [exact (on_self_eq _ s w1 o s' Er)|]. right. exists b, w0. split; [exact E|]. right.
    exists b0. auto.
Qed.

(** The methods that append a string. *)
Lemma c57_push {W} c tr db (a : ST W (list N)) s w : str_arg a ->
  one_answer (tr = false /\ db = false) a (try_push_str c) (g_try_push_str c tr db a) s w /\
  one_answer (tr = false) a (push_str_truncate c) (g_push_str_truncate c tr a) s w.
Proof. intros [Ha _]. split; [apply one_try_push; exact Ha | apply one_push_truncate; exact Ha]. Qed.

(** The methods that insert a string; [try_insert_str] does not ask its argument
    when the index is past the end. *)
Lemma c57_insert {W} c tr db (a : ST W (list N)) i s w : str_arg a ->
  (i <= len s -> one_answer (tr = false /\ db = false) a (try_insert_str c i) (g_try_insert_str c tr db i a) s w) /\
  (len s < i -> tr = false -> g_try_insert_str c tr db i a (s, w) = (Ret (Err EOutOfBounds), (s, w))) /\
  one_answer (tr = false) a (insert_str_truncate c i) (g_insert_str_truncate c tr i a) s w.
Proof.
  intros [Ha _]. repeat split.
  - intros L. unfold g_try_insert_str. apply one_log; [exact Ha|]. clear w. intros w.
    assert (E : is_inside_boundary i (len s) = Ok tt).
    { unfold is_inside_boundary. destruct (i <=? len s) eqn:X; [reflexivity | lia]. }
    apply (one_ext a (db = false) (replace_range c (Included i) (Excluded i))).
    { intros b. unfold try_insert_str, stry, sbind, sread. rewrite E. reflexivity. }
    pose proof (one_replace a Ha c db (Included i) (Excluded i) s w) as H. unfold one_answer in *.
    unfold stry. rewrite (bind_eq (on_self _) _ _ (Ok tt) (s, w)); [exact H|].
    unfold on_self, sread. cbn [fst snd]. rewrite E. reflexivity.
  - intros L ->. assert (E : is_inside_boundary i (len s) = Err mkOutOfBounds).
    { unfold is_inside_boundary. destruct (i <=? len s) eqn:X; [lia | reflexivity]. }
    unfold g_try_insert_str, logged, stry. rewrite (bind_eq (sret tt) _ _ tt (s, w)) by reflexivity.
    rewrite (bind_eq (on_self _) _ _ (Err mkOutOfBounds) (s, w)); [reflexivity|].
    unfold on_self, sread. cbn [fst snd]. rewrite E. reflexivity.
  - apply (one_weaken a (tr = false /\ True)); [auto|]. apply one_log; [exact Ha|]. intros w'. apply one_ask. exact Ha.
Qed.

(** The constructors. *)
Lemma c57_constructors {W} c tr db (a : ST W (list N)) w : str_arg a ->
  one_answer_new (tr = false /\ db = false) a (try_from_str c) (g_try_from_str c tr db a) w /\
  one_answer_new (tr = false) a (from_str_truncate c) (g_from_str_truncate c tr a) w.
Proof.
  intros [Ha _]. split.
  - apply (one_new_ext a (tr = false /\ tr = false /\ db = false) _
      (fun b => r <- run_local (try_push_str c b) (new c) ;; let '(x, s) := r in Ret (map_ok (fun _ => s) x)));
      [tauto | reflexivity|].
    apply one_new_log; [exact Ha|]. clear w. intros w.
    exact (one_new a _ c _ _ (fun x s => map_ok (fun _ => s) x) w (one_try_push a Ha c tr db (new c) w)).
  - apply (one_new_ext a (tr = false /\ tr = false) _
      (fun b => r <- run_local (push_str_truncate c b) (new c) ;; let '(_, s) := r in Ret s)); [tauto | reflexivity|].
    apply one_new_log; [exact Ha|]. clear w. intros w.
    exact (one_new a _ c _ _ (fun _ s => s) w (one_push_truncate a Ha c tr (new c) w)).
Qed.

(** The constructors from UTF-16 ([slice.as_ref()] answers with any [u16]s). *)
Lemma c57_utf16 {W} c db (a : ST W (list N)) w : comes_back a ->
  one_answer_new (db = false) a (try_from_utf16 c) (g_utf16 db (try_from_utf16 c) a) w /\
  one_answer_new (db = false) a (from_utf16_truncate c) (g_utf16 db (from_utf16_truncate c) a) w /\
  one_answer_new (db = false) a (from_utf16_lossy_truncate c) (g_utf16 db (from_utf16_lossy_truncate c) a) w.
Proof.
  intros Ha. repeat split; (eapply (one_new_ext a (db = false /\ True)); [tauto | intros b; reflexivity|]);
    (apply one_new_log; [exact Ha|]); intros w'; apply one_new_ask; exact Ha.
Qed.

(** *** Iterators over generic items *)
Section Loops.
Variable c : cfg.
Hypothesis Hc : valid_cfg c.
Context {W A R : Type}.
Variable quiet : Prop.
Variable next : iter W A.
Variable as_ref : A -> ST W (list N).
Hypothesis Hn : comes_back next.
Variable body_g : A -> ST (astring * W) (flow R).
(** What the loop may do on an item that does not fit behind [t]. *)
Variable last : A -> text -> W -> outcome (option R) -> astring -> W -> Prop.

Lemma g_for_hears :
  (forall x s t w1, shows c s t ->
     (exists s' w', body_g x (s, w1) = (Panic, (s', w')) /\ broke quiet (as_ref x) w1 w') \/
     (exists y s' w', body_g x (s, w1) = (Ret Continue, (s', w')) /\ answered quiet (as_ref x) w1 (enc y) w' /\
        shows c s' (t ++ y)) \/
     (exists f s' w', sbind (body_g x) (fun f => sret f) (s, w1) = (f, (s', w')) /\ f <> Ret Continue /\
        last x t w1 (match f with Ret Continue | Ret Break => Ret None | Ret (Return r) => Ret (Some r)
                     | Panic => Panic | UB => UB | Diverge => Diverge end) s' w')) ->
  forall fuel s t w o s' w', shows c s t -> g_for fuel next body_g (s, w) = (o, (s', w')) ->
  (exists l, o = Diverge /\ length l = fuel /\ hears quiet next as_ref w l w' /\ shows c s' (t ++ concat l)) \/
  (exists l, o = Panic /\ hears_panic quiet next as_ref w l w' /\ blen (t ++ concat l) <= cap c) \/
  (exists l, o = Ret None /\ hears_all quiet next as_ref w l w' /\ shows c s' (t ++ concat l)) \/
  (exists l x w1 w2, hears quiet next as_ref w l w1 /\ next w1 = (Ret (Some x), w2) /\ blen (t ++ concat l) <= cap c /\
     last x (t ++ concat l) w2 o s' w').
Proof.
  intros HB. induction fuel as [|fuel IH]; intros s t w o s' w' Hs E; cbn [g_for] in E.
  - injection E as <- <- <-. left. exists []. split; [reflexivity|]. split; [reflexivity|]. split; [constructor|].
    rewrite app_nil_r. exact Hs.
  - destruct (arg_cases next w Hn) as [(b & w1 & En)|(w1 & En)].
    2:{ rewrite (bind_panic _ _ _ _ (on_arg_eq next s w _ _ En)) in E. injection E as <- _ <-. right. left.
        exists []. split; [reflexivity|]. split; [|rewrite app_nil_r; exact (shows_cap c _ _ Hs)].
        exists w. split; [constructor|]. left. exact En. }
    rewrite (bind_eq _ _ _ _ _ (on_arg_eq next s w _ _ En)) in E. destruct b as [x|].
    2:{ injection E as <- <- <-. right. right. left. exists []. split; [reflexivity|].
        split; [exists w; split; [constructor|exact En]|]. rewrite app_nil_r. exact Hs. }
    destruct (HB x s t w1 Hs) as [(s1 & w2 & Eb & Pb)|[(y & s1 & w2 & Eb & Ay & S1)|(f & s1 & w2 & Eb & Nf & Lf)]].
    + rewrite (bind_panic _ _ _ _ Eb) in E. injection E as <- _ <-. right. left. exists []. split; [reflexivity|].
      split; [|rewrite app_nil_r; exact (shows_cap c _ _ Hs)].
      exists w. split; [constructor|]. right. exists x, w1. split; [exact En|exact Pb].
    + rewrite (bind_eq _ _ _ _ _ Eb) in E.
      destruct (IH s1 (t ++ y) w2 o s' w' S1 E) as [(l & Eo & Ll & H & Sl)|[(l & Eo & (w3 & H & P) & L)|[(l & Eo & (w3 & H & N0) & Sl)|(l & x' & w3 & w4 & H & N0 & L & X)]]].
      * left. exists (y :: l). split; [exact Eo|]. split; [cbn [length]; rewrite Ll; reflexivity|].
        split; [exact (hears_cons _ _ _ w x w1 y w2 l w' En Ay H)|]. cbn [concat]. rewrite app_assoc. exact Sl.
      * right. left. exists (y :: l). split; [exact Eo|]. cbn [concat]. rewrite app_assoc. split; [|exact L].
        exists w3. split; [exact (hears_cons _ _ _ w x w1 y w2 l w3 En Ay H)|exact P].
      * right. right. left. exists (y :: l). split; [exact Eo|]. cbn [concat]. rewrite app_assoc. split; [|exact Sl].
        exists w3. split; [exact (hears_cons _ _ _ w x w1 y w2 l w3 En Ay H)|exact N0].
      * right. right. right. exists (y :: l), x', w3, w4. cbn [concat]. rewrite app_assoc.
        split; [exact (hears_cons _ _ _ w x w1 y w2 l w3 En Ay H)|]. split; [exact N0|]. split; [exact L|exact X].
    + right. right. right. exists [], x, w, w1. cbn [concat]. rewrite app_nil_r.
      split; [constructor|]. split; [exact En|]. split; [exact (shows_cap c _ _ Hs)|].
      unfold sbind in Eb, E. destruct (body_g x (s, w1)) as [[f'| | |] [s2 w3]]; cbn [sret] in Eb; injection Eb as <- <- <-.
      * destruct f' as [| |r]; [congruence|injection E as <- <- <-; exact Lf..].
      * injection E as <- <- <-. exact Lf.
      * injection E as <- <- <-. exact Lf.
      * injection E as <- <- <-. exact Lf.
Qed.
End Loops.

Lemma g_for_honest {W R} (next : iter W text) (body_g : text -> ST (astring * W) (flow R))
    (body_p : as_ref_item -> ST astring (flow R)) :
  (forall x s w, body_g x (s, w) = on_self (body_p (item_of x)) (s, w)) ->
  forall fuel s w, g_for fuel next body_g (s, w) =
    let '(o, w', s') := for_loop fuel (as_items next) body_p w s in (o, (s', w')).
Proof.
  intros H. induction fuel as [|fuel IH]; intros s w; cbn [g_for for_loop]; [reflexivity|].
  unfold sbind at 1. unfold on_arg, as_items at 1. cbn [fst snd].
  destruct (next w) as [[[x|]| | |] w1]; cbn [option_map]; try reflexivity.
  unfold sbind. rewrite H. unfold on_self. cbn [fst snd].
  destruct (body_p (item_of x) s) as [[[| |r]| | |] s1]; cbn [fst snd]; try reflexivity. apply IH.
Qed.

(** [try_from_iterator] over items that answer differently each time: one answer per
    item counts, and the items are asked in order until one does not fit. [fuel] bounds
    the number of items looked at. *)
Lemma c57_hostile_items {W A} c tr db fuel (next : iter W A) (as_ref : A -> ST W (list N)) w :
  valid_cfg c -> comes_back next -> (forall x, str_arg (as_ref x)) ->
  let q := tr = false /\ db = false in
  exists o w', g_try_from_iterator c tr db fuel next as_ref w = (o, w') /\
  ((exists l s, o = Ret (Ok s) /\ hears_all q next as_ref w l w' /\ shows c s (concat l)) \/
   (exists l t, o = Ret (Err mkOutOfBounds) /\ hears q next as_ref w (l ++ [t]) w' /\
      blen (concat l) <= cap c < blen (concat l) + blen t) \/
   (exists l, o = Panic /\ hears_panic q next as_ref w l w' /\ blen (concat l) <= cap c) \/
   (exists l, o = Diverge /\ hears q next as_ref w l w' /\ length l = fuel /\ blen (concat l) <= cap c)).
Proof.
  intros Hc Hn Ha q. assert (S0 : shows c (new c) []) by (apply shows_rep, new_rep).
  unfold g_try_from_iterator, g_local.
  match goal with |- context [g_for fuel next ?B (new c, w)] => set (bg := B) end.
  destruct (g_for fuel next bg (new c, w)) as [o [s' w']] eqn:E. eexists _, w'. split; [reflexivity|].
  apply (g_for_hears c q next as_ref Hn bg (fun x t w1 o s' w' => o = Ret (Some mkOutOfBounds) /\
    exists y, answered q (as_ref x) w1 (enc y) w' /\ cap c < blen t + blen y)) with (t := []) in E; [|clear E o s' w'|exact S0].
  - cbn [app] in E. destruct E as [(l & -> & Ll & H & Sl)|[(l & -> & H & L)|[(l & -> & H & Sl)|(l & x & w1 & w2 & H & N0 & L & -> & y & Ay & G)]]].
    + right. right. right. exists l. split; [reflexivity|]. split; [exact H|]. split; [exact Ll|exact (shows_cap c _ _ Sl)].
    + right. right. left. exists l. split; [reflexivity|]. split; [exact H|exact L].
    + left. exists l, s'. split; [reflexivity|]. split; [exact H|exact Sl].
    + right. left. exists l, y. split; [reflexivity|]. split; [|split; [exact L|exact G]].
      clear - H N0 Ay. induction H as [w|w x' w1' t w2' l w3 En A1 H IH].
      * exact (hears_cons _ _ _ _ _ _ _ _ _ _ N0 Ay (hears_nil _ _ _ _)).
      * exact (hears_cons _ _ _ _ _ _ _ _ _ _ En A1 (IH N0)).
  - intros x s t w1 Hs. unfold bg.
    destruct (one_try_push (as_ref x) (proj1 (Ha x)) c tr db s w1) as (o & s1 & w2 & G & [(-> & _ & B)|(b & Ab & R1)]).
    + left. exists s1, w2. split; [exact (bind_panic _ _ _ _ G)|exact B].
    + right. destruct Ab as (u1 & u2 & C1 & E1 & C2 & Q). destruct (proj2 (Ha x) _ _ _ E1) as [y ->].
      assert (Ab : answered q (as_ref x) w1 (enc y) w2) by (exists u1, u2; auto).
      destruct (c05_try_push_str c s t y Hc Hs) as [P1 P2].
      destruct (N.le_gt_cases (blen t + blen y) (cap c)) as [L|L].
      * left. destruct (P1 L) as (s2 & E2 & S2). rewrite R1 in E2. injection E2 as -> ->.
        exists y, s2, w2. split; [rewrite (bind_eq _ _ _ _ _ G); reflexivity|]. split; [exact Ab|exact S2].
      * right. pose proof (P2 L) as E2. rewrite R1 in E2. injection E2 as -> ->.
        exists (Ret (Return mkOutOfBounds)), s, w2. split; [unfold sbind at 1; rewrite (bind_eq _ _ _ _ _ G); reflexivity|].
        split; [discriminate|]. split; [reflexivity|]. exists y. split; [exact Ab|exact L].
Qed.

(** [from_iterator_truncate]: every item is asked once; the one that does not fit is asked
    again, and as much of that answer as fits is appended. *)
Lemma c57_hostile_truncate {W A} c tr fuel (next : iter W A) (as_ref : A -> ST W (list N)) w :
  valid_cfg c -> comes_back next -> (forall x, str_arg (as_ref x)) ->
  exists o w', g_from_iterator_truncate c tr fuel next as_ref w = (o, w') /\
  ((exists l s, o = Ret s /\ hears_all True next as_ref w l w' /\ shows c s (concat l)) \/
   (exists l x t w1 w2 w3, hears True next as_ref w l w1 /\ next w1 = (Ret (Some x), w2) /\ as_ref x w2 = (Ret (enc t), w3) /\
      blen (concat l) <= cap c < blen (concat l) + blen t /\
      ((o = Panic /\ broke (tr = false) (as_ref x) w3 w') \/
       (exists u p s, answered (tr = false) (as_ref x) w3 (enc u) w' /\ longest_fit (cap c - blen (concat l)) u p /\
          o = Ret s /\ shows c s (concat l ++ p)))) \/
   (exists l, o = Panic /\ hears_panic True next as_ref w l w' /\ blen (concat l) <= cap c) \/
   (exists l, o = Diverge /\ hears True next as_ref w l w' /\ length l = fuel /\ blen (concat l) <= cap c)).
Proof.
  intros Hc Hn Ha. assert (S0 : shows c (new c) []) by (apply shows_rep, new_rep).
  unfold g_from_iterator_truncate, g_local.
  match goal with |- context [g_for fuel next ?B (new c, w)] => set (bg := B) end.
  destruct (g_for fuel next bg (new c, w)) as [o [s' w']] eqn:E. eexists _, w'. split; [reflexivity|].
  apply (g_for_hears c True next as_ref Hn bg (fun x t w2 o s' w' =>
    exists y w3, as_ref x w2 = (Ret (enc y), w3) /\ cap c < blen t + blen y /\
      ((o = Panic /\ broke (tr = false) (as_ref x) w3 w') \/
       (exists u p, answered (tr = false) (as_ref x) w3 (enc u) w' /\ longest_fit (cap c - blen t) u p /\
          o = Ret None /\ shows c s' (t ++ p))))) with (t := []) in E; [|clear E o s' w'|exact S0].
  - cbn [app] in E. destruct E as [(l & -> & Ll & H & Sl)|[(l & -> & H & L)|[(l & -> & H & Sl)|(l & x & w1 & w2 & H & N0 & L & y & w3 & Ey & G & K)]]].
    + right. right. right. exists l. split; [reflexivity|]. split; [exact H|]. split; [exact Ll|exact (shows_cap c _ _ Sl)].
    + right. right. left. exists l. split; [reflexivity|]. split; [exact H|exact L].
    + left. exists l, s'. split; [reflexivity|]. split; [exact H|exact Sl].
    + right. left. exists l, x, y, w1, w2, w3. split; [exact H|]. split; [exact N0|]. split; [exact Ey|].
      split; [split; [exact L|exact G]|].
      destruct K as [[-> B]|(u & p & Au & Lp & -> & Sp)]; [left; split; [reflexivity|exact B]|].
      right. exists u, p, s'. split; [exact Au|]. split; [exact Lp|]. split; [reflexivity|exact Sp].
  - intros x s t w1 Hs. unfold bg. destruct (Ha x) as [Hx Hy].
    destruct (arg_cases (as_ref x) w1 Hx) as [(b & w2 & Eb)|(w2 & Eb)].
    2:{ left. exists s, w2. split; [exact (bind_panic _ _ _ _ (on_arg_eq _ s w1 _ _ Eb))|apply broke_once; exact Eb]. }
    destruct (Hy _ _ _ Eb) as [y ->]. right. destruct (c05_try_push_str c s t y Hc Hs) as [P1 P2].
    destruct (N.le_gt_cases (blen t + blen y) (cap c)) as [L|L].
    + left. destruct (P1 L) as (s2 & E2 & S2). exists y, s2, w2.
      rewrite (bind_eq _ _ _ _ _ (on_arg_eq _ s w1 _ _ Eb)), (bind_eq _ _ _ _ _ (on_self_eq _ s w2 _ _ E2)).
      split; [reflexivity|]. split; [apply answered_once; exact Eb|exact S2].
    + right. pose proof (P2 L) as E2.
      destruct (one_push_truncate (as_ref x) Hx c tr s w2) as (o & s3 & w3 & G & [(-> & _ & B)|(b & Ab & R1)]).
      * exists Panic, s3, w3. split; [|split; [discriminate|]].
        -- apply bind_panic. rewrite (bind_eq _ _ _ _ _ (on_arg_eq _ s w1 _ _ Eb)), (bind_eq _ _ _ _ _ (on_self_eq _ s w2 _ _ E2)).
           exact (bind_panic _ _ _ _ G).
        -- exists y, w2. split; [exact Eb|]. split; [exact L|]. left. split; [reflexivity|exact B].
      * destruct Ab as (u1 & u2 & C1 & E1 & C2 & Q). destruct (Hy _ _ _ E1) as [u ->].
        assert (Au : answered (tr = false) (as_ref x) w2 (enc u) w3) by (exists u1, u2; auto).
        destruct (c06_push_str_truncate c s t u Hc Hs) as (p & Lp & s4 & E4 & S4).
        rewrite R1 in E4. injection E4 as -> ->.
        exists (Ret Break), s4, w3. split; [|split; [discriminate|]].
        -- refine (bind_eq _ (fun f => sret f) _ Break (s4, w3) _).
           rewrite (bind_eq _ _ _ _ _ (on_arg_eq _ s w1 _ _ Eb)), (bind_eq _ _ _ _ _ (on_self_eq _ s w2 _ _ E2)).
           rewrite (bind_eq _ _ _ _ _ G). reflexivity.
        -- exists y, w2. split; [exact Eb|]. split; [exact L|]. right. exists u, p. split; [exact Au|].
           split; [exact Lp|]. split; [reflexivity|exact S4].
Qed.

(** Honest items: exactly the plain constructors, for every iterator. *)
Lemma c57_honest_items {W} c tr db fuel (next : iter W text) w :
  g_try_from_iterator c tr db fuel next (fun x => sret (enc x)) w = try_from_iterator c fuel (as_items next) w /\
  g_from_iterator_truncate c tr fuel next (fun x => sret (enc x)) w = from_iterator_truncate c fuel (as_items next) w.
Proof.
  split.
  - unfold g_try_from_iterator, g_local, try_from_iterator.
    rewrite (g_for_honest next _ (fun x => push_or_return (fun e => e) (try_push_str c (ref1 x)))).
    + destruct (for_loop _ _ _ w (new c)) as [[[[r|]| | |] w1] s1]; reflexivity.
    + intros x s w0. unfold push_or_return, g_try_push_str, g_replace_range, on_self, on_arg, sbind, sret, logged.
      destruct tr, db; cbn [fst snd]; unfold try_push_str, sbind, sread, sret; cbn [fst snd item_of ref1];
        destruct (replace_range c (Included (len s)) (Excluded (len s)) (enc x) s) as [[[]| | |] s1]; reflexivity.
  - unfold g_from_iterator_truncate, g_local, from_iterator_truncate.
    rewrite (g_for_honest next _ (fun x => r <~ try_push_str c (ref1 x) ;;
                match r with
                | Ok _ => sret Continue
                | Err _ => _ <~ push_str_truncate c (ref2 x) ;; sret Break
                end)).
    + destruct (for_loop _ _ _ w (new c)) as [[[[[]|]| | |] w1] s1]; reflexivity.
    + intros x s w0. unfold g_push_str_truncate, logged, on_self, on_arg, sbind, sret. cbn [fst snd item_of ref1 ref2].
      destruct (try_push_str c (enc x) s) as [[[]| | |] s1]; cbn [fst snd]; try reflexivity.
      destruct tr; cbn [fst snd]; destruct (push_str_truncate c (enc x) s1) as [[[]| | |] s2]; reflexivity.
Qed.
