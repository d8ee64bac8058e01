(** C79: programs beside two loggers that answer alike. *)
From Coq Require Import ZArith ZifyBool ZifyN ZifyNat Arith.
From Verif Require Import Base Char Spec RustStd RustFmt ModelError Model ModelImpl ModelDrain TextOps SpecOps ModelOps
  Obs ObsLogs ObsLogLines ObsLogText ObsLogProg LogText ClaimsLogText ModelLogsProg.

Section Twin.
Variable c : cfg.
Variables tr db : bool.
Context {W W' : Type}.
Variable log : event -> ST W unit.
Variable log' : event -> ST W' unit.
Variable I : W -> W' -> Prop.
Notation any := (fun _ => True).
Hypothesis Hlog : forall e, level_on tr db e = true -> alike I any (log e) (log' e).

Let H0 (s : astring) : forall e, level_on tr db e = true -> about s e -> alike I any (log e) (log' e) := fun e L _ => Hlog e L.
Let s0 := mkastring [] 0.

Lemma var_str_alike y : alike I is_text (l_var_str c tr log y) (l_var_str c tr log' y).
Proof. destruct y; exact (alike_as_str _ _ _ _ _ _ s0 (H0 s0) _). Qed.

Lemma run_with_twin n a b s : is_text b -> twin I (fun x => x = s) any (l_run_with c tr db log n a b) (l_run_with c tr db log' n a b).
Proof.
  intros T. pose proof (alike_text I b T) as A. pose proof (H0 s) as K. destruct a; cbn [l_run_with].
  1, 2, 3, 4, 5: apply out_twin.
  - apply (twin_weaken I any _ any any); auto. exact (push_str_twin _ _ _ _ _ _ s K _ _ A).
  - apply (twin_weaken I any _ any any); auto. exact (push_str_truncate_twin _ _ _ _ _ _ s K _ _ A).
  - exact (insert_str_twin _ _ _ _ _ _ s K i _ _ A).
  - exact (insert_str_truncate_twin _ _ _ _ _ _ s K i _ _ A).
  - apply (twin_weaken I any _ any any); auto. exact (replace_twin _ _ _ _ _ _ s K lo hi _ _ A).
  - intros x w w' _ i. unfold l_add. cbn [fst snd].
    destruct (push_str_truncate_twin (for_cap c n) _ _ _ _ _ s K _ _ A x w w' Logic.I i) as (o & s1 & v & v' & E & E' & J & _). rewrite E, E'.
    destruct o as [u| | |]; eexists _, _, _, _; repeat split; exact J.
Qed.

Lemma next_twin m front d w w' : I w w' ->
  exists o d1 v v', (if front : bool then l_next c tr db log m else l_next_back c tr db log m) (d, w) = (o, (d1, v)) /\
    (if front then l_next c tr db log' m else l_next_back c tr db log' m) (d, w') = (o, (d1, v')) /\ I v v'.
Proof.
  intros i. destruct front.
  - unfold l_next, l_drain_next. cbn [fst snd].
    assert (T : twin I any any (r <~ l_remove (for_cap c m) tr db log 0 ;; sret (ok r)) (r <~ l_remove (for_cap c m) tr db log' 0 ;; sret (ok r))).
    { apply (twin_bind I any any); [exact (remove_twin _ _ _ _ _ _ s0 (H0 s0) 0)|]. intros. apply twin_sret. exact Logic.I. }
    destruct (T (drained d) w w' Logic.I i) as (o & s1 & v & v' & E & E' & J & _). rewrite E, E'. eexists _, _, _, _; eauto.
  - unfold l_next_back, l_drain_next_back. cbn [fst snd].
    destruct (pop_twin (for_cap c m) _ _ _ _ _ s0 (H0 s0) (drained d) w w' Logic.I i) as (o & s1 & v & v' & E & E' & J & _).
    rewrite E, E'. eexists _, _, _, _; eauto.
Qed.

Lemma drain_loop_twin n m fuel d s w w' : I w w' ->
  exists o d1 s1 v v',
    l_for_loop (R := Empty_set) fuel (l_next c tr db log m) (fun ch => l_or_break (l_try_push (for_cap c n) tr db log ch)) d (s, w) = (o, d1, (s1, v)) /\
    l_for_loop (R := Empty_set) fuel (l_next c tr db log' m) (fun ch => l_or_break (l_try_push (for_cap c n) tr db log' ch)) d (s, w') = (o, d1, (s1, v')) /\
    I v v'.
Proof.
  revert d s w w'; induction fuel as [|fuel IH]; intros d s w w' i; cbn [l_for_loop fst snd]; [eexists _, _, _, _, _; eauto|].
  destruct (next_twin m true d w w' i) as (o & d1 & v & v' & E & E' & J). rewrite E, E'.
  destruct o as [[x|]| | |]; try (eexists _, _, _, _, _; eauto; fail).
  destruct (or_break_twin I (R := Empty_set) _ _ (push_twin (for_cap c n) _ _ _ _ _ s0 (H0 s0) x) s v v' Logic.I J)
    as (o & s1 & y & y' & F & F' & K & _). rewrite F, F'.
  destruct o as [[| |r]| | |]; try (eexists _, _, _, _, _; eauto; fail). exact (IH d1 s1 y y' K).
Qed.

Lemma from_drain_alike n m d : alike_it I (l_from_drain c tr db log n m d) (l_from_drain c tr db log' n m d).
Proof.
  intros w w' i. unfold l_from_drain, l_from_loop.
  destruct (alike_trace tr db log log' I s0 (H0 s0) EvFromCharsTruncate eq_refl Logic.I w w' i) as (o & v & v' & E & E' & J & _). rewrite E, E'.
  destruct o as [u| | |]; try (eexists _, _, _; eauto; fail).
  destruct (drain_loop_twin n m (char_fuel (for_cap c n)) d (new (for_cap c n)) v v' J) as (o & d1 & s1 & x & x' & F & F' & K). rewrite F, F'.
  destruct o as [[[]|]| | |]; eexists _, _, _; eauto.
Qed.

Definition together (o : option (outcome pout) * list var * W) (o' : option (outcome pout) * list var * W') : Prop :=
  exists r v x x', o = (r, v, x) /\ o' = (r, v, x') /\ I x x'.

Lemma together_same r v w w' : I w w' -> together (r, v, w) (r, v, w').
Proof. intros i. exists r, v, w, w'. auto. Qed.

Lemma cmd_twin p v w w' : typed_cmd p -> I w w' -> together (l_run_cmd c tr db log p v w) (l_run_cmd c tr db log' p v w').
Proof.
  intros T i. destruct p; cbn [l_run_cmd typed_cmd] in *.
  - destruct (build_alike (for_cap c n) tr db log log' I s0 (H0 s0) k (proj2 T) w w' i) as (o & x & x' & E & E' & J & _). rewrite E, E'.
    apply together_same, J.
  - destruct (nth_error v j) as [y|]; [|apply together_same, i].
    assert (A : alike I any (b <~ l_var_str c tr log y ;; r <~ l_try_from_str (for_cap c n) tr db log (sret b) ;; sret (map_ok (VStr n) (map_err from_oob r)))
      (b <~ l_var_str c tr log' y ;; r <~ l_try_from_str (for_cap c n) tr db log' (sret b) ;; sret (map_ok (VStr n) (map_err from_oob r)))).
    { apply (alike_bind I is_text); [apply var_str_alike|]. intros b Tb.
      apply (alike_bind I any); [exact (try_from_str_alike _ _ _ _ _ _ s0 (H0 s0) _ _ (alike_text I b Tb))|]. intros. apply alike_sret. exact Logic.I. }
    destruct (A w w' i) as (o & x & x' & E & E' & J & _). rewrite E, E'. apply together_same, J.
  - destruct (nth_error v j) as [[n s|n d]|]; apply together_same, i.
  - destruct (nth_error v i0) as [[n s|n d]|]; try (apply together_same, i).
    destruct (op_twin (for_cap c n) tr db log log' I s (H0 s) o s w w' eq_refl i) as (r & s1 & x & x' & E & E' & J & _). rewrite E, E'.
    apply together_same, J.
  - destruct (nth_error v i0) as [[n s|n d]|], (nth_error v j) as [y|]; try (apply together_same, i).
    destruct (Nat.eqb i0 j); [apply together_same, i|].
    assert (A : twin I (fun x => x = s) any (b <~ on_arg (l_var_str c tr log y) ;; l_run_with c tr db log n a b)
      (b <~ on_arg (l_var_str c tr log' y) ;; l_run_with c tr db log' n a b)).
    { apply (twin_arg I (fun x => x = s) is_text); [apply var_str_alike|]. intros b Tb. apply run_with_twin, Tb. }
    destruct (A s w w' eq_refl i) as (r & s1 & x & x' & E & E' & J & _). rewrite E, E'. apply together_same, J.
  - destruct (nth_error v i0) as [[n s|n d]|], (nth_error v j) as [[m s'|m d']|]; try (apply together_same, i).
    destruct (Nat.eqb i0 j); [apply together_same, i|].
    match goal with |- together (_, _, snd (snd (?g (s, w)))) (_, _, snd (snd (?g' (s, w')))) => assert (A : twin I any any g g') end.
    { apply out_twin. apply (twin_arg I any is_text); [exact (alike_as_str _ _ _ _ _ _ s0 (H0 s0) s')|]. intros b Tb.
      exact (write_str_twin (for_cap c n) _ _ _ _ _ s0 (H0 s0) b Tb). }
    destruct (A s w w' Logic.I i) as (r & s1 & x & x' & E & E' & J & _). rewrite E, E'. apply together_same, J.
  - destruct (nth_error v i0) as [[k s|k d]|]; try (apply together_same, i).
    assert (A : twin I any any (l_split_off (for_cap c k) tr db log n) (l_split_off (for_cap c k) tr db log' n)).
    { apply (twin_arg I any any); [apply (alike_dbg tr db log log' I s0 (H0 s0)); [reflexivity|exact Logic.I]|]. intros _ _.
      apply twin_stry; [exact (drain_twin _ _ _ _ _ _ s0 (H0 s0) _ _)|]. intros. apply twin_sret. exact Logic.I. }
    destruct (A s w w' Logic.I i) as (r & s1 & x & x' & E & E' & J & _). rewrite E, E'. apply together_same, J.
  - destruct (nth_error v i0) as [[n s|n d]|]; try (apply together_same, i).
    destruct (drain_twin (for_cap c n) tr db log log' I s0 (H0 s0) lo hi s w w' Logic.I i) as (r & s1 & x & x' & E & E' & J & _).
    rewrite E, E'. apply together_same, J.
  - destruct (nth_error v j) as [[n s|n d]|]; try (apply together_same, i).
    destruct (next_twin n front d w w' i) as (r & s1 & x & x' & E & E' & J). rewrite E, E'. apply together_same, J.
  - destruct (nth_error v i0) as [[n s|n d]|], (nth_error v j) as [[m s'|m d']|]; try (apply together_same, i).
    unfold l_extend_with. destruct (from_drain_alike n m d' w w' i) as ([o it] & x & x' & E & E' & J). rewrite E, E'.
    destruct o as [a| | |]; try (apply together_same, J).
    destruct (push_str_truncate_twin (for_cap c n) tr db log log' I s0 (H0 s0) _ _ (alike_as_ref_str (for_cap c n) tr db log log' I s0 (H0 s0) a) s x x' Logic.I J)
      as (o & s2 & y & y' & F & F' & K & _). rewrite F, F'. apply together_same, K.
  - destruct (nth_error v j) as [[m s'|m d']|]; try (apply together_same, i).
    destruct (from_drain_alike n m d' w w' i) as ([o it] & x & x' & E & E' & J). rewrite E, E'. apply together_same, J.
  - destruct (nth_error v i0) as [[n s|n d]|], (nth_error v j) as [y|]; try (apply together_same, i).
    assert (A : alike I any (b <~ l_var_str c tr log y ;; a <~ l_as_str (for_cap c n) tr log s ;; sret (str_eq a b))
      (b <~ l_var_str c tr log' y ;; a <~ l_as_str (for_cap c n) tr log' s ;; sret (str_eq a b))).
    { apply (alike_bind I is_text); [apply var_str_alike|]. intros b _.
      apply (alike_bind I is_text); [exact (alike_as_str _ _ _ _ _ _ s0 (H0 s0) s)|]. intros. apply alike_sret. exact Logic.I. }
    destruct (A w w' i) as (o & x & x' & E & E' & J & _). rewrite E, E'. apply together_same, J.
  - assert (A : forall n s s', alike I any (l_ord_cmp (for_cap c n) tr log s s') (l_ord_cmp (for_cap c n) tr log' s s')).
    { intros n s s'. apply (alike_bind I is_text); [exact (alike_as_str _ _ _ _ _ _ s0 (H0 s0) s)|]. intros b _.
      apply (alike_bind I is_text); [exact (alike_as_str _ _ _ _ _ _ s0 (H0 s0) s')|]. intros. apply alike_sret. exact Logic.I. }
    destruct (nth_error v i0) as [[n s|n d]|], (nth_error v j) as [[m s'|m d']|]; try (apply together_same, i);
      (destruct (n =? m); [|apply together_same, i]).
    + destruct (A n s s' w w' i) as (o & x & x' & E & E' & J & _). rewrite E, E'. apply together_same, J.
    + destruct (A n (drained d) (drained d') w w' i) as (o & x & x' & E & E' & J & _). rewrite E, E'. apply together_same, J.
  - destruct (run_cmd c (PSwap i0 j) v) as [r v']. apply together_same, i.
Qed.

Lemma cmds_twin l v w w' : Forall typed_cmd l -> I w w' ->
  exists rs v1 x x', l_run_cmds c tr db log l v w = (rs, v1, x) /\ l_run_cmds c tr db log' l v w' = (rs, v1, x') /\ I x x'.
Proof.
  intros T. revert v w w'. induction T as [|p l Tp T IH]; intros v w w' i; cbn [l_run_cmds]; [eexists _, _, _, _; eauto|].
  destruct (cmd_twin p v w w' Tp i) as (r & v1 & x & x' & E & E' & J). rewrite E, E'.
  destruct (IH v1 x x' J) as (rs & v2 & y & y' & F & F' & K). rewrite F, F'. eexists _, _, _, _; eauto.
Qed.
End Twin.

Lemma c79_state c tr db {W} (log : event -> ST W unit) f p v l w : Forall typed_cmd p ->
  (forall e w, level_on tr db e = true -> log e w = (Ret tt, f e w)) ->
  exists rs v' m, l_run_cmds c tr db record p v l = (rs, v', l ++ m) /\
    l_run_cmds c tr db log p v w = (rs, v', fold_left (fun w e => f e w) m w) /\
    Forall (fun e => level_on tr db e = true) m.
Proof.
  intros T H. destruct (cmds_twin c tr db record log (follows f (fun e => level_on tr db e = true) l w)) with (l := p) (v := v) (w := l) (w' := w)
    as (rs & v' & x & x' & E & E' & (m & -> & -> & F)).
  - intros e L x x' (m & -> & -> & F). exists (Ret tt), ((l ++ m) ++ [e]), (f e (fold_left (fun w e => f e w) m w)).
    split; [reflexivity|]. split; [exact (H e _ L)|]. split; [|auto].
    exists (m ++ [e]). rewrite app_assoc, fold_left_app. repeat split. apply Forall_app. split; [exact F|]. constructor; [exact L|constructor].
  - exact T.
  - apply follows_start.
  - exists rs, v', m. auto.
Qed.

Lemma c79_agree c tr db {W} (log log' : event -> ST W unit) p v w : Forall typed_cmd p ->
  (forall e w, level_on tr db e = true -> log e w = log' e w) ->
  l_run_cmds c tr db log p v w = l_run_cmds c tr db log' p v w.
Proof.
  intros T H. destruct (cmds_twin c tr db log log' eq) with (l := p) (v := v) (w := w) (w' := w)
    as (rs & v' & x & x' & -> & -> & <-); [|exact T|reflexivity|reflexivity].
  intros e L x x' <-. rewrite (H e x L). destruct (log' e x) as [o y]. exists o, y, y. auto.
Qed.
