(** C78: programs with several strings and the feature [logs]. *)
From Coq Require Import ZArith ZifyBool ZifyN ZifyNat Arith.
From Verif Require Import Base Char Spec RustStd RustFmt ModelError Model ModelImpl ModelDrain TextOps SpecOps ModelOps
  ListFacts CoreFacts DrainFacts OpsFacts Obs ObsLogs ObsLogProg ClaimsOps ClaimsLogs ClaimsProg.

Section Any.
Variable c : cfg.
Variables tr db : bool.
Context {W : Type}.
Variable log : event -> ST W unit.
Hypothesis L : a_logger tr db log.
Hypothesis NB : ~ panics_on tr db log EvLen.

Let bad := can_panic tr db log.

(** [x] is [f w'] for some state of the logger, or the logger panicked and it is [g w']. *)
Definition either {R} (x : R) (f g : W -> R) : Prop := (exists w', x = f w') \/ (bad /\ exists w', x = g w').

Lemma either_reads {A} (g : ST W A) o w : reads_if bad g o -> either (g w) (fun w' => (o, w')) (fun w' => (Panic, w')).
Proof. intros H. destruct (H w) as (w' & [E|[b E]]); [left|right; split; [exact b|]]; exists w'; exact E. Qed.

Lemma either_obs {A} (g : ST (astring * W) A) p s w : obs tr db log False (fun x => x = s) g p s ->
  either (g (s, w)) (fun w' => (fst (p s), (snd (p s), w'))) (fun w' => (Panic, (s, w'))).
Proof.
  intros H. destruct (H eq_refl (fun B => match B with end) w) as [E|(b & s' & w' & E & ->)]; [left; exact E|].
  right. split; [exact b|]. exists w'. exact E.
Qed.

Lemma nb : panics_on tr db log EvLen -> False.
Proof. exact NB. Qed.

Lemma var_str_reads v : reads_if bad (l_var_str c tr log v) (var_str c v).
Proof. destruct v as [n s|n d]; apply (as_str_reads _ tr db log L). Qed.

Lemma run_with_either n a b s w :
  either (l_run_with c tr db log n a b (s, w))
    (fun w' => (fst (run_with c n a b s), (snd (run_with c n a b s), w'))) (fun w' => (Panic, (s, w'))).
Proof.
  destruct a; unfold l_run_with, run_with.
  - apply either_obs, obs_out, push_str_obs; [exact L|exact nb|apply reads_sret].
  - apply either_obs, obs_out, push_str_truncate_obs; [exact L|exact nb|apply reads_sret].
  - apply either_obs, obs_out, insert_str_obs; [exact L|exact nb|apply reads_sret].
  - apply either_obs, obs_out, insert_str_truncate_obs; [exact L|exact nb|apply reads_sret].
  - apply either_obs, obs_out, replace_obs; [exact L|exact nb|apply reads_sret].
  - cbn [fst snd]. unfold l_add, add, run_local.
    destruct (either_obs _ (push_str_truncate (for_cap c n) b) s w
      (push_str_truncate_obs (for_cap c n) tr db log L False nb _ (sret b) b s (reads_sret _ b))) as [(w' & E)|(bb & w' & E)];
      rewrite E; [left|right; split; [exact bb|]]; exists w'; [|reflexivity].
    destruct (push_str_truncate (for_cap c n) b s) as [[[]| | |] s']; reflexivity.
Qed.

Lemma with_either n a y s w :
  let r := (b <~ slift (var_str c y) ;; run_with c n a b) s in
  either ((b <~ on_arg (l_var_str c tr log y) ;; l_run_with c tr db log n a b) (s, w))
    (fun w' => (fst r, (snd r, w'))) (fun w' => (Panic, (s, w'))).
Proof.
  cbv zeta. destruct (either_reads _ _ w (var_str_reads y)) as [(w1 & E)|(b & w1 & E)];
    unfold sbind, slift, on_arg; cbn [fst snd]; rewrite E.
  - destruct (var_str c y) as [b| | |]; [apply run_with_either|left; exists w1; reflexivity..].
  - right. split; [exact b|]. exists w1. reflexivity.
Qed.

Lemma next_either m d w :
  either (l_next c tr db log m (d, w))
    (fun w' => (fst (drain_next (for_cap c m) d), (snd (drain_next (for_cap c m) d), w'))) (fun w' => (Panic, (d, w'))).
Proof.
  unfold l_next. cbn [fst snd].
  destruct (log_drain (for_cap c m) tr db log L true d w) as [(w' & E)|[(b & w' & E)|(_ & b & _)]].
  - rewrite E. left. exists w'. destruct (drain_next (for_cap c m) d) as [r [s]]. reflexivity.
  - rewrite E. right. split; [exact b|]. exists w'. destruct d. reflexivity.
  - destruct (NB b).
Qed.

Lemma next_back_either m d w :
  either (l_next_back c tr db log m (d, w))
    (fun w' => (fst (drain_next_back (for_cap c m) d), (snd (drain_next_back (for_cap c m) d), w')))
    (fun w' => (Panic, (d, w'))).
Proof.
  unfold l_next_back. cbn [fst snd].
  destruct (log_drain (for_cap c m) tr db log L false d w) as [(w' & E)|[(b & w' & E)|(b & _)]].
  - rewrite E. left. exists w'. destruct (drain_next_back (for_cap c m) d) as [r [s]]. reflexivity.
  - rewrite E. right. split; [exact b|]. exists w'. destruct d. reflexivity.
  - discriminate b.
Qed.

Lemma loop_either n m fuel d s w :
  let g := l_for_loop (R := Empty_set) fuel (l_next c tr db log m)
      (fun ch => l_or_break (l_try_push (for_cap c n) tr db log ch)) d (s, w) in
  (exists w', g = let '(o, d', s') := for_loop (R := Empty_set) fuel (drain_iterator (for_cap c m))
      (fun ch => push_or_break (try_push (for_cap c n) ch)) d s in (o, d', (s', w'))) \/
  (bad /\ exists d' x, g = (Panic, d', x)).
Proof.
  cbv zeta. revert d s w; induction fuel as [|fuel IH]; intros d s w; cbn [l_for_loop for_loop]; [left; exists w; reflexivity|].
  cbn [fst snd]. destruct (next_either m d w) as [(w1 & E)|(b & w1 & E)]; rewrite E.
  2:{ right. split; [exact b|]. exists d, (s, w1). reflexivity. }
  unfold drain_iterator.
  destruct (drain_next (for_cap c m) d) as [[[ch|]| | |] d1]; cbn [fst snd]; try (left; exists w1; reflexivity).
  destruct (or_break_sim tr db log (R := Empty_set) (l_try_push (for_cap c n) tr db log ch) (try_push (for_cap c n) ch) s
    (push_sim (for_cap c n) tr db log L ch s) w1) as [(w2 & F)|(b & s1 & w2 & F & _)]; rewrite F.
  2:{ right. split; [exact b|]. exists d1, (s1, w2). reflexivity. }
  destruct (push_or_break (try_push (for_cap c n) ch) s) as [[[| |[]]| | |] s1]; cbn [fst snd];
    try (left; exists w2; reflexivity). apply IH.
Qed.

Lemma from_drain_it n m d :
  reads_it tr db log (l_from_drain c tr db log n m d)
    (from_chars_truncate (for_cap c n) (char_fuel (for_cap c n)) (drain_iterator (for_cap c m)) d).
Proof.
  intros w. unfold l_from_drain, l_from_loop, from_chars_truncate.
  destruct (either_reads (trace tr log EvFromCharsTruncate) (Ret tt) w (trace_reads tr db log L EvFromCharsTruncate eq_refl))
    as [(w1 & E)|(b & w1 & E)]; rewrite E.
  2:{ right. split; [exact b|]. exists d, w1. reflexivity. }
  destruct (loop_either n m (char_fuel (for_cap c n)) d (new (for_cap c n)) w1) as [(w2 & F)|(b & d' & [s' w2] & F)]; rewrite F.
  - left. exists w2. unfold from_loop. destruct (for_loop _ _ _ _ _) as [[[[[]|]| | |] d'] s']; reflexivity.
  - right. split; [exact b|]. exists d', w2. reflexivity.
Qed.

(** However the loop ends, the iterator shows what is left of its text. *)
Lemma loop_left {R} m fuel (body : char -> ST (astring * W) (flow R)) d x u : valid_cfg (for_cap c m) ->
  rep (for_cap c m) (drained d) u ->
  exists k, rep (for_cap c m) (drained (snd (fst (l_for_loop fuel (l_next c tr db log m) body d x)))) (skipn k u).
Proof.
  intros V. revert d x u; induction fuel as [|fuel IH]; intros d x u R0; cbn [l_for_loop]; [exists 0%nat; exact R0|].
  destruct (next_either m d (snd x)) as [(w1 & E)|(b & w1 & E)]; rewrite E; [|exists 0%nat; exact R0].
  destruct (drain_next_rep (for_cap c m) V d u R0) as (d1 & E1 & R1). rewrite E1. cbn [fst snd].
  destruct u as [|ch u]; cbn in R1 |- *; [exists 0%nat; exact R1|].
  destruct (body ch (fst x, w1)) as [[[| |r]| | |] x1]; try (exists 1%nat; exact R1).
  destruct (IH d1 x1 u R1) as (k & Rk). exists (S k). exact Rk.
Qed.

Lemma from_drain_left n m d w u : valid_cfg (for_cap c m) -> rep (for_cap c m) (drained d) u ->
  exists k, rep (for_cap c m) (drained (snd (fst (l_from_drain c tr db log n m d w)))) (skipn k u).
Proof.
  intros V R. unfold l_from_drain, l_from_loop.
  destruct (trace tr log EvFromCharsTruncate w) as [[[]| | |] w1]; try (exists 0%nat; exact R).
  pose proof (loop_left (R := Empty_set) m (char_fuel (for_cap c n))
    (fun ch => l_or_break (l_try_push (for_cap c n) tr db log ch)) d (new (for_cap c n), w1) u V R) as H.
  destruct (l_for_loop _ _ _ _ _) as [[[[[]|]| | |] d'] [s' w2]]; exact H.
Qed.

Lemma extend_either n {IT} (g : W -> outcome astring * IT * W) built s w : reads_it tr db log g built ->
  either (l_extend_with (for_cap c n) tr db log g s w)
    (fun w' => let '(r, it, s') := extend_with (for_cap c n) built s in (r, it, s', w'))
    (fun w' => (Panic, snd (fst (g w)), s, w')).
Proof.
  intros H.
  assert (I1 : snd (fst (fst (l_extend_with (for_cap c n) tr db log g s w))) = snd (fst (g w))).
  { unfold l_extend_with. destruct (g w) as [[[a| | |] it] w1]; cbn [fst snd]; try reflexivity.
    destruct (l_push_str_truncate (for_cap c n) tr db log _ _) as [? [? ?]]. reflexivity. }
  assert (I2 : snd (fst (extend_with (for_cap c n) built s)) = snd built).
  { unfold extend_with. destruct built as [[a| | |] it]; cbn [fst snd]; try reflexivity.
    destruct (sbind _ _ s) as [? ?]. reflexivity. }
  destruct (H w) as [(w1 & F)|(b & it & w1 & F)].
  2:{ right. split; [exact b|]. exists w1. unfold l_extend_with. rewrite F. reflexivity. }
  destruct (either_obs
    (fun p => let '(r, _, s', w') := l_extend_with (for_cap c n) tr db log g (fst p) (snd p) in (omap (fun _ => RUnit) r, (s', w')))
    (fun s => let '(r, _, s') := extend_with (for_cap c n) built s in (omap (fun _ => RUnit) r, s')) s w) as [(w' & E)|(b & w' & E)].
  { apply (extend_obs (for_cap c n) tr db log L False nb (fun x => x = s) g built s _ _ H);
      [intros w'; reflexivity|reflexivity]. }
  - left. exists w'. cbn [fst snd] in E. rewrite F in I1. cbn [fst snd] in I1.
    destruct (l_extend_with (for_cap c n) tr db log g s w) as [[[r it] s1] w2].
    destruct (extend_with (for_cap c n) built s) as [[r' it'] s1'].
    cbn [fst snd] in E, I1, I2. injection E as Er -> ->. subst it it'.
    destruct r as [[]| | |], r' as [[]| | |]; try discriminate Er; reflexivity.
  - right. split; [exact b|]. exists w'. cbn [fst snd] in E.
    destruct (l_extend_with (for_cap c n) tr db log g s w) as [[[r it] s1] w2].
    cbn [fst snd] in E, I1. injection E as Er -> ->. subst it.
    destruct r as [[]| | |]; try discriminate Er; reflexivity.
Qed.

Lemma write_to_either n m sp s s' w :
  let r := to_out (fun r => RFmt (is_ok r))
      (display (for_cap c m) (mksink (write_str (for_cap c n)) (write_char (for_cap c n))) sp s') s in
  either (l_out (fun r => RFmt (is_ok r))
      (b <~ on_arg (l_as_str (for_cap c m) tr log s') ;;
       write_one_str (mksink (l_write_str (for_cap c n) tr db log)
         (fun ch => b <~ slift (encode_utf8 ch 4) ;; l_write_str (for_cap c n) tr db log b)) b) (s, w))
    (fun w' => (fst r, (snd r, w'))) (fun w' => (Panic, (s, w'))).
Proof.
  intros r.
  destruct (either_reads (l_as_str (for_cap c m) tr log s') (as_str (for_cap c m) s') w
    (as_str_reads (for_cap c m) tr db log L s')) as [(w1 & E)|(b & w1 & E)].
  2:{ right. split; [exact b|]. exists w1. unfold l_out, sbind, on_arg. cbn [fst snd]. rewrite E. reflexivity. }
  assert (Er : r = match as_str (for_cap c m) s' with
                   | Ret b => to_out (fun r => RFmt (is_ok r)) (write_str (for_cap c n) b) s
                   | Panic => (Panic, s) | UB => (UB, s) | Diverge => (Diverge, s)
                   end).
  { unfold r, to_out, display, sbind, slift. destruct (as_str (for_cap c m) s'); reflexivity. }
  rewrite Er. clear r Er. unfold l_out. unfold sbind at 1 2. unfold on_arg. cbn [fst snd]. rewrite E.
  destruct (as_str (for_cap c m) s') as [b| | |]; try (left; exists w1; reflexivity).
  change (write_one_str _ b (s, w1)) with (l_write_str (for_cap c n) tr db log b (s, w1)).
  destruct (either_obs _ _ s w1 (write_str_obs (for_cap c n) tr db log L False nb (fun x => x = s) b s))
    as [(w2 & F)|(bb & w2 & F)]; rewrite F.
  - left. exists w2. unfold to_out, sbind. destruct (write_str (for_cap c n) b s) as [[r| | |] s1]; reflexivity.
  - right. split; [exact bb|]. exists w2. reflexivity.
Qed.

Lemma set_nth_same {A} i (x : A) l : nth_error l i = Some x -> set_nth i x l = l.
Proof. revert i; induction l as [|y l IH]; intros [|i] H; cbn in *; try discriminate; [congruence|f_equal; auto]. Qed.

Lemma set_nth_at {A} i (x y : A) l : nth_error l i = Some y -> nth_error (set_nth i x l) i = Some x.
Proof. revert i; induction l as [|z l IH]; intros [|i] H; cbn in *; try discriminate; auto. Qed.

Lemma broke_same p v u : broke_off p v v u u.
Proof. repeat split. intros k x' H. left. exact H. Qed.

Hypothesis Hu : 65535 <= usize_max c.

(** A string or an iterator has changed. *)
Lemma broke_set p v u i y dr n t t' : in_steps p = true -> world_shows c v u ->
  nth_error u i = Some (mktvar dr n t) -> leaves p i t t' -> var_shows c y (mktvar dr n t') ->
  world_shows c (set_nth i y v) (set_nth i (mktvar dr n t') u) /\
  broke_off p v (set_nth i y v) u (set_nth i (mktvar dr n t') u).
Proof.
  intros Hs F E Hl V. split; [apply forall2_set; assumption|]. split; [rewrite Hs; discriminate|].
  split; [apply set_nth_length|]. intros k x' H. destruct (Nat.eq_dec i k) as [<-|N].
  - rewrite (set_nth_at i _ _ u E) in H. injection H as <-. right. exists (mktvar dr n t). auto.
  - rewrite set_nth_other in H by exact N. left. exact H.
Qed.

Definition did (p : cmd) (v : list var) (w : W) : Prop :=
  either (l_run_cmd c tr db log p v w) (fun w' => (fst (run_cmd c p v), snd (run_cmd c p v), w')) (fun w' => (Some Panic, v, w')).

Definition cmd_spec (p : cmd) (v : list var) (w : W) : Prop :=
  (exists w', l_run_cmd c tr db log p v w = (fst (run_cmd c p v), snd (run_cmd c p v), w')) \/
  (bad /\ exists v' w', l_run_cmd c tr db log p v w = (Some Panic, v', w') /\
   forall u, typed_cmd p -> harmless_cmd p -> world_shows c v u -> exists u', world_shows c v' u' /\ broke_off p v v' u u').

Lemma did_spec p v w : did p v w -> cmd_spec p v w.
Proof.
  intros [H|(b & w' & E)]; [left; exact H|]. right. split; [exact b|]. exists v, w'. split; [exact E|].
  intros u _ _ F. exists u. split; [exact F|apply broke_same].
Qed.

Lemma did_nothing p v w : l_run_cmd c tr db log p v w = (fst (run_cmd c p v), snd (run_cmd c p v), w) -> cmd_spec p v w.
Proof. intros E. left. exists w. exact E. Qed.

Lemma call_spec i o v w n s : nth_error v i = Some (VStr n s) -> cmd_spec (PCall i o) v w.
Proof.
  intros E. destruct (op_sim (for_cap c n) tr db log L o s w) as [(w' & H)|(b & s' & w' & H & _)].
  - left. exists w'. unfold l_run_cmd, run_cmd. rewrite E, H. reflexivity.
  - destruct (several_steps o) eqn:So.
    + right. split; [exact b|]. exists (set_nth i (VStr n s') v), w'.
      split; [unfold l_run_cmd; rewrite E, H; reflexivity|].
      intros u T Hh F. pose proof (forall2_nth _ _ _ i F) as V. rewrite E in V.
      destruct (nth_error u i) as [[dr n' t]|] eqn:Eu; [|contradiction].
      destruct V as (Hn & Hd & -> & Sh). cbn in Hn, Hd, Sh. subst dr.
      destruct (log_step (for_cap c n') tr db log o s t w (for_cap_valid c Hu n' Hn) L Sh T Hh (or_intror NB))
        as (r & s2 & w2 & t' & E2 & _ & S2). cbn [tcap] in *. rewrite H in E2. injection E2 as _ <- _.
      exists (set_nth i (mktvar false n' t') u). apply (broke_set (PCall i o) v u i _ false n' t t' So F Eu eq_refl).
      split; [exact Hn|]. split; [reflexivity|]. split; [reflexivity|exact S2].
    + apply did_spec. unfold did, l_run_cmd, run_cmd. rewrite E.
      destruct (log_panic (for_cap c n) tr db log L o s w So) as [(w2 & H2)|[(_ & w2 & H2)|(B & _)]];
        [left|right; split; [exact b|]|destruct (NB B)]; exists w2; rewrite H2; [reflexivity|].
      cbn [fst snd omap obind]. rewrite (set_nth_same i _ v E). reflexivity.
Qed.

(** Every command. *)
Lemma cmd_either p v w : cmd_spec p v w.
Proof.
  destruct p as [n k|n j|j|i o|i a j|i j sp|i m|i lo hi|j front|i j|n j|i j|i j|i j].
  - apply did_spec. unfold did, l_run_cmd, run_cmd; cbv zeta.
    destruct (either_reads _ _ w (build_reads (for_cap c n) tr db log L k)) as [(w' & E)|(b & w' & E)]; rewrite E;
      [left|right; split; [exact b|]]; exists w'; reflexivity.
  - apply did_spec. unfold did, l_run_cmd, run_cmd; cbv zeta.
    destruct (nth_error v j) as [y|]; [|left; exists w; reflexivity].
    destruct (either_reads (b <~ l_var_str c tr log y ;;
        r <~ l_try_from_str (for_cap c n) tr db log (sret b) ;; sret (map_ok (VStr n) (map_err from_oob r)))
      (b <- var_str c y ;; r <- try_from_str (for_cap c n) b ;; Ret (map_ok (VStr n) (map_err from_oob r))) w)
      as [(w' & E)|(b & w' & E)].
    { apply reads_bind; [apply var_str_reads|]. intros b _.
      apply reads_bind; [apply (try_from_str_reads _ tr db log L True (fun _ => I)), reads_sret|]. intros r _. apply reads_sret. }
    + rewrite E. left. exists w'. reflexivity.
    + rewrite E. right. split; [exact b|]. exists w'. reflexivity.
  - apply did_nothing. unfold l_run_cmd, run_cmd. destruct (nth_error v j) as [[n s|n d]|]; reflexivity.
  - destruct (nth_error v i) as [[n s|n d]|] eqn:E; [exact (call_spec i o v w n s E)|..];
      apply did_nothing; unfold l_run_cmd, run_cmd; rewrite E; reflexivity.
  - apply did_spec. unfold did, l_run_cmd, run_cmd; cbv zeta.
    destruct (nth_error v i) as [[n s|n d]|] eqn:Ei; destruct (nth_error v j) as [y|]; try (left; exists w; reflexivity).
    destruct (Nat.eqb i j); [left; exists w; reflexivity|].
    destruct (with_either n a y s w) as [(w' & E)|(b & w' & E)]; rewrite E; [left|right; split; [exact b|]]; exists w'; [reflexivity|].
    cbn [fst snd omap obind]. rewrite (set_nth_same i _ v Ei). reflexivity.
  - apply did_spec. unfold did, l_run_cmd, run_cmd; cbv zeta.
    destruct (nth_error v i) as [[n s|n d]|] eqn:Ei; destruct (nth_error v j) as [[m s'|m d']|]; try (left; exists w; reflexivity).
    destruct (Nat.eqb i j); [left; exists w; reflexivity|].
    destruct (write_to_either n m sp s s' w) as [(w' & E)|(b & w' & E)]; rewrite E; [left|right; split; [exact b|]]; exists w'; [reflexivity|].
    cbn [fst snd omap obind]. rewrite (set_nth_same i _ v Ei). reflexivity.
  - apply did_spec. unfold did, l_run_cmd, run_cmd; cbv zeta.
    destruct (nth_error v i) as [[n s|n d]|] eqn:Ei; try (left; exists w; reflexivity).
    destruct (either_obs _ _ s w (split_off_obs (for_cap c n) tr db log L False nb (fun x => x = s) m s)) as [(w' & E)|(b & w' & E)];
      rewrite E; [left|right; split; [exact b|]]; exists w'.
    + destruct (split_off (for_cap c n) m s) as [r s']. reflexivity.
    + unfold l_made. cbn [fst snd omap obind made]. rewrite (set_nth_same i _ v Ei). reflexivity.
  - apply did_spec. unfold did, l_run_cmd, run_cmd; cbv zeta.
    destruct (nth_error v i) as [[n s|n d]|] eqn:Ei; try (left; exists w; reflexivity).
    destruct (either_obs _ _ s w (drain_obs (for_cap c n) tr db log L False nb (fun x => x = s) lo hi s)) as [(w' & E)|(b & w' & E)];
      rewrite E; [left|right; split; [exact b|]]; exists w'.
    + unfold drain_iter, sbind. destruct (drain (for_cap c n) lo hi s) as [[[a|e]| | |] s']; reflexivity.
    + unfold l_made. cbn [fst snd omap obind made]. rewrite (set_nth_same i _ v Ei). reflexivity.
  - apply did_spec. unfold did, l_run_cmd, run_cmd; cbv zeta.
    destruct (nth_error v j) as [[n s|n d]|] eqn:Ej; try (left; exists w; reflexivity). destruct front.
    + destruct (next_either n d w) as [(w' & E)|(b & w' & E)]; rewrite E; [left|right; split; [exact b|]]; exists w'.
      * destruct (drain_next (for_cap c n) d). reflexivity.
      * cbn [omap obind]. rewrite (set_nth_same j _ v Ej). reflexivity.
    + destruct (next_back_either n d w) as [(w' & E)|(b & w' & E)]; rewrite E; [left|right; split; [exact b|]]; exists w'.
      * destruct (drain_next_back (for_cap c n) d). reflexivity.
      * cbn [omap obind]. rewrite (set_nth_same j _ v Ej). reflexivity.
  - (* PExtend *)
    destruct (nth_error v i) as [[n s|n d]|] eqn:Ei; destruct (nth_error v j) as [[m s'|m d']|] eqn:Ej;
      try (apply did_nothing; unfold l_run_cmd, run_cmd; rewrite Ei, ?Ej; reflexivity).
    destruct (extend_either n _ _ s w (from_drain_it n m d')) as [(w' & E)|(b & w' & E)].
    + left. exists w'. unfold l_run_cmd, run_cmd, extend_chars; cbv zeta. rewrite Ei, Ej, E.
      destruct (extend_with _ _ _) as [[r d1] s1]. reflexivity.
    + right. split; [exact b|]. eexists _, w'. split.
      { unfold l_run_cmd; cbv zeta. rewrite Ei, Ej, E. cbn [omap obind]. rewrite (set_nth_same i _ v Ei). reflexivity. }
      intros u _ _ F. pose proof (forall2_nth _ _ _ j F) as V. rewrite Ej in V.
      destruct (nth_error u j) as [[dr m' t]|] eqn:Eu; [|contradiction].
      destruct V as (Hm & Hd & -> & Sh). cbn in Hm, Hd, Sh. subst dr. apply shows_for in Sh.
      destruct (from_drain_left n m' d' w t (for_cap_valid c Hu m' Hm) Sh) as (k & R').
      exists (set_nth j (mktvar true m' (skipn k t)) u). cbn [tcap]. apply (broke_set (PExtend i j) v u j _ true m' t _ eq_refl F Eu); [split; [reflexivity|exists k; reflexivity]|].
      apply drn_rep; [exact Hm|exact R'].
  - (* PCollect *)
    destruct (nth_error v j) as [[m s'|m d]|] eqn:Ej;
      try (apply did_nothing; unfold l_run_cmd, run_cmd; rewrite ?Ej; reflexivity).
    destruct (from_drain_it n m d w) as [(w' & E)|(b & d' & w' & E)].
    + left. exists w'. unfold l_run_cmd, run_cmd, from_iter_chars; cbv zeta. rewrite Ej, E.
      destruct (from_chars_truncate _ _ _ d) as [r d1]. reflexivity.
    + right. split; [exact b|]. exists (set_nth j (VDrain m d') v), w'. split.
      { unfold l_run_cmd; cbv zeta. rewrite Ej, E. reflexivity. }
      intros u _ _ F. pose proof (forall2_nth _ _ _ j F) as V. rewrite Ej in V.
      destruct (nth_error u j) as [[dr m' t]|] eqn:Eu; [|contradiction].
      destruct V as (Hm & Hd & -> & Sh). cbn in Hm, Hd, Sh. subst dr. apply shows_for in Sh. cbn [tcap] in *.
      destruct (from_drain_left n m' d w t (for_cap_valid c Hu m' Hm) Sh) as (k & R'). rewrite E in R'.
      exists (set_nth j (mktvar true m' (skipn k t)) u). apply (broke_set (PCollect n j) v u j _ true m' t _ eq_refl F Eu); [split; [reflexivity|exists k; reflexivity]|].
      apply drn_rep; [exact Hm|exact R'].
  - apply did_spec. unfold did, l_run_cmd, run_cmd; cbv zeta.
    destruct (nth_error v i) as [[n s|n d]|]; destruct (nth_error v j) as [y|]; try (left; exists w; reflexivity).
    destruct (either_reads (b <~ l_var_str c tr log y ;; a <~ l_as_str (for_cap c n) tr log s ;; sret (str_eq a b))
      (b <- var_str c y ;; eq_str (for_cap c n) s b) w) as [(w' & E)|(b & w' & E)].
    { apply reads_bind; [apply var_str_reads|]. intros b _.
      apply reads_bind; [apply (as_str_reads _ tr db log L)|]. intros a _. apply reads_sret. }
    + rewrite E. left. exists w'. reflexivity.
    + rewrite E. right. split; [exact b|]. exists w'. reflexivity.
  - apply did_spec. unfold did, l_run_cmd, run_cmd; cbv zeta.
    set (h := mkhasher unit (fun _ _ => tt) (fun _ _ => tt)).
    destruct (nth_error v i) as [[n s|n d]|]; destruct (nth_error v j) as [[m s'|m d']|]; try (left; exists w; reflexivity);
      (destruct (n =? m); [|left; exists w; reflexivity]).
    + destruct (log_compare (for_cap c n) tr db log L s s' h tt) as (_ & H & _).
      destruct (either_reads _ _ w H) as [(w' & E)|(b & w' & E)]; rewrite E; [left|right; split; [exact b|]]; exists w'; reflexivity.
    + destruct (log_compare (for_cap c n) tr db log L (drained d) (drained d') h tt) as (_ & H & _).
      destruct (either_reads _ _ w H) as [(w' & E)|(b & w' & E)]; rewrite E; [left|right; split; [exact b|]]; exists w'; reflexivity.
  - apply did_nothing. unfold l_run_cmd, run_cmd. cbv zeta. destruct (nth_error v i) as [x|]; destruct (nth_error v j) as [y|]; try reflexivity.
    destruct (_ && _); reflexivity.
Qed.
End Any.

Lemma c78_quiet c tr db {W} (log : event -> ST W unit) l v w : 65535 <= usize_max c -> quiet tr db log ->
  exists w', l_run_cmds c tr db log l v w = (fst (run_cmds c l v), snd (run_cmds c l v), w').
Proof.
  intros Hu Q. pose proof (quiet_not_bad tr db log Q) as NP.
  assert (L : a_logger tr db log) by (intros e Le x; rewrite (Q e x Le); split; discriminate).
  assert (NB : ~ panics_on tr db log EvLen) by (intros B; apply NP; exists EvLen; exact B).
  revert v w; induction l as [|p l IH]; intros v w; cbn [l_run_cmds run_cmds]; [exists w; reflexivity|].
  destruct (cmd_either c tr db log L NB Hu p v w) as [(w1 & E)|(b & _)]; [|destruct (NP b)].
  rewrite E. destruct (run_cmd c p v) as [r v1]. cbn [fst snd].
  destruct (IH v1 w1) as (w2 & E2). rewrite E2. destruct (run_cmds c l v1) as [rs v2]. exists w2. reflexivity.
Qed.

Lemma c78_texts c tr db {W} (log : event -> ST W unit) l v u w : 65535 <= usize_max c -> quiet tr db log ->
  Forall typed_cmd l -> world_shows c v u ->
  exists v' w', l_run_cmds c tr db log l v w = (fst (t_cmds (usize_max c) l u), v', w') /\
    world_shows c v' (snd (t_cmds (usize_max c) l u)).
Proof.
  intros Hu Q T F. destruct (c70_lock_step c l v u Hu T F) as (v' & E & G).
  destruct (c78_quiet c tr db log l v w Hu Q) as (w' & E2). rewrite E in E2. eauto.
Qed.

Lemma c78_panic c tr db {W} (log : event -> ST W unit) p v u w : 65535 <= usize_max c -> a_logger tr db log ->
  ~ panics_on tr db log EvLen -> typed_cmd p -> harmless_cmd p -> world_shows c v u ->
  (exists v' w', l_run_cmd c tr db log p v w = (fst (t_cmd (usize_max c) p u), v', w') /\
     world_shows c v' (snd (t_cmd (usize_max c) p u))) \/
  (can_panic tr db log /\ exists v' w' u', l_run_cmd c tr db log p v w = (Some Panic, v', w') /\
     world_shows c v' u' /\ broke_off p v v' u u').
Proof.
  intros Hu L NB T Hh F. destruct (cmd_either c tr db log L NB Hu p v w) as [(w' & E)|(b & v' & w' & E & H)].
  - left. destruct (run_cmd_sim c Hu p v u T F) as [E1 G1]. rewrite E1 in E. eauto.
  - right. split; [exact b|]. destruct (H u T Hh F) as (u' & F' & B). eauto 6.
Qed.

Lemma c78_safe c tr db {W} (log : event -> ST W unit) l v u w : 65535 <= usize_max c -> a_logger tr db log ->
  ~ panics_on tr db log EvLen -> Forall typed_cmd l -> Forall harmless_cmd l -> world_shows c v u ->
  exists rs v' w' u', l_run_cmds c tr db log l v w = (rs, v', w') /\ world_shows c v' u' /\
    forall o, In (Some o) rs -> o = Panic \/ exists r, o = Ret r.
Proof.
  intros Hu L NB T Hh. revert v u w; induction l as [|p l IH]; intros v u w F; cbn [l_run_cmds].
  { exists [], v, w, u. split; [reflexivity|]. split; [exact F|]. intros o []. }
  inversion T as [|? ? Tp Tl]; subst. inversion Hh as [|? ? Hp Hl]; subst.
  assert (X : exists r v1 w1 u1, l_run_cmd c tr db log p v w = (r, v1, w1) /\ world_shows c v1 u1 /\
            forall o, r = Some o -> o = Panic \/ exists x, o = Ret x).
  { destruct (c78_panic c tr db log p v u w Hu L NB Tp Hp F) as [(v1 & w1 & E & G)|(_ & v1 & w1 & u1 & E & G & _)].
    - exists (fst (t_cmd (usize_max c) p u)), v1, w1, (snd (t_cmd (usize_max c) p u)). split; [exact E|]. split; [exact G|].
      intros o Eo.
      destruct (t_cmd_cases (usize_max c) p u o Eo) as [Hr|[(i & q & n & t & -> & ->)|(n & k & -> & ->)]].
      + right. exact Hr.
      + pose proof (t_op_calm (usize_max c) n q t Hp) as C. destruct (fst (t_op (usize_max c) n q t)); try contradiction C;
          [right; eexists; reflexivity|left; reflexivity].
      + pose proof (t_ctor_calm n k Hp) as C. destruct (t_ctor n k); try contradiction C;
          [right; eexists; reflexivity|left; reflexivity].
    - exists (Some Panic), v1, w1, u1. split; [exact E|]. split; [exact G|]. intros o [= <-]. left. reflexivity. }
  destruct X as (r & v1 & w1 & u1 & E & G & C). rewrite E.
  destruct (IH Tl Hl v1 u1 w1 G) as (rs & v2 & w2 & u2 & E2 & G2 & C2). rewrite E2.
  exists (r :: rs), v2, w2, u2. split; [reflexivity|]. split; [exact G2|].
  intros o [H|H]; [apply C; exact H|apply C2; exact H].
Qed.

(** Whatever the logger does. *)
Lemma c78_frame c tr db {W} (log : event -> ST W unit) p v w r v' w' k :
  l_run_cmd c tr db log p v w = (r, v', w') -> (k < length v)%nat -> ~ changes p k ->
  nth_error v' k = nth_error v k.
Proof.
  intros E Hk Hn. apply (f_equal (fun x => snd (fst x))) in E. cbn [fst snd] in E. subst v'.
  destruct p as [n q|n j|j|i q|i a j|i j sp|i m|i lo hi|j front|i j|n j|i j|i j|i j];
    unfold l_run_cmd; cbv zeta; cbn [changes] in Hn;
    [..|destruct (run_cmd c (PSwap i j) v) as [r' v1] eqn:E1; apply (c70_frame c _ v r' v1 k E1 Hk); exact Hn];
  repeat match goal with
  | |- context [match nth_error ?w ?i with _ => _ end] => destruct (nth_error w i) as [[? ?|? ?]|]
  | |- context [if ?b then _ else _] => destruct b
  | |- context [let '(_, _) := ?x in _] => destruct x
  end; unfold l_made; cbn [fst snd]; rewrite ?made_nth, ?nth_snoc by (rewrite ?set_nth_length; exact Hk);
  rewrite ?set_nth_other by (intros ->; tauto); reflexivity.
Qed.
