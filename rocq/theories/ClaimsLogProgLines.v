(** C79: the log of a program. *)
From Coq Require Import ZArith ZifyBool ZifyN ZifyNat Arith.
From Verif Require Import Base Char Spec RustStd RustFmt ModelError Model ModelImpl ModelDrain TextOps SpecOps ModelOps
  ListFacts Utf8Facts CoreFacts MethodFacts IterFacts DrainFacts OpsFacts Obs ObsLogs ObsLogProg ObsLogProgLines ClaimsOps ClaimsLogs ClaimsProg
  LogLines ClaimsLogLines ClaimsLogProg.

Section Lines.
Variable c : cfg.
Hypothesis Hu : 65535 <= usize_max c.
Variables tr db : bool.
Notation says := (says tr db).
Notation tells := (tells tr db).
Notation lev := (log_grew tr db).

Lemma next_says m d u w : 1 <= m <= 255 -> rep (for_cap c m) (drained d) u ->
  exists w', l_next c tr db record m (d, w) =
    (fst (drain_next (for_cap c m) d), (snd (drain_next (for_cap c m) d), w')) /\ lev w (next_lines u) w'.
Proof.
  intros Hm R. pose proof (for_cap_valid c Hu m Hm) as V.
  destruct (remove_lines (for_cap c m) V tr db 0 (drained d) u R w) as (w' & E & G). exists w'. split.
  - unfold l_next, l_drain_next, sbind, sret. cbn [fst snd]. rewrite E. unfold drain_next, on_drained, sbind, sret.
    destruct (remove (for_cap c m) 0 (drained d)) as [[r| | |] s]; reflexivity.
  - cbn [debug_lines] in G. unfold next_lines. destruct u as [|x u]; [exact G|].
    rewrite t_remove_first in G. exact G.
Qed.

Lemma next_back_says m d w :
  exists w', l_next_back c tr db record m (d, w) =
    (fst (drain_next_back (for_cap c m) d), (snd (drain_next_back (for_cap c m) d), w')) /\ lev w [EvPop] w'.
Proof.
  destruct (pop_tells (for_cap c m) tr db (drained d) w) as (w' & E & G). exists w'. split; [|exact G].
  unfold l_next_back, l_drain_next_back. cbn [fst snd]. rewrite E. unfold drain_next_back, on_drained.
  destruct (pop (for_cap c m) (drained d)) as [r s]; reflexivity.
Qed.

Lemma loop_reads n m fuel d s w t u : 1 <= n <= 255 -> 1 <= m <= 255 ->
  rep (for_cap c m) (drained d) u -> rep (for_cap c n) s t -> n + 1 < N.of_nat fuel + blen t ->
  exists w', l_for_loop (R := Empty_set) fuel (l_next c tr db record m)
      (fun ch => l_or_break (l_try_push (for_cap c n) tr db record ch)) d (s, w) =
    (let '(o, d', s') := for_loop (R := Empty_set) fuel (drain_iterator (for_cap c m))
       (fun ch => push_or_break (try_push (for_cap c n) ch)) d s in (o, d', (s', w'))) /\
    lev w (take_lines n t u) w'.
Proof.
  intros Hn Hm. pose proof (for_cap_valid c Hu n Hn) as Vn. pose proof (for_cap_valid c Hu m Hm) as Vm.
  revert d s w t u; induction fuel as [|fuel IH]; intros d s w t u Rd Rs Lf.
  { pose proof (rep_cap _ s t Rs) as K. cbn [cap for_cap with_cap] in K. exfalso. lia. }
  cbn [l_for_loop for_loop fst snd]. destruct (next_says m d u w Hm Rd) as (w1 & E & G1). rewrite E. unfold drain_iterator at 1.
  destruct (drain_next_rep (for_cap c m) Vm d u Rd) as (d1 & E1 & R1). rewrite E1. cbn [fst snd].
  destruct u as [|x u]; cbn [t_deque_step fst snd] in *; [exists w1; split; [reflexivity|exact G1]|].
  destruct (or_break_tells tr db (R := Empty_set) _ _ s _ (push_lines (for_cap c n) tr db x s t Rs) w1) as (w2 & F & G2). rewrite F.
  pose proof (push_step_break (for_cap c n) Vn (R := Empty_set) x s t Rs) as P. unfold char_step in P.
  cbn [cap for_cap with_cap] in P. cbn [take_lines].
  pose proof (grew_trans tr db _ _ _ _ _ G1 G2) as G. unfold next_lines in G. cbn [app] in G.
  destruct (blen t + clen x <=? n) eqn:B.
  - destruct P as (s1 & P & Rs1). rewrite P. cbn [fst snd].
    destruct (IH d1 s1 w2 (t ++ [x]) u R1 Rs1) as (w3 & H & G3).
    { rewrite blen_app. cbn [blen]. pose proof (clen_range x). lia. }
    exists w3. split; [exact H|]. exact (grew_trans tr db _ _ _ _ _ G G3).
  - destruct (push_or_break (try_push (for_cap c n) x) s) as [[[| |[]]| | |] s1]; cbn [fst snd];
      try (exists w2; split; [reflexivity|exact G]). destruct (P s1 eq_refl).
Qed.

Lemma from_drain_says n m d u : 1 <= n <= 255 -> 1 <= m <= 255 -> rep (for_cap c m) (drained d) u ->
  says_it tr db (l_from_drain c tr db record n m d)
    (from_chars_truncate (for_cap c n) (char_fuel (for_cap c n)) (drain_iterator (for_cap c m)) d) (take_lines n [] u).
Proof.
  intros Hn Hm R w. unfold l_from_drain, l_from_loop, from_chars_truncate.
  destruct (says_trace tr db EvFromCharsTruncate eq_refl w) as (w1 & E & G). rewrite E.
  destruct (loop_reads n m (char_fuel (for_cap c n)) d (new (for_cap c n)) w1 [] u Hn Hm R (new_rep _)) as (w2 & F & G2).
  { unfold char_fuel. cbn [cap for_cap with_cap blen]. lia. }
  rewrite F. exists w2. split; [|exact (grew_nil tr db _ _ _ _ G G2)].
  unfold from_loop. destruct (for_loop _ _ _ _ _) as [[[[[]|]| | |] d'] s']; reflexivity.
Qed.

Lemma extend_says n m d s t u w : 1 <= n <= 255 -> 1 <= m <= 255 ->
  rep (for_cap c m) (drained d) u -> rep (for_cap c n) s t ->
  exists w', l_extend_with (for_cap c n) tr db record (l_from_drain c tr db record n m d) s w =
    (let '(r, d', s') := extend_chars (for_cap c n) (char_fuel (for_cap c n)) (drain_iterator (for_cap c m)) d s in (r, d', s', w')) /\
    lev w (take_lines n [] u ++ [push_line t (fit (n - blen t) (fit n u))]) w'.
Proof.
  intros Hn Hm Rd Rs. unfold l_extend_with, extend_chars, extend_with.
  destruct (from_drain_says n m d u Hn Hm Rd w) as (w1 & E & G). rewrite E.
  destruct (drain_collect c Hu n m d u Hn Hm Rd) as (a & d' & Ea & Ra & _). rewrite Ea. cbn [fst snd].
  assert (X : says (l_as_ref_str (for_cap c n) tr record a) (Ret (enc (fit n u))) []).
  { rewrite <- (as_str_rep _ a _ Ra : as_ref_str (for_cap c n) a = _). apply says_as_ref_str. }
  destruct (push_str_truncate_lines (for_cap c n) tr db _ (fit n u) s t Rs X w1) as (w2 & E2 & G2). rewrite E2. exists w2.
  split; [|exact (grew_trans tr db _ _ _ _ _ G G2)].
  assert (Y : (b0 <~ slift (as_ref_str (for_cap c n) a) ;; push_str_truncate (for_cap c n) b0) s =
    push_str_truncate (for_cap c n) (enc (fit n u)) s).
  { rewrite (as_str_rep _ a _ Ra : as_ref_str (for_cap c n) a = _). reflexivity. }
  rewrite Y. destruct (push_str_truncate (for_cap c n) (enc (fit n u)) s). reflexivity.
Qed.

Lemma var_str_says y x : var_shows c y x -> says (l_var_str c tr record y) (Ret (enc (ttext x))) [].
Proof.
  intros V. rewrite <- (var_str_shows c y x V). destruct y as [n s|n d]; apply (says_as_str _ tr db).
Qed.

Definition cmd_log (p : cmd) (v : list var) (w : list event) (L : list event) : Prop :=
  exists w', l_run_cmd c tr db record p v w = (fst (run_cmd c p v), snd (run_cmd c p v), w') /\ lev w L w'.

Lemma no_log p v w : l_run_cmd c tr db record p v w = (fst (run_cmd c p v), snd (run_cmd c p v), w) -> cmd_log p v w [].
Proof. intros E. exists w. split; [exact E|apply grew_refl]. Qed.

Lemma cmd_says p v u w : typed_cmd p -> world_shows c v u -> cmd_log p v w (cmd_lines (usize_max c) p u).
Proof.
  intros T F. destruct p as [n k|n j|j|i o|i a j|i j sp|i m|i lo hi|j front|i j|n j|i j|i j|i j]; cbn [cmd_lines].
  - destruct T as [Hn Hk]. destruct (build_says (for_cap c n) (for_cap_valid c Hu n Hn) tr db k Hk w) as (w' & E & G).
    exists w'. split; [|exact G]. unfold l_run_cmd, run_cmd; cbv zeta. rewrite E. reflexivity.
  - pose proof (forall2_nth _ _ _ j F) as V.
    destruct (nth_error v j) as [y|] eqn:Ej; destruct (nth_error u j) as [x|]; try contradiction;
      [|apply no_log; unfold l_run_cmd, run_cmd; rewrite Ej; reflexivity].
    destruct (var_str_says y x V w) as (w1 & E1 & G1).
    destruct (try_from_str_says (for_cap c n) tr db (sret (enc (ttext x))) (ttext x) (says_sret tr db _) w1) as (w2 & E2 & G2).
    exists w2. split; [|exact (grew_nil tr db _ _ _ _ G1 G2)].
    unfold l_run_cmd, run_cmd, sbind, sret; cbv zeta. rewrite Ej, E1. unfold sret in E2. rewrite E2.
    rewrite (var_str_shows c y x V). cbn [obind].
    destruct (try_from_str (for_cap c n) (enc (ttext x))) as [r| | |]; reflexivity.
  - apply no_log. unfold l_run_cmd, run_cmd. destruct (nth_error v j) as [[n s|n d]|]; reflexivity.
  - (* PCall *)
    pose proof (forall2_nth _ _ _ i F) as V.
    destruct (nth_error v i) as [[n s|n d]|] eqn:Ei; destruct (nth_error u i) as [[dr n' t]|]; try contradiction;
      try (destruct V as (Hn & Hd & -> & Sh); cbn [is_drain tcap ttext] in *; subst dr);
      try (apply no_log; unfold l_run_cmd, run_cmd; rewrite Ei; reflexivity).
    apply shows_for in Sh.
    destruct (op_lines (for_cap c n') (for_cap_valid c Hu n' Hn) tr db o s t Sh w) as (w' & E & G).
    exists w'. split; [|exact G]. unfold l_run_cmd, run_cmd; cbv zeta. rewrite Ei, E. reflexivity.
  - (* PWith *)
    pose proof (forall2_nth _ _ _ i F) as V. pose proof (forall2_nth _ _ _ j F) as Vj.
    destruct (nth_error v i) as [[n s|n d]|] eqn:Ei; destruct (nth_error u i) as [[dr n' t]|]; try contradiction;
      try (destruct V as (Hn & Hd & -> & Sh); cbn [is_drain tcap ttext] in *; subst dr);
      destruct (nth_error v j) as [y|] eqn:Ej; destruct (nth_error u j) as [x|]; try contradiction;
      try (apply no_log; unfold l_run_cmd, run_cmd; rewrite Ei, ?Ej; reflexivity).
    destruct (Nat.eqb i j) eqn:Eq; [apply no_log; unfold l_run_cmd, run_cmd; rewrite Ei, Ej, Eq; reflexivity|].
    apply shows_for in Sh. destruct (var_str_says y x Vj w) as (w1 & E1 & G1).
    destruct (op_lines (for_cap c n') (for_cap_valid c Hu n' Hn) tr db (with_text a (ttext x)) s t Sh w1) as (w2 & E2 & G2).
    exists w2. split; [|exact (grew_nil tr db _ _ _ _ G1 G2)].
    unfold l_run_cmd, run_cmd; cbv zeta. rewrite Ei, Ej, Eq. unfold sbind, on_arg, slift. cbn [fst snd].
    rewrite E1, (var_str_shows c y x Vj), <- (run_with_op c n' a (ttext x) s) in *.
    assert (X : l_run_with c tr db record n' a (enc (ttext x)) (s, w1) =
      l_run_op (for_cap c n') tr db record (with_text a (ttext x)) (s, w1)) by (destruct a; reflexivity).
    rewrite X, E2. reflexivity.
  - (* PWriteTo *)
    pose proof (forall2_nth _ _ _ i F) as V. pose proof (forall2_nth _ _ _ j F) as Vj.
    destruct (nth_error v i) as [[n s|n d]|] eqn:Ei; destruct (nth_error u i) as [[dr n' t]|]; try contradiction;
      try (destruct V as (Hn & Hd & -> & Sh); cbn [is_drain tcap ttext] in *; subst dr);
      destruct (nth_error v j) as [[m s'|m d']|] eqn:Ej; destruct (nth_error u j) as [[dr m' t']|]; try contradiction;
      try (destruct Vj as (Hm & Hd' & -> & Sh'); cbn [is_drain tcap ttext] in *; subst dr);
      try (apply no_log; unfold l_run_cmd, run_cmd; rewrite Ei, ?Ej; reflexivity).
    destruct (Nat.eqb i j) eqn:Eq; [apply no_log; unfold l_run_cmd, run_cmd; rewrite Ei, Ej, Eq; reflexivity|].
    apply shows_for in Sh. apply shows_for in Sh'.
    destruct (says_as_str (for_cap c m') tr db s' w) as (w1 & E1 & G1). rewrite (as_str_rep _ s' t' Sh') in E1.
    destruct (write_str_lines (for_cap c n') tr db t' s t Sh w1) as (w2 & E2 & G2).
    exists w2. split; [|exact (grew_nil tr db _ _ _ _ G1 G2)].
    unfold l_run_cmd, run_cmd; cbv zeta. rewrite Ei, Ej, Eq. unfold l_out, to_out, display, sbind, on_arg, slift. cbn [fst snd].
    rewrite E1, (as_str_rep _ s' t' Sh').
    change (write_one_str _ (enc t') (s, w1)) with (l_write_str (for_cap c n') tr db record (enc t') (s, w1)). rewrite E2.
    change (write_one_str _ (enc t') s) with (write_str (for_cap c n') (enc t') s).
    destruct (write_str (for_cap c n') (enc t') s) as [[r| | |] s1]; reflexivity.
  - (* PSplit *)
    pose proof (forall2_nth _ _ _ i F) as V.
    destruct (nth_error v i) as [[n s|n d]|] eqn:Ei; destruct (nth_error u i) as [[dr n' t]|]; try contradiction;
      try (destruct V as (Hn & Hd & -> & Sh); cbn [is_drain tcap ttext] in *; subst dr);
      try (apply no_log; unfold l_run_cmd, run_cmd; rewrite Ei; reflexivity).
    apply shows_for in Sh.
    destruct (split_off_lines (for_cap c n') (for_cap_valid c Hu n' Hn) tr db m s t Sh w) as (w' & E & G).
    exists w'. split; [|exact G]. unfold l_run_cmd, run_cmd; cbv zeta. rewrite Ei, E.
    destruct (split_off (for_cap c n') m s) as [r s']. reflexivity.
  - (* PDrain *)
    pose proof (forall2_nth _ _ _ i F) as V.
    destruct (nth_error v i) as [[n s|n d]|] eqn:Ei; destruct (nth_error u i) as [[dr n' t]|]; try contradiction;
      try (destruct V as (Hn & Hd & -> & Sh); cbn [is_drain tcap ttext] in *; subst dr);
      try (apply no_log; unfold l_run_cmd, run_cmd; rewrite Ei; reflexivity).
    apply shows_for in Sh.
    destruct (drain_call_lines (for_cap c n') (for_cap_valid c Hu n' Hn) tr db lo hi s t Sh w) as (w' & E & G).
    exists w'. split; [|exact G]. unfold l_run_cmd, run_cmd; cbv zeta. rewrite Ei, E.
    unfold drain_iter, sbind. destruct (drain (for_cap c n') lo hi s) as [[[a|e]| | |] s']; reflexivity.
  - (* PNext *)
    pose proof (forall2_nth _ _ _ j F) as V.
    destruct (nth_error v j) as [[n s|n d]|] eqn:Ej; destruct (nth_error u j) as [[dr n' t]|]; try contradiction;
      try (destruct V as (Hn & Hd & -> & Sh); cbn [is_drain tcap ttext] in *; subst dr);
      try (apply no_log; unfold l_run_cmd, run_cmd; rewrite Ej; reflexivity).
    apply shows_for in Sh. destruct front.
    + destruct (next_says n' d t w Hn Sh) as (w' & E & G). exists w'. split; [|exact G].
      unfold l_run_cmd, run_cmd; cbv zeta. rewrite Ej, E. destruct (drain_next (for_cap c n') d). reflexivity.
    + destruct (next_back_says n' d w) as (w' & E & G). exists w'. split; [|exact G].
      unfold l_run_cmd, run_cmd; cbv zeta. rewrite Ej, E. destruct (drain_next_back (for_cap c n') d). reflexivity.
  - (* PExtend *)
    pose proof (forall2_nth _ _ _ i F) as V. pose proof (forall2_nth _ _ _ j F) as Vj.
    destruct (nth_error v i) as [[n s|n d]|] eqn:Ei; destruct (nth_error u i) as [[dr n' t]|]; try contradiction;
      try (destruct V as (Hn & Hd & -> & Sh); cbn [is_drain tcap ttext] in *; subst dr);
      destruct (nth_error v j) as [[m s'|m d']|] eqn:Ej; destruct (nth_error u j) as [[dr m' t']|]; try contradiction;
      try (destruct Vj as (Hm & Hd' & -> & Sh'); cbn [is_drain tcap ttext] in *; subst dr);
      try (apply no_log; unfold l_run_cmd, run_cmd; rewrite Ei, ?Ej; reflexivity).
    apply shows_for in Sh. apply shows_for in Sh'.
    destruct (extend_says n' m' d' s t t' w Hn Hm Sh' Sh) as (w' & E & G). exists w'. split; [|exact G].
    unfold l_run_cmd, run_cmd; cbv zeta. rewrite Ei, Ej, E. destruct (extend_chars _ _ _ _ _) as [[r d1] s1]. reflexivity.
  - (* PCollect *)
    pose proof (forall2_nth _ _ _ j F) as V.
    destruct (nth_error v j) as [[m s|m d]|] eqn:Ej; destruct (nth_error u j) as [[dr m' t]|]; try contradiction;
      try (destruct V as (Hm & Hd & -> & Sh); cbn [is_drain tcap ttext] in *; subst dr);
      try (apply no_log; unfold l_run_cmd, run_cmd; rewrite Ej; reflexivity).
    apply shows_for in Sh. destruct (from_drain_says n m' d t T Hm Sh w) as (w' & E & G). exists w'. split; [|exact G].
    unfold l_run_cmd, run_cmd, from_iter_chars; cbv zeta. rewrite Ej, E.
    destruct (from_chars_truncate _ _ _ d) as [r d1]. reflexivity.
  - (* PEq *)
    pose proof (forall2_nth _ _ _ j F) as Vj.
    destruct (nth_error v i) as [[n s|n d]|] eqn:Ei; destruct (nth_error v j) as [y|] eqn:Ej; destruct (nth_error u j) as [x|];
      try contradiction; try (apply no_log; unfold l_run_cmd, run_cmd; rewrite Ei, ?Ej; reflexivity).
    destruct (var_str_says y x Vj w) as (w1 & E1 & G1).
    destruct (says_as_str (for_cap c n) tr db s w1) as (w2 & E2 & G2).
    exists w2. split; [|exact (grew_nil tr db _ _ _ _ G1 G2)].
    unfold l_run_cmd, run_cmd, eq_str, sbind, sret; cbv zeta. rewrite Ei, Ej, E1, E2, (var_str_shows c y x Vj). cbn [obind].
    destruct (as_str (for_cap c n) s) as [b| | |]; reflexivity.
  - (* PCmp *)
    assert (X : forall n s s' w, exists w', l_ord_cmp (for_cap c n) tr record s s' w = (ord_cmp (for_cap c n) s s', w') /\ lev w [] w').
    { intros n s s'. apply says_bind; [apply says_as_str|]. intros b _. apply says_bind; [apply says_as_str|].
      intros b' _. apply says_sret. }
    destruct (nth_error v i) as [[n s|n d]|] eqn:Ei; destruct (nth_error v j) as [[m s'|m d']|] eqn:Ej;
      try (apply no_log; unfold l_run_cmd, run_cmd; rewrite Ei, ?Ej; reflexivity);
      (destruct (n =? m) eqn:Eq; [|apply no_log; unfold l_run_cmd, run_cmd; rewrite Ei, Ej, Eq; reflexivity]).
    + destruct (X n s s' w) as (w' & E & G). exists w'. split; [|exact G].
      unfold l_run_cmd, run_cmd; cbv zeta. rewrite Ei, Ej, Eq, E. reflexivity.
    + destruct (X n (drained d) (drained d') w) as (w' & E & G). exists w'. split; [|exact G].
      unfold l_run_cmd, run_cmd; cbv zeta. rewrite Ei, Ej, Eq, E. reflexivity.
  - apply no_log. unfold l_run_cmd, run_cmd. cbv zeta. destruct (nth_error v i) as [x|]; destruct (nth_error v j) as [y|]; try reflexivity.
    destruct (_ && _); reflexivity.
Qed.
End Lines.

Lemma c79_log c tr db l v u w : 65535 <= usize_max c -> Forall typed_cmd l -> world_shows c v u ->
  exists v' w', l_run_cmds c tr db record l v w = (fst (t_cmds (usize_max c) l u), v', w') /\
    world_shows c v' (snd (t_cmds (usize_max c) l u)) /\
    log_grew tr db w (program_lines (usize_max c) l u) w'.
Proof.
  intros Hu T. revert v u w; induction T as [|p l Tp T IH]; intros v u w F; cbn [l_run_cmds t_cmds program_lines].
  { exists v, w. split; [reflexivity|]. split; [exact F|apply grew_refl]. }
  destruct (cmd_says c Hu tr db p v u w Tp F) as (w1 & E1 & G1). rewrite E1.
  destruct (run_cmd_sim c Hu p v u Tp F) as [E F1]. rewrite E.
  destruct (t_cmd (usize_max c) p u) as [r u1]. cbn [fst snd] in *.
  destruct (IH _ u1 w1 F1) as (v2 & w2 & E2 & F2 & G2). rewrite E2.
  destruct (t_cmds (usize_max c) l u1) as [rs u2]. cbn [fst snd] in *.
  exists v2, w2. split; [reflexivity|]. split; [exact F2|exact (grew_trans tr db _ _ _ _ _ G1 G2)].
Qed.

Lemma c79_builds c1 c2 l : 65535 <= usize_max c1 -> usize_max c1 = usize_max c2 -> Forall typed_cmd l ->
  snd (l_run_cmds c1 false true record l [] []) = program_lines (usize_max c1) l [] /\
  snd (l_run_cmds c2 false true record l [] []) = program_lines (usize_max c1) l [].
Proof.
  intros Hu He T.
  assert (X : forall c, 65535 <= usize_max c -> snd (l_run_cmds c false true record l [] []) = program_lines (usize_max c) l []).
  { intros c H. destruct (c79_log c false true l [] [] [] H T) as (v & w & E & _ & m & -> & G & K); [constructor|].
    rewrite E. cbn [snd app]. rewrite <- G. symmetry. apply K. reflexivity. }
  split; [apply X; exact Hu|]. rewrite He. apply X. rewrite <- He. exact Hu.
Qed.
