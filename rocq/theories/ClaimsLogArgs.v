(** C71: a logger next to foreign string arguments. *)
From Verif Require Import Base Char Spec RustStd ModelError Model ModelImpl ModelDrain ListFacts Utf8Facts CoreFacts
  MethodFacts IterFacts ImplFacts Obs ObsLogs OpsFacts ClaimsOps ClaimsArgs ClaimsLogs.

Section Foreign.
Variable c : cfg.
Variables tr db : bool.
Context {W : Type}.
Variable log : event -> ST W unit.
Hypothesis Hlog : a_logger tr db log.
Variable a : ST W (list N).
Hypothesis Ha : comes_back a.

Let bad := can_panic tr db log \/ may_panic a.
Let badlen := panics_on tr db log EvLen.

(** Some answer of [a]. *)
Definition answer (b : list N) : Prop := exists w w', a w = (Ret b, w').

Lemma ask w : exists w', (exists b, a w = (Ret b, w') /\ answer b) \/ (bad /\ a w = (Panic, w')).
Proof.
  destruct (Ha w) as [H1 H2]. destruct (a w) as [o w'] eqn:E. exists w'. cbn [fst] in *.
  destruct o as [b| | |]; [left|right|congruence|congruence].
  - exists b. split; [reflexivity|]. exists w, w'. exact E.
  - split; [|reflexivity]. right. exists w. rewrite E. reflexivity.
Qed.

(** [g] comes back, with any value, or panics because the logger or [a] does. *)
Definition back {A} (g : ST W A) : Prop :=
  forall w, exists w', (exists x, g w = (Ret x, w')) \/ (bad /\ g w = (Panic, w')).

Lemma back_a : back a.
Proof. intros w. destruct (ask w) as (w' & [(b & E & _)|H]); exists w'; [left; exists b; exact E|right; exact H]. Qed.

Lemma back_reads {A} (g : ST W A) x : reads_if (can_panic tr db log) g (Ret x) -> back g.
Proof. intros H w. destruct (H w) as (w' & [E|[b E]]); exists w'; [left; exists x; exact E|right; split; [left; exact b|exact E]]. Qed.

Lemma back_bind {A D} (g : ST W A) (k : A -> ST W D) : back g -> (forall x, back (k x)) -> back (sbind g k).
Proof.
  intros H K w. destruct (H w) as (w1 & [(x & E)|[b E]]); unfold sbind; rewrite E; [exact (K x w1)|].
  exists w1. right. split; [exact b|reflexivity].
Qed.

Lemma back_ret {A} (x : A) : back (sret x).
Proof. intros w. exists w. left. exists x. reflexivity. Qed.

Lemma back_log {A} on (arg : ST W A) e : (forall x, level_on tr db (e x) = on) -> back arg -> back (log_with on log arg e).
Proof.
  intros L H. unfold log_with. destruct on; [|apply back_ret].
  apply back_bind; [exact H|]. intros x. apply (back_reads _ tt), (log_reads' tr db log Hlog), L.
Qed.

(** [g] did what [m] does with one of the answers, or panicked and left a string in [K]. *)
Definition fsim {A} (K : astring -> Prop) (g : ST (astring * W) A) (m : list N -> ST astring A) (s : astring) : Prop :=
  K s -> (forall b, answer b -> badlen -> K (torn s (snd (m b s)))) ->
  forall w, (exists b w', answer b /\ g (s, w) = (fst (m b s), (snd (m b s), w'))) \/
            (bad /\ exists s' w', g (s, w) = (Panic, (s', w')) /\ K s').

Lemma fsim_skip {A D} K (g : ST W A) (k : A -> ST (astring * W) D) m s :
  back g -> (forall x, fsim K (k x) m s) -> fsim K (sbind (on_arg g) k) m s.
Proof.
  intros H S HK HT w. unfold sbind, on_arg. cbn [fst snd].
  destruct (H w) as (w1 & [(x & E)|[b E]]); rewrite E; [exact (S x HK HT w1)|].
  right. split; [exact b|]. exists s, w1. split; [reflexivity|exact HK].
Qed.

Lemma fsim_seen {A D} K (f : astring -> ST W A) (k : A -> ST (astring * W) D) m s :
  back (f s) -> (forall x, fsim K (k x) m s) -> fsim K (sbind (seen f) k) m s.
Proof. exact (fsim_skip K (f s) k m s). Qed.

Lemma fsim_step {A D} K (f : astring -> ST W A) x (k : A -> ST (astring * W) D) m s :
  reads_if (can_panic tr db log) (f s) (Ret x) -> fsim K (k x) m s -> fsim K (sbind (seen f) k) m s.
Proof.
  intros H S HK HT w. unfold sbind, seen, on_arg. cbn [fst snd].
  destruct (H w) as (w1 & [E|[b E]]); rewrite E; [exact (S HK HT w1)|].
  right. split; [left; exact b|]. exists s, w1. split; [reflexivity|exact HK].
Qed.

(** The answer is in hand: the rest is the code without foreign arguments. *)
Lemma fsim_obs {A} K (g : ST (astring * W) A) (m : list N -> ST astring A) b s :
  answer b -> obs tr db log badlen K g (m b) s -> fsim K g m s.
Proof.
  intros Hb H HK HT w. destruct (H HK (HT b Hb) w) as [(w' & E)|(B & s' & w' & E & X)].
  - left. exists b, w'. split; [exact Hb|exact E].
  - right. split; [left; exact B|]. exists s', w'. split; [exact E|exact X].
Qed.

Lemma fsim_ask {A} K (k : list N -> ST (astring * W) A) m s :
  (forall b, answer b -> fsim K (k b) m s) -> fsim K (sbind (on_arg a) k) m s.
Proof.
  intros S HK HT w. unfold sbind, on_arg. cbn [fst snd].
  destruct (ask w) as (w1 & [(b & E & Hb)|[B E]]); rewrite E; [exact (S b Hb HK HT w1)|].
  right. split; [exact B|]. exists s, w1. split; [reflexivity|exact HK].
Qed.

Lemma fsim_map {A D} K (g : ST (astring * W) A) m (f : A -> D) s :
  fsim K g m s -> fsim K (sbind g (fun x => sret (f x))) (fun b => sbind (m b) (fun x => sret (f x))) s.
Proof.
  intros H HK HT w.
  assert (X : forall b, snd (sbind (m b) (fun x => sret (f x)) s) = snd (m b s)).
  { intros b. unfold sbind. destruct (m b s) as [[x| | |] s1]; reflexivity. }
  destruct (H HK (fun b Hb B => eq_ind _ (fun s' => K (torn s s')) (HT b Hb B) _ (X b)) w)
    as [(b & w' & Hb & E)|(B & s' & w' & E & HK')].
  - left. exists b, w'. split; [exact Hb|]. rewrite X. unfold sbind. rewrite E.
    destruct (m b s) as [[x| | |] s1]; reflexivity.
  - right. split; [exact B|]. exists s', w'. unfold sbind. rewrite E. split; [reflexivity|exact HK'].
Qed.

Lemma fsim_ext {A} K (g : ST (astring * W) A) m m' s :
  (forall b, m b s = m' b s) -> fsim K g m s -> fsim K g m' s.
Proof.
  intros E H HK HT w. destruct (H HK (fun b Hb B => eq_ind_r (fun p => K (torn s (snd p))) (HT b Hb B) (E b)) w)
    as [(b & w' & Hb & X)|X]; [|right; exact X].
  left. exists b, w'. rewrite <- E. split; [exact Hb|exact X].
Qed.

Lemma replace_fsim K lo hi s : fsim K (l_replace_range c tr db log lo hi a) (replace_range c lo hi) s.
Proof.
  unfold l_replace_range. apply fsim_ask. intros b Hb.
  apply (fsim_step K _ (end_of c hi (len s))); [exact (end_of_reads c tr db log Hlog hi s)|].
  apply fsim_seen; [|intros _; exact (fsim_obs K _ _ b s Hb (replace_rest_obs c tr db log Hlog badlen (fun H => H) K lo hi b s))].
  apply back_log; [intros [[n x] y]; reflexivity|].
  apply back_bind; [exact (back_reads _ _ (len_reads' tr db log Hlog s))|]. intros n.
  apply back_bind; [exact back_a|]. intros x. apply back_bind; [exact back_a|]. intros y. apply back_ret.
Qed.

Lemma push_fsim K s : fsim K (l_try_push_str c tr db log a) (try_push_str c) s.
Proof.
  unfold l_try_push_str. apply fsim_skip; [apply back_log; [reflexivity|exact back_a]|]. intros _.
  apply (fsim_step K _ (len s)); [exact (len_reads' tr db log Hlog s)|].
  exact (fsim_map K _ _ _ s (replace_fsim K (Included (len s)) (Excluded (len s)) s)).
Qed.

Lemma insert_fsim K i s : i <= len s -> fsim K (l_try_insert_str c tr db log i a) (try_insert_str c i) s.
Proof.
  intros L. assert (E : is_inside_boundary i (len s) = Ok tt).
  { unfold is_inside_boundary. destruct (N.leb_spec i (len s)); [reflexivity|lia]. }
  unfold l_try_insert_str. apply fsim_seen; [apply back_log; [reflexivity|exact back_a]|]. intros _.
  unfold l_try_oob, l_try. apply (fsim_step K _ (is_inside_boundary i (len s))).
  { apply (reads_skip _ _ (len s)); [exact (len_reads' tr db log Hlog s)|exact (inside_reads tr db log Hlog _ _)]. }
  rewrite E. apply (fsim_ext K _ (replace_range c (Included i) (Excluded i))); [|apply replace_fsim].
  intros b. unfold try_insert_str, stry, sbind, sread. rewrite E. reflexivity.
Qed.

Lemma fsim_room {A} K (k : list N -> ST (astring * W) A) m s :
  (forall b, answer b -> fsim K (sbind (seen (l_room_for c tr log (sret b))) k) m s) ->
  fsim K (sbind (seen (l_room_for c tr log a)) k) m s.
Proof.
  intros S HK HT w. destruct (ask w) as (w1 & [(b & E & Hb)|[B E]]).
  - assert (X : sbind (seen (l_room_for c tr log a)) k (s, w) = sbind (seen (l_room_for c tr log (sret b))) k (s, w1)).
    { unfold sbind at 1 2, seen, on_arg, l_room_for. cbn [fst snd]. unfold sbind at 1 2, sret. rewrite E. reflexivity. }
    rewrite X. exact (S b Hb HK HT w1).
  - right. split; [exact B|]. exists s, w1. split; [|exact HK].
    unfold sbind at 1, seen, on_arg, l_room_for. cbn [fst snd]. unfold sbind at 1. rewrite E. reflexivity.
Qed.

Lemma push_truncate_fsim K s : fsim K (l_push_str_truncate c tr db log a) (push_str_truncate c) s.
Proof.
  unfold l_push_str_truncate. apply fsim_skip; [apply back_log; [reflexivity|exact back_a]|]. intros _.
  apply fsim_room. intros b Hb. apply (fsim_obs K _ _ b s Hb). unfold push_str_truncate.
  apply (obs_step tr db log badlen K _ _ (n <- usub c (capacity c) (len s) ;; truncate_str c b n));
    [reflexivity|apply steps_seen, (room_reads c tr db log Hlog), reads_sret|].
  intros t _. apply obs_map, (push_str_obs c tr db log Hlog badlen (fun H => H)), reads_sret.
Qed.

Lemma insert_truncate_fsim K i s : fsim K (l_insert_str_truncate c tr db log i a) (insert_str_truncate c i) s.
Proof.
  unfold l_insert_str_truncate. apply fsim_seen; [apply back_log; [reflexivity|exact back_a]|]. intros _.
  apply fsim_room. intros b Hb. apply (fsim_obs K _ _ b s Hb). unfold insert_str_truncate.
  apply (obs_step tr db log badlen K _ _ (n <- usub c (capacity c) (len s) ;; truncate_str c b n));
    [reflexivity|apply steps_seen, (room_reads c tr db log Hlog), reads_sret|].
  intros t _. apply (obs_stry_map tr db log badlen K _ _ (fun _ => tt)), (insert_str_obs c tr db log Hlog badlen (fun H => H)), reads_sret.
Qed.

(** An index past the end: no answer is looked at. *)
Lemma insert_outside i s w : len s < i ->
  exists w', l_try_insert_str c tr db log i a (s, w) = (Ret (Err EOutOfBounds), (s, w')) \/
             bad /\ l_try_insert_str c tr db log i a (s, w) = (Panic, (s, w')).
Proof.
  intros L. assert (E : is_inside_boundary i (len s) = Err mkOutOfBounds).
  { unfold is_inside_boundary. destruct (N.leb_spec i (len s)); [lia|reflexivity]. }
  assert (R : reads_if (can_panic tr db log) (n <~ l_len tr log s ;; l_is_inside_boundary tr log i n) (Ret (is_inside_boundary i (len s)))).
  { apply (reads_skip _ _ (len s)); [exact (len_reads' tr db log Hlog s)|exact (inside_reads tr db log Hlog _ _)]. }
  assert (B1 : back (log_with tr log a (fun b => EvTryInsertStr i b s))) by (apply back_log; [reflexivity|exact back_a]).
  assert (R2 : reads_if (can_panic tr db log) (trace tr log EvFromOutOfBounds) (Ret tt)) by (apply (trace_reads tr db log Hlog); reflexivity).
  cut (exists o w', l_try_insert_str c tr db log i a (s, w) = (o, (s, w')) /\ (o = Ret (Err EOutOfBounds) \/ bad /\ o = Panic)).
  { intros (o & w' & -> & [->|[B ->]]); exists w'; [left; reflexivity|right; split; [exact B|reflexivity]]. }
  unfold l_try_insert_str, l_try_oob, l_try, seen, on_arg, sbind at 1. cbn [fst snd].
  destruct (B1 w) as (w1 & [(x & E1)|[X E1]]); rewrite E1;
    [|exists Panic, w1; split; [reflexivity|right; split; [exact X|reflexivity]]].
  unfold sbind at 1. cbn [fst snd].
  destruct (R w1) as (w2 & [E2|[X E2]]); rewrite E2;
    [|exists Panic, w2; split; [reflexivity|right; split; [left; exact X|reflexivity]]].
  rewrite E. unfold sbind at 1. cbn [fst snd].
  destruct (R2 w2) as (w3 & [E3|[X E3]]); rewrite E3; cbv beta iota;
    [exists (Ret (Err EOutOfBounds)), w3; split; [reflexivity|left; reflexivity]
    |exists Panic, w3; split; [reflexivity|right; split; [left; exact X|reflexivity]]].
Qed.

(** Constructors: a local [new()] that a panic drops. *)
Lemma local_fsim {A D} (g : ST (astring * W) A) m (k : A -> astring -> D) w :
  fsim (fun _ => True) g m (new c) ->
  (exists b w', answer b /\ g_local c g k w = (p <- run_local (m b) (new c) ;; let '(r, s) := p in Ret (k r s), w')) \/
  (bad /\ exists w', g_local c g k w = (Panic, w')).
Proof.
  intros H. destruct (H I (fun _ _ _ => I) w) as [(b & w' & Hb & E)|(B & s' & w' & E & _)]; unfold g_local; rewrite E.
  - left. exists b, w'. split; [exact Hb|]. unfold run_local.
    destruct (m b (new c)) as [[x| | |] s1]; reflexivity.
  - right. split; [exact B|]. exists w'. reflexivity.
Qed.

Lemma skip_w {A D} (g : ST W A) (k : A -> ST W D) (P : list N -> outcome D) w :
  back g ->
  (forall x w, (exists b w', answer b /\ k x w = (P b, w')) \/ (bad /\ exists w', k x w = (Panic, w'))) ->
  (exists b w', answer b /\ sbind g k w = (P b, w')) \/ (bad /\ exists w', sbind g k w = (Panic, w')).
Proof.
  intros G K. unfold sbind. destruct (G w) as (w1 & [(x & E)|[B E]]); rewrite E; [apply K|].
  right. split; [exact B|]. exists w1. reflexivity.
Qed.

Lemma try_from_str_fsim w :
  (exists b w', answer b /\ l_try_from_str c tr db log a w = (try_from_str c b, w')) \/
  (bad /\ exists w', l_try_from_str c tr db log a w = (Panic, w')).
Proof.
  apply skip_w; [apply back_log; [reflexivity|exact back_a]|]. intros _ w1.
  exact (local_fsim _ _ (fun r s => map_ok (fun _ => s) r) w1 (push_fsim _ (new c))).
Qed.

Lemma from_str_truncate_fsim w :
  (exists b w', answer b /\ l_from_str_truncate c tr db log a w = (from_str_truncate c b, w')) \/
  (bad /\ exists w', l_from_str_truncate c tr db log a w = (Panic, w')).
Proof.
  apply skip_w; [apply back_log; [reflexivity|exact back_a]|]. intros _ w1.
  exact (local_fsim _ _ (fun _ s => s) w1 (push_truncate_fsim _ (new c))).
Qed.

Definition edit (k : str_call) (b : list N) : ST astring out :=
  match k with
  | KPush => to_out ROob (try_push_str c b)
  | KPushTruncate => to_out (fun _ => RUnit) (push_str_truncate c b)
  | KInsert i => to_out RErr (try_insert_str c i b)
  | KInsertTruncate i => to_out RErr (insert_str_truncate c i b)
  | KReplace lo hi => to_out RErr (replace_range c lo hi b)
  end.

Lemma call_fsim K k s : asks k s -> fsim K (l_str_call c tr db log k a) (edit k) s.
Proof.
  intros Hk. destruct k as [| |i|i|lo hi]; cbn [asks] in Hk; unfold l_str_call, edit, l_out, to_out; apply fsim_map.
  - apply push_fsim.
  - apply push_truncate_fsim.
  - apply insert_fsim. exact Hk.
  - apply insert_truncate_fsim.
  - apply replace_fsim.
Qed.
End Foreign.

Lemma run_edit c k u s : run_op c (call_op k u) s = edit c k (enc u) s.
Proof. destruct k; reflexivity. Qed.

Lemma str_answers {W} (a : ST W (list N)) b : str_arg a -> answer a b -> exists u, b = enc u /\ may_answer a u.
Proof.
  intros [_ H] (w & w' & E). destruct (H w b w' E) as (u & ->). exists u. split; [reflexivity|]. exists w, w'. exact E.
Qed.

Lemma c71_args : forall (c : cfg) (tr db : bool) (W : Type) (log : event -> ST W unit) (a : ST W (list N)) (k : str_call)
    (s : astring) (w : W),
  a_logger tr db log -> str_arg a -> asks k s ->
  (exists u, may_answer a u /\ as_without (l_str_call c tr db log k a) (run_op c (call_op k u)) s w) \/
  ((can_panic tr db log \/ may_panic a) /\ panicked (l_str_call c tr db log k a) s w s) \/
  (panics_on tr db log EvLen /\ exists u, may_answer a u /\
   panicked (l_str_call c tr db log k a) s w (torn s (snd (run_op c (call_op k u) s)))).
Proof.
  intros c tr db W log a k s w Hlog Ha Hk.
  set (K := fun s' => s' = s \/ panics_on tr db log EvLen /\ exists b, answer a b /\ s' = torn s (snd (edit c k b s))).
  destruct (call_fsim c tr db log Hlog a (proj1 Ha) K k s Hk) with (w := w) as [(b & w' & Hb & E)|(B & s' & w' & E & HK)].
  - left. reflexivity.
  - intros b Hb B. right. split; [exact B|]. exists b. split; [exact Hb|reflexivity].
  - destruct (str_answers a b Ha Hb) as (u & -> & Hu). left. exists u. split; [exact Hu|]. exists w'.
    rewrite run_edit. exact E.
  - destruct HK as [->|(BL & b & Hb & ->)].
    + right. left. split; [exact B|]. exists w'. exact E.
    + destruct (str_answers a b Ha Hb) as (u & -> & Hu). right. right. split; [exact BL|]. exists u. split; [exact Hu|].
      exists w'. rewrite run_edit. exact E.
Qed.

Lemma c71_args_index : forall (c : cfg) (tr db : bool) (W : Type) (log : event -> ST W unit) (a : ST W (list N)) (i : N)
    (s : astring) (w : W),
  a_logger tr db log -> str_arg a -> len s < i ->
  exists w', l_str_call c tr db log (KInsert i) a (s, w) = (Ret (RErr (Err EOutOfBounds)), (s, w')) \/
    (can_panic tr db log \/ may_panic a) /\ l_str_call c tr db log (KInsert i) a (s, w) = (Panic, (s, w')).
Proof.
  intros c tr db W log a i s w Hlog Ha L.
  destruct (insert_outside c tr db log Hlog a (proj1 Ha) i s w L) as (w' & [E|[B E]]); exists w'; unfold l_str_call, l_out, sbind; rewrite E.
  - left. reflexivity.
  - right. split; [exact B|reflexivity].
Qed.

Lemma c71_args_build : forall (c : cfg) (tr db : bool) (W : Type) (log : event -> ST W unit) (a : ST W (list N)) (w : W),
  a_logger tr db log -> str_arg a ->
  ((exists u w', may_answer a u /\ l_try_from_str c tr db log a w = (try_from_str c (enc u), w')) \/
   (can_panic tr db log \/ may_panic a) /\ exists w', l_try_from_str c tr db log a w = (Panic, w')) /\
  ((exists u w', may_answer a u /\ l_from_str_truncate c tr db log a w = (from_str_truncate c (enc u), w')) \/
   (can_panic tr db log \/ may_panic a) /\ exists w', l_from_str_truncate c tr db log a w = (Panic, w')).
Proof.
  intros c tr db W log a w Hlog Ha. split.
  - destruct (try_from_str_fsim c tr db log Hlog a (proj1 Ha) w) as [(b & w' & Hb & E)|X]; [left|right; exact X].
    destruct (str_answers a b Ha Hb) as (u & -> & Hu). exists u, w'. split; [exact Hu|exact E].
  - destruct (from_str_truncate_fsim c tr db log Hlog a (proj1 Ha) w) as [(b & w' & Hb & E)|X]; [left|right; exact X].
    destruct (str_answers a b Ha Hb) as (u & -> & Hu). exists u, w'. split; [exact Hu|exact E].
Qed.
