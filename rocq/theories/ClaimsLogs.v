(** C71: the feature [logs] with an arbitrary logger. *)
From Coq Require Import ZArith ZifyBool ZifyN ZifyNat Arith.
From Verif Require Import Base Char Spec RustStd ModelError Model ModelImpl ModelDrain ListFacts Utf8Facts CoreFacts
  MethodFacts IterFacts ImplFacts Obs ObsLogs OpsFacts ClaimsOps ClaimsArgs.

Section Rel.
Variable c : cfg.
Variables tr db : bool.
Context {W : Type}.
Variable log : event -> ST W unit.
Hypothesis Hlog : a_logger tr db log.

Let bad := can_panic tr db log.
Let badlen := panics_on tr db log EvLen.

(** What is known when the logger panicked on a [len()] between a write and the
    update of the size. *)
Variable BL : Prop.
Hypothesis HBL : badlen -> BL.

(** ** Code that does not touch a string *)

(** [g] has the outcome [o], or panics because the logger does ([B]). *)
Definition reads_if {A} (B : Prop) (g : ST W A) (o : outcome A) : Prop :=
  forall w, exists w', g w = (o, w') \/ (B /\ g w = (Panic, w')).
Notation reads := (reads_if bad).

Lemma badlen_bad : badlen -> bad.
Proof. intros H. exists EvLen. exact H. Qed.

Lemma reads_weaken {A} (B B' : Prop) (g : ST W A) o : (B -> B') -> reads_if B g o -> reads_if B' g o.
Proof. intros H R w. destruct (R w) as (w' & [E|[b E]]); exists w'; [left|right]; auto. Qed.

Lemma reads_sret {A} B (a : A) : reads_if B (sret a) (Ret a).
Proof. intros w. exists w. left. reflexivity. Qed.

Lemma reads_slift {A} B (o : outcome A) : reads_if B (slift o) o.
Proof. intros w. exists w. left. unfold slift. destruct o; reflexivity. Qed.

Lemma reads_bind {A D} B (g : ST W A) (o : outcome A) (k : A -> ST W D) (k' : A -> outcome D) :
  reads_if B g o -> (forall a, o = Ret a -> reads_if B (k a) (k' a)) ->
  reads_if B (sbind g k) (obind o k').
Proof.
  intros H K w. destruct (H w) as (w1 & [E|[b E]]); unfold sbind; rewrite E.
  - destruct o as [a| | |]; cbn [obind]; [exact (K a eq_refl w1)|exists w1; left; reflexivity..].
  - exists w1. right. split; [exact b|reflexivity].
Qed.

Lemma reads_skip {A D} B (g : ST W A) a (k : A -> ST W D) o :
  reads_if B g (Ret a) -> reads_if B (k a) o -> reads_if B (sbind g k) o.
Proof. intros H K. apply (reads_bind B g (Ret a) k (fun _ => o) H). intros x [= <-]. exact K. Qed.

Lemma log_reads e : level_on tr db e = true -> reads_if (panics_on tr db log e) (log e) (Ret tt).
Proof.
  intros L w. destruct (Hlog e L w) as [H1 H2]. destruct (log e w) as [o w'] eqn:E. exists w'.
  cbn [fst] in *. destruct o as [[]| | |]; [left; reflexivity| |congruence|congruence].
  right. split; [|reflexivity]. split; [exact L|]. exists w. rewrite E. reflexivity.
Qed.

Lemma log_reads' e : level_on tr db e = true -> reads (log e) (Ret tt).
Proof. intros L. apply (reads_weaken _ _ _ _ (fun H => ex_intro _ e H)), log_reads, L. Qed.

Lemma at_level_reads (on : bool) e : level_on tr db e = on -> reads (if on then log e else sret tt) (Ret tt).
Proof. destruct on; intros L; [apply log_reads', L|apply reads_sret]. Qed.
Lemma trace_reads e : level_on tr db e = tr -> reads (trace tr log e) (Ret tt).
Proof. exact (at_level_reads tr e). Qed.
Lemma dbg_reads e : level_on tr db e = db -> reads (dbg db log e) (Ret tt).
Proof. exact (at_level_reads db e). Qed.

Lemma log_with_reads {A} on (arg : ST W A) a e : level_on tr db (e a) = on -> reads arg (Ret a) ->
  reads (log_with on log arg e) (Ret tt).
Proof.
  intros L H. unfold log_with. destruct on; [|apply reads_sret].
  apply (reads_skip _ _ a); [exact H|apply log_reads', L].
Qed.


Lemma len_reads s : reads_if badlen (l_len tr log s) (Ret (len s)).
Proof.
  unfold l_len. apply (reads_skip _ _ tt); [|apply reads_sret].
  pose proof (log_reads EvLen) as H. fold badlen in H. cbn [level_on] in H. unfold trace.
  destruct (Bool.bool_dec tr true) as [E|E]; [rewrite E; exact (H E)|].
  apply Bool.not_true_is_false in E. rewrite E. apply reads_sret.
Qed.
Lemma len_reads' s : reads (l_len tr log s) (Ret (len s)).
Proof. exact (reads_weaken _ _ _ _ badlen_bad (len_reads s)). Qed.

Lemma assert_reads (m : ST W bool) o : reads m o -> reads (l_assert c m) (debug_assert c o).
Proof.
  intros H. unfold l_assert, debug_assert. destruct (debug c); [|apply reads_sret].
  apply reads_bind; [exact H|]. intros a _. apply reads_slift.
Qed.

Lemma as_ref_bytes_reads s : reads (l_as_ref_bytes c tr log s) (as_ref_bytes c s).
Proof.
  unfold l_as_ref_bytes, as_ref_bytes. apply reads_bind.
  - apply assert_reads. apply (reads_skip _ _ (len s)); [apply len_reads'|apply reads_sret].
  - intros _ _. apply (reads_skip _ _ (len s)); [apply len_reads'|apply reads_slift].
Qed.

Lemma as_ref_str_reads s : reads (l_as_ref_str c tr log s) (as_ref_str c s).
Proof.
  unfold l_as_ref_str, as_ref_str. apply reads_bind.
  - apply assert_reads. apply reads_bind; [apply as_ref_bytes_reads|intros; apply reads_sret].
  - intros _ _. apply reads_bind; [apply as_ref_bytes_reads|intros; apply reads_slift].
Qed.

Lemma as_str_reads s : reads (l_as_str c tr log s) (as_str c s).
Proof. apply (reads_skip _ _ tt); [apply trace_reads; reflexivity|apply as_ref_str_reads]. Qed.

Lemma as_mut_reads s : reads (l_as_mut c tr log s) (fst (as_mut c s)).
Proof.
  unfold l_as_mut, as_mut, sread. cbn [fst]. apply (reads_skip _ _ (len s)); [apply len_reads'|].
  apply reads_bind; [apply reads_slift|]. intros _ _.
  apply reads_bind; [apply reads_slift|]. intros b _.
  apply reads_bind; [apply reads_slift|]. intros _ _. apply reads_slift.
Qed.

Lemma as_mut_str_reads s : reads (l_as_mut_str c tr log s) (fst (as_mut_str c s)).
Proof. apply (reads_skip _ _ tt); [apply trace_reads; reflexivity|apply as_mut_reads]. Qed.

Lemma inside_reads a b : reads (l_is_inside_boundary tr log a b) (Ret (is_inside_boundary a b)).
Proof. apply (reads_skip _ _ tt); [apply trace_reads; reflexivity|apply reads_sret]. Qed.

(** The argument runs in the log and again afterwards. *)
Lemma log_with_again {A D} on (arg : ST W A) (o : outcome A) e (k : unit -> ST W D) (f : A -> outcome D) :
  (forall a, level_on tr db (e a) = on) -> reads arg o -> reads (k tt) (obind o f) -> reads (sbind (log_with on log arg e) k) (obind o f).
Proof.
  intros L H K. unfold log_with. destruct on; [|apply (reads_skip _ _ tt); [apply reads_sret|exact K]].
  destruct o as [a| | |].
  - apply (reads_skip _ _ tt); [|exact K]. apply (reads_skip _ _ a); [exact H|apply log_reads', L].
  - intros w. destruct (H w) as (w1 & [F|[b F]]); exists w1; unfold sbind; rewrite F; auto.
  - intros w. destruct (H w) as (w1 & [F|[b F]]); exists w1; unfold sbind; rewrite F; auto.
  - intros w. destruct (H w) as (w1 & [F|[b F]]); exists w1; unfold sbind; rewrite F; auto.
Qed.

Lemma boundary_reads s i : reads (l_is_char_boundary c tr log s i) (is_char_boundary c s i).
Proof.
  unfold l_is_char_boundary, is_char_boundary. apply log_with_again; [reflexivity|apply as_str_reads|].
  apply reads_bind; [apply as_str_reads|intros; apply reads_sret].
Qed.

Lemma truncate_str_reads b n : reads (l_truncate_str c tr log b n) (truncate_str c b n).
Proof. apply (reads_skip _ _ tt); [apply trace_reads; reflexivity|apply reads_slift]. Qed.

Lemma end_of_reads hi s : reads (l_end_of c tr log hi s) (Ret (end_of c hi (len s))).
Proof. destruct hi; [apply reads_sret..|apply len_reads']. Qed.

Lemma new_len_reads n a b s : reads_if badlen (l_new_len c tr log n a b s)
  (x <- uadd c (len s) n ;; y <- uadd c x a ;; usub c y b).
Proof. apply (reads_skip _ _ (len s)); [apply len_reads|apply reads_slift]. Qed.

Lemma room_reads string b s : reads string (Ret b) ->
  reads (l_room_for c tr log string s) (n <- usub c (capacity c) (len s) ;; truncate_str c b n).
Proof.
  intros H. apply (reads_skip _ _ b); [exact H|].
  apply (reads_skip _ _ (len s)); [apply len_reads'|].
  apply reads_bind; [apply reads_slift|]. intros n _. apply truncate_str_reads.
Qed.

Lemma next_boundary_reads fuel s e : reads (l_next_boundary c tr log fuel s e) (next_boundary c fuel s e).
Proof.
  revert e; induction fuel as [|fuel IH]; intros e; cbn [l_next_boundary next_boundary]; [apply reads_slift|].
  apply reads_bind; [apply as_str_reads|]. intros b _. destruct (str_is_char_boundary b e); [apply reads_sret|].
  apply reads_bind; [apply reads_slift|]. intros e' _. apply IH.
Qed.

(** ** Code that holds [&mut self] *)

(** [g] leaves the string [s] alone and has the outcome [o], or the logger panics. *)
Definition steps_if {A} (B : Prop) (g : ST (astring * W) A) (s : astring) (o : outcome A) : Prop :=
  forall w, exists w', g (s, w) = (o, (s, w')) \/ (B /\ g (s, w) = (Panic, (s, w'))).
Notation steps := (steps_if bad).

Lemma steps_arg {A} B (a : ST W A) s o : reads_if B a o -> steps_if B (on_arg a) s o.
Proof.
  intros H w. destruct (H w) as (w' & [E|[b E]]); exists w'; [left|right; split; [exact b|]];
    apply on_arg_eq; exact E.
Qed.

Lemma steps_seen {A} B (f : astring -> ST W A) s o : reads_if B (f s) o -> steps_if B (seen f) s o.
Proof. exact (steps_arg B (f s) s o). Qed.

Lemma steps_slift {A} B (o : outcome A) s : steps_if B (slift o) s o.
Proof. intros w. exists w. left. reflexivity. Qed.

Lemma steps_sret {A} B (a : A) s : steps_if B (sret a) s (Ret a).
Proof. intros w. exists w. left. reflexivity. Qed.

(** [g] on [s] does what [p] does, or the logger panics and the string is then one of
    those in [K]. [K] has to contain [s] and, if the logger can panic on [len()], the
    torn string. *)
Definition sim {A} (K : astring -> Prop) (g : ST (astring * W) A) (p : ST astring A) (s : astring) : Prop :=
  forall w, (exists w', g (s, w) = (fst (p s), (snd (p s), w'))) \/
            (bad /\ exists s' w', g (s, w) = (Panic, (s', w')) /\ K s').
Definition obs {A} (K : astring -> Prop) (g : ST (astring * W) A) (p : ST astring A) (s : astring) : Prop :=
  K s -> (BL -> K (torn s (snd (p s)))) -> sim K g p s.

Lemma sim_skip {A D} (K : astring -> Prop) (g : ST (astring * W) A) a (k : A -> ST (astring * W) D) p s :
  K s -> steps g s (Ret a) -> sim K (k a) p s -> sim K (sbind g k) p s.
Proof.
  intros HK H S w. destruct (H w) as (w1 & [E|[b E]]); unfold sbind; rewrite E; [exact (S w1)|].
  right. split; [exact b|]. exists s, w1. split; [reflexivity|exact HK].
Qed.

Lemma sim_step {A D} (K : astring -> Prop) (g : ST (astring * W) A) (m : ST astring A) o
    (k : A -> ST (astring * W) D) (k' : A -> ST astring D) s :
  K s -> m s = (o, s) -> steps g s o -> (forall a, o = Ret a -> sim K (k a) (k' a) s) ->
  sim K (sbind g k) (sbind m k') s.
Proof.
  intros HK E H S w. unfold sbind at 2 3. rewrite E.
  destruct (H w) as (w1 & [F|[b F]]); unfold sbind; rewrite F.
  - destruct o as [a| | |].
    + exact (S a eq_refl w1).
    + left. exists w1. reflexivity.
    + left. exists w1. reflexivity.
    + left. exists w1. reflexivity.
  - right. split; [exact b|]. exists s, w1. split; [reflexivity|exact HK].
Qed.

Lemma obs_skip {A D} K (g : ST (astring * W) A) a (k : A -> ST (astring * W) D) p s :
  steps g s (Ret a) -> obs K (k a) p s -> obs K (sbind g k) p s.
Proof. intros H S HK HT. apply (sim_skip K g a); [exact HK|exact H|exact (S HK HT)]. Qed.

Lemma obs_step {A D} K (g : ST (astring * W) A) (m : ST astring A) o
    (k : A -> ST (astring * W) D) (k' : A -> ST astring D) s :
  m s = (o, s) -> steps g s o -> (forall a, o = Ret a -> obs K (k a) (k' a) s) ->
  obs K (sbind g k) (sbind m k') s.
Proof.
  intros E H S HK HT. apply (sim_step K g m o); [exact HK|exact E|exact H|].
  intros a ->. apply (S a eq_refl HK). intros b. specialize (HT b). unfold sbind in HT. rewrite E in HT. exact HT.
Qed.

(** [?] with and without a log in the conversion. *)
Lemma obs_try {A D E F} K ev (conv : E -> F) (g : ST (astring * W) (result A E)) m o
    (k : A -> ST (astring * W) (result D F)) k' s :
  level_on tr db ev = tr ->
  m s = (o, s) -> steps g s o -> (forall a, o = Ret (Ok a) -> obs K (k a) (k' a) s) ->
  obs K (l_try tr log ev conv g k) (stry conv m k') s.
Proof.
  intros L Em H S. unfold l_try, stry. apply (obs_step K g m o _ _ s Em H). intros [a|e] ->.
  - apply S. reflexivity.
  - apply (obs_skip K (on_arg (trace tr log ev)) tt); [apply steps_arg, trace_reads, L|].
    intros HK HT w. left. exists w. reflexivity.
Qed.

Lemma obs_stry {A D E F} K (conv : E -> F) (g : ST (astring * W) (result A E)) m o
    (k : A -> ST (astring * W) (result D F)) k' s :
  m s = (o, s) -> steps g s o -> (forall a, o = Ret (Ok a) -> obs K (k a) (k' a) s) ->
  obs K (stry conv g k) (stry conv m k') s.
Proof.
  intros Em H S. unfold stry. apply (obs_step K g m o _ _ s Em H). intros [a|e] ->.
  - apply S. reflexivity.
  - intros HK HT w. left. exists w. reflexivity.
Qed.

Lemma obs_pure {A} K (r : A) s : obs K (sret r) (sret r) s.
Proof. intros _ _ w. left. exists w. reflexivity. Qed.
Lemma obs_self {A} K (m : ST astring A) s : obs K (on_self m) m s.
Proof.
  intros _ _ w. left. exists w. unfold on_self. cbn [fst snd]. destruct (m s) as [o s']. reflexivity.
Qed.

(** What follows without touching anything. *)
Lemma obs_then {A D} K (g : ST (astring * W) A) m (f : A -> outcome D) s :
  obs K g m s -> obs K (sbind g (fun a => slift (f a))) (sbind m (fun a => slift (f a))) s.
Proof.
  intros H HK HT w.
  assert (X : snd (sbind m (fun a => slift (f a)) s) = snd (m s)).
  { unfold sbind. destruct (m s) as [[a| | |] s1]; reflexivity. }
  rewrite X in HT |- *.
  destruct (H HK HT w) as [(w' & E)|(b & s' & w' & E & HK')]; unfold sbind; rewrite E.
  - left. exists w'. destruct (m s) as [[a| | |] s1]; reflexivity.
  - right. split; [exact b|]. exists s', w'. split; [reflexivity|exact HK'].
Qed.

Lemma obs_ext {A} K (g g' : ST (astring * W) A) m m' s :
  (forall x, g x = g' x) -> m s = m' s -> obs K g m s -> obs K g' m' s.
Proof. intros E1 E2 H HK HT w. rewrite <- E2 in *. rewrite <- E1. exact (H HK HT w). Qed.

Lemma obs_map {A D} K (g : ST (astring * W) A) m (f : A -> D) s :
  obs K g m s -> obs K (sbind g (fun a => sret (f a))) (sbind m (fun a => sret (f a))) s.
Proof. exact (obs_then K g m (fun a => Ret (f a)) s). Qed.

Lemma obs_stry_map {A D E} K (g : ST (astring * W) (result A E)) m (f : A -> D) s :
  obs K g m s -> obs K (stry (fun e => e) g (fun a => sret (Ok (f a)))) (stry (fun e => e) m (fun a => sret (Ok (f a)))) s.
Proof.
  intros H.
  pose proof (obs_map K g m (fun r => match r with Ok a => Ok (f a) | Err e => Err e end) s H) as X.
  refine (obs_ext K _ _ _ _ s _ _ X).
  - intros x. unfold stry, sbind. destruct (g x) as [[[a|e]| | |] y]; reflexivity.
  - unfold stry, sbind. destruct (m s) as [[[a|e]| | |] y]; reflexivity.
Qed.

(** Code without logs. *)
Lemma sim_calm {A D} K (g : ST (astring * W) A) m (k : A -> ST (astring * W) D) k' s :
  (forall w, g (s, w) = (fst (m s), (snd (m s), w))) ->
  (forall a s', m s = (Ret a, s') -> sim K (k a) (k' a) s') -> sim K (sbind g k) (sbind m k') s.
Proof.
  intros H S w. unfold sbind. rewrite H. destruct (m s) as [[a| | |] s'] eqn:E; cbn [fst snd].
  - exact (S a s' eq_refl w).
  - left. exists w. reflexivity.
  - left. exists w. reflexivity.
  - left. exists w. reflexivity.
Qed.

Lemma sim_bind {A D} K (g : ST (astring * W) A) m (k : A -> ST (astring * W) D) k' s :
  sim K g m s -> (forall a s1, m s = (Ret a, s1) -> sim K (k a) (k' a) s1) -> sim K (sbind g k) (sbind m k') s.
Proof.
  intros H S w. unfold sbind. destruct (H w) as [(w1 & E)|(b & s1 & w1 & E & X)]; rewrite E.
  - destruct (m s) as [[a| | |] s1]; cbn [fst snd]; [exact (S a s1 eq_refl w1)|left; exists w1; reflexivity..].
  - right. split; [exact b|]. exists s1, w1. split; [reflexivity|exact X].
Qed.

(** ** replace_range *)

(** Its last line: the new length is computed after the bytes were written. *)
Lemma tail_sim (K : astring -> Prop) n a b s : (BL -> K s) ->
  sim K (n <~ seen (l_new_len c tr log n a b) ;; _ <~ on_self (set_size (into_lossy n)) ;; sret (@Ok unit Error tt))
    (n <~ sread (fun s => x <- uadd c (len s) n ;; y <- uadd c x a ;; usub c y b) ;;
     _ <~ set_size (into_lossy n) ;; sret (Ok tt)) s.
Proof.
  intros HK w. destruct (steps_seen badlen _ s _ (new_len_reads n a b s) w) as (w1 & [E|[B E]]).
  - left. exists w1. unfold sbind at 1. rewrite E. unfold sbind at 2 4, sread.
    destruct (x <- uadd c (len s) n;; y <- uadd c x a;; usub c y b); reflexivity.
  - right. split; [exact (badlen_bad B)|]. exists s, w1. unfold sbind at 1. rewrite E.
    split; [reflexivity|exact (HK (HBL B))].
Qed.

Lemma tail_arr n a b s s' : 
  snd ((n <~ sread (fun s => x <- uadd c (len s) n ;; y <- uadd c x a ;; usub c y b) ;;
     _ <~ set_size (into_lossy n) ;; sret (@Ok unit Error tt)) s) = s' -> arr s' = arr s.
Proof.
  intros <-. unfold sbind at 1, sread. destruct (x <- uadd c (len s) n;; y <- uadd c x a;; usub c y b); reflexivity.
Qed.

Lemma try_of {D} (f : astring -> outcome N) lim (k : unit -> ST astring (result D Error)) s :
  stry from_oob (sread (fun s => n <- f s ;; Ret (is_inside_boundary n lim))) k s =
  sbind (sread f) (fun n => stry from_oob (sret (is_inside_boundary n lim)) k) s.
Proof. unfold stry, sbind, sread. destruct (f s); reflexivity. Qed.

(** [replace_range] after its log. *)
Definition replace_rest (lo : bound) (str : list N) (end_ : N) : ST (astring * W) (result unit Error) :=
  let start := start_of c lo in
  if (start =? end_) && (lenN str =? 0) then sret (Ok tt)
  else
    l_try_oob tr log (on_arg (l_is_inside_boundary tr log start end_)) (fun _ =>
    l_try_oob tr log (seen (fun s => n <~ l_len tr log s ;; l_is_inside_boundary tr log end_ n)) (fun _ =>
    l_try_oob tr log (on_arg (l_is_inside_boundary tr log (lenN str) (capacity c))) (fun _ =>
    l_try_utf8 tr log (seen (fun s => l_is_char_boundary c tr log s start)) (fun _ =>
    l_try_utf8 tr log (seen (fun s => l_is_char_boundary c tr log s end_)) (fun _ =>
    l_try_oob tr log (seen (fun s => n <~ l_new_len c tr log (lenN str) start end_ s ;;
                              l_is_inside_boundary tr log n (capacity c))) (fun _ =>
    cut_start <~ slift (ptr_add (cap c) 0 start) ;;
    cut_end <~ slift (ptr_add (cap c) 0 end_) ;;
    str_end <~ slift (ptr_add (cap c) cut_start (lenN str)) ;;
    _ <~ (if negb (cut_end =? str_end) then
            a <~ seen (fun s => l <~ l_len tr log s ;;
                   slift (n <- usub c l end_ ;; ptr_copy (arr s) cut_end str_end n)) ;;
            on_self (set_arr a)
          else sret tt) ;;
    _ <~ (if negb (lenN str =? 0) then
            a <~ seen (fun s => slift (ptr_copy_from (arr s) str cut_start (lenN str))) ;;
            on_self (set_arr a)
          else sret tt) ;;
    n <~ seen (l_new_len c tr log (lenN str) start end_) ;;
    _ <~ on_self (set_size (into_lossy n)) ;;
    sret (Ok tt))))))).

Lemma replace_rest_obs K lo hi b s :
  obs K (replace_rest lo b (end_of c hi (len s))) (replace_range c lo hi b) s.
Proof.
  unfold replace_rest.
  set (start := start_of c lo). set (end_ := end_of c hi (len s)).
  unfold replace_range. fold start. fold end_.
  refine (obs_ext K _ _ (if (start =? end_) && (lenN b =? 0) then _ else _) _ s (fun _ => eq_refl) _ _); [reflexivity|].
  destruct ((start =? end_) && (lenN b =? 0)); [apply obs_pure|].
  apply (obs_try K _ _ _ _ (Ret (is_inside_boundary start end_))); [reflexivity|reflexivity|apply steps_arg, inside_reads|].
  intros _ _.
  apply (obs_try K _ _ _ _ (Ret (is_inside_boundary end_ (len s)))); [reflexivity|reflexivity|apply steps_seen|].
  { apply (reads_skip _ _ (len s)); [apply len_reads'|apply inside_reads]. }
  intros _ _.
  apply (obs_try K _ _ _ _ (Ret (is_inside_boundary (lenN b) (capacity c)))); [reflexivity|reflexivity|apply steps_arg, inside_reads|].
  intros _ _.
  apply (obs_try K _ _ _ _ (is_char_boundary c s start)); [reflexivity|reflexivity|apply steps_seen, boundary_reads|].
  intros _ _.
  apply (obs_try K _ _ _ _ (is_char_boundary c s end_)); [reflexivity|reflexivity|apply steps_seen, boundary_reads|].
  intros _ _.
  refine (obs_ext K _ _ (stry from_oob (sread (fun s => n <- (x <- uadd c (len s) (lenN b) ;; y <- uadd c x start ;; usub c y end_) ;;
    Ret (is_inside_boundary n (capacity c)))) _) _ s (fun _ => eq_refl) _ _).
  { exact (try_of (fun s => x <- uadd c (len s) (lenN b) ;; y <- uadd c x start ;; usub c y end_) (capacity c) _ s). }
  apply (obs_try K _ _ _ _ (n <- (x <- uadd c (len s) (lenN b) ;; y <- uadd c x start ;; usub c y end_) ;;
    Ret (is_inside_boundary n (capacity c)))); [reflexivity|reflexivity|apply steps_seen|].
  { apply reads_bind; [exact (reads_weaken _ _ _ _ badlen_bad (new_len_reads _ _ _ _))|intros n _; apply inside_reads]. }
  intros _ _.
  apply (obs_step K _ _ (ptr_add (cap c) 0 start)); [reflexivity|apply steps_slift|]. intros cut_start _.
  apply (obs_step K _ _ (ptr_add (cap c) 0 end_)); [reflexivity|apply steps_slift|]. intros cut_end _.
  apply (obs_step K _ _ (ptr_add (cap c) cut_start (lenN b))); [reflexivity|apply steps_slift|]. intros str_end _.
  intros HK HT. fold end_ in HT |- *. fold start in HT |- *.
  set (wr := if negb (lenN b =? 0) then
               a <~ sread (fun s => ptr_copy_from (arr s) b cut_start (lenN b)) ;; set_arr a
             else sret tt) in *.
  assert (W1 : forall s1, size s1 = size s -> size (snd (wr s1)) = size s).
  { intros s1 E. unfold wr. destruct (negb (lenN b =? 0)); [|exact E].
    unfold sbind, sread. destruct (ptr_copy_from (arr s1) b cut_start (lenN b)); exact E. }
  assert (W2 : forall s1 (w : W), (if negb (lenN b =? 0) then
            a <~ seen (fun s => slift (ptr_copy_from (arr s) b cut_start (lenN b))) ;;
            on_self (set_arr a)
          else sret tt) (s1, w) = (fst (wr s1), (snd (wr s1), w))).
  { intros s1 w. unfold wr. destruct (negb (lenN b =? 0)); [|reflexivity].
    unfold sbind, sread, seen, on_arg, slift. cbn [fst snd].
    destruct (ptr_copy_from (arr s1) b cut_start (lenN b)); reflexivity. }
  match goal with |- sim K (sbind ?g ?k) (sbind ?m ?k') s =>
    assert (Rest : forall s1, size s1 = size s -> (BL -> K (torn s (snd (k' tt s1)))) -> sim K (k tt) (k' tt) s1)
  end.
  { intros s1 E1 HT1. apply sim_calm; [exact (W2 s1)|]. intros [] s2 E2. apply tail_sim. intros B.
    specialize (HT1 B). cbv beta in HT1. unfold sbind at 1 in HT1. rewrite E2 in HT1.
    replace s2 with (torn s (snd ((n <~ sread (fun s => x <- uadd c (len s) (lenN b) ;; y <- uadd c x start ;; usub c y end_) ;;
       _ <~ set_size (into_lossy n) ;; sret (@Ok unit Error tt)) s2))); [exact HT1|].
    unfold torn. rewrite (tail_arr _ _ _ s2 _ eq_refl). specialize (W1 s1 E1). rewrite E2 in W1. cbn [snd] in W1.
    rewrite <- W1. destruct s2; reflexivity. }
  destruct (negb (cut_end =? str_end)).
  2:{ apply sim_calm; [intros w; reflexivity|]. intros [] s1 [= <-]. apply Rest; [reflexivity|].
      intros B. exact (HT B). }
  intros w.
  destruct (steps_seen bad (fun s => l <~ l_len tr log s ;;
                   slift (n <- usub c l end_ ;; ptr_copy (arr s) cut_end str_end n)) s
              (n <- usub c (len s) end_ ;; ptr_copy (arr s) cut_end str_end n)
              (reads_skip _ _ (len s) _ _ (len_reads' s) (reads_slift _ _)) w) as (w1 & [E|[B E]]).
  - destruct (n <- usub c (len s) end_ ;; ptr_copy (arr s) cut_end str_end n) as [a| | |] eqn:Ec.
    + rewrite (bind_eq (a <~ seen _ ;; on_self (set_arr a)) _ (s, w) tt (mkastring a (size s), w1))
        by (rewrite (bind_eq _ _ _ _ _ E); reflexivity).
      specialize (Rest (mkastring a (size s)) eq_refl).
      assert (X : forall B k', sbind (a <~ sread (fun s => n <- usub c (len s) end_ ;; ptr_copy (arr s) cut_end str_end n) ;; set_arr a) k' s
               = (k' tt (mkastring a (size s)) : outcome B * astring)).
      { intros B k'. unfold sbind, sread. rewrite Ec. reflexivity. }
      rewrite X in HT |- *. exact (Rest HT w1).
    + left. exists w1. unfold sbind at 1 2. rewrite E. unfold sbind, sread. rewrite Ec. reflexivity.
    + left. exists w1. unfold sbind at 1 2. rewrite E. unfold sbind, sread. rewrite Ec. reflexivity.
    + left. exists w1. unfold sbind at 1 2. rewrite E. unfold sbind, sread. rewrite Ec. reflexivity.
  - right. split; [exact B|]. exists s, w1. unfold sbind at 1 2. rewrite E. split; [reflexivity|exact HK].
Qed.

Lemma replace_obs K lo hi with_ b s : reads with_ (Ret b) ->
  obs K (l_replace_range c tr db log lo hi with_) (replace_range c lo hi b) s.
Proof.
  intros Hw. unfold l_replace_range.
  apply (obs_skip K _ b); [apply steps_arg; exact Hw|].
  apply (obs_skip K _ (end_of c hi (len s))); [apply steps_seen, end_of_reads|].
  apply (obs_skip K _ tt); [|exact (replace_rest_obs K lo hi b s)].
  apply steps_seen. apply (log_with_reads db _ (len s, b, b)); [reflexivity|].
  apply (reads_skip _ _ (len s)); [apply len_reads'|].
  apply (reads_skip _ _ b); [exact Hw|]. apply (reads_skip _ _ b); [exact Hw|]. apply reads_sret.
Qed.

(** ** The other methods *)

Lemma push_str_obs K string b s : reads string (Ret b) ->
  obs K (l_try_push_str c tr db log string) (try_push_str c b) s.
Proof.
  intros H. unfold l_try_push_str, try_push_str.
  apply (obs_skip K _ tt); [apply steps_arg, (log_with_reads _ _ b); [reflexivity|exact H]|].
  apply (obs_step K _ _ (Ret (len s))); [reflexivity|apply steps_seen, len_reads'|]. intros l _.
  apply obs_map, replace_obs. exact H.
Qed.

Lemma push_str_truncate_obs K string b s : reads string (Ret b) ->
  obs K (l_push_str_truncate c tr db log string) (push_str_truncate c b) s.
Proof.
  intros H. unfold l_push_str_truncate, push_str_truncate.
  apply (obs_skip K _ tt); [apply steps_arg, (log_with_reads _ _ b); [reflexivity|exact H]|].
  apply (obs_step K _ _ (n <- usub c (capacity c) (len s) ;; truncate_str c b n)); [reflexivity|apply steps_seen, room_reads; exact H|].
  intros t _. apply obs_map, push_str_obs, reads_sret.
Qed.

Lemma push_obs K ch s : obs K (l_try_push c tr db log ch) (try_push c ch) s.
Proof.
  unfold l_try_push, try_push.
  apply (obs_skip K _ tt); [apply steps_arg, trace_reads; reflexivity|].
  apply (obs_step K _ _ (encode_utf8 ch 4)); [reflexivity|apply steps_slift|].
  intros b _. apply push_str_obs, reads_sret.
Qed.

Lemma truncate_obs K n s : obs K (l_truncate c tr db log n) (truncate c n) s.
Proof.
  unfold l_truncate, truncate. apply (obs_skip K _ tt); [apply steps_arg, dbg_reads; reflexivity|].
  refine (obs_ext K _ _ (l <~ sread (fun s => Ret (len s)) ;;
    r <~ sread (fun s => is_char_boundary c s (N.min l n)) ;;
    match r with
    | Ok _ => _ <~ set_size (into_lossy (N.min l n)) ;; sret (Ok tt)
    | Err e => sret (Err e)
    end) _ s (fun _ => eq_refl) eq_refl _).
  apply (obs_step K _ _ (Ret (len s))); [reflexivity|apply steps_seen, len_reads'|]. intros l _.
  apply (obs_step K _ _ (is_char_boundary c s (N.min l n))); [reflexivity|apply steps_seen, boundary_reads|].
  intros [u|e] _; [apply (obs_map K _ _ (fun _ => Ok tt)), obs_self|apply obs_pure].
Qed.

Lemma pop_obs K s : obs K (l_pop c tr db log) (pop c) s.
Proof.
  unfold l_pop, pop. apply (obs_skip K _ tt); [apply steps_arg, dbg_reads; reflexivity|].
  apply (obs_step K _ _ (b <- as_str c s ;; chars_last b)); [reflexivity|apply steps_seen|].
  { apply reads_bind; [apply as_str_reads|intros; apply reads_slift]. }
  intros [ch|] _; [|apply obs_pure].
  apply (obs_step K _ _ (u8sub c (size s) (into_lossy (len_utf8 ch)))); [reflexivity|apply steps_seen, reads_slift|].
  intros n _. apply obs_map, obs_self.
Qed.

Lemma remove_obs K i s : obs K (l_remove c tr db log i) (remove c i) s.
Proof.
  unfold l_remove, remove. apply (obs_skip K _ tt); [apply steps_arg, dbg_reads; reflexivity|].
  apply (obs_try K _ _ _ _ (Ret (is_inside_boundary (sat_add c i 1) (len s)))); [reflexivity|reflexivity|apply steps_seen|].
  { apply (reads_skip _ _ (len s)); [apply len_reads'|apply inside_reads]. }
  intros _ _.
  apply (obs_try K _ _ _ _ (is_char_boundary c s i)); [reflexivity|reflexivity|apply steps_seen, boundary_reads|].
  intros _ _.
  apply (obs_step K _ _ (e <- (if i =? len s then Ret i else uadd c i 1) ;; next_boundary c (S (length (arr s))) s e));
    [reflexivity|apply steps_seen|].
  { apply (reads_skip _ _ (len s)); [apply len_reads'|].
    apply reads_bind; [apply reads_slift|intros; apply next_boundary_reads]. }
  intros e _.
  apply (obs_stry K _ _ _ (b <- as_str c s ;;
    Ret (match str_get b i e with Some r => Ok r | None => Err EOutOfBounds end))); [reflexivity|apply steps_seen|].
  { apply reads_bind; [apply as_str_reads|intros; apply reads_sret]. }
  intros sub _.
  apply (obs_stry K _ _ _ (o <- chars_next sub ;; Ret (match o with Some (ch, _) => Ok ch | None => Err EUtf8 end)));
    [reflexivity|apply steps_slift|].
  intros ch _.
  apply (obs_step K _ _ (uadd c i (len_utf8 ch))); [reflexivity|apply steps_slift|]. intros n _.
  apply (obs_stry_map K _ _ (fun _ => ch)), replace_obs, reads_sret.
Qed.

Lemma insert_str_obs K i string b s : reads string (Ret b) ->
  obs K (l_try_insert_str c tr db log i string) (try_insert_str c i b) s.
Proof.
  intros H. unfold l_try_insert_str, try_insert_str.
  apply (obs_skip K _ tt); [apply steps_seen, (log_with_reads _ _ b); [reflexivity|exact H]|].
  apply (obs_try K _ _ _ _ (Ret (is_inside_boundary i (len s)))); [reflexivity|reflexivity|apply steps_seen|].
  { apply (reads_skip _ _ (len s)); [apply len_reads'|apply inside_reads]. }
  intros _ _. apply replace_obs. exact H.
Qed.

Lemma insert_obs K i ch s : obs K (l_try_insert c tr db log i ch) (try_insert c i ch) s.
Proof.
  unfold l_try_insert, try_insert.
  apply (obs_step K _ _ (encode_utf8 ch 4)); [reflexivity|apply steps_slift|].
  intros b _. apply insert_str_obs, reads_sret.
Qed.

Lemma insert_str_truncate_obs K i string b s : reads string (Ret b) ->
  obs K (l_insert_str_truncate c tr db log i string) (insert_str_truncate c i b) s.
Proof.
  intros H. unfold l_insert_str_truncate, insert_str_truncate.
  apply (obs_skip K _ tt); [apply steps_seen, (log_with_reads _ _ b); [reflexivity|exact H]|].
  apply (obs_step K _ _ (n <- usub c (capacity c) (len s) ;; truncate_str c b n)); [reflexivity|apply steps_seen, room_reads; exact H|].
  intros t _. apply (obs_stry_map K _ _ (fun _ => tt)), insert_str_obs, reads_sret.
Qed.

Lemma clear_obs K s : obs K (l_clear tr log) clear s.
Proof. unfold l_clear. apply (obs_skip K _ tt); [apply steps_arg, trace_reads; reflexivity|apply obs_self]. Qed.

(** Constructors from a string: [m] on a local [new()]. *)
Lemma local_reads {A D} (g : ST (astring * W) A) m (k : A -> astring -> D) :
  obs (fun _ => True) g m (new c) ->
  reads (g_local c g k) (p <- run_local m (new c) ;; let '(a, s) := p in Ret (k a s)).
Proof.
  intros H w. unfold g_local, run_local.
  destruct (H I (fun _ => I) w) as [(w' & E)|(b & s' & w' & E & _)]; rewrite E; exists w'.
  - left. destruct (m (new c)) as [[a| | |] s1]; reflexivity.
  - right. split; [exact b|reflexivity].
Qed.

Lemma try_from_str_reads string b : reads string (Ret b) ->
  reads (l_try_from_str c tr db log string) (try_from_str c b).
Proof.
  intros H. unfold l_try_from_str. apply (reads_skip _ _ tt); [apply (log_with_reads _ _ b); [reflexivity|exact H]|].
  apply (local_reads _ (try_push_str c b) (fun r s => map_ok (fun _ => s) r)), push_str_obs. exact H.
Qed.

Lemma from_str_truncate_reads string b : reads string (Ret b) ->
  reads (l_from_str_truncate c tr db log string) (from_str_truncate c b).
Proof.
  intros H. unfold l_from_str_truncate. apply (reads_skip _ _ tt); [apply (log_with_reads _ _ b); [reflexivity|exact H]|].
  apply (local_reads _ (push_str_truncate c b) (fun _ s => s)), push_str_truncate_obs. exact H.
Qed.

Lemma drain_obs K lo hi s : obs K (l_drain c tr db log lo hi) (drain c lo hi) s.
Proof.
  unfold l_drain.
  apply (obs_skip K _ (end_of c hi (len s))); [apply steps_seen, end_of_reads|].
  apply (obs_skip K _ tt); [apply steps_seen, (log_with_reads _ _ (len s)); [reflexivity|apply len_reads']|].
  set (start := start_of c lo). set (end_ := end_of c hi (len s)).
  unfold drain. fold start. fold end_.
  refine (obs_ext K _ _ (stry from_oob (sret (is_inside_boundary start end_)) _) _ s (fun _ => eq_refl) _ _); [reflexivity|].
  apply (obs_try K _ _ _ _ (Ret (is_inside_boundary start end_))); [reflexivity|reflexivity|apply steps_arg, inside_reads|].
  intros _ _.
  apply (obs_try K _ _ _ _ (Ret (is_inside_boundary end_ (len s)))); [reflexivity|reflexivity|apply steps_seen|].
  { apply (reads_skip _ _ (len s)); [apply len_reads'|apply inside_reads]. }
  intros _ _.
  apply (obs_try K _ _ _ _ (is_char_boundary c s start)); [reflexivity|reflexivity|apply steps_seen, boundary_reads|].
  intros _ _.
  apply (obs_try K _ _ _ _ (is_char_boundary c s end_)); [reflexivity|reflexivity|apply steps_seen, boundary_reads|].
  intros _ _.
  apply (obs_step K _ _ (debug_assert c (Ret ((start <=? end_) && (end_ <=? len s))))); [reflexivity|apply steps_seen, assert_reads|].
  { destruct (start <=? end_); [|apply reads_sret].
    apply (reads_skip _ _ (len s)); [apply len_reads'|apply reads_sret]. }
  intros _ _.
  apply (obs_step K _ _ (debug_assert c (b <- as_str c s ;; Ret (str_is_char_boundary b start))));
    [reflexivity|apply steps_seen, assert_reads, reads_bind; [apply as_str_reads|intros; apply reads_sret]|].
  intros _ _.
  apply (obs_step K _ _ (debug_assert c (b <- as_str c s ;; Ret (str_is_char_boundary b end_))));
    [reflexivity|apply steps_seen, assert_reads, reads_bind; [apply as_str_reads|intros; apply reads_sret]|].
  intros _ _.
  apply (obs_step K _ _ (b <- as_str c s ;; str_get_unchecked b start end_));
    [reflexivity|apply steps_seen, reads_bind; [apply as_str_reads|intros; apply reads_slift]|].
  intros slice _.
  apply (obs_try K _ _ _ _ (try_from_str c slice)); [reflexivity|reflexivity|apply steps_arg, try_from_str_reads, reads_sret|].
  intros d _. apply (obs_stry_map K _ _ (fun _ => d)), replace_obs, reads_sret.
Qed.

Lemma split_off_obs K i s : obs K (l_split_off c tr db log i) (split_off c i) s.
Proof.
  unfold l_split_off, split_off. apply (obs_skip K _ tt); [apply steps_arg, dbg_reads; reflexivity|].
  apply (obs_stry_map K _ _ (fun d => d)), drain_obs.
Qed.

Lemma write_str_obs K b s : obs K (l_write_str c tr db log b) (write_str c b) s.
Proof. unfold l_write_str, write_str. apply obs_map, push_str_obs, reads_sret. Qed.

End Rel.

Section Loops.
Variable c : cfg.
Variables tr db : bool.
Context {W : Type}.
Variable log : event -> ST W unit.
Hypothesis Hlog : a_logger tr db log.

Let bad := can_panic tr db log.
Notation reads := (reads_if bad).
Notation sim_any := (sim tr db log (fun _ => True)).

Lemma any_sim {A} (g : ST (astring * W) A) m s : obs tr db log True (fun _ => True) g m s -> sim_any g m s.
Proof. intros H. exact (H I (fun _ => I)). Qed.

Lemma push_str_sim b s : sim_any (l_try_push_str c tr db log (sret b)) (try_push_str c b) s.
Proof. apply any_sim, push_str_obs; [exact Hlog|auto|apply reads_sret]. Qed.
Lemma push_str_truncate_sim b s : sim_any (l_push_str_truncate c tr db log (sret b)) (push_str_truncate c b) s.
Proof. apply any_sim, push_str_truncate_obs; [exact Hlog|auto|apply reads_sret]. Qed.
Lemma push_sim ch s : sim_any (l_try_push c tr db log ch) (try_push c ch) s.
Proof. apply any_sim, push_obs; [exact Hlog|auto]. Qed.

(** ** Iterators *)

Lemma loop_sim {IT A R} fuel (next : iter IT A) (body : A -> ST (astring * W) (flow R)) body' it s w :
  (forall a s, sim_any (body a) (body' a) s) ->
  (exists w', for_loop fuel next body it (s, w) =
     let '(o, it', s') := for_loop fuel next body' it s in (o, it', (s', w'))) \/
  (bad /\ exists it' x, for_loop fuel next body it (s, w) = (Panic, it', x)).
Proof.
  intros H. revert it s w; induction fuel as [|fuel IH]; intros it s w; cbn [for_loop].
  { left. exists w. reflexivity. }
  destruct (next it) as [[[a|]| | |] it1]; try (left; exists w; reflexivity).
  destruct (H a s w) as [(w1 & E)|(b & s1 & w1 & E & _)]; rewrite E.
  - destruct (body' a s) as [[[| |r]| | |] s1]; cbn [fst snd]; try (left; exists w1; reflexivity). apply IH.
  - right. split; [exact b|]. exists it1, (s1, w1). reflexivity.
Qed.

(** A constructor that loops over an iterator. *)
Definition reads_it {IT A} (g : W -> outcome A * IT * W) (p : outcome A * IT) : Prop :=
  forall w, (exists w', g w = (fst p, snd p, w')) \/ (bad /\ exists it' w', g w = (Panic, it', w')).

Lemma from_loop_it {IT A B R} fuel (next : iter IT A) (body : A -> ST (astring * W) (flow R)) body' it e
    (ret : astring -> B) early :
  reads e (Ret tt) -> (forall a s, sim_any (body a) (body' a) s) ->
  reads_it (l_from_loop e it (fun w => for_loop fuel next body it (new c, w)) ret early)
    (from_loop (for_loop fuel next body' it (new c)) ret early).
Proof.
  intros He H w. unfold l_from_loop. destruct (He w) as (w1 & [E|[b E]]); rewrite E.
  2:{ right. split; [exact b|]. exists it, w1. reflexivity. }
  destruct (loop_sim fuel next body body' it (new c) w1 H) as [(w2 & F)|(b & it' & [s2 w2] & F)]; rewrite F.
  - left. exists w2. destruct (for_loop fuel next body' it (new c)) as [[[[r|]| | |] it'] s']; reflexivity.
  - right. split; [exact b|]. exists it', w2. reflexivity.
Qed.

Lemma or_return_sim {E F} (conv : E -> ST W F) conv' (g : ST (astring * W) (result unit E)) m s :
  (forall e, reads (conv e) (Ret (conv' e))) -> sim_any g m s ->
  sim_any (l_or_return conv g) (push_or_return conv' m) s.
Proof.
  intros Hc H w. unfold l_or_return, push_or_return, sbind.
  destruct (H w) as [(w1 & E1)|(b & s1 & w1 & E1 & _)]; rewrite E1.
  - destruct (m s) as [[[u|e]| | |] s1]; cbn [fst snd]; try (left; exists w1; reflexivity).
    unfold on_arg. cbn [fst snd]. destruct (Hc e w1) as (w2 & [E2|[b E2]]); rewrite E2.
    + left. exists w2. reflexivity.
    + right. split; [exact b|]. exists s1, w2. split; [reflexivity|exact I].
  - right. split; [exact b|]. exists s1, w1. split; [reflexivity|exact I].
Qed.

Lemma sret_sim {A} K (a : A) s : sim tr db log K (sret a) (sret a) s.
Proof. intros w. left. exists w. reflexivity. Qed.

Lemma or_break_sim {E R} (g : ST (astring * W) (result unit E)) m s :
  sim_any g m s -> sim_any (l_or_break (R := R) g) (push_or_break m) s.
Proof. intros H. apply sim_bind; [exact H|]. intros a s1 _. apply sret_sim. Qed.

Lemma try_from_iterator_it {IT} fuel (next : iter IT as_ref_item) it :
  reads_it (l_try_from_iterator c tr db log fuel next it) (try_from_iterator c fuel next it).
Proof.
  apply from_loop_it; [apply trace_reads; [exact Hlog|reflexivity]|]. intros x s. apply or_return_sim; [intros; apply reads_sret|].
  apply push_str_sim.
Qed.

Lemma from_iterator_truncate_it {IT} fuel (next : iter IT as_ref_item) it :
  reads_it (l_from_iterator_truncate c tr db log fuel next it) (from_iterator_truncate c fuel next it).
Proof.
  apply from_loop_it; [apply trace_reads; [exact Hlog|reflexivity]|]. intros x s.
  apply sim_bind; [apply push_str_sim|].
  intros [u|e] s1 _; [apply sret_sim|]. apply sim_bind; [apply push_str_truncate_sim|]. intros a s2 _. apply sret_sim.
Qed.

Lemma try_from_chars_it {IT} fuel (next : iter IT char) it :
  reads_it (l_try_from_chars c tr db log fuel next it) (try_from_chars c fuel next it).
Proof.
  apply from_loop_it; [apply trace_reads; [exact Hlog|reflexivity]|]. intros x s. apply or_return_sim; [intros; apply reads_sret|].
  apply push_sim.
Qed.

Lemma from_chars_truncate_it {IT} fuel (next : iter IT char) it :
  reads_it (l_from_chars_truncate c tr db log fuel next it) (from_chars_truncate c fuel next it).
Proof. apply from_loop_it; [apply trace_reads; [exact Hlog|reflexivity]|]. intros x s. apply or_break_sim, push_sim. Qed.

Lemma drop_reads {IT A} (g : W -> outcome A * IT * W) p : reads_it g p -> reads (l_drop g) (fst p).
Proof.
  intros H w. unfold l_drop. destruct (H w) as [(w' & E)|(b & it & w' & E)]; rewrite E; exists w'; auto.
Qed.

Lemma try_from_utf16_reads us : reads (l_try_from_utf16 c tr db log us) (try_from_utf16 c us).
Proof.
  apply drop_reads, from_loop_it; [apply dbg_reads; [exact Hlog|reflexivity]|]. intros [x|] s; [|apply sret_sim].
  apply or_return_sim; [|apply push_sim].
  intros e. apply (reads_skip _ _ tt); [apply trace_reads; [exact Hlog|reflexivity]|apply reads_sret].
Qed.

Lemma from_utf16_truncate_reads us : reads (l_from_utf16_truncate c tr db log us) (from_utf16_truncate c us).
Proof.
  apply drop_reads, from_loop_it; [apply dbg_reads; [exact Hlog|reflexivity]|]. intros [x|] s; [|apply sret_sim]. apply or_break_sim, push_sim.
Qed.

Lemma from_utf16_lossy_reads us : reads (l_from_utf16_lossy_truncate c tr db log us) (from_utf16_lossy_truncate c us).
Proof. apply drop_reads, from_loop_it; [apply dbg_reads; [exact Hlog|reflexivity]|]. intros x s. apply or_break_sim, push_sim. Qed.

Lemma map_reads {A D} (f : A -> D) (g : ST W A) o : reads g o -> reads (l_map f g) (omap f o).
Proof. intros H. apply reads_bind; [exact H|]. intros a _. apply reads_sret. Qed.

Lemma build_reads k : reads (l_build c tr db log k) (build c k).
Proof.
  destruct k; cbn [l_build build].
  - apply reads_sret.
  - apply reads_sret.
  - apply map_reads, (try_from_str_reads c tr db log Hlog True (fun _ => I)), reads_sret.
  - apply map_reads, (try_from_str_reads c tr db log Hlog True (fun _ => I)), reads_sret.
  - apply map_reads, (from_str_truncate_reads c tr db log Hlog True (fun _ => I)), reads_sret.
  - apply map_reads, (from_str_truncate_reads c tr db log Hlog True (fun _ => I)), reads_sret.
  - apply map_reads, drop_reads, try_from_iterator_it.
  - apply map_reads, drop_reads, from_iterator_truncate_it.
  - apply map_reads, drop_reads, try_from_chars_it.
  - apply map_reads, drop_reads, from_chars_truncate_it.
  - apply map_reads, drop_reads, from_iterator_truncate_it.
  - apply map_reads, drop_reads, from_chars_truncate_it.
  - apply try_from_utf16_reads.
  - apply map_reads, from_utf16_truncate_reads.
  - apply map_reads, from_utf16_lossy_reads.
Qed.

End Loops.

Section Calls.
Variable c : cfg.
Variables tr db : bool.
Context {W : Type}.
Variable log : event -> ST W unit.
Hypothesis Hlog : a_logger tr db log.

Let bad := can_panic tr db log.
Let badlen := panics_on tr db log EvLen.
Variable BL : Prop.
Hypothesis HBL : badlen -> BL.
Notation reads := (reads_if bad).
Notation steps := (steps_if bad).
Notation sim := (sim tr db log).
Notation obs := (obs tr db log BL).

(** ** trim, and the calls as a whole *)

Definition trim_start_of (s : astring) : outcome N :=
  b <- as_str c s ;; trim_start_loop (S (length b)) (0, b) (len s).
Definition trim_end_from (start : N) (s : astring) : outcome (option N) :=
  b <- as_str c s ;; trim_end_loop (S (length b)) (0, b) start (len s).

Lemma trim_sim (K : astring -> Prop) s :
  K s ->
  (forall start end_, trim_start_of s = Ret start -> trim_end_from start s = Ret (Some end_) ->
     let s1 := snd (replace_range c (Included end_) Unbounded [] s) in
     let s2 := snd (replace_range c Unbounded (Excluded start) [] s1) in
     K s1 /\ (BL -> K (torn s s1)) /\ (BL -> K (torn s1 s2))) ->
  sim K (l_trim c tr db log) (trim c) s.
Proof.
  intros HK HE. unfold l_trim, trim.
  apply ((sim_skip tr db log) K _ tt); [exact HK|apply steps_seen, (trace_reads tr db log Hlog); reflexivity|].
  apply ((sim_step tr db log) K _ _ (trim_start_of s)); [exact HK|reflexivity|apply steps_seen|].
  { apply (reads_skip _ _ (len s)); [apply (len_reads' tr db log Hlog)|].
    apply reads_bind; [apply (as_str_reads c tr db log Hlog)|intros; apply reads_slift]. }
  intros start E1.
  apply ((sim_step tr db log) K _ _ (trim_end_from start s)); [exact HK|reflexivity|apply steps_seen|].
  { apply (reads_skip _ _ (len s)); [apply (len_reads' tr db log Hlog)|].
    apply reads_bind; [apply (as_str_reads c tr db log Hlog)|intros; apply reads_slift]. }
  intros [end_|] E2.
  2:{ intros w. left. exists w. reflexivity. }
  destruct (HE start end_ E1 E2) as (K1 & K2 & K3).
  apply (sim_bind tr db log); [exact ((replace_obs c tr db log Hlog BL HBL) K _ _ _ _ s (reads_sret _ _) HK K2)|]. intros r s1 Er. rewrite Er in *.
  apply (sim_bind tr db log); [exact ((replace_obs c tr db log Hlog BL HBL) K _ _ _ _ s1 (reads_sret _ _) K1 K3)|]. intros r2 s2 _. apply (sret_sim tr db log).
Qed.

(** Formatting into the string: any number of [write_str]. *)
Lemma fprog_sim (K : astring -> Prop) :
  (forall w s, K s -> K (snd (write_str c (enc w) s)) /\ (BL -> K (torn s (snd (write_str c (enc w) s))))) ->
  forall p s, K s -> sim K (run_fprog (l_write_str c tr db log) (formatting_prog p))
    (run_fprog (write_str c) (formatting_prog p)) s.
Proof.
  intros HK. induction p as [r| |w next IH]; intros s Ks; cbn [formatting_prog run_fprog].
  - apply (sret_sim tr db log).
  - intros w. left. exists w. reflexivity.
  - destruct (HK w s Ks) as [K1 K2].
    apply (sim_bind tr db log); [exact (write_str_obs c tr db log Hlog BL HBL K (enc w) s Ks K2)|].
    intros r s1 E. rewrite E in K1. exact (IH (is_ok r) s1 K1).
Qed.

Lemma obs_out {A} K (f : A -> out) (g : ST (astring * W) A) m s : obs K g m s -> obs K (l_out f g) (to_out f m) s.
Proof. apply (obs_map tr db log BL). Qed.

(** Calls that only read. *)
Lemma obs_read {A} K (f : astring -> ST W A) o s : reads (f s) o -> obs K (seen f) (fun s => (o, s)) s.
Proof.
  intros H HK HT w. destruct (steps_seen bad f s o H w) as (w' & [E|[b E]]); rewrite E.
  - left. exists w'. reflexivity.
  - right. split; [exact b|]. exists s, w'. split; [reflexivity|exact HK].
Qed.

Lemma obs_read_out {A} K (h : A -> out) (f : astring -> ST W A) o s : reads (f s) o ->
  obs K (l_out h (seen f)) (fun s => (omap h o, s)) s.
Proof.
  intros H. refine ((obs_ext tr db log BL) K _ _ _ _ s (fun _ => eq_refl) _ ((obs_map tr db log BL) K _ _ h s (obs_read K f o s H))).
  unfold sbind. destruct o; reflexivity.
Qed.

Lemma retain_obs K {F} (f : char -> ST F bool) x s :
  obs K (l_run_op c tr db log (ORetain F f x)) (run_op c (ORetain F f x)) s.
Proof.
  intros HK HT w. cbn [l_run_op run_op]. unfold l_retain, retain. cbn [fst snd].
  destruct (reads_skip bad (trace tr log EvRetain) tt (fun _ => l_as_str c tr log s) _ ((trace_reads tr db log Hlog) EvRetain eq_refl) ((as_str_reads c tr db log Hlog) s) w)
    as (w1 & [E|[b E]]); rewrite E.
  2:{ right. split; [exact b|]. exists s, w1. split; [reflexivity|exact HK]. }
  destruct (as_str c s) as [b| | |]; try (left; exists w1; reflexivity).
  destruct ((from_chars_truncate_it c tr db log Hlog) (S (length b)) (filter_next (S (length b)) chars_iter f) (b, x) w1)
    as [(w2 & E2)|(B & [b2 x2] & w2 & E2)]; rewrite E2.
  - destruct (from_chars_truncate c (S (length b)) (filter_next (S (length b)) chars_iter f) (b, x)) as [[s'| | |] [b' x']];
      left; exists w2; reflexivity.
  - right. split; [exact B|]. exists s, w2. split; [reflexivity|exact HK].
Qed.

(** A string argument that does not come back: no byte is written. *)
Lemma push_str_truncate_fails (K : astring -> Prop) string (o : outcome (list N)) s : K s -> reads string o ->
  (forall b, o <> Ret b) -> sim K (l_push_str_truncate c tr db log string) (slift (omap (fun _ => tt) o)) s.
Proof.
  intros HK H Ho.
  assert (Y : forall k, sim K (sbind (seen (l_room_for c tr log string)) k) (slift (omap (fun _ => tt) o)) s).
  { intros k w. destruct (steps_arg bad string s o H w) as (w1 & [E|[b E]]).
    - left. exists w1. unfold on_arg in E. cbn [fst snd] in E. unfold sbind at 1, seen, on_arg, l_room_for. cbn [fst snd].
      unfold sbind at 1. destruct (string w) as [o1 w2]. injection E as -> ->.
      destruct o as [b| | |]; [destruct (Ho b eq_refl)|reflexivity..].
    - right. split; [exact b|]. exists s, w1. split; [|exact HK].
      unfold on_arg in E. cbn [fst snd] in E. unfold sbind at 1, seen, on_arg, l_room_for. cbn [fst snd].
      unfold sbind at 1. destruct (string w) as [o1 w2]. injection E as -> ->. reflexivity. }
  unfold l_push_str_truncate, log_with. destruct tr eqn:Et.
  - intros w. destruct (steps_arg bad string s o H w) as (w1 & [E|[b E]]).
    + left. exists w1. unfold on_arg in E. cbn [fst snd] in E. unfold sbind at 1, on_arg. cbn [fst snd].
      unfold sbind at 1. destruct (string w) as [o1 w2]. injection E as -> ->.
      destruct o as [b| | |]; [destruct (Ho b eq_refl)|reflexivity..].
    + right. split; [exact b|]. exists s, w1. split; [|exact HK].
      unfold on_arg in E. cbn [fst snd] in E. unfold sbind at 1, on_arg. cbn [fst snd].
      unfold sbind at 1. destruct (string w) as [o1 w2]. injection E as -> ->. reflexivity.
  - apply ((sim_skip false db log) K _ tt); [exact HK|apply steps_arg, reads_sret|]. apply Y.
Qed.

Lemma extend_obs K {IT} (g : W -> outcome astring * IT * W) built s (P : ST (astring * W) out) (Q : ST astring out) :
  reads_it tr db log g built ->
  (forall w, P (s, w) = let '(r, _, s', w') := l_extend_with c tr db log g s w in (omap (fun _ => RUnit) r, (s', w'))) ->
  (Q s = let '(r, _, s') := extend_with c built s in (omap (fun _ => RUnit) r, s')) ->
  obs K P Q s.
Proof.
  intros H EP EQ HK HT w. rewrite EP. rewrite EQ in HT |- *. unfold l_extend_with, extend_with in *.
  destruct (H w) as [(w1 & E)|(b & it & w1 & E)]; rewrite E.
  2:{ right. split; [exact b|]. exists s, w1. split; [reflexivity|exact HK]. }
  destruct built as [[a| | |] it]; cbn [fst snd]; try (left; exists w1; reflexivity).
  destruct (as_ref_str c a) as [b| | |] eqn:Ea.
  - assert (X : (b0 <~ slift (Ret b) ;; push_str_truncate c b0) s = push_str_truncate c b s) by reflexivity.
    rewrite X in HT |- *. clear X.
    assert (Ra : reads (l_as_ref_str c tr log a) (Ret b)) by (rewrite <- Ea; apply (as_ref_str_reads c tr db log Hlog)).
    assert (HT' : BL -> K (torn s (snd (push_str_truncate c b s)))).
    { intros B. specialize (HT B). destruct (push_str_truncate c b s). exact HT. }
    destruct ((push_str_truncate_obs c tr db log Hlog BL HBL) K _ b s Ra HK HT' w1) as [(w2 & F)|(B & s2 & w2 & F & X)]; rewrite F.
    + left. exists w2. destruct (push_str_truncate c b s) as [o s']. reflexivity.
    + right. split; [exact B|]. exists s2, w2. split; [reflexivity|exact X].
  - destruct (push_str_truncate_fails K (l_as_ref_str c tr log a) Panic s HK) with (w := w1) as [(w2 & F)|(B & s2 & w2 & F & X)];
      [rewrite <- Ea; apply (as_ref_str_reads c tr db log Hlog)|discriminate|..]; rewrite F.
    + left. exists w2. reflexivity.
    + right. split; [exact B|]. exists s2, w2. split; [reflexivity|exact X].
  - destruct (push_str_truncate_fails K (l_as_ref_str c tr log a) UB s HK) with (w := w1) as [(w2 & F)|(B & s2 & w2 & F & X)];
      [rewrite <- Ea; apply (as_ref_str_reads c tr db log Hlog)|discriminate|..]; rewrite F.
    + left. exists w2. reflexivity.
    + right. split; [exact B|]. exists s2, w2. split; [reflexivity|exact X].
  - destruct (push_str_truncate_fails K (l_as_ref_str c tr log a) Diverge s HK) with (w := w1) as [(w2 & F)|(B & s2 & w2 & F & X)];
      [rewrite <- Ea; apply (as_ref_str_reads c tr db log Hlog)|discriminate|..]; rewrite F.
    + left. exists w2. reflexivity.
    + right. split; [exact B|]. exists s2, w2. split; [reflexivity|exact X].
Qed.

Lemma as_mut_step {A} K (h : list N -> ST (astring * W) A) h' s :
  (forall b, obs K (h b) (h' b) s) -> obs K (sbind (seen (l_as_mut c tr log)) h) (sbind (as_mut c) h') s.
Proof.
  intros H. apply ((obs_step tr db log BL) K _ _ (fst (as_mut c s))); [reflexivity|apply steps_seen, (as_mut_reads c tr db log Hlog)|]. intros b _. apply H.
Qed.

Lemma atomic_obs K o s : inner_edit o = false -> several_steps o = false -> appends o = false ->
  obs K (l_run_op c tr db log o) (run_op c o) s.
Proof.
  intros H1 H2 H3. destruct o; try discriminate H1; try discriminate H2; try discriminate H3; cbn [l_run_op]; unfold run_op.
  - apply obs_out, (truncate_obs c tr db log Hlog BL).
  - apply obs_out, (pop_obs c tr db log Hlog BL).
  - apply retain_obs.
  - apply obs_out, (clear_obs tr db log Hlog BL).
  - intros HK HT w0. unfold l_add, add, run_local in *. cbn [fst snd].
    destruct (push_str_truncate_sim c tr db log Hlog (enc w) s w0)
      as [(w1 & E)|(b & s1 & w1 & E & _)]; rewrite E.
    + left. exists w1. destruct (push_str_truncate c (enc w) s) as [[u| | |] s1]; reflexivity.
    + right. split; [exact b|]. exists s, w1. split; [reflexivity|exact HK].
  - apply obs_out. unfold l_index_mut, index_mut.
    refine ((obs_ext tr db log BL) K (b <~ seen (l_as_mut_str c tr log) ;; p <~ slift (str_index_pos (usize_max c) b (to_usize_range r)) ;;
       let q := (fst p, takeN (snd p - fst p) (dropN (fst p) b)) in
       if lenN (enc w) =? lenN (snd q) then on_self (str_write (fst q) (enc w)) else sret tt) _
      (b <~ as_mut_str c ;; p <~ slift (str_index_pos (usize_max c) b (to_usize_range r)) ;;
       let q := (fst p, takeN (snd p - fst p) (dropN (fst p) b)) in
       if lenN (enc w) =? lenN (snd q) then str_write (fst q) (enc w) else sret tt) _ s _ _ _).
    + intros x. unfold sbind. destruct (seen (l_as_mut_str c tr log) x) as [[b| | |] y]; try reflexivity.
      unfold slift. destruct (str_index_pos (usize_max c) b (to_usize_range r)) as [[a e]| | |]; reflexivity.
    + unfold sbind. destruct (as_mut_str c s) as [[b| | |] y]; try reflexivity.
      unfold slift. destruct (str_index_pos (usize_max c) b (to_usize_range r)) as [[a e]| | |]; reflexivity.
    + apply ((obs_step tr db log BL) K _ _ (fst (as_mut_str c s))); [reflexivity|apply steps_seen, (as_mut_str_reads c tr db log Hlog)|]. intros b _.
      apply ((obs_step tr db log BL) K _ _ (str_index_pos (usize_max c) b (to_usize_range r))); [reflexivity|apply steps_slift|].
      intros p _. cbv zeta. destruct (_ =? _); [apply (obs_self tr db log BL)|apply (obs_pure tr db log BL)].
  - apply obs_out, as_mut_step. intros b. apply (obs_self tr db log BL).
  - apply obs_out, as_mut_step. intros b. apply (obs_self tr db log BL).
  - apply (obs_read_out K RNum _ (Ret (len s))), (len_reads' tr db log Hlog).
  - refine ((obs_ext tr db log BL) K _ _ _ _ s (fun _ => eq_refl) eq_refl (obs_read_out K RBool _ (is_empty c s) s _)).
    apply reads_bind; [apply (as_ref_str_reads c tr db log Hlog)|intros; apply reads_sret].
  - apply (obs_pure tr db log BL).
  - refine ((obs_ext tr db log BL) K _ _ _ _ s (fun _ => eq_refl) eq_refl (obs_read_out K RBytes _ (as_str c s) s _)). apply (as_str_reads c tr db log Hlog).
  - refine ((obs_ext tr db log BL) K _ _ _ _ s (fun _ => eq_refl) eq_refl (obs_read_out K RBool _ (eq_str c s (enc w)) s _)).
    apply reads_bind; [apply (as_str_reads c tr db log Hlog)|intros; apply reads_sret].
  - refine ((obs_ext tr db log BL) K _ _ _ _ s (fun _ => eq_refl) _ (obs_read K _ (b <- as_str c s ;;
      match write_one_str buffer b [] with
      | (Ret _, b) => Ret (RBytes b) | (Panic, _) => Panic | (UB, _) => UB | (Diverge, _) => Diverge end) s _)).
    + unfold display, sbind, slift. destruct (as_str c s) as [b| | |]; cbn [obind]; reflexivity.
    + apply reads_bind; [apply (as_str_reads c tr db log Hlog)|intros; apply reads_slift].
  - refine ((obs_ext tr db log BL) K _ _ _ _ s (fun _ => eq_refl) eq_refl (obs_read_out K RBytes _ (index c s r) s _)).
    apply reads_bind; [apply (as_str_reads c tr db log Hlog)|intros; apply reads_slift].
Qed.

Lemma op_obs K o s : several_steps o = false -> obs K (l_run_op c tr db log o) (run_op c o) s.
Proof.
  intros Ho. destruct (inner_edit o || appends o) eqn:E; apply orb_true_iff in E || apply orb_false_iff in E as [E1 E2].
  2:{ apply atomic_obs; assumption. }
  destruct o; try discriminate Ho; try (destruct E; discriminate); cbn [l_run_op]; unfold run_op.
  - apply obs_out, (push_str_obs c tr db log Hlog BL HBL), reads_sret.
  - apply obs_out, (push_str_truncate_obs c tr db log Hlog BL HBL), reads_sret.
  - apply obs_out, (push_obs c tr db log Hlog BL HBL).
  - apply obs_out, (remove_obs c tr db log Hlog BL HBL).
  - apply obs_out, (insert_obs c tr db log Hlog BL HBL).
  - apply obs_out, (insert_str_obs c tr db log Hlog BL HBL), reads_sret.
  - apply obs_out, (insert_str_truncate_obs c tr db log Hlog BL HBL), reads_sret.
  - refine ((obs_ext tr db log BL) K _ _ _ _ s (fun _ => eq_refl) _ ((obs_then tr db log BL) K _ _ (part_out c) s ((drain_obs c tr db log Hlog BL HBL) K lo hi s))).
    unfold drain_iter, sbind. destruct (drain c lo hi s) as [[[d|e]| | |] s1]; reflexivity.
  - apply ((obs_then tr db log BL) K _ _ (part_out c)), (split_off_obs c tr db log Hlog BL HBL).
  - apply obs_out, (replace_obs c tr db log Hlog BL HBL), reads_sret.
  - apply (extend_obs K (l_from_chars_truncate c tr db log (char_fuel c) next it) (from_chars_truncate c (char_fuel c) next it) s);
      [apply (from_chars_truncate_it c tr db log Hlog)|reflexivity|reflexivity].
  - apply (extend_obs K (l_from_iterator_truncate c tr db log fuel (map_iter item_of_pair (map_iter same2 next)) it)
      (from_iterator_truncate c fuel (map_iter item_of_pair (map_iter same2 next)) it) s);
      [apply (from_iterator_truncate_it c tr db log Hlog)|reflexivity|reflexivity].
  - apply obs_out, (write_str_obs c tr db log Hlog BL HBL).
  - apply obs_out. unfold write_char. apply ((obs_step tr db log BL) K _ _ (encode_utf8 x 4)); [reflexivity|apply steps_slift|].
    intros b _. apply (write_str_obs c tr db log Hlog BL HBL).
Qed.

End Calls.

Section Quiet.
Variable c : cfg.
Variables tr db : bool.
Context {W : Type}.
Variable log : event -> ST W unit.
Hypothesis Hlog : a_logger tr db log.

(** Every call, when nothing is asked of what a panic leaves. *)
Lemma op_sim o s : sim tr db log (fun _ => True) (l_run_op c tr db log o) (run_op c o) s.
Proof.
  destruct (several_steps o) eqn:Ho; [|apply any_sim, op_obs; [exact Hlog|auto|exact Ho]].
  destruct o; try discriminate Ho; cbn [l_run_op]; unfold run_op, l_out, to_out.
  - apply sim_bind; [apply (trim_sim c tr db log Hlog True); auto|]. intros a s1 _. apply sret_sim.
  - apply sim_bind; [apply (fprog_sim c tr db log Hlog True); auto|]. intros a s1 _. apply sret_sim.
Qed.

Lemma quiet_not_bad : quiet tr db log -> ~ can_panic tr db log.
Proof. intros Q (e & L & w & H). rewrite (Q e w L) in H. discriminate. Qed.

Lemma quiet_op o s w : quiet tr db log -> as_without (l_run_op c tr db log o) (run_op c o) s w.
Proof. intros Q. destruct (op_sim o s w) as [H|[b _]]; [exact H|destruct (quiet_not_bad Q b)]. Qed.

Lemma quiet_ops l s w : quiet tr db log ->
  exists w', l_run_ops c tr db log l s w = (fst (run_ops c l s), snd (run_ops c l s), w').
Proof.
  intros Q. revert s w; induction l as [|o l IH]; intros s w; cbn [l_run_ops run_ops]; [exists w; reflexivity|].
  destruct (quiet_op o s w Q) as (w1 & E). rewrite E. destruct (run_op c o s) as [r s1]. cbn [fst snd].
  destruct (IH s1 w1) as (w2 & E2). rewrite E2. destruct (run_ops c l s1) as [rs s2]. exists w2. reflexivity.
Qed.

Lemma quiet_build k w : quiet tr db log -> exists w', l_build c tr db log k w = (build c k, w').
Proof.
  intros Q. destruct (build_reads c tr db log Hlog k w) as (w' & [E|[b _]]); [exists w'; exact E|destruct (quiet_not_bad Q b)].
Qed.
End Quiet.

(** ** Texts *)
Section Texts.
Variable c : cfg.
Hypothesis Hc : valid_cfg c.

(** New bytes behind the end of the text do not change it. *)
Lemma torn_rep s t s' u : rep c s t -> rep c s' (t ++ u) -> rep c (torn s s') t.
Proof.
  intros (T & S & _) ((L & F & _) & _ & (j & E)). unfold torn. apply (rep_intro c Hc); cbn [arr size].
  - exact L.
  - exact F.
  - exact S.
  - exists (enc u ++ j). rewrite E, enc_app, <- app_assoc. reflexivity.
Qed.

Lemma appends_prefix o t : appends o = true -> exists u, snd (t_op (usize_max c) (cap c) o t) = t ++ u.
Proof.
  intros H. assert (N0 : exists u, t = t ++ u) by (exists []; symmetry; apply app_nil_r).
  destruct o; try discriminate H; cbn [t_op].
  - unfold t_try_push_str. destruct (_ <=? _); [eexists; reflexivity|exact N0].
  - eexists; reflexivity.
  - unfold t_try_push_str. destruct (_ <=? _); [eexists; reflexivity|exact N0].
  - destruct (fst (t_collect (N.to_nat (cap c) + 2) (cap c) next it)); [eexists; reflexivity|exact N0..].
  - destruct (fst (t_collect_strs fuel (cap c) (map_iter same2 next) it)); [eexists; reflexivity|exact N0..].
  - unfold t_write_str. destruct (_ <=? _); [eexists; reflexivity|exact N0].
  - unfold t_write_str. destruct (_ <=? _); [eexists; reflexivity|exact N0].
Qed.

Lemma torn_append o s t : rep c s t -> typed_op o -> appends o = true -> rep c (torn s (snd (run_op c o s))) t.
Proof.
  intros R To A. destruct (run_op_sim c Hc o s t R To) as (s' & E & R').
  destruct (appends_prefix o t A) as (u & Eu). rewrite Eu in R'. rewrite E. exact (torn_rep s t s' u R R').
Qed.

(** Where [trim] cuts. *)
Lemma trim_ends s t start end_ : rep c s t -> trim_start_of c s = Ret start ->
  trim_end_from c start s = Ret (Some end_) ->
  exists l r m, t = l ++ r ++ m /\ start = blen l /\ end_ = blen (l ++ r) /\ Forall (fun x => white_space x = true) m.
Proof.
  intros R E1 E2. pose proof (length_le_enc t) as Le. unfold trim_start_of, trim_end_from in *.
  rewrite (as_str_rep c s t R), (rep_len c s t R) in *. cbn [obind] in *.
  rewrite trim_start_loop_spec in E1 by lia. injection E1 as <-.
  destruct (trim_cases t) as [(F & E & _)|(l & r & m & E & Es & _ & Fl & Fm & (x & r1 & Ex & Wx) & (y & r2 & Ey & Wy))].
  - rewrite E in E2. destruct (snoc_cases t) as [->|(t' & x & ->)].
    + cbn in E2. injection E2 as <-. exists [], [], []. repeat (split; [reflexivity|]). constructor.
    + exfalso. cbn [trim_end_loop char_indices_next_back] in E2. rewrite chars_next_back_enc in E2. cbn [obind] in E2.
      rewrite enc_len, blen_app in E2. cbn [blen] in E2. pose proof (clen_range x).
      replace (0 + blen t' <? blen t' + (clen x + 0)) with true in E2 by lia. discriminate.
  - assert (St : match skip_ws t with [] => blen t | _ => 0 + blen t - blen (skip_ws t) end = blen l).
    { rewrite Es, Ex. cbn [app]. change (x :: r1 ++ m) with ((x :: r1) ++ m). rewrite <- Ex.
      rewrite E, (blen_app l). lia. }
    rewrite St in *. clear St.
    assert (Lr : (length m < S (length (enc t)))%nat).
    { rewrite E in Le. rewrite !app_length in Le. rewrite E. lia. }
    assert (En : trim_end_loop (S (length (enc t))) (0, enc t) (blen l) (blen t) = Ret (Some (blen (l ++ r)))).
    { rewrite E at 2 3. rewrite Ey. rewrite <- (app_assoc r2), !(app_assoc l).
      apply trim_end_loop_spec; auto. rewrite blen_app. lia. }
    rewrite En in E2. injection E2 as <-. exists l, r, m. auto.
Qed.
End Texts.

Section Claims.
Variable c : cfg.
Variables tr db : bool.
Context {W : Type}.
Variable log : event -> ST W unit.

Lemma log_quiet : quiet tr db log ->
  (forall k w, exists w', l_build c tr db log k w = (build c k, w')) /\
  (forall l s w, exists w', l_run_ops c tr db log l s w = (fst (run_ops c l s), snd (run_ops c l s), w')).
Proof.
  intros Q. assert (Hlog : a_logger tr db log) by (intros e L w; rewrite (Q e w L); split; discriminate).
  split; [intros k w; apply quiet_build | intros l s w; apply quiet_ops]; assumption.
Qed.

Hypothesis Hlog : a_logger tr db log.

Lemma log_panic o s w : several_steps o = false ->
  as_without (l_run_op c tr db log o) (run_op c o) s w \/
  (can_panic tr db log /\ panicked (l_run_op c tr db log o) s w s) \/
  (panics_on tr db log EvLen /\ (inner_edit o = true \/ appends o = true) /\
   panicked (l_run_op c tr db log o) s w (torn s (snd (run_op c o s)))).
Proof.
  intros Ho. destruct (inner_edit o || appends o) eqn:E.
  - apply orb_true_iff in E.
    destruct (op_obs c tr db log Hlog (panics_on tr db log EvLen) (fun H => H)
      (fun s' => s' = s \/ (panics_on tr db log EvLen /\ s' = torn s (snd (run_op c o s)))) o s Ho (or_introl eq_refl)
      (fun B => or_intror (conj B eq_refl)) w) as [H|(b & s' & w' & H & [->|[B ->]])].
    + left. exact H.
    + right. left. split; [exact b|]. exists w'. exact H.
    + right. right. split; [exact B|]. split; [exact E|]. exists w'. exact H.
  - apply orb_false_iff in E as [E1 E2].
    destruct (atomic_obs c tr db log Hlog False (fun s' => s' = s) o s E1 Ho E2 eq_refl (fun B => match B with end) w)
      as [H|(b & s' & w' & H & ->)].
    + left. exact H.
    + right. left. split; [exact b|]. exists w'. exact H.
Qed.

Lemma log_build k w :
  exists w', l_build c tr db log k w = (build c k, w') \/ (can_panic tr db log /\ l_build c tr db log k w = (Panic, w')).
Proof. exact (build_reads c tr db log Hlog k w). Qed.

Lemma log_compare (s o : astring) (h : hasher) (st : hstate h) :
  answers tr db log (l_partial_eq c tr log s o) (partial_eq c s o) /\
  answers tr db log (l_ord_cmp c tr log s o) (ord_cmp c s o) /\
  answers tr db log (l_hash c tr log h s st) (hash c h s st).
Proof.
  assert (R : forall s, reads_if (can_panic tr db log) (l_as_str c tr log s) (as_str c s))
    by (intros x; apply as_str_reads; exact Hlog).
  split; [|split].
  - apply reads_bind; [apply R|]. intros a _. apply reads_bind; [apply R|]. intros b _. apply reads_sret.
  - apply reads_bind; [apply R|]. intros a _. apply reads_bind; [apply R|]. intros b _. apply reads_sret.
  - apply reads_bind; [apply R|]. intros a _. apply reads_sret.
Qed.

Lemma log_drain front d w :
  let g := if front : bool then l_drain_next c tr db log else l_drain_next_back c tr db log in
  let p := if front then drain_next c else drain_next_back c in
  (exists w', g (drained d, w) = (fst (p d), (drained (snd (p d)), w'))) \/
  (can_panic tr db log /\ panicked g (drained d) w (drained d)) \/
  (front = true /\ panics_on tr db log EvLen /\ panicked g (drained d) w (torn (drained d) (drained (snd (p d))))).
Proof.
  intros g p. destruct front; subst g p.
  - destruct (obs_map tr db log (panics_on tr db log EvLen)
      (fun s' => s' = drained d \/ (panics_on tr db log EvLen /\ s' = torn (drained d) (snd (remove c 0 (drained d)))))
      _ _ ok (drained d) (remove_obs c tr db log Hlog (panics_on tr db log EvLen) (fun H => H) _ 0 (drained d))
      (or_introl eq_refl)) with (w := w) as [(w' & H)|(b & s' & w' & H & [->|[B ->]])].
    + intros B. right. split; [exact B|]. unfold sbind. destruct (remove c 0 (drained d)) as [[r| | |] s1]; reflexivity.
    + left. exists w'. unfold l_drain_next. rewrite H. unfold drain_next, on_drained, sbind.
      destruct (remove c 0 (drained d)) as [[r| | |] s1]; reflexivity.
    + right. left. split; [exact b|]. exists w'. exact H.
    + right. right. split; [reflexivity|]. split; [exact B|]. exists w'. unfold l_drain_next. rewrite H.
      unfold drain_next, on_drained, sbind. destruct (remove c 0 (drained d)) as [[r| | |] s1]; reflexivity.
  - destruct (pop_obs c tr db log Hlog False (fun s' => s' = drained d) (drained d) eq_refl (fun B => match B with end) w)
      as [(w' & H)|(b & s' & w' & H & ->)].
    + left. exists w'. unfold l_drain_next_back. rewrite H. unfold drain_next_back, on_drained.
      destruct (pop c (drained d)) as [r s1]; reflexivity.
    + right. left. split; [exact b|]. exists w'. exact H.
Qed.

Hypothesis Hc : valid_cfg c.

Lemma log_text o s t w : shows c s t -> typed_op o -> several_steps o = false ->
  inner_edit o = false \/ ~ panics_on tr db log EvLen ->
  as_without (l_run_op c tr db log o) (run_op c o) s w \/
  (can_panic tr db log /\ exists s', panicked (l_run_op c tr db log o) s w s' /\ shows c s' t).
Proof.
  intros Sh To Ho H. destruct (log_panic o s w Ho) as [E|[(b & P)|(B & A & P)]].
  - left. exact E.
  - right. split; [exact b|]. exists s. split; [exact P|exact Sh].
  - right. split; [exists EvLen; exact B|]. exists (torn s (snd (run_op c o s))). split; [exact P|].
    destruct H as [H|H]; [|destruct (H B)]. destruct A as [A|A]; [congruence|].
    apply shows_rep in Sh. apply shows_rep, torn_append; assumption.
Qed.

Lemma sim_weaken {A} (K K' : astring -> Prop) (g : ST (astring * W) A) p s :
  (forall x, K x -> K' x) -> sim tr db log K g p s -> sim tr db log K' g p s.
Proof using.
  intros H S w. destruct (S w) as [E|(b & s' & w' & E & X)]; [left; exact E|].
  right. split; [exact b|]. exists s', w'. split; [exact E|exact (H _ X)].
Qed.

Lemma formatting_sim p : forall s t, rep c s t ->
  sim tr db log (fun s' => exists u, so_far (cap c) p t u /\ rep c s' u)
    (run_fprog (l_write_str c tr db log) (formatting_prog p)) (run_fprog (write_str c) (formatting_prog p)) s.
Proof.
  induction p as [r| |w next IH]; intros s t R; cbn [formatting_prog run_fprog].
  - apply (sret_sim tr db log).
  - intros w. left. exists w. reflexivity.
  - destruct (write_str_rep c Hc w s _ R) as (s2 & E & R2 & _).
    apply (sim_bind tr db log).
    + apply (write_str_obs c tr db log Hlog True (fun _ => I)).
      * exists t. split; [apply sf_here|exact R].
      * intros _. rewrite E. cbn [snd]. exists t. split; [apply sf_here|].
        unfold t_write_str in R2. destruct (_ <=? _); cbn [fst snd] in R2.
        -- exact (torn_rep c Hc s _ s2 w R R2).
        -- apply (torn_rep c Hc s _ s2 [] R). rewrite app_nil_r. exact R2.
    + intros r s1 E1. rewrite E in E1. injection E1 as Er Es. subst s2.
      eapply sim_weaken; [|exact (IH (is_ok r) s1 _ R2)].
      intros x (u & Hu & Rx). exists u. split; [|exact Rx].
      unfold t_write_str in *. destruct (N.leb_spec (blen t + blen w) (cap c)) as [L|L]; cbn [fst snd] in *; subst r.
      * apply sf_added; [exact L|exact Hu].
      * apply sf_refused; [exact L|exact Hu].
Qed.

Lemma log_write_fmt p s t w : shows c s t ->
  as_without (l_run_op c tr db log (OWriteFmt p)) (run_op c (OWriteFmt p)) s w \/
  (can_panic tr db log /\ exists s' u, panicked (l_run_op c tr db log (OWriteFmt p)) s w s' /\
   so_far (cap c) p t u /\ shows c s' u).
Proof.
  intros Sh. apply shows_rep in Sh.
  assert (X : sim tr db log (fun s' => exists u, so_far (cap c) p t u /\ rep c s' u)
    (l_run_op c tr db log (OWriteFmt p)) (run_op c (OWriteFmt p)) s).
  { cbn [l_run_op]. unfold run_op, l_out, to_out, write_fmt.
    apply sim_bind; [|intros a s1 _; apply sret_sim]. exact (formatting_sim p s t Sh). }
  destruct (X w) as [E|(b & s' & w' & E & (u & Hu & R))].
  - left. exact E.
  - right. split; [exact b|]. exists s', u. split; [exists w'; exact E|]. split; [exact Hu|apply shows_rep; exact R].
Qed.

(** Cutting off the end moves no byte. *)
Local Definition still (s0 : astring) {A} (m : ST astring A) : Prop := forall s,
  arr s = arr s0 -> size s = size s0 -> arr (snd (m s)) = arr s0 /\ size (snd (m s)) = size s0.

Lemma still_bind s0 {A B} (m : ST astring A) (f : A -> ST astring B) s :
  still s0 m -> arr s = arr s0 -> size s = size s0 ->
  (forall a s', arr s' = arr s0 -> size s' = size s0 -> arr (snd (f a s')) = arr s0) ->
  arr (snd (sbind m f s)) = arr s0.
Proof using.
  intros Hm Ha Hs Hf. unfold sbind. specialize (Hm s Ha Hs). destruct (m s) as [[a| | |] s']; cbn [snd] in *; [apply Hf; tauto|tauto..].
Qed.

Lemma still_try s0 {A B E F} (conv : E -> F) (m : ST astring (result A E)) (f : A -> ST astring (result B F)) s :
  still s0 m -> arr s = arr s0 -> size s = size s0 ->
  (forall a s', arr s' = arr s0 -> size s' = size s0 -> arr (snd (f a s')) = arr s0) ->
  arr (snd (stry conv m f s)) = arr s0.
Proof using.
  intros Hm Ha Hs Hf. unfold stry. apply still_bind; [exact Hm|exact Ha|exact Hs|].
  intros [a|e] s' Ha' Hs'; [apply Hf; assumption|exact Ha'].
Qed.

Lemma still_read s0 {A} (f : astring -> outcome A) : still s0 (sread f).
Proof using. intros s Ha Hs. unfold sread. destruct (f s); cbn; split; assumption. Qed.

Lemma still_ret s0 {A} (a : A) : still s0 (sret a).
Proof using. intros s Ha Hs. split; assumption. Qed.

Lemma still_lift s0 {A} (o : outcome A) : still s0 (slift o).
Proof using. intros s Ha Hs. unfold slift. split; assumption. Qed.

Lemma usub_same n : usub c n n = Ret 0.
Proof using. unfold usub. rewrite N.leb_refl, N.sub_diag. reflexivity. Qed.

Lemma cut_end_arr e s : arr (snd (replace_range c (Included e) Unbounded [] s)) = arr s.
Proof using.
  unfold replace_range. cbn [start_of end_of].
  destruct (_ && _); [reflexivity|].
  do 5 (apply still_try; [first [apply still_ret|apply still_read]|try reflexivity; assumption..|]; intros ? ? ? ?).
  all: try reflexivity.
  apply still_bind; [apply still_read|assumption..|]. intros ? ? ? ?.
  apply still_try; [apply still_ret|assumption..|]. intros ? ? ? ?.
  do 3 (apply still_bind; [apply still_lift|assumption..|]; intros ? ? ? ?).
  apply still_bind; [|assumption..|].
  { destruct (negb _); [|apply still_ret].
    intros sx Ha Hs. assert (L : len sx = len s) by exact Hs. unfold sbind, sread. rewrite L, usub_same. cbn [obind].
    unfold ptr_copy. rewrite !N.add_0_r. destruct (_ && _); cbn [set_arr smodify snd fst arr size]; [|split; assumption].
    rewrite takeN_0. cbn [app]. rewrite takeN_dropN. split; assumption. }
  intros ? ? ? ?. apply still_bind; [apply still_ret|assumption..|]. intros ? ? ? ?.
  apply still_bind; [apply still_read|assumption..|]. intros ? ? ? ?. assumption.
Qed.

Lemma trim_second start end_ s r s1 : trim_start_of c s = Ret start -> trim_end_from c start s = Ret (Some end_) ->
  replace_range c (Included end_) Unbounded [] s = (Ret r, s1) ->
  snd (replace_range c Unbounded (Excluded start) [] s1) = snd (run_op c OTrim s).
Proof using.
  intros E1 E2 E3. unfold run_op, to_out, trim, trim_start_of, trim_end_from in *. unfold sbind, sread, sret.
  rewrite E1, E2, E3. destruct (replace_range c Unbounded (Excluded start) [] s1) as [[x| | |] s2]; reflexivity.
Qed.

Lemma log_trim s t w : shows c s t ->
  as_without (l_run_op c tr db log OTrim) (run_op c OTrim) s w \/
  (can_panic tr db log /\ exists s', panicked (l_run_op c tr db log OTrim) s w s' /\
   exists s1 t' m, shows c s1 t' /\ t = t' ++ m /\ Forall (fun x => white_space x = true) m /\
     (s' = s1 \/ panics_on tr db log EvLen /\ s' = torn s1 (snd (run_op c OTrim s)))).
Proof.
  intros Sh. apply shows_rep in Sh.
  set (K := fun s' => exists s1 t' m, rep c s1 t' /\ t = t' ++ m /\ Forall (fun x => white_space x = true) m /\
     (s' = s1 \/ panics_on tr db log EvLen /\ s' = torn s1 (snd (run_op c OTrim s)))).
  assert (K0 : K s).
  { exists s, t, []. split; [exact Sh|]. split; [symmetry; apply app_nil_r|]. split; [constructor|left; reflexivity]. }
  assert (X : sim tr db log K (l_run_op c tr db log OTrim) (run_op c OTrim) s).
  { cbn [l_run_op]. unfold run_op, l_out, to_out.
    apply sim_bind; [|intros a s1 _; apply sret_sim].
    apply (trim_sim c tr db log Hlog (panics_on tr db log EvLen) (fun H => H) K).
    - exact K0.
    - intros start end_ E1 E2. cbv zeta.
      assert (T1 : torn s (snd (replace_range c (Included end_) Unbounded [] s)) = s).
      { unfold torn. rewrite cut_end_arr. destruct s; reflexivity. }
      rewrite T1. assert (T2 := fun r s1 => trim_second start end_ s r s1 E1 E2).
      destruct (trim_ends c s t start end_ Sh E1 E2) as (l & r & m & -> & -> & -> & Fm).
      pose proof (rep_cap c s _ Sh) as Kc.
      destruct (replace_range_ok c Hc (Included (blen (l ++ r))) Unbounded [] s (l ++ r) m []) as (s1 & P1 & P2).
      + rewrite app_nil_r, <- app_assoc. exact Sh.
      + reflexivity.
      + cbn [range_to]. rewrite app_nil_r, (blen_app _ m). lia.
      + rewrite !blen_app in *. cbn. lia.
      + change (enc []) with (@nil N) in P1. specialize (T2 _ _ P1). rewrite P1. cbn [snd]. cbn [app] in P2. rewrite app_nil_r in P2.
        split; [|split].
        * exists s1, (l ++ r), m. split; [exact P2|]. split; [apply app_assoc|]. split; [exact Fm|left; reflexivity].
        * intros _. exact K0.
        * intros B. rewrite T2. exists s1, (l ++ r), m. split; [exact P2|]. split; [apply app_assoc|]. split; [exact Fm|].
          right. split; [exact B|reflexivity]. }
  destruct (X w) as [E|(b & s' & w' & E & H)].
  - left. exact E.
  - right. split; [exact b|]. exists s'. split; [exists w'; exact E|].
    destruct H as (s1 & t' & m & R & H). exists s1, t', m. split; [apply shows_rep; exact R|exact H].
Qed.
End Claims.

Lemma c71_quiet c tr db {W} (log : event -> ST W unit) :
  quiet tr db log ->
  (forall k w, exists w', l_build c tr db log k w = (build c k, w')) /\
  (forall l s w, exists w', l_run_ops c tr db log l s w = (fst (run_ops c l s), snd (run_ops c l s), w')).
Proof. exact (log_quiet c tr db log). Qed.

Lemma c71_panic c tr db {W} (log : event -> ST W unit) o s w : a_logger tr db log ->
  several_steps o = false ->
  as_without (l_run_op c tr db log o) (run_op c o) s w \/
  (can_panic tr db log /\ panicked (l_run_op c tr db log o) s w s) \/
  (panics_on tr db log EvLen /\ (inner_edit o = true \/ appends o = true) /\
   panicked (l_run_op c tr db log o) s w (torn s (snd (run_op c o s)))).
Proof. intros Hlog. exact (log_panic c tr db log Hlog o s w). Qed.

Lemma c71_build c tr db {W} (log : event -> ST W unit) k : a_logger tr db log ->
  answers tr db log (l_build c tr db log k) (build c k).
Proof. intros Hlog w. exact (log_build c tr db log Hlog k w). Qed.

Lemma c71_text c tr db {W} (log : event -> ST W unit) o s t w : valid_cfg c -> a_logger tr db log ->
  shows c s t -> typed_op o -> several_steps o = false ->
  inner_edit o = false \/ ~ panics_on tr db log EvLen ->
  as_without (l_run_op c tr db log o) (run_op c o) s w \/
  (can_panic tr db log /\ exists s', panicked (l_run_op c tr db log o) s w s' /\ shows c s' t).
Proof. intros Hc Hlog. exact (log_text c tr db log Hlog Hc o s t w). Qed.

Lemma c71_write_fmt c tr db {W} (log : event -> ST W unit) p s t w : valid_cfg c -> a_logger tr db log ->
  shows c s t ->
  as_without (l_run_op c tr db log (OWriteFmt p)) (run_op c (OWriteFmt p)) s w \/
  (can_panic tr db log /\ exists s' u, panicked (l_run_op c tr db log (OWriteFmt p)) s w s' /\
   so_far (cap c) p t u /\ shows c s' u).
Proof. intros Hc Hlog. exact (log_write_fmt c tr db log Hlog Hc p s t w). Qed.

Lemma c71_trim c tr db {W} (log : event -> ST W unit) s t w : valid_cfg c -> a_logger tr db log ->
  shows c s t ->
  as_without (l_run_op c tr db log OTrim) (run_op c OTrim) s w \/
  (can_panic tr db log /\ exists s', panicked (l_run_op c tr db log OTrim) s w s' /\
   exists s1 t' m, shows c s1 t' /\ t = t' ++ m /\ Forall (fun x => white_space x = true) m /\
     (s' = s1 \/ panics_on tr db log EvLen /\ s' = torn s1 (snd (run_op c OTrim s)))).
Proof. intros Hc Hlog. exact (log_trim c tr db log Hlog Hc s t w). Qed.

Lemma c71_compare c tr db {W} (log : event -> ST W unit) s o (h : hasher) (st : hstate h) : a_logger tr db log ->
  answers tr db log (l_partial_eq c tr log s o) (partial_eq c s o) /\
  answers tr db log (l_ord_cmp c tr log s o) (ord_cmp c s o) /\
  answers tr db log (l_hash c tr log h s st) (hash c h s st).
Proof. intros Hlog. exact (log_compare c tr db log Hlog s o h st). Qed.

Lemma c71_drain c tr db {W} (log : event -> ST W unit) front d w : a_logger tr db log ->
  let g := if front : bool then l_drain_next c tr db log else l_drain_next_back c tr db log in
  let p := if front then drain_next c else drain_next_back c in
  (exists w', g (drained d, w) = (fst (p d), (drained (snd (p d)), w'))) \/
  (can_panic tr db log /\ panicked g (drained d) w (drained d)) \/
  (front = true /\ panics_on tr db log EvLen /\ panicked g (drained d) w (torn (drained d) (drained (snd (p d))))).
Proof. intros Hlog. exact (log_drain c tr db log Hlog front d w). Qed.

(** Histories in which the caller catches panics. *)
Lemma log_step c tr db {W} (log : event -> ST W unit) o s t w : valid_cfg c -> a_logger tr db log ->
  shows c s t -> typed_op o -> harmless o -> inner_edit o = false \/ ~ panics_on tr db log EvLen ->
  exists r s' w' t', l_run_op c tr db log o (s, w) = (r, (s', w')) /\ calm r /\ shows c s' t'.
Proof.
  intros Hc Hlog Sh To Hh Ho.
  assert (X : as_without (l_run_op c tr db log o) (run_op c o) s w ->
              exists r s' w' t', l_run_op c tr db log o (s, w) = (r, (s', w')) /\ calm r /\ shows c s' t').
  { intros (w' & E). pose proof (proj1 (shows_rep c s t) Sh) as R.
    destruct (run_op_sim c Hc o s t R To) as (s' & E' & R'). rewrite E' in E. cbn [fst snd] in E.
    exists (fst (t_op (usize_max c) (cap c) o t)), s', w', (snd (t_op (usize_max c) (cap c) o t)).
    split; [exact E|]. split; [exact (t_op_calm (usize_max c) (cap c) o t Hh)|apply shows_rep; exact R']. }
  destruct (several_steps o) eqn:So.
  - destruct o; try discriminate So.
    + destruct Ho as [Ho|Ho]; [discriminate Ho|].
      destruct (c71_trim c tr db log s t w Hc Hlog Sh) as [H|(_ & s' & (w' & P) & s1 & t' & m & S1 & _ & _ & [E|[B _]])].
      * exact (X H).
      * exists Panic, s', w', t'. subst s1. split; [exact P|]. split; [exact I|exact S1].
      * destruct (Ho B).
    + destruct (c71_write_fmt c tr db log p s t w Hc Hlog Sh) as [H|(_ & s' & u & (w' & P) & _ & S1)]; [exact (X H)|].
      exists Panic, s', w', u. split; [exact P|]. split; [exact I|exact S1].
  - destruct (c71_text c tr db log o s t w Hc Hlog Sh To So Ho) as [H|(_ & s' & (w' & P) & S1)]; [exact (X H)|].
    exists Panic, s', w', t. split; [exact P|]. split; [exact I|exact S1].
Qed.

Lemma c71_history c tr db {W} (log : event -> ST W unit) l s t w : valid_cfg c -> a_logger tr db log ->
  shows c s t -> Forall typed_op l -> Forall harmless l -> no_torn tr db log l ->
  exists rs s' w' t', l_run_ops c tr db log l s w = (rs, s', w') /\ shows c s' t' /\
    Forall (fun o => o = Panic \/ exists r, o = Ret r) rs.
Proof.
  intros Hc Hlog Sh Tl Hl Nl. revert s t w Sh; induction l as [|o l IH]; intros s t w Sh; cbn [l_run_ops].
  - exists [], s, w, t. split; [reflexivity|]. split; [exact Sh|constructor].
  - inversion Tl; subst. inversion Hl; subst.
    assert (No : inner_edit o = false \/ ~ panics_on tr db log EvLen).
    { destruct Nl as [N|N]; [left; inversion N; assumption|right; exact N]. }
    assert (Nl' : no_torn tr db log l).
    { destruct Nl as [N|N]; [left; inversion N; assumption|right; exact N]. }
    destruct (log_step c tr db log o s t w Hc Hlog Sh) as (r & s1 & w1 & t1 & E & Cr & S1); [assumption..|].
    rewrite E. destruct (IH ltac:(assumption) ltac:(assumption) Nl' s1 t1 w1 S1) as (rs & s2 & w2 & t2 & E2 & S2 & F).
    rewrite E2. exists (r :: rs), s2, w2, t2. split; [reflexivity|]. split; [exact S2|]. constructor; [|exact F].
    destruct r; try contradiction Cr; [right; eexists; reflexivity|left; reflexivity].
Qed.
