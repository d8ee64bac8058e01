(** The messages of each call, towards ClaimsLogLines.v. *)
From Coq Require Import ZArith ZifyBool ZifyN ZifyNat Arith.
From Verif Require Import Base Char Spec RustStd ModelError Model ModelImpl ModelDrain IterSpec ListFacts Utf8Facts CoreFacts
  MethodFacts IterFacts Utf16Facts ImplFacts DrainFacts Obs ObsLogs ObsLogLines OpsFacts ClaimsOps ClaimsArgs ClaimsLogs.

Section Lines.
Variable c : cfg.
Variables tr db : bool.

Notation lev := (log_grew tr db).

Lemma grew_refl l : lev l [] l.
Proof. exists []. rewrite app_nil_r. destruct db; repeat split. Qed.

Lemma grew_trans l1 n1 l2 n2 l3 : lev l1 n1 l2 -> lev l2 n2 l3 -> lev l1 (n1 ++ n2) l3.
Proof.
  intros (m1 & -> & E1 & H1) (m2 & -> & E2 & H2). exists (m1 ++ m2). rewrite app_assoc, filter_app, E1, E2.
  repeat split; [destruct db; reflexivity|]. intros E. rewrite <- E1, <- E2, (H1 E), (H2 E). reflexivity.
Qed.

Lemma grew_nil l1 l2 n l3 : lev l1 [] l2 -> lev l2 n l3 -> lev l1 n l3.
Proof. exact (grew_trans l1 [] l2 n l3). Qed.

(** [g] has the outcome [o] and logs [L]. *)
Definition says {A} (g : ST (list event) A) (o : outcome A) (L : list event) : Prop :=
  forall w, exists w', g w = (o, w') /\ lev w L w'.

Lemma says_sret {A} (a : A) : says (sret a) (Ret a) [].
Proof. intros w. exists w. split; [reflexivity|apply grew_refl]. Qed.
Lemma says_slift {A} (o : outcome A) : says (slift o) o [].
Proof. intros w. exists w. split; [destruct o; reflexivity|apply grew_refl]. Qed.

Lemma says_skip {A D} (g : ST (list event) A) a L1 (k : A -> ST (list event) D) o L2 :
  says g (Ret a) L1 -> says (k a) o L2 -> says (sbind g k) o (L1 ++ L2).
Proof.
  intros H K w. destruct (H w) as (w1 & E & G1). destruct (K w1) as (w2 & F & G2). exists w2.
  rewrite (bind_eq _ _ _ _ _ E). split; [exact F|exact (grew_trans _ _ _ _ _ G1 G2)].
Qed.

Lemma says_bind {A D} (g : ST (list event) A) (o : outcome A) (k : A -> ST (list event) D) (k' : A -> outcome D) :
  says g o [] -> (forall a, o = Ret a -> says (k a) (k' a) []) -> says (sbind g k) (obind o k') [].
Proof.
  intros H K w. destruct (H w) as (w1 & E & G1). unfold sbind. rewrite E.
  destruct o as [a| | |]; [|exists w1; split; [reflexivity|exact G1]..].
  destruct (K a eq_refl w1) as (w2 & F & G2). exists w2. split; [exact F|exact (grew_nil _ _ _ _ G1 G2)].
Qed.

Lemma says_trace e : debug_level e = false -> says (trace tr record e) (Ret tt) [].
Proof.
  intros L w. unfold trace. destruct tr eqn:T.
  - exists (w ++ [e]). split; [reflexivity|]. exists [e]. cbn [filter]. rewrite L. destruct db; repeat split; discriminate.
  - exists w. split; [reflexivity|]. exists []. rewrite app_nil_r. destruct db; repeat split.
Qed.

Lemma says_dbg e : debug_level e = true -> says (dbg db record e) (Ret tt) [e].
Proof.
  intros L w. unfold dbg. destruct db.
  - exists (w ++ [e]). split; [reflexivity|]. exists [e]. cbn [filter]. rewrite L. repeat split.
  - exists w. split; [reflexivity|]. exists []. rewrite app_nil_r. repeat split.
Qed.

Lemma says_log_tr {A} (arg : ST (list event) A) a e : debug_level (e a) = false -> says arg (Ret a) [] ->
  says (log_with tr record arg e) (Ret tt) [].
Proof.
  intros L H. pose proof (says_trace (e a) L) as T. unfold log_with, trace in *. destruct tr eqn:Et; [|exact T].
  exact (says_skip _ a [] _ _ [] H T).
Qed.
Lemma says_log_db {A} (arg : ST (list event) A) a e : debug_level (e a) = true -> says arg (Ret a) [] ->
  says (log_with db record arg e) (Ret tt) [e a].
Proof.
  intros L H. pose proof (says_dbg (e a) L) as T. unfold log_with, dbg in *. destruct db eqn:Et; [|exact T].
  exact (says_skip _ a [] _ _ [_] H T).
Qed.

Lemma says_len s : says (l_len tr record s) (Ret (len s)) [].
Proof. apply (says_skip _ tt [] _ _ []); [apply says_trace; reflexivity|apply says_sret]. Qed.

Lemma says_assert (m : ST (list event) bool) o : says m o [] -> says (l_assert c m) (debug_assert c o) [].
Proof.
  intros H. unfold l_assert, debug_assert. destruct (debug c); [|apply says_sret].
  apply says_bind; [exact H|]. intros a _. apply says_slift.
Qed.

Lemma says_as_ref_bytes s : says (l_as_ref_bytes c tr record s) (as_ref_bytes c s) [].
Proof.
  unfold l_as_ref_bytes, as_ref_bytes. apply says_bind.
  - apply says_assert. apply (says_skip _ (len s) [] _ _ []); [apply says_len|apply says_sret].
  - intros _ _. apply (says_skip _ (len s) [] _ _ []); [apply says_len|apply says_slift].
Qed.

Lemma says_as_ref_str s : says (l_as_ref_str c tr record s) (as_ref_str c s) [].
Proof.
  unfold l_as_ref_str, as_ref_str. apply says_bind.
  - apply says_assert. apply says_bind; [apply says_as_ref_bytes|intros; apply says_sret].
  - intros _ _. apply says_bind; [apply says_as_ref_bytes|intros; apply says_slift].
Qed.

Lemma says_as_str s : says (l_as_str c tr record s) (as_str c s) [].
Proof. apply (says_skip _ tt [] _ _ []); [apply says_trace; reflexivity|apply says_as_ref_str]. Qed.

Lemma says_as_mut s : says (l_as_mut c tr record s) (fst (as_mut c s)) [].
Proof.
  unfold l_as_mut, as_mut, sread. cbn [fst]. apply (says_skip _ (len s) [] _ _ []); [apply says_len|].
  apply says_bind; [apply says_slift|]. intros _ _.
  apply says_bind; [apply says_slift|]. intros b _.
  apply says_bind; [apply says_slift|]. intros _ _. apply says_slift.
Qed.

Lemma says_as_mut_str s : says (l_as_mut_str c tr record s) (fst (as_mut_str c s)) [].
Proof. apply (says_skip _ tt [] _ _ []); [apply says_trace; reflexivity|apply says_as_mut]. Qed.

Lemma says_inside a b : says (l_is_inside_boundary tr record a b) (Ret (is_inside_boundary a b)) [].
Proof. apply (says_skip _ tt [] _ _ []); [apply says_trace; reflexivity|apply says_sret]. Qed.

Lemma says_boundary s i : says (l_is_char_boundary c tr record s i) (is_char_boundary c s i) [].
Proof.
  unfold l_is_char_boundary, is_char_boundary.
  assert (K : says (b <~ l_as_str c tr record s ;; sret (if str_is_char_boundary b i then Ok tt else Err mkUtf8))
    (b <- as_str c s ;; Ret (if str_is_char_boundary b i then Ok tt else Err mkUtf8)) []).
  { apply says_bind; [apply says_as_str|intros; apply says_sret]. }
  destruct (as_str c s) as [b| | |] eqn:E.
  1: { apply (says_skip _ tt [] _ _ []); [|exact K]. apply (says_log_tr _ b); [reflexivity|]. rewrite <- E. apply says_as_str. }
  all: intros w; unfold log_with; destruct tr eqn:T; rewrite <- T in *.
  all: try (destruct (says_as_str s w) as (w1 & F & G); rewrite E in F; exists w1; split; [|exact G];
    unfold sbind; rewrite F; reflexivity).
  all: exact (K w).
Qed.

Lemma says_truncate_str b n : says (l_truncate_str c tr record b n) (truncate_str c b n) [].
Proof. apply (says_skip _ tt [] _ _ []); [apply says_trace; reflexivity|apply says_slift]. Qed.

Lemma says_end_of hi s : says (l_end_of c tr record hi s) (Ret (end_of c hi (len s))) [].
Proof. destruct hi; [apply says_sret..|apply says_len]. Qed.

Lemma says_new_len n a b s : says (l_new_len c tr record n a b s)
  (x <- uadd c (len s) n ;; y <- uadd c x a ;; usub c y b) [].
Proof. apply (says_skip _ (len s) [] _ _ []); [apply says_len|apply says_slift]. Qed.

Lemma says_room string b s : says string (Ret b) [] ->
  says (l_room_for c tr record string s) (n <- usub c (capacity c) (len s) ;; truncate_str c b n) [].
Proof.
  intros H. apply (says_skip _ b [] _ _ []); [exact H|].
  apply (says_skip _ (len s) [] _ _ []); [apply says_len|].
  apply says_bind; [apply says_slift|]. intros n _. apply says_truncate_str.
Qed.

Lemma says_next_boundary fuel s e : says (l_next_boundary c tr record fuel s e) (next_boundary c fuel s e) [].
Proof.
  revert e; induction fuel as [|fuel IH]; intros e; cbn [l_next_boundary next_boundary]; [apply says_slift|].
  apply says_bind; [apply says_as_str|]. intros b _. destruct (str_is_char_boundary b e); [apply says_sret|].
  apply says_bind; [apply says_slift|]. intros e' _. apply IH.
Qed.

(** ** Code that holds [&mut self] *)

(** [g] does what [m] does and logs [L]. *)
Definition tells {A} (g : ST (astring * list event) A) (m : ST astring A) (s : astring) (L : list event) : Prop :=
  forall w, exists w', g (s, w) = (fst (m s), (snd (m s), w')) /\ lev w L w'.
Notation hush g m s := (tells g m s []).

Lemma tells_ext {A} (g : ST (astring * list event) A) m m' s L : m s = m' s -> tells g m s L -> tells g m' s L.
Proof. intros E H w. rewrite <- E. exact (H w). Qed.

Lemma tells_arg {A} (a : ST (list event) A) s o L : says a o L -> tells (on_arg a) (slift o) s L.
Proof.
  intros H w. destruct (H w) as (w' & E & G). exists w'. split; [|exact G]. rewrite (on_arg_eq a s w _ _ E). reflexivity.
Qed.
Lemma tells_seen {A} (f : astring -> ST (list event) A) s p L : says (f s) (p s) L -> tells (seen f) (sread p) s L.
Proof. intros H. exact (tells_arg (f s) s (p s) L H). Qed.
Lemma tells_self {A} (m : ST astring A) s : hush (on_self m) m s.
Proof.
  intros w. exists w. split; [|apply grew_refl]. unfold on_self. cbn [fst snd]. destruct (m s); reflexivity.
Qed.
Lemma tells_sret {A} (a : A) s : hush (sret a) (sret a) s.
Proof. intros w. exists w. split; [reflexivity|apply grew_refl]. Qed.
Lemma tells_slift {A} (o : outcome A) s : hush (slift o) (slift o) s.
Proof. intros w. exists w. split; [reflexivity|apply grew_refl]. Qed.

(** A step that logs, or is in the program with logs only. *)
Lemma tells_skip {A D} (g : ST (astring * list event) A) a L1 (k : A -> ST (astring * list event) D) m s L2 :
  tells g (slift (Ret a)) s L1 -> tells (k a) m s L2 -> tells (sbind g k) m s (L1 ++ L2).
Proof.
  intros H K w. destruct (H w) as (w1 & E & G1). destruct (K w1) as (w2 & F & G2). exists w2.
  rewrite (bind_eq _ _ _ _ _ E). split; [exact F|exact (grew_trans _ _ _ _ _ G1 G2)].
Qed.

(** A step that returns. *)
Lemma tells_ret {A D} (g : ST (astring * list event) A) m a s1 L1 (k : A -> ST (astring * list event) D) k' s L2 :
  tells g m s L1 -> m s = (Ret a, s1) -> tells (k a) (k' a) s1 L2 -> tells (sbind g k) (sbind m k') s (L1 ++ L2).
Proof.
  intros H E K w. destruct (H w) as (w1 & E1 & G1). rewrite E in E1. destruct (K w1) as (w2 & F & G2). exists w2.
  rewrite (bind_eq _ _ _ _ _ E1), (bind_eq _ _ _ _ _ E). split; [exact F|exact (grew_trans _ _ _ _ _ G1 G2)].
Qed.

Lemma hush_bind {A D} (g : ST (astring * list event) A) m (k : A -> ST (astring * list event) D) k' s :
  hush g m s -> (forall a s1, m s = (Ret a, s1) -> hush (k a) (k' a) s1) -> hush (sbind g k) (sbind m k') s.
Proof.
  intros H K. destruct (m s) as [[a| | |] s1] eqn:E; [exact (tells_ret g m a s1 [] k k' s [] H E (K a s1 eq_refl))|..];
    intros w; destruct (H w) as (w1 & E1 & G1); exists w1; unfold sbind; rewrite E1, E; (split; [reflexivity|exact G1]).
Qed.

(** What follows says nothing. *)
Lemma tells_then {A D} (g : ST (astring * list event) A) m (k : A -> ST (astring * list event) D) k' s L :
  tells g m s L -> (forall a s1, m s = (Ret a, s1) -> hush (k a) (k' a) s1) -> tells (sbind g k) (sbind m k') s L.
Proof.
  intros H K. destruct (m s) as [[a| | |] s1] eqn:E.
  1: rewrite <- (app_nil_r L); exact (tells_ret g m a s1 L k k' s [] H E (K a s1 eq_refl)).
  all: intros w; destruct (H w) as (w1 & E1 & G1); exists w1; unfold sbind; rewrite E1, E; (split; [reflexivity|exact G1]).
Qed.

Lemma tells_map {A D} (g : ST (astring * list event) A) m (f : A -> D) s L :
  tells g m s L -> tells (sbind g (fun a => sret (f a))) (sbind m (fun a => sret (f a))) s L.
Proof. intros H. apply tells_then; [exact H|]. intros. apply tells_sret. Qed.

(** [?]: all steps silent. *)
Lemma hush_try {A D E F} ev (conv : E -> F) (g : ST (astring * list event) (result A E)) m
    (k : A -> ST (astring * list event) (result D F)) k' s :
  debug_level ev = false -> hush g m s -> (forall a s1, m s = (Ret (Ok a), s1) -> hush (k a) (k' a) s1) ->
  hush (l_try tr record ev conv g k) (stry conv m k') s.
Proof.
  intros L H K. unfold l_try, stry. apply hush_bind; [exact H|]. intros [a|e] s1 Em; [apply K; exact Em|].
  apply (tells_skip _ tt [] _ _ _ []); [apply tells_arg, says_trace, L|apply tells_sret].
Qed.

(** [?] on a step that goes on, and on one that does not. *)
Lemma tells_try_ok {A D E F} ev (conv : E -> F) (g : ST (astring * list event) (result A E)) m a s1 L1
    (k : A -> ST (astring * list event) (result D F)) k' s L2 :
  tells g m s L1 -> m s = (Ret (Ok a), s1) -> tells (k a) (k' a) s1 L2 ->
  tells (l_try tr record ev conv g k) (stry conv m k') s (L1 ++ L2).
Proof. intros H Em K. unfold l_try, stry. exact (tells_ret g m (Ok a) s1 L1 _ _ s L2 H Em K). Qed.
Lemma tells_stry_ok {A D E F} (conv : E -> F) (g : ST (astring * list event) (result A E)) m a s1 L1
    (k : A -> ST (astring * list event) (result D F)) k' s L2 :
  tells g m s L1 -> m s = (Ret (Ok a), s1) -> tells (k a) (k' a) s1 L2 -> tells (stry conv g k) (stry conv m k') s (L1 ++ L2).
Proof. intros H Em K. unfold stry. exact (tells_ret g m (Ok a) s1 L1 _ _ s L2 H Em K). Qed.
Lemma tells_try_err {A D E F} ev (conv : E -> F) (g : ST (astring * list event) (result A E)) m e s1
    (k : A -> ST (astring * list event) (result D F)) k' s :
  debug_level ev = false -> hush g m s -> m s = (Ret (Err e), s1) -> hush (l_try tr record ev conv g k) (stry conv m k') s.
Proof. intros L H Em. apply hush_try; [exact L|exact H|]. intros a s2 X. rewrite Em in X. discriminate. Qed.

(** ** replace_range *)
Lemma replace_rest_hush lo hi b s :
  hush (replace_rest c tr record lo b (end_of c hi (len s))) (replace_range c lo hi b) s.
Proof.
  unfold replace_rest.
  set (start := start_of c lo). set (end_ := end_of c hi (len s)).
  unfold replace_range. fold start. fold end_.
  refine (tells_ext _ (if (start =? end_) && (lenN b =? 0) then _ else _) _ s [] _ _); [reflexivity|].
  destruct ((start =? end_) && (lenN b =? 0)); [apply tells_sret|].
  apply hush_try; [reflexivity|exact (tells_arg _ s _ [] (says_inside start end_))|]. intros _ s1 _.
  apply hush_try; [reflexivity|apply tells_seen, (says_skip _ (len s1) [] _ _ []); [apply says_len|apply says_inside]|].
  intros _ s2 _.
  apply hush_try; [reflexivity|exact (tells_arg _ s2 _ [] (says_inside (lenN b) (capacity c)))|]. intros _ s3 _.
  apply hush_try; [reflexivity|apply tells_seen, says_boundary|]. intros _ s4 _.
  apply hush_try; [reflexivity|apply tells_seen, says_boundary|]. intros _ s5 _.
  refine (tells_ext _ (stry from_oob (sread (fun s => n <- (x <- uadd c (len s) (lenN b) ;; y <- uadd c x start ;; usub c y end_) ;;
    Ret (is_inside_boundary n (capacity c)))) _) _ s5 [] _ _).
  { exact (try_of (fun s => x <- uadd c (len s) (lenN b) ;; y <- uadd c x start ;; usub c y end_) (capacity c) _ s5). }
  apply hush_try; [reflexivity|apply tells_seen, says_bind; [apply says_new_len|intros; apply says_inside]|]. intros _ s6 _.
  apply hush_bind; [apply tells_slift|]. intros cut_start s7 _.
  apply hush_bind; [apply tells_slift|]. intros cut_end s8 _.
  apply hush_bind; [apply tells_slift|]. intros str_end s9 _.
  apply hush_bind.
  { destruct (negb (cut_end =? str_end)); [|apply tells_sret].
    apply hush_bind; [|intros; apply tells_self].
    apply tells_seen, (says_skip _ (len s9) [] _ _ []); [apply says_len|apply says_slift]. }
  intros _ s10 _. apply hush_bind.
  { destruct (negb (lenN b =? 0)); [|apply tells_sret].
    apply hush_bind; [|intros; apply tells_self]. apply tells_seen, says_slift. }
  intros _ s11 _. apply hush_bind; [apply tells_seen, says_new_len|]. intros n s12 _.
  apply hush_bind; [apply tells_self|intros; apply tells_sret].
Qed.

Lemma replace_tells lo hi with_ b s : says with_ (Ret b) [] ->
  tells (l_replace_range c tr db record lo hi with_) (replace_range c lo hi b) s
    [EvReplace (len s) (start_of c lo) (end_of c hi (len s)) (lenN b) b].
Proof.
  intros Hw. unfold l_replace_range.
  apply (tells_skip _ b [] _ _ _ [_]); [apply tells_arg; exact Hw|].
  apply (tells_skip _ (end_of c hi (len s)) [] _ _ _ [_]); [exact (tells_arg _ s _ [] (says_end_of hi s))|].
  apply (tells_skip _ tt [_] _ _ _ []); [|exact (replace_rest_hush lo hi b s)].
  apply (tells_seen _ s (fun _ => Ret tt)).
  apply (says_log_db _ (len s, b, b) (fun x => let '(n, a, b) := x in EvReplace n (start_of c lo) (end_of c hi (len s)) (lenN a) b));
    [reflexivity|].
  apply (says_skip _ (len s) [] _ _ []); [apply says_len|].
  apply (says_skip _ b [] _ _ []); [exact Hw|]. apply (says_skip _ b [] _ _ []); [exact Hw|]. apply says_sret.
Qed.

Lemma push_str_tells string b s : says string (Ret b) [] ->
  tells (l_try_push_str c tr db record string) (try_push_str c b) s [EvReplace (len s) (len s) (len s) (lenN b) b].
Proof.
  intros H. unfold l_try_push_str, try_push_str.
  apply (tells_skip _ tt [] _ _ _ [_]); [apply tells_arg, (says_log_tr _ b); [reflexivity|exact H]|].
  apply (tells_ret _ _ (len s) s [] _ _ s [_]); [apply (tells_seen _ s (fun s => Ret (len s))), says_len|reflexivity|].
  apply tells_map. apply (replace_tells (Included (len s)) (Excluded (len s)) string b s H).
Qed.

Lemma push_tells ch b s : encode_utf8 ch 4 = Ret b ->
  tells (l_try_push c tr db record ch) (try_push c ch) s [EvReplace (len s) (len s) (len s) (lenN b) b].
Proof.
  intros E. unfold l_try_push, try_push.
  apply (tells_skip _ tt [] _ _ _ [_]); [apply tells_arg, says_trace; reflexivity|]. rewrite E.
  apply (tells_ret _ _ b s [] _ _ s [_]); [apply tells_slift|reflexivity|]. apply push_str_tells, says_sret.
Qed.

Lemma write_str_tells b s :
  tells (l_write_str c tr db record b) (write_str c b) s [EvReplace (len s) (len s) (len s) (lenN b) b].
Proof. unfold l_write_str, write_str. apply tells_map, push_str_tells, says_sret. Qed.

Lemma truncate_tells n s : tells (l_truncate c tr db record n) (truncate c n) s [EvTruncate n].
Proof.
  unfold l_truncate, truncate. apply (tells_skip _ tt [_] _ _ _ []); [apply tells_arg, says_dbg; reflexivity|].
  apply (tells_ext _ (l <~ sread (fun s => Ret (len s)) ;;
    r <~ sread (fun s => is_char_boundary c s (N.min l n)) ;;
    match r with
    | Ok _ => _ <~ set_size (into_lossy (N.min l n)) ;; sret (Ok tt)
    | Err e => sret (Err e)
    end)); [reflexivity|].
  apply hush_bind; [apply tells_seen, says_len|]. intros l s1 _.
  apply hush_bind; [apply tells_seen, says_boundary|].
  intros [u|e] s2 _; [apply (tells_map _ _ (fun _ => Ok tt)), tells_self|apply tells_sret].
Qed.

Lemma pop_tells s : tells (l_pop c tr db record) (pop c) s [EvPop].
Proof.
  unfold l_pop, pop. apply (tells_skip _ tt [_] _ _ _ []); [apply tells_arg, says_dbg; reflexivity|].
  apply hush_bind; [apply tells_seen, says_bind; [apply says_as_str|intros; apply says_slift]|].
  intros [ch|] s1 _; [|apply tells_sret].
  apply hush_bind; [apply tells_seen, says_slift|]. intros n s2 _. apply tells_map, tells_self.
Qed.

Lemma clear_tells s : hush (l_clear tr record) clear s.
Proof. apply (tells_skip _ tt [] _ _ _ []); [apply tells_arg, says_trace; reflexivity|apply tells_self]. Qed.
End Lines.

(** ** In terms of texts *)
Section Texts.
Variable c : cfg.
Hypothesis Hc : valid_cfg c.
Variables tr db : bool.
Notation lev := (log_grew tr db).
Notation says := (says tr db).
Notation tells := (tells tr db).
Notation hush g m s := (tells g m s []).

Lemma replace_lines lo hi w s t : rep c s t ->
  tells (l_replace_range c tr db record lo hi (sret (enc w))) (replace_range c lo hi (enc w)) s
    [edit_line t (range_from (usize_max c) lo) (range_to (usize_max c) (blen t) hi) w].
Proof.
  intros R. pose proof (replace_tells c tr db lo hi (sret (enc w)) (enc w) s (says_sret tr db _)) as H.
  rewrite start_of_spec, end_of_spec, (rep_len c s t R), enc_len in H. exact H.
Qed.

Lemma push_str_lines string w s t : rep c s t -> says string (Ret (enc w)) [] ->
  tells (l_try_push_str c tr db record string) (try_push_str c (enc w)) s [push_line t w].
Proof.
  intros R H0. pose proof (push_str_tells c tr db string (enc w) s H0) as H. rewrite (rep_len c s t R), enc_len in H. exact H.
Qed.

Lemma push_lines x s t : rep c s t -> tells (l_try_push c tr db record x) (try_push c x) s [push_line t [x]].
Proof.
  intros R. pose proof (push_tells c tr db x (enc [x]) s) as H. rewrite (rep_len c s t R), enc_len in H. apply H.
  rewrite enc_single. apply encode_utf8_4.
Qed.

Lemma write_str_lines w s t : rep c s t -> tells (l_write_str c tr db record (enc w)) (write_str c (enc w)) s [push_line t w].
Proof. intros R. unfold l_write_str, write_str. apply tells_map, push_str_lines; [exact R|apply says_sret]. Qed.

Lemma room_says string w s t : rep c s t -> says string (Ret (enc w)) [] ->
  says (l_room_for c tr record string s) (Ret (enc (fit (cap c - blen t) w))) [].
Proof.
  intros R H. pose proof (says_room c tr db string (enc w) s H) as X.
  pose proof (rep_cap c s t R) as K. unfold usub, capacity in X. rewrite (rep_len c s t R) in X.
  replace (blen t <=? cap c) with true in X by lia. cbn [obind] in X. rewrite truncate_str_fit in X. exact X.
Qed.

Lemma room_plain w s t : rep c s t ->
  sread (fun s => n <- usub c (capacity c) (len s) ;; truncate_str c (enc w) n) s = (Ret (enc (fit (cap c - blen t) w)), s).
Proof.
  intros R. pose proof (rep_cap c s t R) as K. unfold sread, usub, capacity. rewrite (rep_len c s t R).
  replace (blen t <=? cap c) with true by lia. cbn [obind]. rewrite truncate_str_fit. reflexivity.
Qed.

(** A reading step whose answer is known. *)
Lemma tells_known {A D} (f : astring -> ST (list event) A) m a (k : A -> ST (astring * list event) D) k' s L :
  says (f s) (Ret a) [] -> m s = (Ret a, s) -> tells (k a) (k' a) s L -> tells (sbind (seen f) k) (sbind m k') s L.
Proof.
  intros H E K. apply (tells_ret tr db (seen f) m a s [] k k' s L); [|exact E|exact K].
  intros w. rewrite E. exact (tells_seen tr db f s (fun _ => Ret a) [] H w).
Qed.

Lemma push_str_truncate_lines string w s t : rep c s t -> says string (Ret (enc w)) [] ->
  tells (l_push_str_truncate c tr db record string) (push_str_truncate c (enc w)) s [push_line t (fit (cap c - blen t) w)].
Proof.
  intros R H. unfold l_push_str_truncate, push_str_truncate.
  apply (tells_skip tr db _ tt [] _ _ _ [_]); [apply tells_arg, (says_log_tr tr db _ (enc w)); [reflexivity|exact H]|].
  apply (tells_known _ _ (enc (fit (cap c - blen t) w))); [exact (room_says string w s t R H)|exact (room_plain w s t R)|].
  apply tells_map, push_str_lines; [exact R|apply says_sret].
Qed.

Lemma insert_str_lines i string w s t : rep c s t -> says string (Ret (enc w)) [] ->
  tells (l_try_insert_str c tr db record i string) (try_insert_str c i (enc w)) s (insert_lines i w t).
Proof.
  intros R H. unfold l_try_insert_str, try_insert_str.
  apply (tells_skip tr db _ tt [] _ _ _ (insert_lines i w t)).
  { apply (tells_seen tr db _ s (fun _ => Ret tt)), (says_log_tr tr db _ (enc w)); [reflexivity|exact H]. }
  assert (Hs : hush (seen (fun s => n <~ l_len tr record s ;; l_is_inside_boundary tr record i n))
    (sread (fun s => Ret (is_inside_boundary i (len s)))) s).
  { apply tells_seen, (says_skip tr db _ (len s) [] _ _ []); [apply says_len|apply says_inside]. }
  unfold insert_lines. destruct (N.ltb_spec (blen t) i) as [L|L].
  - apply (tells_try_err tr db _ _ _ _ mkOutOfBounds s); [reflexivity|exact Hs|].
    unfold sread, is_inside_boundary. rewrite (rep_len c s t R). replace (i <=? blen t) with false by lia. reflexivity.
  - apply (tells_try_ok tr db _ _ _ _ tt s [] _ _ s [_]); [exact Hs| |].
    + unfold sread, is_inside_boundary. rewrite (rep_len c s t R). replace (i <=? blen t) with true by lia. reflexivity.
    + pose proof (replace_tells c tr db (Included i) (Excluded i) string (enc w) s H) as X.
      rewrite start_of_spec, end_of_spec, (rep_len c s t R), enc_len in X. exact X.
Qed.

Lemma insert_char_lines i x s t : rep c s t ->
  tells (l_try_insert c tr db record i x) (try_insert c i x) s (insert_lines i [x] t).
Proof.
  intros R. unfold l_try_insert, try_insert. rewrite encode_utf8_4, <- enc_single.
  apply (tells_ret tr db _ _ (enc [x]) s [] _ _ s); [apply tells_slift|reflexivity|].
  apply insert_str_lines; [exact R|apply says_sret].
Qed.

Lemma insert_str_truncate_lines i w s t : rep c s t ->
  tells (l_insert_str_truncate c tr db record i (sret (enc w))) (insert_str_truncate c i (enc w)) s
    (insert_lines i (fit (cap c - blen t) w) t).
Proof.
  intros R. unfold l_insert_str_truncate, insert_str_truncate.
  apply (tells_skip tr db _ tt [] _ _ _ (insert_lines i _ t)).
  { apply (tells_seen tr db _ s (fun _ => Ret tt)), (says_log_tr tr db _ (enc w)); [reflexivity|apply says_sret]. }
  apply (tells_known _ _ (enc (fit (cap c - blen t) w))); [exact (room_says _ w s t R (says_sret tr db _))|exact (room_plain w s t R)|].
  unfold stry. apply tells_then; [apply insert_str_lines; [exact R|apply says_sret]|].
  intros [u|e] s1 _; apply tells_sret.
Qed.

(** Steps that read, in the plain program, cannot change the value. *)
Lemma read_ret {A} (f : astring -> outcome A) s a s1 : sread f s = (Ret a, s1) -> s1 = s.
Proof. unfold sread. destruct (f s); intros E; injection E; congruence. Qed.

Lemma stry_inv {A D E F S} (conv : E -> F) (m : ST S (result A E)) (k : A -> ST S (result D F)) s d s' :
  stry conv m k s = (Ret (Ok d), s') -> exists a s1, m s = (Ret (Ok a), s1) /\ k a s1 = (Ret (Ok d), s').
Proof.
  unfold stry, sbind. destruct (m s) as [[[a|e]| | |] s1]; try discriminate. intros H. exists a, s1. auto.
Qed.
Lemma sbind_inv {A D S} (m : ST S A) (k : A -> ST S D) s d s' :
  sbind m k s = (Ret d, s') -> exists a s1, m s = (Ret a, s1) /\ k a s1 = (Ret d, s').
Proof. unfold sbind. destruct (m s) as [[a| | |] s1]; try discriminate. intros H. exists a, s1. auto. Qed.

(** A program that succeeds ran each of its steps. *)
Lemma ok_try {A D E F} ev (conv : E -> F) (g : ST (astring * list event) (result A E)) m
    (k : A -> ST (astring * list event) (result D F)) k' s L d s' :
  stry conv m k' s = (Ret (Ok d), s') -> hush g m s ->
  (forall a s1, m s = (Ret (Ok a), s1) -> k' a s1 = (Ret (Ok d), s') -> tells (k a) (k' a) s1 L) ->
  tells (l_try tr record ev conv g k) (stry conv m k') s L.
Proof.
  intros E0 H K. apply stry_inv in E0 as (a & s1 & E1 & E2).
  exact (tells_try_ok tr db ev conv g m a s1 [] k k' s L H E1 (K a s1 E1 E2)).
Qed.
Lemma ok_stry {A D E F} (conv : E -> F) (g : ST (astring * list event) (result A E)) m
    (k : A -> ST (astring * list event) (result D F)) k' s L1 L2 d s' :
  stry conv m k' s = (Ret (Ok d), s') -> tells g m s L1 ->
  (forall a s1, m s = (Ret (Ok a), s1) -> k' a s1 = (Ret (Ok d), s') -> tells (k a) (k' a) s1 L2) ->
  tells (stry conv g k) (stry conv m k') s (L1 ++ L2).
Proof.
  intros E0 H K. apply stry_inv in E0 as (a & s1 & E1 & E2).
  exact (tells_stry_ok tr db conv g m a s1 L1 k k' s L2 H E1 (K a s1 E1 E2)).
Qed.
Lemma ok_bind {A D} (g : ST (astring * list event) A) m (k : A -> ST (astring * list event) D) k' s L d s' :
  sbind m k' s = (Ret d, s') -> hush g m s ->
  (forall a s1, m s = (Ret a, s1) -> k' a s1 = (Ret d, s') -> tells (k a) (k' a) s1 L) ->
  tells (sbind g k) (sbind m k') s L.
Proof.
  intros E0 H K. apply sbind_inv in E0 as (a & s1 & E1 & E2).
  exact (tells_ret tr db g m a s1 [] k k' s L H E1 (K a s1 E1 E2)).
Qed.

Lemma remove_lines i s t : rep c s t ->
  tells (l_remove c tr db record i) (remove c i) s (debug_lines (usize_max c) (cap c) (ORemove i) t).
Proof.
  intros R. cbn [debug_lines]. pose proof (remove_runs c Hc i s t R) as (s' & H1 & H2 & _).
  unfold l_remove, remove in *.
  apply (tells_skip tr db _ tt [_] _ _ _ _); [apply tells_arg, says_dbg; reflexivity|].
  assert (A1 : hush (seen (fun s => n <~ l_len tr record s ;; l_is_inside_boundary tr record (sat_add c i 1) n))
    (sread (fun s => Ret (is_inside_boundary (sat_add c i 1) (len s)))) s).
  { apply tells_seen, (says_skip tr db _ (len s) [] _ _ []); [apply says_len|apply says_inside]. }
  assert (A2 : hush (seen (fun s => l_is_char_boundary c tr record s i)) (sread (fun s => is_char_boundary c s i)) s).
  { apply tells_seen, says_boundary. }
  destruct (fst (t_remove i t)) as [x|e] eqn:Er.
  2:{ unfold t_remove in Er. pose proof (rep_cap255 c Hc s t R) as (K & K1 & K2).
      destruct (N.leb_spec (blen t) i) as [L|L].
      { apply (tells_try_err tr db _ _ _ _ mkOutOfBounds s); [reflexivity|exact A1|].
        unfold sread, is_inside_boundary, sat_add. rewrite (rep_len c s t R).
        replace (N.min (i + 1) (usize_max c) <=? blen t) with false by lia. reflexivity. }
      apply (tells_try_ok tr db _ _ _ _ tt s [] _ _ s []); [exact A1| |].
      { unfold sread, is_inside_boundary, sat_add. rewrite (rep_len c s t R).
        replace (N.min (i + 1) (usize_max c) <=? blen t) with true by lia. reflexivity. }
      apply (tells_try_err tr db _ _ _ _ mkUtf8 s); [reflexivity|exact A2|].
      unfold sread. rewrite (is_char_boundary_rep c s t _ R).
      destruct (split_at i t) as [[pre [|x post]]|] eqn:E; [|discriminate|reflexivity].
      apply split_at_Some in E as [-> <-]. rewrite app_nil_r in L. lia. }
  apply (ok_try _ _ _ _ _ _ s _ x s' H1 A1). clear H1. intros ? s1 E1 H1.
  apply read_ret in E1 as ->.
  apply (ok_try _ _ _ _ _ _ s _ x s' H1 A2). clear H1. intros ? s1 E1 H1.
  apply read_ret in E1 as ->.
  refine (ok_bind _ _ _ _ s _ (Ok x) s' H1 _ _).
  { apply tells_seen, (says_skip tr db _ (len s) [] _ _ []); [apply says_len|].
    apply says_bind; [apply says_slift|]. intros e _. apply says_next_boundary. }
  clear H1. intros end_ s1 E1 H1. apply read_ret in E1 as ->.
  refine (ok_stry _ _ _ _ _ s [] _ x s' H1 _ _).
  { apply tells_seen, says_bind; [apply says_as_str|]. intros b _. apply says_sret. }
  clear H1. intros sub s1 E1 H1. apply read_ret in E1 as ->.
  refine (ok_stry _ _ _ _ _ s [] _ x s' H1 (tells_slift tr db _ s) _).
  clear H1. intros ch s1 E1 H1. assert (s1 = s) as -> by (unfold slift in E1; congruence).
  refine (ok_bind _ _ _ _ s _ (Ok x) s' H1 (tells_slift tr db _ s) _).
  clear H1. intros n s1 E2 H1. assert (s1 = s) as -> by (unfold slift in E2; congruence).
  assert (ch = x) as ->.
  { apply stry_inv in H1 as (u & s2 & _ & H1). unfold sret in H1. congruence. }
  assert (n = i + clen x) as ->.
  { unfold slift, uadd in E2. rewrite len_utf8_clen in E2. unfold t_remove in Er.
    pose proof (rep_cap255 c Hc s t R) as (K & K1 & K2). pose proof (clen_range x).
    destruct (N.leb_spec (blen t) i) as [L|L]; [discriminate|].
    replace (i + clen x <=? usize_max c) with true in E2 by lia. congruence. }
  refine (ok_stry _ _ _ _ _ s [_] [] x s' H1 _ _); [exact (replace_lines _ _ [] s t R)|].
  intros. apply tells_sret.
Qed.

Lemma local_says {A D} (g : ST (astring * list event) A) m (f : A -> astring -> D) L :
  tells g m (new c) L -> says (g_local c g f) (p <- run_local m (new c) ;; let '(a, s) := p in Ret (f a s)) L.
Proof.
  intros H w. destruct (H w) as (w' & E & G). exists w'. split; [|exact G]. unfold g_local, run_local. rewrite E.
  destruct (m (new c)) as [[a| | |] s]; reflexivity.
Qed.

Lemma try_from_str_says string w : says string (Ret (enc w)) [] ->
  says (l_try_from_str c tr db record string) (try_from_str c (enc w)) [push_line [] w].
Proof.
  intros H. unfold l_try_from_str, try_from_str.
  apply (says_skip tr db _ tt [] _ _ [_]); [apply (says_log_tr tr db _ (enc w)); [reflexivity|exact H]|].
  apply local_says, push_str_lines; [apply new_rep|exact H].
Qed.

Lemma from_str_truncate_says w :
  says (l_from_str_truncate c tr db record (sret (enc w))) (from_str_truncate c (enc w)) [push_line [] (fit (cap c) w)].
Proof.
  unfold l_from_str_truncate, from_str_truncate.
  apply (says_skip tr db _ tt [] _ _ [_]); [apply (says_log_tr tr db _ (enc w)); [reflexivity|apply says_sret]|].
  pose proof (push_str_truncate_lines (sret (enc w)) w (new c) [] (new_rep c) (says_sret tr db _)) as H.
  cbn [blen] in H. rewrite N.sub_0_r in H. exact (local_says _ _ (fun _ s => s) _ H).
Qed.

Lemma drain_call_lines lo hi s t : rep c s t ->
  tells (l_drain c tr db record lo hi) (drain c lo hi) s (drain_lines (usize_max c) lo hi t).
Proof.
  intros R. pose proof (drain_runs c Hc lo hi s t R) as (s' & H2 & H1).
  pose proof (rep_cap255 c Hc s t R) as (K & K1 & K2).
  unfold l_drain, drain_lines.
  apply (tells_skip tr db _ (end_of c hi (len s)) [] _ _ _ (_ :: _)); [exact (tells_seen tr db _ s (fun _ => Ret _) [] (says_end_of c tr db hi s))|].
  apply (tells_skip tr db _ tt [_] _ _ _ _).
  { apply (tells_seen tr db _ s (fun _ => Ret tt)). rewrite start_of_spec, end_of_spec, <- (rep_len c s t R).
    apply (says_log_db tr db _ (len s) (fun n => EvDrain n (range_from (usize_max c) lo) (range_to (usize_max c) (len s) hi)));
      [reflexivity|apply says_len]. }
  unfold drain in H1 |- *. rewrite (rep_len c s t R) in H1 |- *. rewrite start_of_spec, end_of_spec in *.
  set (a := range_from (usize_max c) lo) in *. set (b := range_to (usize_max c) (blen t) hi) in *.
  match goal with |- tells ?g ?m s ?L =>
    refine (tells_ext tr db g (
      _ <~? from_oob ? sret (is_inside_boundary a b) ;;
      _ <~? from_oob ? sread (fun s => Ret (is_inside_boundary b (len s))) ;;
      _ <~? from_utf8_err ? sread (fun s => is_char_boundary c s a) ;;
      _ <~? from_utf8_err ? sread (fun s => is_char_boundary c s b) ;;
      _ <~ sread (fun s => debug_assert c (Ret ((a <=? b) && (b <=? len s)))) ;;
      _ <~ sread (fun s => debug_assert c (b0 <- as_str c s ;; Ret (str_is_char_boundary b0 a))) ;;
      _ <~ sread (fun s => debug_assert c (b0 <- as_str c s ;; Ret (str_is_char_boundary b0 b))) ;;
      slice <~ sread (fun s => b0 <- as_str c s ;; str_get_unchecked b0 a b) ;;
      drain <~? from_oob ? slift (try_from_str c slice) ;;
      _ <~? (fun e => e) ? replace_range c (Included a) (Excluded b) [] ;;
      sret (Ok drain)) m s L _ _)
  end.
  { unfold a, b. rewrite <- end_of_spec, <- start_of_spec, <- (rep_len c s t R). reflexivity. }
  assert (A1 : hush (on_arg (l_is_inside_boundary tr record a b)) (sret (is_inside_boundary a b)) s)
    by exact (tells_arg tr db _ s _ [] (says_inside tr db a b)).
  assert (A2 : hush (seen (fun s => n <~ l_len tr record s ;; l_is_inside_boundary tr record b n))
    (sread (fun s => Ret (is_inside_boundary b (len s)))) s).
  { apply tells_seen, (says_skip tr db _ (len s) [] _ _ []); [apply says_len|apply says_inside]. }
  assert (A3 : forall i, hush (seen (fun s => l_is_char_boundary c tr record s i)) (sread (fun s => is_char_boundary c s i)) s).
  { intros i. apply tells_seen, says_boundary. }
  destruct (fst (t_drain (usize_max c) lo hi t)) as [part|e] eqn:Ed.
  - destruct H1 as (sd & H1 & Rd).
    refine (ok_try _ _ _ _ _ _ s _ sd s' H1 A1 _). clear H1. intros ? s1 E1 H1.
    assert (s1 = s) as -> by (unfold sret in E1; congruence).
    refine (ok_try _ _ _ _ _ _ s _ sd s' H1 A2 _). clear H1 E1. intros ? s1 E1 H1. apply read_ret in E1 as ->.
    refine (ok_try _ _ _ _ _ _ s _ sd s' H1 (A3 a) _). clear H1. intros ? s1 E1 H1. apply read_ret in E1 as ->.
    refine (ok_try _ _ _ _ _ _ s _ sd s' H1 (A3 b) _). clear H1. intros ? s1 E1 H1. apply read_ret in E1 as ->.
    refine (ok_bind _ _ _ _ s _ (Ok sd) s' H1 _ _).
    { apply tells_seen. apply says_assert. destruct (a <=? b); [|apply says_sret].
      apply (says_skip tr db _ (len s) [] _ _ []); [apply says_len|apply says_sret]. }
    clear H1. intros ? s1 E1 H1. apply read_ret in E1 as ->.
    refine (ok_bind _ _ _ _ s _ (Ok sd) s' H1 _ _).
    { apply tells_seen. apply says_assert, says_bind; [apply says_as_str|]. intros. apply says_sret. }
    clear H1. intros ? s1 E1 H1. apply read_ret in E1 as ->.
    refine (ok_bind _ _ _ _ s _ (Ok sd) s' H1 _ _).
    { apply tells_seen. apply says_assert, says_bind; [apply says_as_str|]. intros. apply says_sret. }
    clear H1. intros ? s1 E1 H1. apply read_ret in E1 as ->.
    refine (ok_bind _ _ _ _ s _ (Ok sd) s' H1 _ _).
    { apply tells_seen, says_bind; [apply says_as_str|]. intros. apply says_slift. }
    clear H1. intros slice s1 E1 H1. assert (s1 = s) by exact (read_ret _ _ _ _ E1). subst s1.
    assert (slice = enc part) as ->.
    { unfold t_drain in Ed. fold a b in Ed. destruct (N.ltb_spec b a) as [L1|L1]; [discriminate|].
      destruct (blen t <? b); [discriminate|].
      destruct (split_at a t) as [[pre rest]|] eqn:Ea; [|discriminate].
      destruct (split_at (b - a) rest) as [[mid post]|] eqn:Em; [|discriminate]. injection Ed as <-.
      apply split_at_Some in Ea as [-> Ha]. apply split_at_Some in Em as [-> Hm].
      unfold sread in E1. rewrite (as_str_rep c s _ R) in E1. cbn [obind] in E1. unfold str_get_unchecked in E1.
      assert (Hb : b = blen pre + blen mid) by lia. rewrite <- Ha, Hb, str_get_enc in E1. congruence. }
    apply stry_inv in H1 as (drained & s1 & E2 & H1). assert (s1 = s) as -> by (unfold slift in E2; congruence).
    refine (tells_try_ok tr db _ _ _ _ drained s [_] _ _ s [_] _ E2 _).
    { exact (tells_arg tr db _ s _ [_] (try_from_str_says (sret (enc part)) part (says_sret tr db _))). }
    refine (ok_stry _ _ _ _ _ s [_] [] sd s' H1 _ _); [exact (replace_lines _ _ [] s t R)|].
    intros. apply tells_sret.
  - assert (IB : forall x y, x <= y -> is_inside_boundary x y = Ok tt).
    { intros x y L. unfold is_inside_boundary. replace (x <=? y) with true by lia. reflexivity. }
    assert (OB : forall x y, y < x -> is_inside_boundary x y = Err mkOutOfBounds).
    { intros x y L. unfold is_inside_boundary. replace (x <=? y) with false by lia. reflexivity. }
    clear H1. unfold t_drain in Ed. fold a b in Ed. destruct (N.ltb_spec b a) as [L1|L1].
    { apply (tells_try_err tr db _ _ _ _ mkOutOfBounds s); [reflexivity|exact A1|]. rewrite OB by lia. reflexivity. }
    apply (tells_try_ok tr db _ _ _ _ tt s [] _ _ s []); [exact A1|rewrite IB by lia; reflexivity|].
    destruct (N.ltb_spec (blen t) b) as [L2|L2].
    { apply (tells_try_err tr db _ _ _ _ mkOutOfBounds s); [reflexivity|exact A2|].
      unfold sread. rewrite (rep_len c s t R), OB by lia. reflexivity. }
    apply (tells_try_ok tr db _ _ _ _ tt s [] _ _ s []); [exact A2| |].
    { unfold sread. rewrite (rep_len c s t R), IB by lia. reflexivity. }
    destruct (split_at a t) as [[pre rest]|] eqn:Ea.
    2:{ apply (tells_try_err tr db _ _ _ _ mkUtf8 s); [reflexivity|exact (A3 a)|].
        unfold sread. rewrite (is_char_boundary_rep c s t _ R), Ea. reflexivity. }
    apply (tells_try_ok tr db _ _ _ _ tt s [] _ _ s []); [exact (A3 a)| |].
    { unfold sread. rewrite (is_char_boundary_rep c s t _ R), Ea. reflexivity. }
    pose proof (split_at_more t a b pre rest Ea L1) as Eb.
    destruct (split_at (b - a) rest) as [[mid post]|] eqn:Em; [discriminate|].
    apply (tells_try_err tr db _ _ _ _ mkUtf8 s); [reflexivity|exact (A3 b)|].
    unfold sread. rewrite (is_char_boundary_rep c s t _ R), Eb. reflexivity.
Qed.

Lemma split_off_lines i s t : rep c s t ->
  tells (l_split_off c tr db record i) (split_off c i) s (debug_lines (usize_max c) (cap c) (OSplitOff i) t).
Proof.
  intros R. unfold l_split_off, split_off. apply (tells_skip tr db _ tt [_]); [apply tells_arg, says_dbg; reflexivity|].
  unfold stry. apply tells_then; [apply drain_call_lines; exact R|]. intros [d|e] s1 _; apply tells_sret.
Qed.

(** ** trim *)
Lemma skip_ws_app m u : Forall (fun x => white_space x = true) m -> skip_ws (m ++ u) = skip_ws u.
Proof. induction 1 as [|x m Hx Hm IH]; [reflexivity|]. cbn [app skip_ws]. rewrite Hx. exact IH. Qed.

Lemma trim_scan_start s : says (l <~ l_len tr record s ;; b <~ l_as_str c tr record s ;;
    slift (trim_start_loop (S (length b)) (0, b) l))
  (b <- as_str c s ;; trim_start_loop (S (length b)) (0, b) (len s)) [].
Proof.
  apply (says_skip tr db _ (len s) [] _ _ []); [apply says_len|].
  apply says_bind; [apply says_as_str|]. intros. apply says_slift.
Qed.
Lemma trim_scan_end start s : says (l <~ l_len tr record s ;; b <~ l_as_str c tr record s ;;
    slift (trim_end_loop (S (length b)) (0, b) start l))
  (b <- as_str c s ;; trim_end_loop (S (length b)) (0, b) start (len s)) [].
Proof.
  apply (says_skip tr db _ (len s) [] _ _ []); [apply says_len|].
  apply says_bind; [apply says_as_str|]. intros. apply says_slift.
Qed.

Lemma trim_lines s t : rep c s t ->
  tells (l_trim c tr db record) (trim c) s (debug_lines (usize_max c) (cap c) OTrim t).
Proof.
  intros R. pose proof (rep_cap255 c Hc s t R) as (K & K1 & K2). pose proof (length_le_enc t) as Le.
  unfold l_trim, trim. cbn [debug_lines]. set (shorter := rev (skip_ws (rev t))).
  match goal with |- tells _ _ _ ?L => apply (tells_skip tr db _ tt [] _ _ _ L) end.
  { apply (tells_seen tr db _ s (fun _ => Ret tt)), says_trace. reflexivity. }
  assert (E1 : sread (fun s => b <- as_str c s ;; trim_start_loop (S (length b)) (0, b) (len s)) s =
    (Ret (match skip_ws t with [] => blen t | _ => 0 + blen t - blen (skip_ws t) end), s)).
  { unfold sread. rewrite (as_str_rep c s t R). cbn [obind].
    rewrite trim_start_loop_spec by lia. rewrite (rep_len c s t R). reflexivity. }
  match goal with |- tells _ _ _ ?L => apply (tells_ret tr db _ _ _ s [] _ _ s L (tells_seen tr db _ s _ [] (trim_scan_start s)) E1) end.
  clear E1.
  destruct (trim_cases t) as [(F & E & _)|(l & r & m & E & Es & _ & Fl & Fm & (x & r1 & Ex & Wx) & (y & r2 & Ey & Wy))].
  - rewrite E. destruct (snoc_cases t) as [->|(t' & x & ->)].
    + cbn in shorter. subst shorter. cbn [blen].
      assert (E2 : sread (fun s => b <- as_str c s ;; trim_end_loop (S (length b)) (0, b) 0 (len s)) s = (Ret (Some 0), s))
        by (unfold sread; rewrite (as_str_rep c s _ R), (rep_len c s _ R); reflexivity).
      match goal with |- tells _ _ _ ?L => apply (tells_ret tr db _ _ _ s [] _ _ s L (tells_seen tr db _ s _ [] (trim_scan_end 0 s)) E2) end.
      destruct (replace_range_runs c Hc (Included 0) Unbounded [] s [] R) as (s1 & P1 & P2 & _). cbn in P1, P2.
      apply (tells_ret tr db _ _ (Ok tt) s1 [_] _ _ s [_]); [exact (replace_lines _ _ [] s [] R)|exact P1|].
      apply tells_then; [exact (replace_lines _ _ [] s1 [] P2)|]. intros. apply tells_sret.
    + assert (W : shorter = []).
      { unfold shorter. rewrite <- (app_nil_r (rev (t' ++ [x]))), skip_ws_app; [reflexivity|]. apply Forall_rev. exact F. }
      rewrite W.
      assert (E2 : sread (fun s => b <- as_str c s ;; trim_end_loop (S (length b)) (0, b) (blen (t' ++ [x])) (len s)) s = (Ret None, s)).
      { unfold sread. rewrite (as_str_rep c s _ R), (rep_len c s _ R). cbn [obind].
        cbn [trim_end_loop char_indices_next_back]. rewrite chars_next_back_enc. cbn [obind].
        rewrite enc_len, blen_app. cbn [blen]. pose proof (clen_range x).
        replace (0 + blen t' <? blen t' + (clen x + 0)) with true by lia. reflexivity. }
      match goal with |- tells _ _ _ ?L => apply (tells_ret tr db _ _ _ s [] _ _ s L (tells_seen tr db _ s _ [] (trim_scan_end _ s)) E2) end.
      destruct (t' ++ [x]) eqn:X; [destruct t'; discriminate|]. apply tells_self.
  - assert (St : 0 + blen t - blen (skip_ws t) = blen l).
    { rewrite Es, E, (blen_app l). lia. }
    assert (Ne : match skip_ws t with [] => blen t | _ => 0 + blen t - blen (skip_ws t) end = blen l).
    { rewrite St, Es, Ex. reflexivity. }
    rewrite Ne. clear Ne. rewrite N.add_0_l in St. rewrite St.
    assert (Sh : shorter = l ++ r).
    { unfold shorter. rewrite E, !rev_app_distr, <- app_assoc, skip_ws_app by (apply Forall_rev; exact Fm).
      rewrite Ey, rev_app_distr. cbn [rev app skip_ws]. rewrite Wy. cbn [rev]. rewrite rev_app_distr, !rev_involutive, app_assoc.
      reflexivity. }
    rewrite Sh.
    assert (Lr : (length m < S (length (enc t)))%nat).
    { rewrite E in Le. rewrite !app_length in Le. rewrite E. lia. }
    assert (En : trim_end_loop (S (length (enc t))) (0, enc t) (blen l) (blen t) = Ret (Some (blen (l ++ r)))).
    { rewrite E at 2 3. rewrite Ey. rewrite <- (app_assoc r2), !(app_assoc l).
      apply trim_end_loop_spec; auto. rewrite blen_app. lia. }
    assert (E2 : sread (fun s => b <- as_str c s ;; trim_end_loop (S (length b)) (0, b) (blen l) (len s)) s = (Ret (Some (blen (l ++ r))), s)).
    { unfold sread. rewrite (as_str_rep c s t R), (rep_len c s t R). cbn [obind]. rewrite En. reflexivity. }
    assert (Lt : match t, l ++ r with
      | _ :: _, [] => []
      | _, _ => [edit_line t (blen (l ++ r)) (blen t) []; edit_line (l ++ r) 0 (blen l) []]
      end = [edit_line t (blen (l ++ r)) (blen t) []] ++ [edit_line (l ++ r) 0 (blen l) []]).
    { destruct (l ++ r) eqn:X; [|destruct t; reflexivity]. rewrite Ex in X. destruct l; discriminate. }
    rewrite Lt. clear Lt.
    match goal with |- tells _ _ _ ?L => apply (tells_ret tr db _ _ _ s [] _ _ s L (tells_seen tr db _ s _ [] (trim_scan_end _ s)) E2) end.
    destruct (replace_range_ok c Hc (Included (blen (l ++ r))) Unbounded [] s (l ++ r) m []) as (s1 & P1 & P2).
    + rewrite app_nil_r, <- app_assoc, <- E. exact R.
    + reflexivity.
    + cbn [range_to]. rewrite app_nil_r, (blen_app _ m). lia.
    + rewrite E in K. rewrite !blen_app in *. cbn. lia.
    + change (enc []) with (@nil N) in P1. cbn [app] in P2. rewrite app_nil_r in P2.
      apply (tells_ret tr db _ _ (Ok tt) s1 [_] _ _ s [_]); [exact (replace_lines _ _ [] s t R)|exact P1|].
      apply tells_then; [exact (replace_lines _ _ [] s1 (l ++ r) P2)|]. intros. apply tells_sret.
Qed.

(** ** Loops *)
Section Loop.
Context {A R : Type}.
Variable body : A -> ST (astring * list event) (flow R).
Variable body' : A -> ST astring (flow R).
Variable line : A -> text -> list event.
Variable step : A -> text -> option text.

Fixpoint loop_lines {IT} (fuel : nat) (next : iter IT A) (it : IT) (t : text) : list event :=
  match fuel with
  | O => []
  | S fuel =>
      match next it with
      | (Ret (Some a), it) => line a t ++ match step a t with Some t' => loop_lines fuel next it t' | None => [] end
      | _ => []
      end
  end.

Hypothesis Hb : forall a s t, rep c s t -> tells (body a) (body' a) s (line a t).
Hypothesis Hs : forall a s t, rep c s t ->
  match step a t with
  | Some t' => exists s', body' a s = (Ret Continue, s') /\ rep c s' t'
  | None => forall s', body' a s <> (Ret Continue, s')
  end.

Lemma loop_tells {IT} fuel (next : iter IT A) it s t w : rep c s t ->
  exists w', for_loop fuel next body it (s, w) =
    (let '(o, it', s') := for_loop fuel next body' it s in (o, it', (s', w'))) /\
    lev w (loop_lines fuel next it t) w'.
Proof.
  revert it s t w; induction fuel as [|fuel IH]; intros it s t w Rs; cbn [for_loop loop_lines].
  { exists w. split; [reflexivity|apply grew_refl]. }
  destruct (next it) as [[[a|]| | |] it1]; try (exists w; split; [reflexivity|apply grew_refl]).
  destruct (Hb a s t Rs w) as (w1 & E & G). rewrite E. pose proof (Hs a s t Rs) as X.
  destruct (step a t) as [t'|].
  - destruct X as (s' & X & R'). rewrite X. cbn [fst snd]. destruct (IH it1 s' t' w1 R') as (w2 & E2 & G2).
    exists w2. split; [exact E2|exact (grew_trans tr db _ _ _ _ _ G G2)].
  - rewrite app_nil_r. exists w1. split; [|exact G].
    destruct (body' a s) as [[[| |r]| | |] s1]; try reflexivity. destruct (X s1 eq_refl).
Qed.

Definition says_it {IT B} (g : list event -> outcome B * IT * list event) (p : outcome B * IT) (L : list event) : Prop :=
  forall w, exists w', g w = (fst p, snd p, w') /\ lev w L w'.

Lemma from_loop_says {IT B} fuel (next : iter IT A) it e L1 (ret : astring -> B) early :
  says e (Ret tt) L1 ->
  says_it (l_from_loop e it (fun w => for_loop fuel next body it (new c, w)) ret early)
    (from_loop (for_loop fuel next body' it (new c)) ret early) (L1 ++ loop_lines fuel next it []).
Proof.
  intros He w. unfold l_from_loop. destruct (He w) as (w1 & E & G). rewrite E.
  destruct (loop_tells fuel next it (new c) [] w1 (new_rep c)) as (w2 & E2 & G2). rewrite E2.
  exists w2. split; [|exact (grew_trans tr db _ _ _ _ _ G G2)].
  destruct (for_loop fuel next body' it (new c)) as [[[[r|]| | |] it'] s']; reflexivity.
Qed.

(** Over the items of a list, of which each takes room. *)
Fixpoint item_lines (l : list A) (t : text) : list event :=
  match l with
  | [] => []
  | a :: l => line a t ++ match step a t with Some t' => item_lines l t' | None => [] end
  end.

Hypothesis Hroom : forall a t t', step a t = Some t' -> blen t < blen t' /\ blen t' <= cap c.

Lemma loop_items {IT} (next : iter IT A) l it it' : ends next it l it' -> forall fuel t, blen t <= cap c ->
  cap c + 1 < N.of_nat fuel + blen t -> loop_lines fuel next it t = item_lines l t.
Proof.
  clear Hb Hs body body'. intros (it1 & Y & E). induction Y as [it|it a it2 l it3 E1 Y IH]; intros fuel t Lt Lf;
    (destruct fuel as [|fuel]; [exfalso; lia|]); cbn [loop_lines item_lines].
  - rewrite E. reflexivity.
  - rewrite E1. destruct (step a t) as [t'|] eqn:X; [|reflexivity]. destruct (Hroom a t t' X) as [X1 X2].
    rewrite (IH E fuel t') by lia. reflexivity.
Qed.
End Loop.

Lemma for_loop_map {IT A B X R} (f : A -> B) fuel (next : iter IT A) (body : B -> ST X (flow R)) it x :
  for_loop fuel (map_iter f next) body it x = for_loop fuel next (fun a => body (f a)) it x.
Proof.
  revert it x; induction fuel as [|fuel IH]; intros it x; cbn [for_loop]; [reflexivity|]. unfold map_iter.
  destruct (next it) as [[[a|]| | |] it1]; try reflexivity. cbn [option_map].
  destruct (body (f a) x) as [[[| |r]| | |] x1]; try reflexivity. apply IH.
Qed.

(** A body that pushes. *)
Definition char_step (x : char) (t : text) : option text :=
  if blen t + clen x <=? cap c then Some (t ++ [x]) else None.
Definition str_step (p : text * text) (t : text) : option text :=
  if blen t + blen (fst p) <=? cap c then Some (t ++ fst p) else None.

Lemma pull_lines_loop {IT} fuel (next : iter IT char) it t :
  loop_lines (fun x t => [push_line t [x]]) char_step fuel next it t = pull_lines fuel (cap c) next it t.
Proof.
  revert it t; induction fuel as [|fuel IH]; intros it t; cbn [loop_lines pull_lines]; [reflexivity|].
  destruct (next it) as [[[x|]| | |] it1]; try reflexivity. unfold char_step at 1. cbn [app].
  destruct (_ <=? _); [rewrite IH|]; reflexivity.
Qed.

Lemma pull_str_lines_loop {IT} (cut : bool) fuel (next : iter IT (text * text)) it t :
  loop_lines (fun p t => push_line t (fst p) ::
      (if blen t + blen (fst p) <=? cap c then [] else if cut then [push_line t (fit (cap c - blen t) (snd p))] else []))
    str_step fuel next it t = pull_str_lines cut fuel (cap c) next it t.
Proof.
  revert it t; induction fuel as [|fuel IH]; intros it t; cbn [loop_lines pull_str_lines]; [reflexivity|].
  destruct (next it) as [[[[w w2]|]| | |] it1]; try reflexivity. unfold str_step at 1. cbn [app fst snd].
  destruct (_ <=? _); [rewrite IH|rewrite app_nil_r]; reflexivity.
Qed.

Lemma or_return_tells {E F} (conv : E -> ST (list event) F) conv' (g : ST (astring * list event) (result unit E)) m s L :
  (forall e, says (conv e) (Ret (conv' e)) []) -> tells g m s L ->
  tells (l_or_return conv g) (push_or_return conv' m) s L.
Proof.
  intros Hv H. unfold l_or_return, push_or_return. apply tells_then; [exact H|].
  intros [u|e] s1 _; [apply tells_sret|].
  apply (tells_skip tr db _ (conv' e) [] _ _ _ []); [apply tells_arg, Hv|apply tells_sret].
Qed.
Lemma or_break_tells {E R} (g : ST (astring * list event) (result unit E)) m s L :
  tells g m s L -> tells (l_or_break (R := R) g) (push_or_break m) s L.
Proof. intros H. unfold l_or_break, push_or_break. apply tells_map. exact H. Qed.

Lemma push_step_return {E} (conv : OutOfBounds -> E) x s t : rep c s t ->
  match char_step x t with
  | Some t' => exists s', push_or_return conv (try_push c x) s = (Ret Continue, s') /\ rep c s' t'
  | None => forall s', push_or_return conv (try_push c x) s <> (Ret Continue, s')
  end.
Proof.
  intros R. unfold char_step. destruct (N.leb_spec (blen t + clen x) (cap c)) as [L|L].
  - apply (push_or_return_ok c conv _ s t); [apply push1_fits; assumption|exact R].
  - intros s'. rewrite (push_or_return_err c conv _ s mkOutOfBounds t); [discriminate|apply push1_fails; assumption].
Qed.
Lemma push_step_break {R} x s t : rep c s t ->
  match char_step x t with
  | Some t' => exists s', push_or_break (R := R) (try_push c x) s = (Ret Continue, s') /\ rep c s' t'
  | None => forall s', push_or_break (R := R) (try_push c x) s <> (Ret Continue, s')
  end.
Proof.
  intros Rs. unfold char_step. destruct (N.leb_spec (blen t + clen x) (cap c)) as [L|L].
  - apply (push_or_break_ok c _ s t); [apply push1_fits; assumption|exact Rs].
  - intros s'. rewrite (push_or_break_err c _ s mkOutOfBounds t); [discriminate|apply push1_fails; assumption].
Qed.

Lemma from_chars_truncate_says {IT} fuel (next : iter IT char) it :
  says_it (l_from_chars_truncate c tr db record fuel next it) (from_chars_truncate c fuel next it)
    (pull_lines fuel (cap c) next it []).
Proof.
  rewrite <- pull_lines_loop. unfold l_from_chars_truncate, from_chars_truncate.
  apply (from_loop_says _ _ (fun x t => [push_line t [x]]) char_step) with (L1 := []).
  - intros x s t R. apply or_break_tells, push_lines. exact R.
  - intros x s t R. apply push_step_break. exact R.
  - apply says_trace. reflexivity.
Qed.
Lemma try_from_chars_says {IT} fuel (next : iter IT char) it :
  says_it (l_try_from_chars c tr db record fuel next it) (try_from_chars c fuel next it)
    (pull_lines fuel (cap c) next it []).
Proof.
  rewrite <- pull_lines_loop. unfold l_try_from_chars, try_from_chars.
  apply (from_loop_says _ _ (fun x t => [push_line t [x]]) char_step) with (L1 := []).
  - intros x s t R. apply or_return_tells; [intros; apply says_sret|]. apply push_lines. exact R.
  - intros x s t R. apply push_step_return. exact R.
  - apply says_trace. reflexivity.
Qed.

Lemma try_from_iterator_says {IT} fuel (next : iter IT (text * text)) it :
  says_it (l_try_from_iterator c tr db record fuel (map_iter item_of_pair next) it)
    (try_from_iterator c fuel (map_iter item_of_pair next) it) (pull_str_lines false fuel (cap c) next it []).
Proof.
  rewrite <- pull_str_lines_loop. unfold l_try_from_iterator, try_from_iterator. rewrite for_loop_map.
  intros w. unfold l_from_loop.
  destruct (says_trace tr db EvTryFromIterator eq_refl w) as (w1 & E & G). rewrite E. rewrite for_loop_map.
  match goal with |- context [for_loop fuel next ?b it (new c, w1)] => set (body := b) end.
  match goal with |- context [from_loop (for_loop fuel next ?b it (new c))] => set (body' := b) end.
  destruct (loop_tells body body' (fun p t => push_line t (fst p) ::
      (if blen t + blen (fst p) <=? cap c then [] else [])) str_step) with (fuel := fuel) (next := next) (it := it)
      (s := new c) (t := @nil char) (w := w1) as (w2 & E2 & G2).
  - intros [p1 p2] s t R. cbn [fst].
    replace (if blen t + blen p1 <=? cap c then [] else []) with (@nil event) by (destruct (_ <=? _); reflexivity).
    apply or_return_tells; [intros; apply says_sret|]. cbn [item_of_pair ref1 fst]. apply push_str_lines; [exact R|apply says_sret].
  - intros [p1 p2] s t R. unfold str_step, body'. cbn [fst item_of_pair ref1].
    destruct (N.leb_spec (blen t + blen p1) (cap c)) as [L|L].
    + apply (push_or_return_ok c _ _ s t); [apply push_fits; assumption|exact R].
    + intros s'. rewrite (push_or_return_err c _ _ s mkOutOfBounds t); [discriminate|apply push_fails; assumption].
  - apply new_rep.
  - exists w2. rewrite E2. split; [|exact (grew_nil tr db _ _ _ _ G G2)].
    destruct (for_loop fuel next body' it (new c)) as [[[[r|]| | |] it'] s']; reflexivity.
Qed.

Lemma from_iterator_truncate_says {IT} fuel (next : iter IT (text * text)) it :
  says_it (l_from_iterator_truncate c tr db record fuel (map_iter item_of_pair next) it)
    (from_iterator_truncate c fuel (map_iter item_of_pair next) it) (pull_str_lines true fuel (cap c) next it []).
Proof.
  rewrite <- pull_str_lines_loop. unfold l_from_iterator_truncate. rewrite from_iterator_truncate_unfold, for_loop_map.
  intros w. unfold l_from_loop.
  destruct (says_trace tr db EvFromIteratorTruncate eq_refl w) as (w1 & E & G). rewrite E. rewrite for_loop_map.
  match goal with |- context [for_loop fuel next ?b it (new c, w1)] => set (body := b) end.
  match goal with |- context [from_loop (for_loop fuel next ?b it (new c))] => set (body' := b) end.
  destruct (loop_tells body body' (fun p t => push_line t (fst p) ::
      (if blen t + blen (fst p) <=? cap c then [] else [push_line t (fit (cap c - blen t) (snd p))])) str_step)
      with (fuel := fuel) (next := next) (it := it) (s := new c) (t := @nil char) (w := w1) as (w2 & E2 & G2).
  - intros [p1 p2] s t R. unfold body, body', trunc_body. cbn [fst snd item_of_pair ref1 ref2].
    destruct (N.leb_spec (blen t + blen p1) (cap c)) as [L|L].
    + destruct (push_fits c Hc p1 s t R L) as (s1 & X & _).
      apply (tells_ret tr db _ _ (Ok tt) s1 [_] _ _ s []); [apply push_str_lines; [exact R|apply says_sret]|exact X|apply tells_sret].
    + destruct (push_fails c Hc p1 s t R L) as (s1 & X & _ & X2). cbn [fst] in *. rewrite (X2 _ eq_refl) in X.
      apply (tells_ret tr db _ _ (Err mkOutOfBounds) s [_] _ _ s [_]); [apply push_str_lines; [exact R|apply says_sret]|exact X|].
      apply tells_map, push_str_truncate_lines; [exact R|apply says_sret].
  - intros [p1 p2] s t R. unfold str_step, body'. cbn [fst].
    destruct (N.leb_spec (blen t + blen p1) (cap c)) as [L|L].
    + exact (trunc_body_ok c Hc (p1, p2) s t R L).
    + destruct (trunc_body_stop c Hc (p1, p2) s t R L) as (s1 & X & _). intros s'. change (item_of_pair (p1, p2)) with (item2 (p1, p2)).
      rewrite X. discriminate.
  - apply new_rep.
  - exists w2. rewrite E2. split; [|exact (grew_nil tr db _ _ _ _ G G2)].
    destruct (for_loop fuel next body' it (new c)) as [[[[r|]| | |] it'] s']; reflexivity.
Qed.

(** ** UTF-16 *)
Lemma drop_says {IT A} (g : list event -> outcome A * IT * list event) p L : says_it g p L -> says (l_drop g) (fst p) L.
Proof. intros H w. unfold l_drop. destruct (H w) as (w' & E & G). rewrite E. exists w'. auto. Qed.

Lemma char_step_room x t t' : char_step x t = Some t' -> blen t < blen t' /\ blen t' <= cap c.
Proof.
  unfold char_step. destruct (N.leb_spec (blen t + clen x) (cap c)) as [L|L]; [|discriminate].
  intros [= <-]. pose proof (clen_range x). rewrite blen_app. cbn [blen]. lia.
Qed.

Definition opt_line (o : option char) (t : text) : list event :=
  match o with Some x => [push_line t [x]] | None => [] end.
Definition opt_step (o : option char) (t : text) : option text :=
  match o with Some x => char_step x t | None => None end.

Lemma opt_step_room o t t' : opt_step o t = Some t' -> blen t < blen t' /\ blen t' <= cap c.
Proof. destruct o; [apply char_step_room|discriminate]. Qed.

Lemma valid_lines l t : item_lines opt_line opt_step l t = char_lines (cap c) t (valid_prefix l).
Proof.
  revert t; induction l as [|[x|] l IH]; intros t; cbn [item_lines valid_prefix char_lines opt_line opt_step]; [reflexivity| |reflexivity].
  unfold char_step at 1. cbn [app]. destruct (_ <=? _); [rewrite IH|]; reflexivity.
Qed.
Lemma lossy_lines l t :
  item_lines (fun o t => [push_line t [match o with Some x => x | None => replacement_char end]])
    (fun o => char_step (match o with Some x => x | None => replacement_char end)) l t = char_lines (cap c) t (lossy l).
Proof.
  revert t; induction l as [|o l IH]; intros t; cbn [item_lines lossy map char_lines]; [reflexivity|].
  unfold char_step at 1. cbn [app]. destruct (_ <=? _); [rewrite IH|]; reflexivity.
Qed.

Lemma decode_fuel : cap c + 1 < N.of_nat (char_fuel c) + blen [].
Proof. unfold char_fuel. cbn [blen]. lia. Qed.

Lemma try_from_utf16_says us : Forall (fun u => u < 65536) us ->
  says (l_try_from_utf16 c tr db record us) (try_from_utf16 c us)
    (EvUtf16 false us :: char_lines (cap c) [] (valid_prefix (t_decode16 us))).
Proof.
  intros Hu. pose proof (decode_items us _ (t_decode16_items us Hu) (None, us) eq_refl) as En.
  rewrite <- valid_lines. rewrite <- (loop_items opt_line opt_step opt_step_room _ _ _ _ En (char_fuel c) [] (N.le_0_l _) decode_fuel).
  unfold l_try_from_utf16, try_from_utf16. apply drop_says.
  apply (from_loop_says _ _ opt_line opt_step) with (L1 := [_]).
  - intros [x|] s t R; [|apply tells_sret]. apply or_return_tells; [|apply push_lines; exact R].
    intros e. apply (says_skip tr db _ tt [] _ _ []); [apply says_trace; reflexivity|apply says_sret].
  - intros [x|] s t R; [apply push_step_return; exact R|discriminate].
  - apply says_dbg. reflexivity.
Qed.

Lemma from_utf16_truncate_says us : Forall (fun u => u < 65536) us ->
  says (l_from_utf16_truncate c tr db record us) (from_utf16_truncate c us)
    (EvUtf16 false us :: char_lines (cap c) [] (valid_prefix (t_decode16 us))).
Proof.
  intros Hu. pose proof (decode_items us _ (t_decode16_items us Hu) (None, us) eq_refl) as En.
  rewrite <- valid_lines. rewrite <- (loop_items opt_line opt_step opt_step_room _ _ _ _ En (char_fuel c) [] (N.le_0_l _) decode_fuel).
  unfold l_from_utf16_truncate, from_utf16_truncate. apply drop_says.
  apply (from_loop_says _ _ opt_line opt_step) with (L1 := [_]).
  - intros [x|] s t R; [|apply tells_sret]. apply or_break_tells, push_lines. exact R.
  - intros [x|] s t R; [apply push_step_break; exact R|discriminate].
  - apply says_dbg. reflexivity.
Qed.

Lemma from_utf16_lossy_says us : Forall (fun u => u < 65536) us ->
  says (l_from_utf16_lossy_truncate c tr db record us) (from_utf16_lossy_truncate c us)
    (EvUtf16 true us :: char_lines (cap c) [] (lossy (t_decode16 us))).
Proof.
  intros Hu. pose proof (decode_items us _ (t_decode16_items us Hu) (None, us) eq_refl) as En.
  rewrite <- lossy_lines. rewrite <- (loop_items _ _ (fun o t t' => char_step_room _ t t') _ _ _ _ En (char_fuel c) [] (N.le_0_l _) decode_fuel).
  unfold l_from_utf16_lossy_truncate, from_utf16_lossy_truncate. apply drop_says.
  apply (from_loop_says _ _ (fun o t => [push_line t [match o with Some x => x | None => replacement_char end]])
    (fun o => char_step (match o with Some x => x | None => replacement_char end))) with (L1 := [_]).
  - intros o s t R. apply or_break_tells, push_lines. exact R.
  - intros o s t R. apply push_step_break; exact R.
  - apply says_dbg. reflexivity.
Qed.

Lemma map_says {A D} (f : A -> D) (g : ST (list event) A) o L : says g o L -> says (l_map f g) (omap f o) L.
Proof.
  intros H w. destruct (H w) as (w' & E & G). exists w'. split; [|exact G]. unfold l_map, sbind. rewrite E. destruct o; reflexivity.
Qed.

Lemma build_says k : typed_ctor k -> says (l_build c tr db record k) (build c k) (build_lines (cap c) k).
Proof.
  intros Hk. destruct k; cbn [l_build build build_lines typed_ctor] in *.
  - apply says_sret.
  - apply says_sret.
  - apply map_says, try_from_str_says, says_sret.
  - apply map_says, try_from_str_says, says_sret.
  - apply map_says, from_str_truncate_says.
  - apply map_says, from_str_truncate_says.
  - apply map_says, drop_says, try_from_iterator_says.
  - apply map_says, drop_says, from_iterator_truncate_says.
  - apply map_says, drop_says, try_from_chars_says.
  - apply map_says, drop_says, from_chars_truncate_says.
  - apply map_says, drop_says, from_iterator_truncate_says.
  - apply map_says, drop_says, from_chars_truncate_says.
  - apply try_from_utf16_says, Hk.
  - apply map_says, from_utf16_truncate_says, Hk.
  - apply map_says, from_utf16_lossy_says, Hk.
Qed.

(** ** retain, extend, write! *)
Lemma kept_lines {F} (f : char -> ST F bool) t : forall x n1 n2 u, (length t < n1)%nat -> (length t < n2)%nat ->
  pull_lines n1 (cap c) (filter_next n2 chars_iter f) (enc t, x) u = char_lines (cap c) u (kept f x t).
Proof.
  induction t as [|a t IH]; intros x n1 n2 u L1 L2; (destruct n1 as [|n1]; [lia|]); cbn [pull_lines];
    rewrite filter_next_step by exact L2; cbn [filter_step kept]; [reflexivity|]. cbn [length] in *.
  destruct (f a x) as [[[|]| | |] x1]; try reflexivity.
  - cbn [char_lines]. destruct (_ <=? _); [|reflexivity]. rewrite IH by lia. reflexivity.
  - rewrite <- (IH x1 (S n1) n2 u) by lia. cbn [pull_lines]. rewrite filter_next_step by lia. reflexivity.
Qed.

Lemma retain_lines {F} (f : char -> ST F bool) x s t : rep c s t ->
  tells (l_run_op c tr db record (ORetain F f x)) (run_op c (ORetain F f x)) s (char_lines (cap c) [] (kept f x t)).
Proof.
  intros R w. cbn [l_run_op run_op]. unfold l_retain, retain. cbn [fst snd].
  pose proof (length_le_enc t) as Le.
  destruct (says_skip tr db (trace tr record EvRetain) tt [] (fun _ => l_as_str c tr record s) _ [] (says_trace tr db EvRetain eq_refl)
    (says_as_str c tr db s) w) as (w1 & E & G). rewrite E, (as_str_rep c s t R).
  destruct (from_chars_truncate_says (S (length (enc t))) (filter_next (S (length (enc t))) chars_iter f) (enc t, x) w1) as (w2 & E2 & G2).
  rewrite E2. rewrite kept_lines in G2 by lia. exists w2. split; [|exact (grew_nil tr db _ _ _ _ G G2)].
  destruct (from_chars_truncate c (S (length (enc t))) (filter_next (S (length (enc t))) chars_iter f) (enc t, x)) as [[s'| | |] [b' x']];
    reflexivity.
Qed.

Lemma extend_lines {IT} (g : list event -> outcome astring * IT * list event) built L s t u
    (P : ST (astring * list event) out) (Q : ST astring out) :
  says_it g built L -> rep c s t ->
  match fst built with Ret a => rep c a u | _ => True end ->
  (forall w, P (s, w) = let '(r, _, s', w') := l_extend_with c tr db record g s w in (omap (fun _ => RUnit) r, (s', w'))) ->
  (Q s = let '(r, _, s') := extend_with c built s in (omap (fun _ => RUnit) r, s')) ->
  tells P Q s (L ++ match fst built with Ret _ => [push_line t (fit (cap c - blen t) u)] | _ => [] end).
Proof.
  intros H R Ru EP EQ w. rewrite EP, EQ. unfold l_extend_with, extend_with.
  destruct (H w) as (w1 & E & G). rewrite E.
  destruct built as [[a| | |] it]; cbn [fst snd] in *;
    try (rewrite app_nil_r; exists w1; split; [reflexivity|exact G]).
  assert (Ea : says (l_as_ref_str c tr record a) (Ret (enc u)) []).
  { rewrite <- (as_str_rep c a u Ru : as_ref_str c a = _). apply says_as_ref_str. }
  destruct (push_str_truncate_lines _ u s t R Ea w1) as (w2 & E2 & G2). rewrite E2. exists w2.
  split; [|exact (grew_trans tr db _ _ _ _ _ G G2)].
  assert (X : (b0 <~ slift (as_ref_str c a) ;; push_str_truncate c b0) s = push_str_truncate c (enc u) s).
  { rewrite (as_str_rep c a u Ru : as_ref_str c a = _). reflexivity. }
  rewrite X. destruct (push_str_truncate c (enc u) s). reflexivity.
Qed.

Lemma fmt_call_lines p s t : rep c s t ->
  tells (run_fprog (l_write_str c tr db record) (formatting_prog p)) (run_fprog (write_str c) (formatting_prog p)) s
    (fmt_lines (cap c) p t).
Proof.
  revert s t; induction p as [r| |w next IH]; intros s t R; cbn [formatting_prog run_fprog fmt_lines].
  - apply tells_sret.
  - apply tells_slift.
  - destruct (write_str_rep c Hc w s t R) as (s1 & X1 & X2 & _).
    destruct (t_write_str (cap c) w t) as [b t'] eqn:E.
    refine (tells_ret tr db _ _ _ s1 [_] _ _ s _ (write_str_lines w s t R) X1 _). cbn [fst snd] in *.
    destruct b; apply IH; exact X2.
Qed.
End Texts.
