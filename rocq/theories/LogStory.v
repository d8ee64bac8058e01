(** All messages of each call, towards ClaimsLogStory.v. *)
From Coq Require Import ZArith ZifyBool ZifyN ZifyNat Arith.
From Verif Require Import Base Char Spec RustStd ModelError Model ModelImpl ModelDrain IterSpec ListFacts Utf8Facts CoreFacts
  MethodFacts IterFacts Utf16Facts ImplFacts DrainFacts Obs ObsLogs ObsLogLines ObsLogStory OpsFacts ClaimsOps ClaimsArgs ClaimsLogs
  LogLines.

Section Lines.
Variable c : cfg.
Variables tr db : bool.

Notation lev := (story_grew tr db).

Lemma told_refl l : lev l [] l.
Proof. exists []. rewrite app_nil_r. repeat split. constructor. Qed.

Lemma told_trans l1 n1 l2 n2 l3 : lev l1 n1 l2 -> lev l2 n2 l3 -> lev l1 (n1 ++ n2) l3.
Proof.
  intros (m1 & -> & H1 & E1) (m2 & -> & H2 & E2). exists (m1 ++ m2). rewrite app_assoc, !filter_app, E1, E2.
  repeat split. apply Forall_app. auto.
Qed.

Lemma told_nil l1 l2 n l3 : lev l1 [] l2 -> lev l2 n l3 -> lev l1 n l3.
Proof. exact (told_trans l1 [] l2 n l3). Qed.

(** [g] has the outcome [o] and logs [L]. *)
Definition says {A} (g : ST (list event) A) (o : outcome A) (L : list event) : Prop :=
  forall w, exists w', g w = (o, w') /\ lev w L w'.

Lemma says_sret {A} (a : A) : says (sret a) (Ret a) [].
Proof. intros w. exists w. split; [reflexivity|apply told_refl]. Qed.
Lemma says_slift {A} (o : outcome A) : says (slift o) o [].
Proof. intros w. exists w. split; [destruct o; reflexivity|apply told_refl]. Qed.

Lemma says_skip {A D} (g : ST (list event) A) a L1 (k : A -> ST (list event) D) o L2 :
  says g (Ret a) L1 -> says (k a) o L2 -> says (sbind g k) o (L1 ++ L2).
Proof.
  intros H K w. destruct (H w) as (w1 & E & G1). destruct (K w1) as (w2 & F & G2). exists w2.
  rewrite (bind_eq _ _ _ _ _ E). split; [exact F|exact (told_trans _ _ _ _ _ G1 G2)].
Qed.

Lemma says_then {A D} (g : ST (list event) A) (o : outcome A) L (k : A -> ST (list event) D) (k' : A -> outcome D) :
  says g o L -> (forall a, o = Ret a -> says (k a) (k' a) []) -> says (sbind g k) (obind o k') L.
Proof.
  intros H K w. destruct (H w) as (w1 & E & G1). unfold sbind. rewrite E.
  destruct o as [a| | |]; [|exists w1; split; [reflexivity|exact G1]..].
  destruct (K a eq_refl w1) as (w2 & F & G2). exists w2. split; [exact F|].
  rewrite <- (app_nil_r L). exact (told_trans _ _ _ _ _ G1 G2).
Qed.
Lemma says_bind {A D} (g : ST (list event) A) (o : outcome A) (k : A -> ST (list event) D) (k' : A -> outcome D) :
  says g o [] -> (forall a, o = Ret a -> says (k a) (k' a) []) -> says (sbind g k) (obind o k') [].
Proof. apply says_then. Qed.

Lemma says_on on e : level_on tr db e = on -> speaks e = true -> says (if on then record e else sret tt) (Ret tt) [e].
Proof.
  intros L S w. destruct on.
  - exists (w ++ [e]). split; [reflexivity|]. exists [e]. cbn [filter]. rewrite L, S. repeat split. constructor; [exact L|constructor].
  - exists w. split; [reflexivity|]. exists []. cbn [filter]. rewrite L, app_nil_r. repeat split. constructor.
Qed.
Lemma says_trace e : level_on tr db e = tr -> speaks e = true -> says (trace tr record e) (Ret tt) [e].
Proof. apply says_on. Qed.
Lemma says_dbg e : level_on tr db e = db -> speaks e = true -> says (dbg db record e) (Ret tt) [e].
Proof. apply says_on. Qed.

Lemma says_noise e : level_on tr db e = tr -> speaks e = false -> says (trace tr record e) (Ret tt) [].
Proof.
  intros L S w. unfold trace. destruct tr eqn:T.
  - exists (w ++ [e]). split; [reflexivity|]. exists [e]. cbn [filter]. rewrite S. repeat split. constructor; [exact L|constructor].
  - exists w. split; [reflexivity|]. rewrite <- T. apply told_refl.
Qed.

Lemma says_log on {A} (arg : ST (list event) A) a e : level_on tr db (e a) = on -> speaks (e a) = true -> says arg (Ret a) [] ->
  says (log_with on record arg e) (Ret tt) [e a].
Proof.
  intros L S H. pose proof (says_on on (e a) L S) as T. unfold log_with. destruct on; [|exact T].
  exact (says_skip _ a [] _ _ [_] H T).
Qed.

Lemma says_len s : says (l_len tr record s) (Ret (len s)) [].
Proof. apply (says_skip _ tt [] _ _ []); [apply says_noise; reflexivity|apply says_sret]. Qed.

Lemma says_assert (m : ST (list event) bool) o : says m o [] -> says (l_assert c m) (debug_assert c o) [].
Proof.
  intros H. unfold l_assert, debug_assert. destruct (debug c); [|apply says_sret].
  apply says_bind; [exact H|]. intros a _. apply says_slift.
Qed.

Lemma says_as_ref_bytes s : says (l_as_ref_bytes c tr record s) (as_ref_bytes c s) [].
Proof.
  unfold l_as_ref_bytes, as_ref_bytes. apply says_bind.
  - apply says_assert. apply (says_skip _ (len s) [] _ _ []); [apply says_len|apply says_sret].
  - intros _ _. apply (says_skip _ (len s) [] _ _ []); [apply says_len|apply says_slift].
Qed.

Lemma says_as_ref_str s : says (l_as_ref_str c tr record s) (as_ref_str c s) [].
Proof.
  unfold l_as_ref_str, as_ref_str. apply says_bind.
  - apply says_assert. apply says_bind; [apply says_as_ref_bytes|intros; apply says_sret].
  - intros _ _. apply says_bind; [apply says_as_ref_bytes|intros; apply says_slift].
Qed.

Lemma says_as_str s : says (l_as_str c tr record s) (as_str c s) [].
Proof. apply (says_skip _ tt [] _ _ []); [apply says_noise; reflexivity|apply says_as_ref_str]. Qed.

Lemma says_as_mut s : says (l_as_mut c tr record s) (fst (as_mut c s)) [].
Proof.
  unfold l_as_mut, as_mut, sread. cbn [fst]. apply (says_skip _ (len s) [] _ _ []); [apply says_len|].
  apply says_bind; [apply says_slift|]. intros _ _.
  apply says_bind; [apply says_slift|]. intros b _.
  apply says_bind; [apply says_slift|]. intros _ _. apply says_slift.
Qed.

Lemma says_as_mut_str s : says (l_as_mut_str c tr record s) (fst (as_mut_str c s)) [EvAsMutStr s].
Proof. apply (says_skip _ tt [_] _ _ []); [apply says_trace; reflexivity|apply says_as_mut]. Qed.

Lemma says_inside a b : says (l_is_inside_boundary tr record a b) (Ret (is_inside_boundary a b)) [EvInside a b].
Proof. apply (says_skip _ tt [_] _ _ []); [apply says_trace; reflexivity|apply says_sret]. Qed.

Lemma says_boundary s t i : rep c s t ->
  says (l_is_char_boundary c tr record s i) (is_char_boundary c s i) [EvBoundary (enc t) i].
Proof.
  intros R. unfold l_is_char_boundary, is_char_boundary.
  apply (says_skip _ tt [_] _ _ []).
  - apply (says_log tr _ (enc t) (fun b => EvBoundary b i)); [reflexivity|reflexivity|]. rewrite <- (as_str_rep c s t R). apply says_as_str.
  - apply says_bind; [apply says_as_str|intros; apply says_sret].
Qed.

Lemma says_truncate_str b n : says (l_truncate_str c tr record b n) (truncate_str c b n) [EvTruncateStr b n].
Proof. apply (says_skip _ tt [_] _ _ []); [apply says_trace; reflexivity|apply says_slift]. Qed.

Lemma says_end_of hi s : says (l_end_of c tr record hi s) (Ret (end_of c hi (len s))) [].
Proof. destruct hi; [apply says_sret..|apply says_len]. Qed.

Lemma says_new_len n a b s : says (l_new_len c tr record n a b s)
  (x <- uadd c (len s) n ;; y <- uadd c x a ;; usub c y b) [].
Proof. apply (says_skip _ (len s) [] _ _ []); [apply says_len|apply says_slift]. Qed.

Lemma says_next_boundary fuel s e : says (l_next_boundary c tr record fuel s e) (next_boundary c fuel s e) [].
Proof.
  revert e; induction fuel as [|fuel IH]; intros e; cbn [l_next_boundary next_boundary]; [apply says_slift|].
  apply says_bind; [apply says_as_str|]. intros b _. destruct (str_is_char_boundary b e); [apply says_sret|].
  apply says_bind; [apply says_slift|]. intros e' _. apply IH.
Qed.

(** ** Code that holds [&mut self] *)

(** [g] does what [m] does and logs [L]. *)
Definition tells {A} (g : ST (astring * list event) A) (m : ST astring A) (s : astring) (L : list event) : Prop :=
  forall w, exists w', g (s, w) = (fst (m s), (snd (m s), w')) /\ lev w L w'.
Notation hush g m s := (tells g m s []).

Lemma tells_ext {A} (g : ST (astring * list event) A) m m' s L : m s = m' s -> tells g m s L -> tells g m' s L.
Proof. intros E H w. rewrite <- E. exact (H w). Qed.

Lemma tells_arg {A} (a : ST (list event) A) s o L : says a o L -> tells (on_arg a) (slift o) s L.
Proof.
  intros H w. destruct (H w) as (w' & E & G). exists w'. split; [|exact G]. rewrite (on_arg_eq a s w _ _ E). reflexivity.
Qed.
Lemma tells_seen {A} (f : astring -> ST (list event) A) s p L : says (f s) (p s) L -> tells (seen f) (sread p) s L.
Proof. intros H. exact (tells_arg (f s) s (p s) L H). Qed.
Lemma tells_self {A} (m : ST astring A) s : hush (on_self m) m s.
Proof.
  intros w. exists w. split; [|apply told_refl]. unfold on_self. cbn [fst snd]. destruct (m s); reflexivity.
Qed.
Lemma tells_sret {A} (a : A) s : hush (sret a) (sret a) s.
Proof. intros w. exists w. split; [reflexivity|apply told_refl]. Qed.
Lemma tells_slift {A} (o : outcome A) s : hush (slift o) (slift o) s.
Proof. intros w. exists w. split; [reflexivity|apply told_refl]. Qed.

(** A step that logs, or is in the program with logs only. *)
Lemma tells_skip {A D} (g : ST (astring * list event) A) a L1 (k : A -> ST (astring * list event) D) m s L2 :
  tells g (slift (Ret a)) s L1 -> tells (k a) m s L2 -> tells (sbind g k) m s (L1 ++ L2).
Proof.
  intros H K w. destruct (H w) as (w1 & E & G1). destruct (K w1) as (w2 & F & G2). exists w2.
  rewrite (bind_eq _ _ _ _ _ E). split; [exact F|exact (told_trans _ _ _ _ _ G1 G2)].
Qed.

(** A step that returns. *)
Lemma tells_ret {A D} (g : ST (astring * list event) A) m a s1 L1 (k : A -> ST (astring * list event) D) k' s L2 :
  tells g m s L1 -> m s = (Ret a, s1) -> tells (k a) (k' a) s1 L2 -> tells (sbind g k) (sbind m k') s (L1 ++ L2).
Proof.
  intros H E K w. destruct (H w) as (w1 & E1 & G1). rewrite E in E1. destruct (K w1) as (w2 & F & G2). exists w2.
  rewrite (bind_eq _ _ _ _ _ E1), (bind_eq _ _ _ _ _ E). split; [exact F|exact (told_trans _ _ _ _ _ G1 G2)].
Qed.

(** What follows says nothing. *)
Lemma tells_then {A D} (g : ST (astring * list event) A) m (k : A -> ST (astring * list event) D) k' s L :
  tells g m s L -> (forall a s1, m s = (Ret a, s1) -> hush (k a) (k' a) s1) -> tells (sbind g k) (sbind m k') s L.
Proof.
  intros H K. destruct (m s) as [[a| | |] s1] eqn:E.
  1: rewrite <- (app_nil_r L); exact (tells_ret g m a s1 L k k' s [] H E (K a s1 eq_refl)).
  all: intros w; destruct (H w) as (w1 & E1 & G1); exists w1; unfold sbind; rewrite E1, E; (split; [reflexivity|exact G1]).
Qed.
Lemma hush_bind {A D} (g : ST (astring * list event) A) m (k : A -> ST (astring * list event) D) k' s :
  hush g m s -> (forall a s1, m s = (Ret a, s1) -> hush (k a) (k' a) s1) -> hush (sbind g k) (sbind m k') s.
Proof. apply tells_then. Qed.

Lemma tells_map {A D} (g : ST (astring * list event) A) m (f : A -> D) s L :
  tells g m s L -> tells (sbind g (fun a => sret (f a))) (sbind m (fun a => sret (f a))) s L.
Proof. intros H. apply tells_then; [exact H|]. intros. apply tells_sret. Qed.

(** [?] on a check. *)
Lemma tells_check {D E} t e ev (conv : E -> Error) x (g : ST (astring * list event) (result unit E)) m
    (k : unit -> ST (astring * list event) (result D Error)) k' s l rest :
  level_on tr db ev = tr -> speaks ev = true ->
  tells g m s [e] ->
  m s = (Ret (match fails t e with Some _ => Err x | None => Ok tt end), s) ->
  (fails t e = None \/ fails t e = Some ev) ->
  (fails t e = None -> tells (k tt) (k' tt) s (checks t l rest)) ->
  tells (l_try tr record ev conv g k) (stry conv m k') s (checks t (e :: l) rest).
Proof.
  intros Lv Sp H Em Hev K. unfold l_try, stry. cbn [checks]. destruct (fails t e) as [ev'|].
  - destruct Hev as [X|X]; [discriminate|]. injection X as ->.
    apply (tells_ret g m (Err x) s [e] _ _ s [ev] H Em).
    apply (tells_skip _ tt [ev] _ _ _ []); [apply tells_arg, says_trace; assumption|apply tells_sret].
  - exact (tells_ret g m (Ok tt) s [e] _ _ s _ H Em (K eq_refl)).
Qed.

Lemma tells_oob {D} t a b (g : ST (astring * list event) (result unit OutOfBounds)) m
    (k : unit -> ST (astring * list event) (result D Error)) k' s l rest :
  tells g m s [EvInside a b] -> m s = (Ret (is_inside_boundary a b), s) ->
  (a <= b -> tells (k tt) (k' tt) s (checks t l rest)) ->
  tells (l_try_oob tr record g k) (stry from_oob m k') s (checks t (EvInside a b :: l) rest).
Proof.
  intros H Em K. unfold l_try_oob. apply (tells_check t _ _ _ mkOutOfBounds); [reflexivity|reflexivity|exact H|..]; cbn [fails].
  - rewrite Em. unfold is_inside_boundary. destruct (a <=? b); reflexivity.
  - destruct (a <=? b); auto.
  - destruct (N.leb_spec a b) as [L|L]; [|discriminate]. intros _. exact (K L).
Qed.

Lemma tells_utf8 {D} t b i (g : ST (astring * list event) (result unit Utf8)) m
    (k : unit -> ST (astring * list event) (result D Error)) k' s l rest :
  tells g m s [EvBoundary b i] -> m s = (Ret (match split_at i t with Some _ => Ok tt | None => Err mkUtf8 end), s) ->
  ((exists p, split_at i t = Some p) -> tells (k tt) (k' tt) s (checks t l rest)) ->
  tells (l_try_utf8 tr record g k) (stry from_utf8_err m k') s (checks t (EvBoundary b i :: l) rest).
Proof.
  intros H Em K. unfold l_try_utf8. apply (tells_check t _ _ _ mkUtf8); [reflexivity|reflexivity|exact H|..]; cbn [fails].
  - rewrite Em. destruct (split_at i t); reflexivity.
  - destruct (split_at i t); auto.
  - destruct (split_at i t) as [p|]; [|discriminate]. intros _. apply K. exists p. reflexivity.
Qed.

Lemma inside_tells a b s : tells (on_arg (l_is_inside_boundary tr record a b)) (sret (is_inside_boundary a b)) s [EvInside a b].
Proof. exact (tells_arg _ s _ _ (says_inside a b)). Qed.
Lemma inside_len_tells i s : tells (seen (fun s => n <~ l_len tr record s ;; l_is_inside_boundary tr record i n))
    (sread (fun s => Ret (is_inside_boundary i (len s)))) s [EvInside i (len s)].
Proof. apply tells_seen, (says_skip _ (len s) [] _ _ [_]); [apply says_len|apply says_inside]. Qed.
Lemma boundary_tells i s t : rep c s t ->
  tells (seen (fun s => l_is_char_boundary c tr record s i)) (sread (fun s => is_char_boundary c s i)) s [EvBoundary (enc t) i].
Proof. intros R. apply tells_seen, says_boundary, R. Qed.

Hypothesis Hc : valid_cfg c.

(** ** replace_range *)
Lemma replace_rest_tells lo hi w s t : rep c s t ->
  tells (replace_rest c tr record lo (enc w) (end_of c hi (len s))) (replace_range c lo hi (enc w)) s
    (tl (edit_story (cap c) t (range_from (usize_max c) lo) (range_to (usize_max c) (blen t) hi) w)).
Proof.
  intros R. pose proof (rep_cap255 c Hc s t R) as (K & K1 & K2).
  rewrite <- (start_of_spec c lo), <- (end_of_spec c hi (blen t)), <- (rep_len c s t R).
  unfold replace_rest, edit_story. cbn [tl]. rewrite <- ?(rep_len c s t R).
  set (start := start_of c lo). set (end_ := end_of c hi (len s)).
  unfold replace_range. fold start. fold end_. rewrite (enc_len w).
  match goal with |- tells _ _ _ ?L => refine (tells_ext _ (if (start =? end_) && (blen w =? 0) then _ else _) _ s L _ _); [reflexivity|] end.
  destruct ((start =? end_) && (blen w =? 0)); [apply tells_sret|].
  apply tells_oob; [exact (inside_tells start end_ s)|reflexivity|]. intros L1.
  apply tells_oob; [exact (inside_len_tells end_ s)|reflexivity|]. intros L2.
  apply tells_oob; [apply inside_tells|reflexivity|]. intros L3.
  apply tells_utf8; [exact (boundary_tells start s t R)|unfold sread; rewrite (is_char_boundary_rep c s t _ R); reflexivity|]. intros _.
  apply tells_utf8; [exact (boundary_tells end_ s t R)|unfold sread; rewrite (is_char_boundary_rep c s t _ R); reflexivity|]. intros _.
  match goal with |- tells _ _ _ ?L =>
    refine (tells_ext _ (stry from_oob (sread (fun s => n <- (x <- uadd c (len s) (blen w) ;; y <- uadd c x start ;; usub c y end_) ;;
      Ret (is_inside_boundary n (capacity c)))) _) _ s L _ _) end.
  { exact (try_of (fun s => x <- uadd c (len s) (blen w) ;; y <- uadd c x start ;; usub c y end_) (capacity c) _ s). }
  assert (En : (x <- uadd c (len s) (blen w) ;; y <- uadd c x start ;; usub c y end_) = Ret (len s + blen w + start - end_)).
  { rewrite <- (rep_len c s t R) in K. unfold uadd, usub, capacity in *. replace (len s + blen w <=? usize_max c) with true by lia. cbn [obind].
    replace (len s + blen w + start <=? usize_max c) with true by lia. cbn [obind].
    replace (end_ <=? len s + blen w + start) with true by lia. reflexivity. }
  apply tells_oob.
  - apply tells_seen. rewrite En. apply (says_skip _ (len s + blen w + start - end_) [] _ _ [_]); [|apply says_inside].
    rewrite <- En. apply says_new_len.
  - unfold sread. rewrite En. reflexivity.
  - intros _. apply hush_bind; [apply tells_slift|]. intros cut_start s7 _.
    apply hush_bind; [apply tells_slift|]. intros cut_end s8 _.
    apply hush_bind; [apply tells_slift|]. intros str_end s9 _.
    apply hush_bind.
    { destruct (negb (cut_end =? str_end)); [|apply tells_sret].
      apply hush_bind; [|intros; apply tells_self].
      apply tells_seen, (says_skip _ (len s9) [] _ _ []); [apply says_len|apply says_slift]. }
    intros _ s10 _. apply hush_bind.
    { destruct (negb (blen w =? 0)); [|apply tells_sret].
      apply hush_bind; [|intros; apply tells_self]. apply tells_seen, says_slift. }
    intros _ s11 _. apply hush_bind; [apply tells_seen, says_new_len|]. intros n s12 _.
    apply hush_bind; [apply tells_self|intros; apply tells_sret].
Qed.

Lemma replace_story lo hi with_ w s t : rep c s t -> says with_ (Ret (enc w)) [] ->
  tells (l_replace_range c tr db record lo hi with_) (replace_range c lo hi (enc w)) s
    (edit_story (cap c) t (range_from (usize_max c) lo) (range_to (usize_max c) (blen t) hi) w).
Proof.
  intros R Hw. unfold l_replace_range.
  apply (tells_skip _ (enc w) [] _ _ _ (edit_story _ _ _ _ _)); [apply tells_arg; exact Hw|].
  apply (tells_skip _ (end_of c hi (len s)) [] _ _ _ (edit_story _ _ _ _ _)); [exact (tells_arg _ s _ [] (says_end_of hi s))|].
  change (edit_story (cap c) t (range_from (usize_max c) lo) (range_to (usize_max c) (blen t) hi) w) with
    ([edit_line t (range_from (usize_max c) lo) (range_to (usize_max c) (blen t) hi) w] ++
     tl (edit_story (cap c) t (range_from (usize_max c) lo) (range_to (usize_max c) (blen t) hi) w)).
  refine (tells_skip _ tt [_] _ _ _ _ _ (replace_rest_tells lo hi w s t R)).
  apply (tells_seen _ s (fun _ => Ret tt)). unfold edit_line.
  rewrite <- (start_of_spec c lo), <- (end_of_spec c hi (blen t)), <- (rep_len c s t R), <- (enc_len w).
  apply (says_log db _ (len s, enc w, enc w) (fun x => let '(n, a, b) := x in EvReplace n (start_of c lo) (end_of c hi (len s)) (lenN a) b));
    [reflexivity|reflexivity|].
  apply (says_skip _ (len s) [] _ _ []); [apply says_len|].
  apply (says_skip _ (enc w) [] _ _ []); [exact Hw|]. apply (says_skip _ (enc w) [] _ _ []); [exact Hw|]. apply says_sret.
Qed.

Lemma push_str_told string w s t : rep c s t -> says string (Ret (enc w)) [] ->
  tells (l_try_push_str c tr db record string) (try_push_str c (enc w)) s (push_story (cap c) t w).
Proof.
  intros R H. unfold l_try_push_str, try_push_str, push_story.
  apply (tells_skip _ tt [_] _ _ _ (edit_story _ _ _ _ _)); [apply tells_arg, (says_log tr _ (enc w) EvPushStr); [reflexivity|reflexivity|exact H]|].
  apply (tells_ret _ _ (len s) s [] _ _ s (edit_story _ _ _ _ _)); [apply (tells_seen _ s (fun s => Ret (len s))), says_len|reflexivity|].
  apply tells_map. rewrite <- (rep_len c s t R). apply (replace_story (Included (len s)) (Excluded (len s)) string w s t R H).
Qed.

Lemma push_told x s t : rep c s t ->
  tells (l_try_push c tr db record x) (try_push c x) s (push_char_story (cap c) t x).
Proof.
  intros R. unfold l_try_push, try_push, push_char_story.
  apply (tells_skip _ tt [_] _ _ _ (push_story _ _ _)); [apply tells_arg, says_trace; reflexivity|].
  rewrite encode_utf8_4, <- enc_single.
  apply (tells_ret _ _ (enc [x]) s [] _ _ s (push_story _ _ _)); [apply tells_slift|reflexivity|].
  apply push_str_told; [exact R|apply says_sret].
Qed.

Lemma write_str_told w s t : rep c s t ->
  tells (l_write_str c tr db record (enc w)) (write_str c (enc w)) s (push_story (cap c) t w).
Proof. intros R. unfold l_write_str, write_str. apply tells_map, push_str_told; [exact R|apply says_sret]. Qed.

Lemma truncate_told n s t : rep c s t ->
  tells (l_truncate c tr db record n) (truncate c n) s [EvTruncate n; EvBoundary (enc t) (N.min (blen t) n)].
Proof.
  intros R. unfold l_truncate, truncate. apply (tells_skip _ tt [_] _ _ _ [_]); [apply tells_arg, says_dbg; reflexivity|].
  apply (tells_ext _ (l <~ sread (fun s => Ret (len s)) ;;
    r <~ sread (fun s => is_char_boundary c s (N.min l n)) ;;
    match r with
    | Ok _ => _ <~ set_size (into_lossy (N.min l n)) ;; sret (Ok tt)
    | Err e => sret (Err e)
    end)); [reflexivity|].
  apply (tells_ret _ _ (len s) s [] _ _ s [_]); [apply (tells_seen _ s (fun s => Ret (len s))), says_len|reflexivity|].
  rewrite <- (rep_len c s t R).
  apply tells_then; [apply boundary_tells, R|].
  intros [u|e] s2 _; [apply (tells_map _ _ (fun _ => Ok tt)), tells_self|apply tells_sret].
Qed.

Lemma pop_told s : tells (l_pop c tr db record) (pop c) s [EvPop].
Proof.
  unfold l_pop, pop. apply (tells_skip _ tt [_] _ _ _ []); [apply tells_arg, says_dbg; reflexivity|].
  apply hush_bind; [apply tells_seen, says_bind; [apply says_as_str|intros; apply says_slift]|].
  intros [ch|] s1 _; [|apply tells_sret].
  apply hush_bind; [apply tells_seen, says_slift|]. intros n s2 _. apply tells_map, tells_self.
Qed.

Lemma clear_told s : tells (l_clear tr record) clear s [EvClear].
Proof. apply (tells_skip _ tt [_] _ _ _ []); [apply tells_arg, says_trace; reflexivity|apply tells_self]. Qed.

Lemma room_says string w s t : rep c s t -> says string (Ret (enc w)) [] ->
  says (l_room_for c tr record string s) (Ret (enc (fit (cap c - blen t) w))) [EvTruncateStr (enc w) (cap c - blen t)].
Proof.
  intros R H. unfold l_room_for. pose proof (rep_cap c s t R) as K.
  apply (says_skip _ (enc w) [] _ _ [_]); [exact H|].
  apply (says_skip _ (len s) [] _ _ [_]); [apply says_len|].
  unfold usub, capacity. rewrite (rep_len c s t R). replace (blen t <=? cap c) with true by lia.
  apply (says_skip _ (cap c - blen t) [] _ _ [_]); [apply says_slift|].
  rewrite <- (truncate_str_fit c). apply says_truncate_str.
Qed.

(** A reading step whose answer is known. *)
Lemma tells_known {A D} (f : astring -> ST (list event) A) m a (k : A -> ST (astring * list event) D) k' s L1 L :
  says (f s) (Ret a) L1 -> m s = (Ret a, s) -> tells (k a) (k' a) s L -> tells (sbind (seen f) k) (sbind m k') s (L1 ++ L).
Proof.
  intros H E K. apply (tells_ret (seen f) m a s L1 k k' s L); [|exact E|exact K].
  intros w. rewrite E. exact (tells_seen f s (fun _ => Ret a) L1 H w).
Qed.

Lemma push_cut_told string w s t : rep c s t -> says string (Ret (enc w)) [] ->
  tells (l_push_str_truncate c tr db record string) (push_str_truncate c (enc w)) s (push_cut_story (cap c) t w).
Proof.
  intros R H. unfold l_push_str_truncate, push_str_truncate, push_cut_story.
  apply (tells_skip _ tt [_] _ _ _ (_ :: _)); [apply tells_arg, (says_log tr _ (enc w) EvPushStrTruncate); [reflexivity|reflexivity|exact H]|].
  apply (tells_known _ _ (enc (fit (cap c - blen t) w)) _ _ s [_]); [exact (room_says string w s t R H)|exact (room_plain c w s t R)|].
  apply tells_map, push_str_told; [exact R|apply says_sret].
Qed.

Lemma insert_str_told i string w s t : rep c s t -> says string (Ret (enc w)) [] ->
  tells (l_try_insert_str c tr db record i string) (try_insert_str c i (enc w)) s (insert_story (cap c) s i w t).
Proof.
  intros R H. unfold l_try_insert_str, try_insert_str, insert_story.
  apply (tells_skip _ tt [_] _ _ _ (checks _ _ _)).
  { apply (tells_seen _ s (fun _ => Ret tt)), (says_log tr _ (enc w) (fun b => EvTryInsertStr i b s)); [reflexivity|reflexivity|exact H]. }
  apply tells_oob; [rewrite <- (rep_len c s t R); apply inside_len_tells|unfold sread; rewrite (rep_len c s t R); reflexivity|].
  intros _. exact (replace_story (Included i) (Excluded i) string w s t R H).
Qed.

Lemma insert_told i x s t : rep c s t ->
  tells (l_try_insert c tr db record i x) (try_insert c i x) s (insert_story (cap c) s i [x] t).
Proof.
  intros R. unfold l_try_insert, try_insert. rewrite encode_utf8_4, <- enc_single.
  apply (tells_ret _ _ (enc [x]) s [] _ _ s (insert_story _ _ _ _ _)); [apply tells_slift|reflexivity|].
  apply insert_str_told; [exact R|apply says_sret].
Qed.

Lemma insert_cut_told i w s t : rep c s t ->
  tells (l_insert_str_truncate c tr db record i (sret (enc w))) (insert_str_truncate c i (enc w)) s
    (EvInsertStrTruncate i (enc w) s :: EvTruncateStr (enc w) (cap c - blen t) :: insert_story (cap c) s i (fit (cap c - blen t) w) t).
Proof.
  intros R. unfold l_insert_str_truncate, insert_str_truncate.
  apply (tells_skip _ tt [_] _ _ _ (_ :: _)).
  { apply (tells_seen _ s (fun _ => Ret tt)), (says_log tr _ (enc w) (fun b => EvInsertStrTruncate i b s)); [reflexivity|reflexivity|apply says_sret]. }
  apply (tells_known _ _ (enc (fit (cap c - blen t) w)) _ _ s [_]); [exact (room_says _ w s t R (says_sret _))|exact (room_plain c w s t R)|].
  unfold stry. apply tells_then; [apply insert_str_told; [exact R|apply says_sret]|].
  intros [u|e] s1 _; apply tells_sret.
Qed.

(** A program that succeeds ran each of its steps. *)
Lemma ok_stry {A D E F} (conv : E -> F) (g : ST (astring * list event) (result A E)) m
    (k : A -> ST (astring * list event) (result D F)) k' s L1 L2 d s' :
  stry conv m k' s = (Ret (Ok d), s') -> tells g m s L1 ->
  (forall a s1, m s = (Ret (Ok a), s1) -> k' a s1 = (Ret (Ok d), s') -> tells (k a) (k' a) s1 L2) ->
  tells (stry conv g k) (stry conv m k') s (L1 ++ L2).
Proof.
  intros E0 H K. apply stry_inv in E0 as (a & s1 & E1 & E2). unfold stry.
  exact (tells_ret g m (Ok a) s1 L1 _ _ s L2 H E1 (K a s1 E1 E2)).
Qed.
Lemma ok_bind {A D} (g : ST (astring * list event) A) m (k : A -> ST (astring * list event) D) k' s L d s' :
  sbind m k' s = (Ret d, s') -> hush g m s ->
  (forall a s1, m s = (Ret a, s1) -> k' a s1 = (Ret d, s') -> tells (k a) (k' a) s1 L) ->
  tells (sbind g k) (sbind m k') s L.
Proof.
  intros E0 H K. apply sbind_inv in E0 as (a & s1 & E1 & E2).
  exact (tells_ret g m a s1 [] k k' s L H E1 (K a s1 E1 E2)).
Qed.

Lemma remove_told i s t : rep c s t ->
  tells (l_remove c tr db record i) (remove c i) s (story (cap c) (usize_max c) s (ORemove i) t).
Proof.
  intros R. cbn [story]. pose proof (remove_runs c Hc i s t R) as (s' & H1 & H2 & _).
  unfold l_remove, remove in *.
  apply (tells_skip _ tt [_] _ _ _ (checks _ _ _)); [apply tells_arg, says_dbg; reflexivity|].
  apply tells_oob.
  { rewrite <- (rep_len c s t R). exact (inside_len_tells (sat_add c i 1) s). }
  { unfold sread. rewrite (rep_len c s t R). reflexivity. }
  intros L1.
  apply tells_utf8; [apply boundary_tells, R|unfold sread; rewrite (is_char_boundary_rep c s t _ R); reflexivity|].
  intros (p & Ep). cbn [checks].
  assert (Er : exists x, fst (t_remove i t) = Ok x).
  { unfold t_remove. pose proof (rep_cap255 c Hc s t R) as (K & K1 & K2). destruct (N.leb_spec (blen t) i) as [L|L]; [lia|].
    rewrite Ep. destruct p as [pre [|x post]]; [|exists x; reflexivity].
    apply split_at_Some in Ep as [-> <-]. rewrite app_nil_r in L. lia. }
  destruct Er as (x & Er). rewrite Er in H1 |- *. cbv iota beta.
  remember (edit_story (cap c) t i (i + clen x) []) as told eqn:Et.
  apply stry_inv in H1 as (u1 & s1 & E1 & H1). apply read_ret in E1 as ->.
  apply stry_inv in H1 as (u2 & s1 & E1 & H1). apply read_ret in E1 as ->.
  refine (ok_bind _ _ _ _ s _ (Ok x) s' H1 _ _).
  { apply tells_seen, (says_skip _ (len s) [] _ _ []); [apply says_len|].
    apply says_bind; [apply says_slift|]. intros e _. apply says_next_boundary. }
  clear H1. intros end_ s1 E1 H1. apply read_ret in E1 as ->.
  refine (ok_stry _ _ _ _ _ s [] _ x s' H1 _ _).
  { apply tells_seen, says_bind; [apply says_as_str|]. intros b _. apply says_sret. }
  clear H1. intros sub s1 E1 H1. apply read_ret in E1 as ->.
  refine (ok_stry _ _ _ _ _ s [] _ x s' H1 (tells_slift _ s) _).
  clear H1. intros ch s1 E1 H1. assert (s1 = s) as -> by (unfold slift in E1; congruence).
  refine (ok_bind _ _ _ _ s _ (Ok x) s' H1 (tells_slift _ s) _).
  clear H1. intros n s1 E2 H1. assert (s1 = s) as -> by (unfold slift in E2; congruence).
  assert (ch = x) as ->.
  { apply stry_inv in H1 as (u & s2 & _ & H1). unfold sret in H1. congruence. }
  assert (n = i + clen x) as ->.
  { unfold slift, uadd in E2. rewrite len_utf8_clen in E2. unfold t_remove in Er.
    pose proof (rep_cap255 c Hc s t R) as (K & K1 & K2). pose proof (clen_range x).
    destruct (N.leb_spec (blen t) i) as [L|L]; [discriminate|].
    replace (i + clen x <=? usize_max c) with true in E2 by lia. congruence. }
  rewrite <- (app_nil_r told). subst told.
  refine (ok_stry _ _ _ _ _ s _ [] x s' H1 _ _); [exact (replace_story (Included i) (Excluded (i + clen x)) _ [] s t R (says_sret _))|].
  intros. apply tells_sret.
Qed.

Lemma local_says {A D} (g : ST (astring * list event) A) m (f : A -> astring -> D) L :
  tells g m (new c) L -> says (g_local c g f) (p <- run_local m (new c) ;; let '(a, s) := p in Ret (f a s)) L.
Proof.
  intros H w. destruct (H w) as (w' & E & G). exists w'. split; [|exact G]. unfold g_local, run_local. rewrite E.
  destruct (m (new c)) as [[a| | |] s]; reflexivity.
Qed.

Lemma try_from_str_says string w : says string (Ret (enc w)) [] ->
  says (l_try_from_str c tr db record string) (try_from_str c (enc w)) (EvTryFromStr (enc w) :: push_story (cap c) [] w).
Proof.
  intros H. unfold l_try_from_str, try_from_str.
  apply (says_skip _ tt [_] _ _ (push_story _ _ _)); [apply (says_log tr _ (enc w) EvTryFromStr); [reflexivity|reflexivity|exact H]|].
  apply local_says, push_str_told; [apply new_rep|exact H].
Qed.

Lemma from_str_truncate_says w :
  says (l_from_str_truncate c tr db record (sret (enc w))) (from_str_truncate c (enc w))
    (EvFromStrTruncate (enc w) :: push_cut_story (cap c) [] w).
Proof.
  unfold l_from_str_truncate, from_str_truncate.
  apply (says_skip _ tt [_] _ _ (push_cut_story _ _ _)); [apply (says_log tr _ (enc w) EvFromStrTruncate); [reflexivity|reflexivity|apply says_sret]|].
  exact (local_says _ _ (fun _ s => s) _ (push_cut_told (sret (enc w)) w (new c) [] (new_rep c) (says_sret _))).
Qed.

Lemma drain_told lo hi s t : rep c s t ->
  tells (l_drain c tr db record lo hi) (drain c lo hi) s (drain_story (cap c) (usize_max c) lo hi t).
Proof.
  intros R. pose proof (drain_runs c Hc lo hi s t R) as (s' & H2 & H1).
  pose proof (rep_cap255 c Hc s t R) as (K & K1 & K2).
  unfold l_drain, drain_story. cbv zeta.
  apply (tells_skip _ (end_of c hi (len s)) [] _ _ _ (_ :: _)); [exact (tells_seen _ s (fun _ => Ret _) [] (says_end_of hi s))|].
  apply (tells_skip _ tt [_] _ _ _ _).
  { apply (tells_seen _ s (fun _ => Ret tt)). rewrite start_of_spec, end_of_spec, <- (rep_len c s t R).
    apply (says_log db _ (len s) (fun n => EvDrain n (range_from (usize_max c) lo) (range_to (usize_max c) (len s) hi)));
      [reflexivity|reflexivity|apply says_len]. }
  unfold drain in H1 |- *. rewrite (rep_len c s t R) in H1 |- *. rewrite start_of_spec, end_of_spec in *.
  set (a := range_from (usize_max c) lo) in *. set (b := range_to (usize_max c) (blen t) hi) in *.
  match goal with |- tells ?g ?m s ?L =>
    refine (tells_ext g (
      _ <~? from_oob ? sret (is_inside_boundary a b) ;;
      _ <~? from_oob ? sread (fun s => Ret (is_inside_boundary b (len s))) ;;
      _ <~? from_utf8_err ? sread (fun s => is_char_boundary c s a) ;;
      _ <~? from_utf8_err ? sread (fun s => is_char_boundary c s b) ;;
      _ <~ sread (fun s => debug_assert c (Ret ((a <=? b) && (b <=? len s)))) ;;
      _ <~ sread (fun s => debug_assert c (b0 <- as_str c s ;; Ret (str_is_char_boundary b0 a))) ;;
      _ <~ sread (fun s => debug_assert c (b0 <- as_str c s ;; Ret (str_is_char_boundary b0 b))) ;;
      slice <~ sread (fun s => b0 <- as_str c s ;; str_get_unchecked b0 a b) ;;
      drain <~? from_oob ? slift (try_from_str c slice) ;;
      _ <~? (fun e => e) ? replace_range c (Included a) (Excluded b) [] ;;
      sret (Ok drain)) m s L _ _)
  end.
  { unfold a, b. rewrite <- end_of_spec, <- start_of_spec, <- (rep_len c s t R). reflexivity. }
  apply tells_oob; [exact (inside_tells a b s)|reflexivity|]. intros L1.
  apply tells_oob; [exact (eq_ind (len s) (fun n => tells _ _ s [EvInside b n]) (inside_len_tells b s) _ (rep_len c s t R))|
    unfold sread; rewrite (rep_len c s t R); reflexivity|]. intros L2.
  apply tells_utf8; [exact (boundary_tells a s t R)|unfold sread; rewrite (is_char_boundary_rep c s t _ R); reflexivity|]. intros (pa & Ea).
  apply tells_utf8; [exact (boundary_tells b s t R)|unfold sread; rewrite (is_char_boundary_rep c s t _ R); reflexivity|]. intros (pb & Eb).
  cbn [checks].
  assert (Ed : exists part, fst (t_drain (usize_max c) lo hi t) = Ok part).
  { unfold t_drain. fold a b. replace (b <? a) with false by lia. replace (blen t <? b) with false by lia.
    destruct pa as [pre rest]. rewrite Ea. pose proof (split_at_more t a b pre rest Ea L1) as Em. rewrite Eb in Em.
    destruct (split_at (b - a) rest) as [[mid post]|]; [|discriminate]. exists mid. reflexivity. }
  destruct Ed as (part & Ed). rewrite Ed in H1 |- *. cbv iota beta. destruct H1 as (sd & H1 & Rd).
  apply stry_inv in H1 as (u1 & s1 & E1 & H1). assert (s1 = s) as -> by (unfold sret in E1; congruence). clear E1.
  apply stry_inv in H1 as (u2 & s1 & E1 & H1). apply read_ret in E1 as ->.
  apply stry_inv in H1 as (u3 & s1 & E1 & H1). apply read_ret in E1 as ->.
  apply stry_inv in H1 as (u4 & s1 & E1 & H1). apply read_ret in E1 as ->.
  refine (ok_bind _ _ _ _ s _ (Ok sd) s' H1 _ _).
  { apply tells_seen. apply says_assert. destruct (a <=? b); [|apply says_sret].
    apply (says_skip _ (len s) [] _ _ []); [apply says_len|apply says_sret]. }
  clear H1. intros ? s1 E1 H1. apply read_ret in E1 as ->.
  refine (ok_bind _ _ _ _ s _ (Ok sd) s' H1 _ _).
  { apply tells_seen. apply says_assert, says_bind; [apply says_as_str|]. intros. apply says_sret. }
  clear H1. intros ? s1 E1 H1. apply read_ret in E1 as ->.
  refine (ok_bind _ _ _ _ s _ (Ok sd) s' H1 _ _).
  { apply tells_seen. apply says_assert, says_bind; [apply says_as_str|]. intros. apply says_sret. }
  clear H1. intros ? s1 E1 H1. apply read_ret in E1 as ->.
  refine (ok_bind _ _ _ _ s _ (Ok sd) s' H1 _ _).
  { apply tells_seen, says_bind; [apply says_as_str|]. intros. apply says_slift. }
  clear H1. intros slice s1 E1 H1. assert (s1 = s) by exact (read_ret _ _ _ _ E1). subst s1.
  assert (slice = enc part) as ->.
  { unfold t_drain in Ed. fold a b in Ed. destruct (N.ltb_spec b a) as [L1'|_]; [discriminate|].
    destruct (blen t <? b); [discriminate|]. clear Ea.
    destruct (split_at a t) as [[pre rest]|] eqn:Ea; [|discriminate].
    destruct (split_at (b - a) rest) as [[mid post]|] eqn:Em; [|discriminate]. injection Ed as <-. clear Eb.
    apply split_at_Some in Ea as [-> Ha]. apply split_at_Some in Em as [-> Hm].
    unfold sread in E1. rewrite (as_str_rep c s _ R) in E1. cbn [obind] in E1. unfold str_get_unchecked in E1.
    assert (Hb : b = blen pre + blen mid) by lia. rewrite <- Ha, Hb, str_get_enc in E1. congruence. }
  apply stry_inv in H1 as (drained & s1 & E2 & H1). assert (s1 = s) as -> by (unfold slift in E2; congruence).
  change (EvTryFromStr (enc part) :: push_story (cap c) [] part ++ edit_story (cap c) t a b []) with
    ((EvTryFromStr (enc part) :: push_story (cap c) [] part) ++ edit_story (cap c) t a b []).
  unfold l_try_oob, l_try, stry at 1.
  refine (tells_ret _ _ (Ok drained) s _ _ _ s _ _ E2 _).
  { exact (tells_arg _ s _ _ (try_from_str_says (sret (enc part)) part (says_sret _))). }
  rewrite <- (app_nil_r (edit_story _ _ _ _ _)).
  refine (ok_stry _ _ _ _ _ s _ [] sd s' H1 _ _); [exact (replace_story (Included a) (Excluded b) _ [] s t R (says_sret _))|].
  intros. apply tells_sret.
Qed.

Lemma split_off_told i s t : rep c s t ->
  tells (l_split_off c tr db record i) (split_off c i) s (story (cap c) (usize_max c) s (OSplitOff i) t).
Proof.
  intros R. unfold l_split_off, split_off. apply (tells_skip _ tt [_]); [apply tells_arg, says_dbg; reflexivity|].
  unfold stry. apply tells_then; [apply drain_told; exact R|]. intros [d|e] s1 _; apply tells_sret.
Qed.

(** ** trim *)
Lemma trim_scan_start s : says (l <~ l_len tr record s ;; b <~ l_as_str c tr record s ;;
    slift (trim_start_loop (S (length b)) (0, b) l))
  (b <- as_str c s ;; trim_start_loop (S (length b)) (0, b) (len s)) [].
Proof.
  apply (says_skip _ (len s) [] _ _ []); [apply says_len|].
  apply says_bind; [apply says_as_str|]. intros. apply says_slift.
Qed.
Lemma trim_scan_end start s : says (l <~ l_len tr record s ;; b <~ l_as_str c tr record s ;;
    slift (trim_end_loop (S (length b)) (0, b) start l))
  (b <- as_str c s ;; trim_end_loop (S (length b)) (0, b) start (len s)) [].
Proof.
  apply (says_skip _ (len s) [] _ _ []); [apply says_len|].
  apply says_bind; [apply says_as_str|]. intros. apply says_slift.
Qed.

Lemma trim_told s t : rep c s t ->
  tells (l_trim c tr db record) (trim c) s (story (cap c) (usize_max c) s OTrim t).
Proof.
  intros R. pose proof (rep_cap255 c Hc s t R) as (K & K1 & K2). pose proof (length_le_enc t) as Le.
  unfold l_trim, trim. cbn [story]. set (shorter := rev (skip_ws (rev t))).
  match goal with |- tells _ _ _ (_ :: ?L) => apply (tells_skip _ tt [_] _ _ _ L) end.
  { apply (tells_seen _ s (fun _ => Ret tt)), says_trace; reflexivity. }
  assert (E1 : sread (fun s => b <- as_str c s ;; trim_start_loop (S (length b)) (0, b) (len s)) s =
    (Ret (match skip_ws t with [] => blen t | _ => 0 + blen t - blen (skip_ws t) end), s)).
  { unfold sread. rewrite (as_str_rep c s t R). cbn [obind].
    rewrite trim_start_loop_spec by lia. rewrite (rep_len c s t R). reflexivity. }
  match goal with |- tells _ _ _ ?L => apply (tells_ret _ _ _ s [] _ _ s L (tells_seen _ s _ [] (trim_scan_start s)) E1) end.
  clear E1.
  destruct (trim_cases t) as [(F & E & _)|(l & r & m & E & Es & _ & Fl & Fm & (x & r1 & Ex & Wx) & (y & r2 & Ey & Wy))].
  - rewrite E. destruct (snoc_cases t) as [->|(t' & x & ->)].
    + cbn in shorter. subst shorter. cbn [blen].
      assert (E2 : sread (fun s => b <- as_str c s ;; trim_end_loop (S (length b)) (0, b) 0 (len s)) s = (Ret (Some 0), s))
        by (unfold sread; rewrite (as_str_rep c s _ R), (rep_len c s _ R); reflexivity).
      match goal with |- tells _ _ _ ?L => apply (tells_ret _ _ _ s [] _ _ s L (tells_seen _ s _ [] (trim_scan_end 0 s)) E2) end.
      destruct (replace_range_runs c Hc (Included 0) Unbounded [] s [] R) as (s1 & P1 & P2 & _). cbn in P1, P2.
      apply (tells_ret _ _ (Ok tt) s1 _ _ _ s); [exact (replace_story (Included 0) Unbounded _ [] s [] R (says_sret _))|exact P1|].
      apply tells_then; [exact (replace_story Unbounded (Excluded 0) _ [] s1 [] P2 (says_sret _))|]. intros. apply tells_sret.
    + assert (W : shorter = []).
      { unfold shorter. rewrite <- (app_nil_r (rev (t' ++ [x]))), skip_ws_app; [reflexivity|]. apply Forall_rev. exact F. }
      rewrite W.
      assert (E2 : sread (fun s => b <- as_str c s ;; trim_end_loop (S (length b)) (0, b) (blen (t' ++ [x])) (len s)) s = (Ret None, s)).
      { unfold sread. rewrite (as_str_rep c s _ R), (rep_len c s _ R). cbn [obind].
        cbn [trim_end_loop char_indices_next_back]. rewrite chars_next_back_enc. cbn [obind].
        rewrite enc_len, blen_app. cbn [blen]. pose proof (clen_range x).
        replace (0 + blen t' <? blen t' + (clen x + 0)) with true by lia. reflexivity. }
      match goal with |- tells _ _ _ ?L => apply (tells_ret _ _ _ s [] _ _ s L (tells_seen _ s _ [] (trim_scan_end _ s)) E2) end.
      destruct (t' ++ [x]) eqn:X; [destruct t'; discriminate|]. apply tells_self.
  - assert (St : 0 + blen t - blen (skip_ws t) = blen l).
    { rewrite Es, E, (blen_app l). lia. }
    assert (Ne : match skip_ws t with [] => blen t | _ => 0 + blen t - blen (skip_ws t) end = blen l).
    { rewrite St, Es, Ex. reflexivity. }
    rewrite Ne. clear Ne. rewrite N.add_0_l in St. rewrite St.
    assert (Sh : shorter = l ++ r).
    { unfold shorter. rewrite E, !rev_app_distr, <- app_assoc, skip_ws_app by (apply Forall_rev; exact Fm).
      rewrite Ey, rev_app_distr. cbn [rev app skip_ws]. rewrite Wy. cbn [rev]. rewrite rev_app_distr, !rev_involutive, app_assoc.
      reflexivity. }
    rewrite Sh.
    assert (Lr : (length m < S (length (enc t)))%nat).
    { rewrite E in Le. rewrite !app_length in Le. rewrite E. lia. }
    assert (En : trim_end_loop (S (length (enc t))) (0, enc t) (blen l) (blen t) = Ret (Some (blen (l ++ r)))).
    { rewrite E at 2 3. rewrite Ey. rewrite <- (app_assoc r2), !(app_assoc l).
      apply trim_end_loop_spec; auto. rewrite blen_app. lia. }
    assert (E2 : sread (fun s => b <- as_str c s ;; trim_end_loop (S (length b)) (0, b) (blen l) (len s)) s = (Ret (Some (blen (l ++ r))), s)).
    { unfold sread. rewrite (as_str_rep c s t R), (rep_len c s t R). cbn [obind]. rewrite En. reflexivity. }
    assert (Lt : forall A (u v : list A), match t, l ++ r with _ :: _, [] => u | _, _ => v end = v).
    { intros A u v. destruct (l ++ r) eqn:X; [|destruct t; reflexivity]. rewrite Ex in X. destruct l; discriminate. }
    rewrite Lt. clear Lt.
    match goal with |- tells _ _ _ ?L => apply (tells_ret _ _ _ s [] _ _ s L (tells_seen _ s _ [] (trim_scan_end _ s)) E2) end.
    destruct (replace_range_ok c Hc (Included (blen (l ++ r))) Unbounded [] s (l ++ r) m []) as (s1 & P1 & P2).
    + rewrite app_nil_r, <- app_assoc, <- E. exact R.
    + reflexivity.
    + cbn [range_to]. rewrite app_nil_r, (blen_app _ m). lia.
    + rewrite E in K. rewrite !blen_app in *. cbn. lia.
    + change (enc []) with (@nil N) in P1. cbn [app] in P2. rewrite app_nil_r in P2.
      apply (tells_ret _ _ (Ok tt) s1 _ _ _ s);
        [exact (replace_story (Included (blen (l ++ r))) Unbounded _ [] s t R (says_sret _))|exact P1|].
      apply tells_then; [exact (replace_story Unbounded (Excluded (blen l)) _ [] s1 (l ++ r) P2 (says_sret _))|]. intros. apply tells_sret.
Qed.

(** ** Loops *)
Section Loop.
Context {A R : Type}.
Variable body : A -> ST (astring * list event) (flow R).
Variable body' : A -> ST astring (flow R).
Variable line : A -> text -> list event.
Variable step : A -> text -> option text.
Hypothesis Hb : forall a s t, rep c s t -> tells (body a) (body' a) s (line a t).
Hypothesis Hs : forall a s t, rep c s t ->
  match step a t with
  | Some t' => exists s', body' a s = (Ret Continue, s') /\ rep c s' t'
  | None => forall s', body' a s <> (Ret Continue, s')
  end.

Lemma loop_tells {IT} fuel (next : iter IT A) it s t w : rep c s t ->
  exists w', for_loop fuel next body it (s, w) =
    (let '(o, it', s') := for_loop fuel next body' it s in (o, it', (s', w'))) /\
    lev w (loop_lines line step fuel next it t) w'.
Proof.
  revert it s t w; induction fuel as [|fuel IH]; intros it s t w Rs; cbn [for_loop loop_lines].
  { exists w. split; [reflexivity|apply told_refl]. }
  destruct (next it) as [[[a|]| | |] it1]; try (exists w; split; [reflexivity|apply told_refl]).
  destruct (Hb a s t Rs w) as (w1 & E & G). rewrite E. pose proof (Hs a s t Rs) as X.
  destruct (step a t) as [t'|].
  - destruct X as (s' & X & R'). rewrite X. cbn [fst snd]. destruct (IH it1 s' t' w1 R') as (w2 & E2 & G2).
    exists w2. split; [exact E2|exact (told_trans _ _ _ _ _ G G2)].
  - rewrite app_nil_r. exists w1. split; [|exact G].
    destruct (body' a s) as [[[| |r]| | |] s1]; try reflexivity. destruct (X s1 eq_refl).
Qed.

Definition says_it {IT B} (g : list event -> outcome B * IT * list event) (p : outcome B * IT) (L : list event) : Prop :=
  forall w, exists w', g w = (fst p, snd p, w') /\ lev w L w'.

Lemma from_loop_says {IT B} fuel (next : iter IT A) it e L1 (ret : astring -> B) early :
  says e (Ret tt) L1 ->
  says_it (l_from_loop e it (fun w => for_loop fuel next body it (new c, w)) ret early)
    (from_loop (for_loop fuel next body' it (new c)) ret early) (L1 ++ loop_lines line step fuel next it []).
Proof.
  intros He w. unfold l_from_loop. destruct (He w) as (w1 & E & G). rewrite E.
  destruct (loop_tells fuel next it (new c) [] w1 (new_rep c)) as (w2 & E2 & G2). rewrite E2.
  exists w2. split; [|exact (told_trans _ _ _ _ _ G G2)].
  destruct (for_loop fuel next body' it (new c)) as [[[[r|]| | |] it'] s']; reflexivity.
Qed.
End Loop.

Lemma pull_story_loop {IT} fuel (next : iter IT char) it t :
  loop_lines (fun x t => push_char_story (cap c) t x) (char_step c) fuel next it t = pull_story (cap c) fuel next it t.
Proof.
  revert it t; induction fuel as [|fuel IH]; intros it t; cbn [loop_lines pull_story]; [reflexivity|].
  destruct (next it) as [[[x|]| | |] it1]; try reflexivity. unfold char_step at 1.
  destruct (_ <=? _); [rewrite IH|]; reflexivity.
Qed.

Definition str_told (cut : bool) (p : text * text) (t : text) : list event :=
  push_story (cap c) t (fst p) ++
  (if blen t + blen (fst p) <=? cap c then [] else if cut then push_cut_story (cap c) t (snd p) else []).

Lemma pull_str_story_loop {IT} (cut : bool) fuel (next : iter IT (text * text)) it t :
  loop_lines (str_told cut) (str_step c) fuel next it t = pull_str_story (cap c) cut fuel next it t.
Proof.
  revert it t; induction fuel as [|fuel IH]; intros it t; cbn [loop_lines pull_str_story]; [reflexivity|].
  destruct (next it) as [[[[w w2]|]| | |] it1]; try reflexivity. unfold str_step at 1, str_told at 1. cbn [fst snd].
  destruct (_ <=? _); [rewrite IH, app_nil_r|rewrite app_nil_r]; reflexivity.
Qed.

Lemma or_return_tells {E F} (conv : E -> F) (g : ST (astring * list event) (result unit E)) m s L :
  tells g m s L -> tells (l_or_return (fun e => sret (conv e)) g) (push_or_return conv m) s L.
Proof.
  intros H. unfold l_or_return, push_or_return. apply tells_then; [exact H|].
  intros [u|e] s1 _; [apply tells_sret|].
  apply (tells_skip _ (conv e) [] _ _ _ []); [apply tells_arg, says_sret|apply tells_sret].
Qed.
Lemma or_break_tells {E R} (g : ST (astring * list event) (result unit E)) m s L :
  tells g m s L -> tells (l_or_break (R := R) g) (push_or_break m) s L.
Proof. intros H. unfold l_or_break, push_or_break. apply tells_map. exact H. Qed.

(** The error of a character that does not fit is announced. *)
Lemma push_or_return_told {F} (conv : OutOfBounds -> ST (list event) F) conv' refusal x s t : rep c s t ->
  (forall e, says (conv e) (Ret (conv' e)) refusal) ->
  tells (l_or_return conv (l_try_push c tr db record x)) (push_or_return conv' (try_push c x)) s
    (push_char_story (cap c) t x ++ (if blen t + clen x <=? cap c then [] else refusal)).
Proof.
  intros R Hv. unfold l_or_return, push_or_return.
  destruct (N.leb_spec (blen t + clen x) (cap c)) as [L|L].
  - destruct (push1_fits c Hc x s t R L) as (s1 & X & _).
    apply (tells_ret _ _ (Ok tt) s1 _ _ _ s []); [apply push_told, R|exact X|apply tells_sret].
  - destruct (push1_fails c Hc x s t R L) as (s1 & X & _). cbn [fst] in X.
    apply (tells_ret _ _ (Err mkOutOfBounds) s1 _ _ _ s refusal); [apply push_told, R|exact X|].
    rewrite <- (app_nil_r refusal).
    apply (tells_skip _ (conv' mkOutOfBounds) refusal _ _ _ []); [apply tells_arg, Hv|apply tells_sret].
Qed.

Lemma from_chars_truncate_says {IT} fuel (next : iter IT char) it :
  says_it (l_from_chars_truncate c tr db record fuel next it) (from_chars_truncate c fuel next it)
    (EvFromCharsTruncate :: pull_story (cap c) fuel next it []).
Proof.
  rewrite <- pull_story_loop. unfold l_from_chars_truncate, from_chars_truncate.
  apply (from_loop_says _ _ (fun x t => push_char_story (cap c) t x) (char_step c)) with (L1 := [_]).
  - intros x s t R. apply or_break_tells, push_told. exact R.
  - intros x s t R. apply push_step_break; [exact Hc|exact R].
  - apply says_trace; reflexivity.
Qed.
Lemma try_from_chars_says {IT} fuel (next : iter IT char) it :
  says_it (l_try_from_chars c tr db record fuel next it) (try_from_chars c fuel next it)
    (EvTryFromChars :: pull_story (cap c) fuel next it []).
Proof.
  rewrite <- pull_story_loop. unfold l_try_from_chars, try_from_chars.
  apply (from_loop_says _ _ (fun x t => push_char_story (cap c) t x) (char_step c)) with (L1 := [_]).
  - intros x s t R. exact (or_return_tells _ _ _ s _ (push_told x s t R)).
  - intros x s t R. apply push_step_return; [exact Hc|exact R].
  - apply says_trace; reflexivity.
Qed.

Lemma try_from_iterator_says {IT} fuel (next : iter IT (text * text)) it :
  says_it (l_try_from_iterator c tr db record fuel (map_iter item_of_pair next) it)
    (try_from_iterator c fuel (map_iter item_of_pair next) it)
    (EvTryFromIterator :: pull_str_story (cap c) false fuel next it []).
Proof.
  rewrite <- pull_str_story_loop. unfold l_try_from_iterator, try_from_iterator. rewrite for_loop_map.
  intros w. unfold l_from_loop.
  destruct (says_trace EvTryFromIterator eq_refl eq_refl w) as (w1 & E & G). rewrite E. rewrite for_loop_map.
  match goal with |- context [for_loop fuel next ?b it (new c, w1)] => set (body := b) end.
  match goal with |- context [from_loop (for_loop fuel next ?b it (new c))] => set (body' := b) end.
  destruct (loop_tells body body' (str_told false) (str_step c)) with (fuel := fuel) (next := next) (it := it)
      (s := new c) (t := @nil char) (w := w1) as (w2 & E2 & G2).
  - intros [p1 p2] s t R. unfold str_told. cbn [fst].
    replace (if blen t + blen p1 <=? cap c then [] else []) with (@nil event) by (destruct (_ <=? _); reflexivity).
    rewrite app_nil_r.
    exact (or_return_tells _ _ _ s _ (push_str_told (sret (enc p1)) p1 s t R (says_sret _))).
  - intros [p1 p2] s t R. unfold str_step, body'. cbn [fst item_of_pair ref1].
    destruct (N.leb_spec (blen t + blen p1) (cap c)) as [L|L].
    + apply (push_or_return_ok c _ _ s t); [apply push_fits; assumption|exact R].
    + intros s'. rewrite (push_or_return_err c _ _ s mkOutOfBounds t); [discriminate|apply push_fails; assumption].
  - apply new_rep.
  - exists w2. rewrite E2. split; [|exact (told_trans _ _ _ _ _ G G2)].
    destruct (for_loop fuel next body' it (new c)) as [[[[r|]| | |] it'] s']; reflexivity.
Qed.

Lemma from_iterator_truncate_says {IT} fuel (next : iter IT (text * text)) it :
  says_it (l_from_iterator_truncate c tr db record fuel (map_iter item_of_pair next) it)
    (from_iterator_truncate c fuel (map_iter item_of_pair next) it)
    (EvFromIteratorTruncate :: pull_str_story (cap c) true fuel next it []).
Proof.
  rewrite <- pull_str_story_loop. unfold l_from_iterator_truncate. rewrite from_iterator_truncate_unfold, for_loop_map.
  intros w. unfold l_from_loop.
  destruct (says_trace EvFromIteratorTruncate eq_refl eq_refl w) as (w1 & E & G). rewrite E. rewrite for_loop_map.
  match goal with |- context [for_loop fuel next ?b it (new c, w1)] => set (body := b) end.
  match goal with |- context [from_loop (for_loop fuel next ?b it (new c))] => set (body' := b) end.
  destruct (loop_tells body body' (str_told true) (str_step c))
      with (fuel := fuel) (next := next) (it := it) (s := new c) (t := @nil char) (w := w1) as (w2 & E2 & G2).
  - intros [p1 p2] s t R. unfold body, body', trunc_body, str_told. cbn [fst snd item_of_pair ref1 ref2].
    destruct (N.leb_spec (blen t + blen p1) (cap c)) as [L|L].
    + destruct (push_fits c Hc p1 s t R L) as (s1 & X & _).
      apply (tells_ret _ _ (Ok tt) s1 _ _ _ s []); [apply push_str_told; [exact R|apply says_sret]|exact X|apply tells_sret].
    + destruct (push_fails c Hc p1 s t R L) as (s1 & X & _ & X2). cbn [fst] in *. rewrite (X2 _ eq_refl) in X.
      apply (tells_ret _ _ (Err mkOutOfBounds) s _ _ _ s _); [apply push_str_told; [exact R|apply says_sret]|exact X|].
      apply tells_map, push_cut_told; [exact R|apply says_sret].
  - intros [p1 p2] s t R. unfold str_step, body'. cbn [fst].
    destruct (N.leb_spec (blen t + blen p1) (cap c)) as [L|L].
    + exact (trunc_body_ok c Hc (p1, p2) s t R L).
    + destruct (trunc_body_stop c Hc (p1, p2) s t R L) as (s1 & X & _). intros s'. change (item_of_pair (p1, p2)) with (item2 (p1, p2)).
      rewrite X. discriminate.
  - apply new_rep.
  - exists w2. rewrite E2. split; [|exact (told_trans _ _ _ _ _ G G2)].
    destruct (for_loop fuel next body' it (new c)) as [[[[r|]| | |] it'] s']; reflexivity.
Qed.

(** ** UTF-16 *)
Lemma drop_says {IT A} (g : list event -> outcome A * IT * list event) p L : says_it g p L -> says (l_drop g) (fst p) L.
Proof. intros H w. unfold l_drop. destruct (H w) as (w' & E & G). rewrite E. exists w'. auto. Qed.

Definition opt_told (refusal : list event) (o : option char) (t : text) : list event :=
  match o with
  | Some x => push_char_story (cap c) t x ++ (if blen t + clen x <=? cap c then [] else refusal)
  | None => []
  end.

Lemma valid_told refusal l t :
  item_lines (opt_told refusal) (opt_step c) l t = char_story (cap c) refusal t (valid_prefix l).
Proof.
  revert t; induction l as [|[x|] l IH]; intros t; cbn [item_lines valid_prefix char_story opt_told opt_step]; [reflexivity| |reflexivity].
  unfold char_step at 1. destruct (_ <=? _); [rewrite IH, app_nil_r|rewrite app_nil_r]; reflexivity.
Qed.
Lemma lossy_told l t :
  item_lines (fun o t => push_char_story (cap c) t (match o with Some x => x | None => replacement_char end))
    (fun o => char_step c (match o with Some x => x | None => replacement_char end)) l t = char_story (cap c) [] t (lossy l).
Proof.
  revert t; induction l as [|o l IH]; intros t; cbn [item_lines lossy map char_story]; [reflexivity|].
  unfold char_step at 1. destruct (_ <=? _); [rewrite IH|]; reflexivity.
Qed.

Lemma try_from_utf16_says us : Forall (fun u => u < 65536) us ->
  says (l_try_from_utf16 c tr db record us) (try_from_utf16 c us) (build_story (cap c) (CTryFromUtf16 us)).
Proof.
  intros Hu. pose proof (decode_items us _ (t_decode16_items us Hu) (None, us) eq_refl) as En. cbn [build_story].
  rewrite <- valid_told.
  rewrite <- (loop_items c (opt_told [EvFromOutOfBounds]) (opt_step c) (opt_step_room c) _ _ _ _ En (char_fuel c) [] (N.le_0_l _) (decode_fuel c)).
  unfold l_try_from_utf16, try_from_utf16. apply drop_says.
  apply (from_loop_says _ _ (opt_told [EvFromOutOfBounds]) (opt_step c)) with (L1 := [_]).
  - intros [x|] s t R; [|apply tells_sret]. apply push_or_return_told; [exact R|].
    intros e. apply (says_skip _ tt [_] _ _ []); [apply says_trace; reflexivity|apply says_sret].
  - intros [x|] s t R; [apply push_step_return; [exact Hc|exact R]|discriminate].
  - apply says_dbg; reflexivity.
Qed.

Lemma from_utf16_truncate_says us : Forall (fun u => u < 65536) us ->
  says (l_from_utf16_truncate c tr db record us) (from_utf16_truncate c us) (build_story (cap c) (CFromUtf16Truncate us)).
Proof.
  intros Hu. pose proof (decode_items us _ (t_decode16_items us Hu) (None, us) eq_refl) as En. cbn [build_story].
  rewrite <- valid_told.
  rewrite <- (loop_items c (opt_told []) (opt_step c) (opt_step_room c) _ _ _ _ En (char_fuel c) [] (N.le_0_l _) (decode_fuel c)).
  unfold l_from_utf16_truncate, from_utf16_truncate. apply drop_says.
  apply (from_loop_says _ _ (opt_told []) (opt_step c)) with (L1 := [_]).
  - intros [x|] s t R; [|apply tells_sret]. cbn [opt_told].
    replace (if blen t + clen x <=? cap c then [] else []) with (@nil event) by (destruct (_ <=? _); reflexivity).
    rewrite app_nil_r. apply or_break_tells, push_told. exact R.
  - intros [x|] s t R; [apply push_step_break; [exact Hc|exact R]|discriminate].
  - apply says_dbg; reflexivity.
Qed.

Lemma from_utf16_lossy_says us : Forall (fun u => u < 65536) us ->
  says (l_from_utf16_lossy_truncate c tr db record us) (from_utf16_lossy_truncate c us)
    (build_story (cap c) (CFromUtf16Lossy us)).
Proof.
  intros Hu. pose proof (decode_items us _ (t_decode16_items us Hu) (None, us) eq_refl) as En. cbn [build_story].
  rewrite <- lossy_told.
  rewrite <- (loop_items c _ _ (fun o t t' => char_step_room c _ t t') _ _ _ _ En (char_fuel c) [] (N.le_0_l _) (decode_fuel c)).
  unfold l_from_utf16_lossy_truncate, from_utf16_lossy_truncate. apply drop_says.
  apply (from_loop_says _ _ (fun o t => push_char_story (cap c) t (match o with Some x => x | None => replacement_char end))
    (fun o => char_step c (match o with Some x => x | None => replacement_char end))) with (L1 := [_]).
  - intros o s t R. apply or_break_tells, push_told. exact R.
  - intros o s t R. apply push_step_break; [exact Hc|exact R].
  - apply says_dbg; reflexivity.
Qed.

Lemma map_says {A D} (f : A -> D) (g : ST (list event) A) o L : says g o L -> says (l_map f g) (omap f o) L.
Proof.
  intros H w. destruct (H w) as (w' & E & G). exists w'. split; [|exact G]. unfold l_map, sbind. rewrite E. destruct o; reflexivity.
Qed.

Lemma build_told k : typed_ctor k -> says (l_build c tr db record k) (build c k) (build_story (cap c) k).
Proof.
  intros Hk. destruct k; cbn [l_build build typed_ctor] in *.
  - apply says_sret.
  - apply says_sret.
  - apply map_says, try_from_str_says, says_sret.
  - apply map_says, try_from_str_says, says_sret.
  - apply map_says, from_str_truncate_says.
  - apply map_says, from_str_truncate_says.
  - apply map_says, drop_says, try_from_iterator_says.
  - apply map_says, drop_says, from_iterator_truncate_says.
  - apply map_says, drop_says, try_from_chars_says.
  - apply map_says, drop_says, from_chars_truncate_says.
  - apply map_says, drop_says, from_iterator_truncate_says.
  - apply map_says, drop_says, from_chars_truncate_says.
  - apply try_from_utf16_says, Hk.
  - apply map_says, from_utf16_truncate_says, Hk.
  - apply map_says, from_utf16_lossy_says, Hk.
Qed.

(** ** retain, extend, write! *)
Lemma kept_told {F} (f : char -> ST F bool) t : forall x n1 n2 u, (length t < n1)%nat -> (length t < n2)%nat ->
  pull_story (cap c) n1 (filter_next n2 chars_iter f) (enc t, x) u = char_story (cap c) [] u (kept f x t).
Proof.
  induction t as [|a t IH]; intros x n1 n2 u L1 L2; (destruct n1 as [|n1]; [lia|]); cbn [pull_story];
    rewrite filter_next_step by exact L2; cbn [filter_step kept]; [reflexivity|]. cbn [length] in *.
  destruct (f a x) as [[[|]| | |] x1]; try reflexivity.
  - cbn [char_story]. destruct (_ <=? _); [|reflexivity]. rewrite IH by lia. reflexivity.
  - rewrite <- (IH x1 (S n1) n2 u) by lia. cbn [pull_story]. rewrite filter_next_step by lia. reflexivity.
Qed.

Lemma retain_told {F} (f : char -> ST F bool) x s t : rep c s t ->
  tells (l_run_op c tr db record (ORetain F f x)) (run_op c (ORetain F f x)) s
    (story (cap c) (usize_max c) s (ORetain F f x) t).
Proof.
  intros R w. cbn [l_run_op run_op story]. unfold l_retain, retain. cbn [fst snd].
  pose proof (length_le_enc t) as Le.
  destruct (says_skip (trace tr record EvRetain) tt [_] (fun _ => l_as_str c tr record s) _ [] (says_trace EvRetain eq_refl eq_refl)
    (says_as_str s) w) as (w1 & E & G). rewrite E, (as_str_rep c s t R).
  destruct (from_chars_truncate_says (S (length (enc t))) (filter_next (S (length (enc t))) chars_iter f) (enc t, x) w1) as (w2 & E2 & G2).
  rewrite E2. rewrite kept_told in G2 by lia. exists w2. split; [|exact (told_trans _ _ _ _ _ G G2)].
  destruct (from_chars_truncate c (S (length (enc t))) (filter_next (S (length (enc t))) chars_iter f) (enc t, x)) as [[s'| | |] [b' x']];
    reflexivity.
Qed.

Lemma extend_told {IT} (g : list event -> outcome astring * IT * list event) built L s t u
    (P : ST (astring * list event) out) (Q : ST astring out) :
  says_it g built L -> rep c s t ->
  match fst built with Ret a => rep c a u | _ => True end ->
  (forall w, P (s, w) = let '(r, _, s', w') := l_extend_with c tr db record g s w in (omap (fun _ => RUnit) r, (s', w'))) ->
  (Q s = let '(r, _, s') := extend_with c built s in (omap (fun _ => RUnit) r, s')) ->
  tells P Q s (L ++ match fst built with Ret _ => push_cut_story (cap c) t u | _ => [] end).
Proof.
  intros H R Ru EP EQ w. rewrite EP, EQ. unfold l_extend_with, extend_with.
  destruct (H w) as (w1 & E & G). rewrite E.
  destruct built as [[a| | |] it]; cbn [fst snd] in *;
    try (rewrite app_nil_r; exists w1; split; [reflexivity|exact G]).
  assert (Ea : says (l_as_ref_str c tr record a) (Ret (enc u)) []).
  { rewrite <- (as_str_rep c a u Ru : as_ref_str c a = _). apply says_as_ref_str. }
  destruct (push_cut_told _ u s t R Ea w1) as (w2 & E2 & G2). rewrite E2. exists w2.
  split; [|exact (told_trans _ _ _ _ _ G G2)].
  assert (X : (b0 <~ slift (as_ref_str c a) ;; push_str_truncate c b0) s = push_str_truncate c (enc u) s).
  { rewrite (as_str_rep c a u Ru : as_ref_str c a = _). reflexivity. }
  rewrite X. destruct (push_str_truncate c (enc u) s). reflexivity.
Qed.

Lemma fmt_told p s t : rep c s t ->
  tells (run_fprog (l_write_str c tr db record) (formatting_prog p)) (run_fprog (write_str c) (formatting_prog p)) s
    (fmt_story (cap c) p t).
Proof.
  revert s t; induction p as [r| |w next IH]; intros s t R; cbn [formatting_prog run_fprog fmt_story].
  - apply tells_sret.
  - apply tells_slift.
  - destruct (write_str_rep c Hc w s t R) as (s1 & X1 & X2 & _).
    destruct (t_write_str (cap c) w t) as [b t'] eqn:E.
    refine (tells_ret _ _ _ s1 _ _ _ s _ (write_str_told w s t R) X1 _). cbn [fst snd] in *.
    destruct b; apply IH; exact X2.
Qed.
End Lines.
