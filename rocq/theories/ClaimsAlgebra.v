(** Laws about calls made one after the other (C59), and histories run at two
    capacities (C60). *)
From Coq Require Import ZArith ZifyBool ZifyN ZifyNat Arith.
From Verif Require Import Base Char Spec RustStd ModelError Model ModelImpl ModelDrain TextOps SpecOps ModelOps
  StringSpec IterSpec ListFacts Utf8Facts CoreFacts MethodFacts IterFacts ImplFacts DrainFacts OpsFacts Obs
  ClaimsEdit ClaimsIter ClaimsTrait ClaimsLaws ClaimsString ClaimsRoutes.

(** ** C59 *)
Lemma retain_pure c (p : char -> bool) s t : valid_cfg c -> shows c s t ->
  exists s1, retain c (fun a u => (Ret (p a), u)) tt s = (Ret tt, s1, tt) /\ shows c s1 (filter p t).
Proof.
  intros Hc Hs.
  destruct (c22_retain c (fun a u => (Ret (p a), u)) (fun u a => (p a, u)) tt s t Hc Hs (fun _ _ => eq_refl)) as (s1 & E & S1).
  rewrite filter_st_pure in E, S1. exists s1. split; assumption.
Qed.

Lemma filter_filter {A} (p q : A -> bool) l : filter q (filter p l) = filter (fun a => p a && q a) l.
Proof.
  induction l as [|a l IH]; [reflexivity|]. cbn [filter]. destruct (p a); cbn [filter andb]; [destruct (q a)|]; rewrite IH; reflexivity.
Qed.

(** Keeping what [p] accepts and then what [q] accepts is keeping what both accept. *)
Lemma retain_twice_law c (p q : char -> bool) s t s1 s2 : valid_cfg c -> shows c s t ->
  retain c (fun a u => (Ret (p a), u)) tt s = (Ret tt, s1, tt) ->
  retain c (fun a u => (Ret (q a), u)) tt s1 = (Ret tt, s2, tt) ->
  exists s3 u, retain c (fun a u => (Ret (p a && q a), u)) tt s = (Ret tt, s3, tt) /\ shows c s2 u /\ shows c s3 u.
Proof.
  intros Hc Hs E1 E2. destruct (retain_pure c p s t Hc Hs) as (s1' & E1' & S1). rewrite E1 in E1'. injection E1' as <-.
  destruct (retain_pure c q s1 _ Hc S1) as (s2' & E2' & S2). rewrite E2 in E2'. injection E2' as <-.
  destruct (retain_pure c (fun a => p a && q a) s t Hc Hs) as (s3 & E3 & S3).
  exists s3, (filter q (filter p t)). split; [exact E3|]. split; [exact S2|]. rewrite filter_filter. exact S3.
Qed.
Lemma c59_retain_twice c (p q : char -> bool) s t : valid_cfg c -> shows c s t ->
  exists s1 s2 s3 u, retain c (fun a u => (Ret (p a), u)) tt s = (Ret tt, s1, tt) /\
    retain c (fun a u => (Ret (q a), u)) tt s1 = (Ret tt, s2, tt) /\
    retain c (fun a u => (Ret (p a && q a), u)) tt s = (Ret tt, s3, tt) /\ shows c s2 u /\ shows c s3 u.
Proof.
  intros Hc Hs. destruct (retain_pure c p s t Hc Hs) as (s1 & E1 & S1).
  destruct (retain_pure c q s1 _ Hc S1) as (s2 & E2 & S2).
  destruct (retain_twice_law c p q s t s1 s2 Hc Hs E1 E2) as (s3 & u & H). exists s1, s2, s3, u. auto.
Qed.

(** Filtering distributes over appending; in particular the filtered parts fit. *)
Lemma c59_retain_push c (p : char -> bool) s t w s1 : valid_cfg c -> shows c s t ->
  try_push_str c (enc w) s = (Ret (Ok tt), s1) ->
  exists s2 s3 s4 u, retain c (fun a u => (Ret (p a), u)) tt s1 = (Ret tt, s2, tt) /\
    retain c (fun a u => (Ret (p a), u)) tt s = (Ret tt, s3, tt) /\
    try_push_str c (enc (filter p w)) s3 = (Ret (Ok tt), s4) /\ shows c s2 u /\ shows c s4 u.
Proof.
  intros Hc Hs E. destruct (c05_try_push_str c s t w Hc Hs) as [P1 P2].
  destruct (N.le_gt_cases (blen t + blen w) (cap c)) as [L|L]; [|rewrite (P2 L) in E; discriminate].
  destruct (P1 L) as (s1' & E1 & S1). rewrite E in E1. injection E1 as <-.
  destruct (retain_pure c p s1 _ Hc S1) as (s2 & E2 & S2).
  destruct (retain_pure c p s _ Hc Hs) as (s3 & E3 & S3).
  assert (K : forall l : text, blen (filter p l) <= blen l).
  { induction l as [|a l IH]; [cbn; lia|]. cbn [filter]. destruct (p a); rewrite ?blen_cons; lia. }
  destruct (c05_try_push_str c s3 _ (filter p w) Hc S3) as [Q1 _].
  destruct Q1 as (s4 & E4 & S4); [pose proof (K t); pose proof (K w); lia|].
  exists s2, s3, s4, (filter p (t ++ w)).
  split; [exact E2|]. split; [exact E3|]. split; [exact E4|]. split; [exact S2|].
  rewrite filter_app. exact S4.
Qed.

(** Keeping everything changes nothing, keeping nothing empties. *)
Lemma c59_retain_all c (p : char -> bool) s t : valid_cfg c -> shows c s t ->
  (Forall (fun a => p a = true) t ->
     exists s1, retain c (fun a u => (Ret (p a), u)) tt s = (Ret tt, s1, tt) /\ shows c s1 t) /\
  (Forall (fun a => p a = false) t ->
     exists s1, retain c (fun a u => (Ret (p a), u)) tt s = (Ret tt, s1, tt) /\ shows c s1 []).
Proof.
  intros Hc Hs. destruct (retain_pure c p s t Hc Hs) as (s1 & E & S1). split; intros H; exists s1; (split; [exact E|]).
  - replace t with (filter p t); [exact S1|]. clear -H. induction H as [|a l Ha _ IH]; [reflexivity|].
    cbn [filter]. rewrite Ha, IH. reflexivity.
  - replace (@nil char) with (filter p t); [exact S1|]. clear -H. induction H as [|a l Ha _ IH]; [reflexivity|].
    cbn [filter]. rewrite Ha. exact IH.
Qed.

(** White space around a text makes no difference to [trim]. *)
Lemma c59_trim_padding c s s' t l r : valid_cfg c -> shows c s (l ++ t ++ r) -> shows c s' t ->
  Forall (fun a => white_space a = true) l -> Forall (fun a => white_space a = true) r ->
  exists u, returns c (trim c s) tt u /\ returns c (trim c s') tt u.
Proof.
  intros Hc Hs Hs' Hl Hr. destruct (c20_trim c s _ Hc Hs) as (u & Hu & Ru).
  destruct (c20_trim c s' t Hc Hs') as (v & Hv & Rv). exists u. split; [exact Ru|].
  replace u with v; [exact Rv|]. apply (c20_trimmed_unique (l ++ t ++ r)); [|exact Hu].
  destruct Hv as (a & b & Et & Ha & Hb & H1 & H2). exists (l ++ a), (b ++ r).
  split; [rewrite Et, <- !app_assoc; reflexivity|].
  split; [apply Forall_app; split; assumption|]. split; [apply Forall_app; split; assumption|]. split; assumption.
Qed.

Lemma upper_lower x : ascii_upper (ascii_lower x) = ascii_upper x /\ ascii_lower (ascii_upper x) = ascii_lower x /\
  ascii_upper (ascii_upper x) = ascii_upper x /\ ascii_lower (ascii_lower x) = ascii_lower x.
Proof.
  assert (C : forall a b : char, code a = code b -> a = b) by (intros a b; apply char_eq).
  pose proof (c38_ascii_letters x) as [U L].
  pose proof (c38_ascii_letters (ascii_upper x)) as [UU LU]. pose proof (c38_ascii_letters (ascii_lower x)) as [UL LL].
  rewrite U in UU, LU. rewrite L in UL, LL.
  repeat match goal with |- _ /\ _ => split end; apply C; rewrite ?UU, ?LU, ?UL, ?LL, ?U, ?L;
    destruct (N.leb_spec 97 (code x)); destruct (N.leb_spec (code x) 122); cbn [andb];
    destruct (N.leb_spec 65 (code x)); destruct (N.leb_spec (code x) 90); cbn [andb]; try lia;
    repeat match goal with |- context [?a <=? ?b] => destruct (N.leb_spec a b); cbn [andb] end; lia.
Qed.

(** The last change of case counts. *)
Lemma case_twice_law c s t s1 s2 : valid_cfg c -> shows c s t ->
  make_ascii_uppercase c s = (Ret tt, s1) -> make_ascii_lowercase c s = (Ret tt, s2) ->
  exists u l, shows c s1 u /\ shows c s2 l /\
    returns c (make_ascii_uppercase c s1) tt u /\ returns c (make_ascii_uppercase c s2) tt u /\
    returns c (make_ascii_lowercase c s1) tt l /\ returns c (make_ascii_lowercase c s2) tt l.
Proof.
  intros Hc Hs E1 E2. destruct (c38_ascii_case c s t Hc Hs) as [(a & Ea & Sa) (b & Eb & Sb)].
  rewrite E1 in Ea. injection Ea as <-. rewrite E2 in Eb. injection Eb as <-.
  exists (map ascii_upper t), (map ascii_lower t). split; [exact Sa|]. split; [exact Sb|].
  destruct (c38_ascii_case c s1 _ Hc Sa) as [UU LU]. destruct (c38_ascii_case c s2 _ Hc Sb) as [UL LL].
  rewrite map_map in UU, LU, UL, LL.
  rewrite (map_ext _ _ (fun x => proj1 (proj2 (proj2 (upper_lower x))))) in UU.
  rewrite (map_ext _ _ (fun x => proj1 (proj2 (upper_lower x)))) in LU.
  rewrite (map_ext _ _ (fun x => proj1 (upper_lower x))) in UL.
  rewrite (map_ext _ _ (fun x => proj2 (proj2 (proj2 (upper_lower x))))) in LL.
  split; [exact UU|]. split; [exact UL|]. split; [exact LU | exact LL].
Qed.
Lemma c59_case_twice c s t : valid_cfg c -> shows c s t ->
  exists s1 s2 u l, make_ascii_uppercase c s = (Ret tt, s1) /\ make_ascii_lowercase c s = (Ret tt, s2) /\
    shows c s1 u /\ shows c s2 l /\
    returns c (make_ascii_uppercase c s1) tt u /\ returns c (make_ascii_uppercase c s2) tt u /\
    returns c (make_ascii_lowercase c s1) tt l /\ returns c (make_ascii_lowercase c s2) tt l.
Proof.
  intros Hc Hs. destruct (c38_ascii_case c s t Hc Hs) as [(a & Ea & Sa) (b & Eb & Sb)].
  destruct (case_twice_law c s t a b Hc Hs Ea Eb) as (u & l & H). exists a, b, u, l. auto.
Qed.

Lemma replace_text c s s' t lo hi w : valid_cfg c -> shows c s t -> shows c s' t ->
  agree c (fun a b => a = b) (replace_range c lo hi (enc w) s) (replace_range c lo hi (enc w) s').
Proof.
  intros Hc Hs Hs'. apply shows_rep in Hs, Hs'.
  pose proof (replace_range_rep c Hc lo hi w s t Hs) as H. pose proof (replace_range_rep c Hc lo hi w s' t Hs') as H'.
  destruct (t_replace_range (usize_max c) (cap c) lo hi w t) as [r u].
  destruct H as (a & Ea & Ra & _). destruct H' as (b & Eb & Rb & _). exists r, r, u.
  split; [exists a; split; [exact Ea | apply shows_rep; exact Ra]|].
  split; [exists b; split; [exact Eb | apply shows_rep; exact Rb] | reflexivity].
Qed.

(** Replacing a range and then the replacement: only the last text counts. *)
Lemma c59_replace_twice c s t a b w v s1 : valid_cfg c -> shows c s t ->
  replace_range c (Included a) (Excluded b) (enc w) s = (Ret (Ok tt), s1) ->
  exists r u u', returns c (replace_range c (Included a) (Excluded (a + blen w)) (enc v) s1) r u' /\
    returns c (replace_range c (Included a) (Excluded b) (enc v) s) r u /\ (r = Ok tt -> u' = u).
Proof.
  intros Hc Hs E.
  destruct (replace_texts c s t (Included a) (Excluded b) w Hc Hs) as (P1 & P2 & P3 & P4 & P5 & P6 & P7).
  cbn [range_from range_to] in *.
  assert (D : (a = b /\ w = []) \/ ~ (a = b /\ w = [])).
  { destruct (N.eq_dec a b) as [->|Na]; [|right; tauto]. destruct w; [left; auto | right; intros [_ H]; discriminate]. }
  destruct D as [[-> ->]|Nd].
  - destruct (P2 eq_refl eq_refl) as (s1' & E1 & S1). rewrite E in E1. injection E1 as <-.
    cbn [blen]. rewrite N.add_0_r.
    destruct (replace_text c s1 s t (Included b) (Excluded b) v Hc S1 Hs) as (r & r' & u & R1 & R2 & <-).
    exists r, u, u. split; [exact R1|]. split; [exact R2 | reflexivity].
  - destruct (N.le_gt_cases a b) as [Lab|Lab]; [|rewrite (P3 Lab) in E; discriminate].
    destruct (N.le_gt_cases b (blen t)) as [Lb|Lb]; [|rewrite (P4 Lab Lb Nd) in E; discriminate].
    destruct (N.le_gt_cases (blen w) (cap c)) as [Lw|Lw]; [|rewrite (P5 Lab Lb Lw) in E; discriminate].
    destruct (slice_dec t a b Lab Lb) as [(pre & mid & post & Et & Ha & Hb)|Hn];
      [|rewrite (P6 Lab Lb Lw Nd Hn) in E; discriminate].
    destruct (N.le_gt_cases (blen (pre ++ w ++ post)) (cap c)) as [Lf|Lf];
      [|rewrite (P7 pre mid post Et Ha Hb Lf) in E; discriminate].
    destruct (P1 pre mid post Et Ha Hb Lf) as (s1' & E1 & S1). rewrite E in E1. injection E1 as <-.
    destruct (replace_texts c s1 (pre ++ w ++ post) (Included a) (Excluded (a + blen w)) v Hc S1) as (Q1 & _ & _ & _ & _ & _ & Q7).
    destruct (replace_texts c s t (Included a) (Excluded b) v Hc Hs) as (O1 & _ & _ & _ & _ & _ & O7).
    cbn [range_from range_to] in *.
    assert (Hw : blen (pre ++ w) = a + blen w) by (rewrite blen_app; lia).
    destruct (N.le_gt_cases (blen (pre ++ v ++ post)) (cap c)) as [Lv|Lv].
    + exists (Ok tt), (pre ++ v ++ post), (pre ++ v ++ post).
      split; [exact (Q1 pre w post eq_refl Ha Hw Lv)|]. split; [exact (O1 pre mid post Et Ha Hb Lv) | reflexivity].
    + exists (Err EOutOfBounds), t, (pre ++ w ++ post).
      split; [exact (returns_err c s1 _ _ _ S1 (Q7 pre w post eq_refl Ha Hw Lv))|].
      split; [exact (returns_err c s t _ _ Hs (O7 pre mid post Et Ha Hb Lv)) | discriminate].
Qed.

(** Insertions at different places can be made in either order. *)
Lemma c59_insert_order c s pre mid post w v : valid_cfg c -> shows c s (pre ++ mid ++ post) ->
  blen (pre ++ mid ++ post) + blen w + blen v <= cap c ->
  exists s1 s2 u, try_insert_str c (blen pre) (enc w) s = (Ret (Ok tt), s1) /\
    try_insert_str c (blen (pre ++ mid)) (enc v) s = (Ret (Ok tt), s2) /\
    returns c (try_insert_str c (blen (pre ++ mid) + blen w) (enc v) s1) (Ok tt) u /\
    returns c (try_insert_str c (blen pre) (enc w) s2) (Ok tt) u.
Proof.
  intros Hc Hs L.
  destruct (insert_texts c s _ (blen pre) w Hc Hs) as (_ & _ & _ & _ & _ & P1).
  destruct (P1 pre (mid ++ post) (conj eq_refl eq_refl) ltac:(lia)) as (s1 & E1 & S1).
  destruct (insert_texts c s _ (blen (pre ++ mid)) v Hc Hs) as (_ & _ & _ & _ & _ & P2).
  destruct (P2 (pre ++ mid) post (conj (app_assoc _ _ _) eq_refl) ltac:(lia)) as (s2 & E2 & S2).
  exists s1, s2, (pre ++ w ++ mid ++ v ++ post). split; [exact E1|]. split; [exact E2|].
  destruct (insert_texts c s1 _ (blen (pre ++ mid) + blen w) v Hc S1) as (_ & _ & _ & _ & _ & Q1).
  destruct (insert_texts c s2 _ (blen pre) w Hc S2) as (_ & _ & _ & _ & _ & Q2). split.
  - specialize (Q1 (pre ++ w ++ mid) post). rewrite <- !app_assoc in Q1. apply Q1.
    + split; [rewrite <- !app_assoc; reflexivity | rewrite !blen_app; lia].
    + rewrite !blen_app in *. lia.
  - specialize (Q2 pre (mid ++ v ++ post)). apply Q2.
    + split; [rewrite <- !app_assoc; reflexivity | reflexivity].
    + rewrite !blen_app in *. lia.
Qed.

(** ** C60 *)
(** Which kind of value each call returns. *)
Definition out_kind (r : out) : N :=
  match r with
  | RUnit => 0 | RBool _ => 1 | RNum _ => 2 | RBytes _ => 3 | ROptChar _ => 4 | RChar _ => 5
  | RErr _ => 6 | ROob _ => 7 | RUtf8 _ => 8 | RFmt _ => 9 | RPart _ => 10
  end.
Definition sop_kind (o : sop) : N :=
  match o with
  | SPushStr false _ | SPush _ => 7
  | STruncate _ => 8
  | SPop => 4
  | SRemove _ => 5
  | SInsert _ _ | SInsertStr _ _ _ | SReplaceRange _ _ _ => 6
  | SDrain _ _ | SSplitOff _ => 10
  | SWriteStr _ | SWriteChar _ => 9
  | SLen => 2
  | SIsEmpty | SEqStr _ => 1
  | SAsStr => 3
  | _ => 0
  end.

Lemma op_kind um cp o t r u : t_op um cp (to_op o) t = (Ret r, u) -> out_kind r = sop_kind o.
Proof.
  destruct o as [[]| | | | | | |[]| | | | | | | | | | | | | | |]; cbn [to_op t_op sop_kind]; intros E;
    repeat match type of E with
    | context [let '(_, _) := ?x in _] => destruct x
    | context [match ?x with Ret _ => _ | Panic => _ | UB => _ | Diverge => _ end] => destruct x
    end; try discriminate E; injection E as <- _; reflexivity.
Qed.

Lemma answer_same v o r r' : answer v r -> answer v r' -> out_kind r = sop_kind o -> out_kind r' = sop_kind o ->
  r = r' \/ (is_error r = true /\ is_error r' = true).
Proof.
  destruct v as [[]|]; cbn [answer]; intros A A' K K';
    try (right; split; assumption); left; rewrite <- K in K'; clear K;
    repeat match goal with H : _ \/ _ |- _ => destruct H end; subst; try reflexivity; discriminate K'.
Qed.

Lemma fit_mono m n (w : text) : m <= n -> fit n w = [] -> fit m w = [].
Proof.
  destruct w as [|x w]; [reflexivity|]. cbn [fit]. intros L.
  destruct (N.leb_spec (clen x) n); [discriminate|]. destruct (N.leb_spec (clen x) m); [lia | reflexivity].
Qed.

Lemma stays_mono um m n l : m <= n -> forall t, stays_within um m l t -> stays_within um n l t.
Proof.
  intros L. induction l as [|o l IH]; intros t H; [exact Logic.I|]. cbn [stays_within] in *.
  destruct H as (H1 & H2 & H3). split; [lia|]. split; [|apply IH; exact H3].
  intros Q. apply H2. clear -L Q. destruct o; try exact Q. destruct trunc; [|exact Q]. cbn [quirk] in *.
  destruct Q as (Q1 & Q2 & Q3). split; [exact Q1|]. split; [|exact Q3].
  refine (fit_mono _ _ _ _ Q2). lia.
Qed.

(** A history whose texts fit the smaller capacity runs the same at the larger. *)
Lemma c60_larger_capacity c n l : valid_cfg c -> cap c <= n <= 255 -> forall s s' t,
  shows c s t -> shows (with_cap c n) s' t -> stays_within (usize_max c) (cap c) l t ->
  exists rs rs' s1 s1' u, run_ops c (map to_op l) s = (map Ret rs, s1) /\
    run_ops (with_cap c n) (map to_op l) s' = (map Ret rs', s1') /\
    shows c s1 u /\ shows (with_cap c n) s1' u /\
    Forall2 (fun r r' => r = r' \/ (is_error r = true /\ is_error r' = true)) rs rs'.
Proof.
  intros Hc Hn. assert (Hc' : valid_cfg (with_cap c n)) by (split; [exact (proj1 Hc)|]; destruct Hc; cbn; lia).
  induction l as [|o l IH]; intros s s' t Hs Hs' Hw.
  - exists [], [], s, s', t. split; [reflexivity|]. split; [reflexivity|]. split; [exact Hs|].
    split; [exact Hs' | constructor].
  - pose proof (stays_mono _ _ n _ (proj1 Hn) _ Hw) as Hw'. cbn [stays_within] in Hw, Hw'.
    destruct Hw as (L & Hq & Hw), Hw' as (L' & Hq' & _).
    destruct (c43_call c s t o Hc Hs L Hq) as (r & (s1 & E1 & S1) & A1).
    destruct (c43_call (with_cap c n) s' t o Hc' Hs' L' Hq') as (r' & (s1' & E1' & S1') & A1').
    cbn [usize_max with_cap] in *.
    destruct (IH s1 s1' _ S1 S1' Hw) as (rs & rs' & s2 & s2' & u & E2 & E2' & S2 & S2' & F).
    exists (r :: rs), (r' :: rs'), s2, s2', u. cbn [map run_ops]. rewrite E1, E1', E2, E2'.
    split; [reflexivity|]. split; [reflexivity|]. split; [exact S2|]. split; [exact S2'|].
    constructor; [|exact F].
    assert (Ho : typed_op (to_op o)) by (destruct o as [[]| | | | | | |[]| | | | | | | | | | | | | | |]; exact Logic.I).
    apply (answer_same _ o r r' A1 A1').
    + destruct (run_op_sim c Hc (to_op o) s t (proj1 (shows_rep _ _ _) Hs) Ho) as (x & E & _).
      rewrite E1 in E. apply (op_kind (usize_max c) (cap c) o t r (snd (t_op (usize_max c) (cap c) (to_op o) t))).
      rewrite (surjective_pairing (t_op _ _ _ _)) at 1. f_equal. congruence.
    + destruct (run_op_sim _ Hc' (to_op o) s' t (proj1 (shows_rep _ _ _) Hs') Ho) as (x & E & _).
      rewrite E1' in E. apply (op_kind (usize_max c) n o t r' (snd (t_op (usize_max c) n (to_op o) t))).
      rewrite (surjective_pairing (t_op _ _ _ _)) at 1. f_equal. cbn [usize_max cap with_cap] in E. congruence.
Qed.
