(** Different calls with the same effect, appending in pieces, and conversions
    between capacities (C53-C55). *)
From Coq Require Import ZArith ZifyBool ZifyN ZifyNat Arith.
From Verif Require Import Base Char Spec RustStd ModelError Model ModelImpl ModelDrain TextOps IterSpec
  ListFacts Utf8Facts CoreFacts MethodFacts IterFacts ImplFacts DrainFacts Obs ClaimsEdit ClaimsIter ClaimsLaws.

Lemma returns_err {A E} c s t (o : outcome (result A E) * astring) e :
  shows c s t -> o = (Ret (Err e), s) -> returns c o (Err e) t.
Proof. intros Hs ->. exists s. split; [reflexivity | exact Hs]. Qed.

Lemma len_shows c s t : shows c s t -> len s = blen t.
Proof. intros Hs. apply shows_rep in Hs. exact (rep_len c s t Hs). Qed.

Lemma splits_end t : splits t (blen t) t [].
Proof. split; [symmetry; apply app_nil_r | reflexivity]. Qed.
Lemma splits_start t : splits t 0 [] t.
Proof. split; reflexivity. Qed.

(** ** C53 *)
(** Appending is inserting at the end. *)
Lemma c53_push_insert c s t w : valid_cfg c -> shows c s t ->
  agree c (fun a b => b = map_err from_oob a) (try_push_str c (enc w) s) (try_insert_str c (len s) (enc w) s).
Proof.
  intros Hc Hs. rewrite (len_shows c s t Hs).
  destruct (c05_try_push_str c s t w Hc Hs) as [P1 P2].
  destruct (insert_texts c s t (blen t) w Hc Hs) as (_ & _ & _ & _ & I5 & I6).
  destruct (N.le_gt_cases (blen t + blen w) (cap c)) as [L|L].
  - exists (Ok tt), (Ok tt), (t ++ w). split; [exact (P1 L)|]. split; [|reflexivity].
    pose proof (I6 t [] (splits_end t) L) as H. rewrite app_nil_r in H. exact H.
  - exists (Err mkOutOfBounds), (Err EOutOfBounds), t. split; [exact (returns_err c s t _ _ Hs (P2 L))|].
    split; [|reflexivity]. apply (returns_err c s t _ _ Hs). apply I5; [|exact L|].
    + exists t, []. apply splits_end.
    + intros ->. rewrite N.add_0_r in L. pose proof (shows_cap c s t Hs). lia.
Qed.

(** A character is a string of one character. *)
Lemma c53_chars c s t x i : valid_cfg c -> shows c s t ->
  agree c (fun a b => a = b) (try_push c x s) (try_push_str c (enc [x]) s) /\
  agree c (fun a b => a = b) (try_insert c i x s) (try_insert_str c i (enc [x]) s).
Proof.
  intros Hc Hs.
  assert (Ex : enc [x] = enc1 x) by (cbn [enc map concat]; unfold enc; cbn; apply app_nil_r).
  split.
  - destruct (c07_try_push c s t x Hc Hs) as [P1 P2].
    destruct (c05_try_push_str c s t [x] Hc Hs) as [Q1 Q2].
    assert (Eb : blen [x] = clen x) by (cbn [blen]; lia). rewrite Eb in Q1, Q2.
    destruct (N.le_gt_cases (blen t + clen x) (cap c)) as [L|L].
    + exists (Ok tt), (Ok tt), (t ++ [x]). split; [exact (P1 L)|]. split; [exact (Q1 L) | reflexivity].
    + exists (Err mkOutOfBounds), (Err mkOutOfBounds), t.
      split; [exact (returns_err c s t _ _ Hs (P2 L))|]. split; [exact (returns_err c s t _ _ Hs (Q2 L)) | reflexivity].
  - destruct (c23_try_insert c s t i x Hc Hs) as (P1 & P2 & P3 & P4 & P5).
    destruct (insert_texts c s t i [x] Hc Hs) as (Q1 & _ & Q2 & Q3 & Q4 & Q5).
    assert (Eb : blen [x] = clen x) by (cbn [blen]; lia). rewrite Eb in *.
    assert (Hn : [x] <> []) by discriminate.
    destruct (N.le_gt_cases i (blen t)) as [L|L].
    2:{ exists (Err EOutOfBounds), (Err EOutOfBounds), t. split; [exact (returns_err c s t _ _ Hs (P1 L))|].
        split; [exact (returns_err c s t _ _ Hs (Q1 L)) | reflexivity]. }
    destruct (N.le_gt_cases (clen x) (cap c)) as [L1|L1].
    2:{ exists (Err EOutOfBounds), (Err EOutOfBounds), t. split; [exact (returns_err c s t _ _ Hs (P2 L L1))|].
        split; [exact (returns_err c s t _ _ Hs (Q2 L L1)) | reflexivity]. }
    destruct (boundary_dec t i) as [B|B].
    2:{ exists (Err EUtf8), (Err EUtf8), t. split; [exact (returns_err c s t _ _ Hs (P3 L L1 B))|].
        split; [exact (returns_err c s t _ _ Hs (Q3 L Hn L1 B)) | reflexivity]. }
    destruct (N.le_gt_cases (blen t + clen x) (cap c)) as [L2|L2].
    + destruct B as (pre & post & B). exists (Ok tt), (Ok tt), (pre ++ x :: post).
      split; [exact (P5 pre post B L2)|]. split; [exact (Q5 pre post B L2) | reflexivity].
    + exists (Err EOutOfBounds), (Err EOutOfBounds), t. split; [exact (returns_err c s t _ _ Hs (P4 B L2))|].
      split; [exact (returns_err c s t _ _ Hs (Q4 B L2 Hn)) | reflexivity].
Qed.

(** Popping is removing the character that starts where the rest ends. *)
Lemma c53_pop_remove c s t x : valid_cfg c -> shows c s (t ++ [x]) ->
  agree c (fun a b => a = ok b) (pop c s) (remove c (blen t) s).
Proof.
  intros Hc Hs. exists (Some x), (Ok x), t. split; [exact (proj2 (c19_pop c s Hc) t x Hs)|]. split; [|reflexivity].
  destruct (c21_remove c s (t ++ [x]) (blen t) Hc Hs) as (_ & _ & H).
  specialize (H t x []). rewrite app_nil_r in H. apply H. split; reflexivity.
Qed.

(** [split_off] is [drain] to the end; what [truncate] keeps is what they keep. *)
Lemma c53_split_drain c s t i : valid_cfg c -> shows c s t ->
  agree c (same_part c) (split_off c i s) (drain_iter c (Included i) Unbounded s).
Proof.
  intros Hc Hs. destruct (c28_split_off c s t i Hc Hs) as (P1 & P2 & P3).
  destruct (c26_drain c s t (Included i) Unbounded Hc Hs) as (Q1 & Q2 & Q3).
  cbn [range_from range_to] in *.
  destruct (N.le_gt_cases i (blen t)) as [L|L].
  2:{ exists (Err EOutOfBounds), (Err EOutOfBounds), t. split; [exact (returns_err c s t _ _ Hs (P1 L))|].
      split; [exact (returns_err c s t _ _ Hs (Q2 (or_introl L))) | reflexivity]. }
  destruct (boundary_dec t i) as [(pre & post & B)|B].
  - destruct (P3 pre post B) as (d & s1 & E1 & D1 & S1). destruct B as [Ht Hi].
    destruct (Q1 pre post []) as (e & s2 & E2 & _ & D2 & S2).
    { rewrite app_nil_r. exact Ht. } { exact Hi. } { rewrite Ht. reflexivity. }
    rewrite app_nil_r in S2. exists (Ok d), (Ok e), pre.
    split; [exists s1; split; assumption|]. split; [exists s2; split; assumption|].
    exists post. split; assumption.
  - exists (Err EUtf8), (Err EUtf8), t. split; [exact (returns_err c s t _ _ Hs (P2 L B))|].
    split; [|reflexivity]. apply (returns_err c s t _ _ Hs). apply Q3; [exact L | lia | tauto].
Qed.

Lemma c53_truncate_split c s t i : valid_cfg c -> shows c s t -> i <= len s ->
  agree c (fun a b => a = map_ok (fun _ => tt) (map_err (fun _ => mkUtf8) b)) (truncate c i s) (split_off c i s).
Proof.
  intros Hc Hs L. rewrite (len_shows c s t Hs) in L.
  destruct (c28_split_off c s t i Hc Hs) as (_ & P2 & P3). destruct (truncate_texts c s t i Hc Hs) as (_ & Q2 & Q3).
  destruct (boundary_dec t i) as [(pre & post & B)|B].
  - destruct (P3 pre post B) as (d & s1 & E1 & D1 & S1).
    exists (Ok tt), (Ok d), pre. split; [exact (Q2 pre post B)|]. split; [exists s1; split; assumption | reflexivity].
  - exists (Err mkUtf8), (Err EUtf8), t. split; [|split; [exact (returns_err c s t _ _ Hs (P2 L B)) | reflexivity]].
    apply (returns_err c s t _ _ Hs). apply Q3; [|exact B].
    destruct (N.eq_dec i (blen t)) as [->|]; [|lia]. exfalso. apply B. exists t, []. apply splits_end.
Qed.

(** Removing a character is draining its bytes. *)
Lemma c53_remove_drain c s t i x s1 : valid_cfg c -> shows c s t -> remove c i s = (Ret (Ok x), s1) ->
  exists d s2 u, drain_iter c (Included i) (Excluded (i + clen x)) s = (Ret (Ok d), s2) /\
    shows c (drained d) [x] /\ shows c s1 u /\ shows c s2 u.
Proof.
  intros Hc Hs E. destruct (remove_inv c s t i x s1 Hc Hs E) as (pre & post & [Ht Hi] & S1).
  destruct (c26_drain c s t (Included i) (Excluded (i + clen x)) Hc Hs) as (Q1 & _).
  cbn [range_from range_to] in Q1.
  destruct (Q1 pre [x] post) as (d & s2 & E2 & _ & D2 & S2).
  { exact Ht. } { exact Hi. } { rewrite blen_app, Hi. cbn [blen]. lia. }
  exists d, s2, (pre ++ post). repeat split; try assumption; try apply D2; try apply S1; apply S2.
Qed.

(** Four ways to empty a string. *)
Lemma c53_clear c s t : valid_cfg c -> shows c s t ->
  agree c (fun _ b => b = Ok tt) (clear s) (truncate c 0 s) /\
  agree c (fun _ b => b = Ok tt) (clear s) (replace_range c Unbounded Unbounded [] s) /\
  agree c (fun _ b => exists d, b = Ok d /\ shows c (drained d) t) (clear s) (drain_iter c Unbounded Unbounded s).
Proof.
  intros Hc Hs. destruct (c29_observers c s t Hc Hs) as (_ & _ & _ & _ & H). repeat split.
  - exists tt, (Ok tt), []. split; [exact H|]. split; [|reflexivity].
    exact (proj1 (proj2 (truncate_texts c s t 0 Hc Hs)) [] t (splits_start t)).
  - exists tt, (Ok tt), []. split; [exact H|]. split; [|reflexivity].
    destruct (replace_texts c s t Unbounded Unbounded [] Hc Hs) as (P & _).
    cbn [range_from range_to] in P. apply (P [] t []); cbn [app]; rewrite ?app_nil_r; try reflexivity.
    cbn [blen]. lia.
  - destruct (c26_drain c s t Unbounded Unbounded Hc Hs) as (P & _). cbn [range_from range_to] in P.
    destruct (P [] t []) as (d & s' & E & _ & D & S'); cbn [app]; rewrite ?app_nil_r; try reflexivity.
    exists tt, (Ok d), []. split; [exact H|]. split; [exists s'; split; assumption|]. exists d. split; [reflexivity | exact D].
Qed.

(** Replacing is draining, then inserting: with the same result, except that a
    replacement for which there is no room leaves the string as it was. *)
Lemma c53_replace c s t lo hi w d s1 : valid_cfg c -> shows c s t ->
  drain_iter c lo hi s = (Ret (Ok d), s1) ->
  exists r s2 s3, try_insert_str c (range_from (usize_max c) lo) (enc w) s1 = (Ret r, s2) /\
    replace_range c lo hi (enc w) s = (Ret r, s3) /\
    ((r = Ok tt /\ exists u, shows c s2 u /\ shows c s3 u) \/ (r = Err EOutOfBounds /\ s2 = s1 /\ s3 = s)).
Proof.
  intros Hc Hs E. destruct (drain_inv c s t lo hi d s1 Hc Hs E) as (pre & mid & post & Ht & Ha & Hb & D & S1).
  assert (B : splits (pre ++ post) (range_from (usize_max c) lo) pre post) by (split; [reflexivity | exact Ha]).
  destruct (insert_texts c s1 (pre ++ post) (range_from (usize_max c) lo) w Hc S1) as (_ & _ & _ & _ & I5 & I6).
  destruct (replace_texts c s t lo hi w Hc Hs) as (P1 & _ & _ & _ & _ & _ & P7).
  destruct (N.le_gt_cases (blen (pre ++ post) + blen w) (cap c)) as [L|L].
  - destruct (I6 pre post B L) as (s2 & E2 & S2).
    destruct (P1 pre mid post Ht Ha Hb) as (s3 & E3 & S3); [rewrite !blen_app in *; lia|].
    exists (Ok tt), s2, s3. split; [exact E2|]. split; [exact E3|]. left. split; [reflexivity|].
    exists (pre ++ w ++ post). split; assumption.
  - exists (Err EOutOfBounds), s1, s. split.
    { apply I5; [exists pre, post; exact B | exact L|]. intros ->. pose proof (shows_cap c s1 _ S1). cbn [blen] in L. lia. }
    split; [|right; auto]. apply (P7 pre mid post Ht Ha Hb). rewrite !blen_app in *. lia.
Qed.

(** A range that cannot be drained cannot be replaced either, with the same error. *)
Lemma c53_replace_fails c s t lo hi w e s1 : valid_cfg c -> shows c s t -> blen w <= cap c ->
  ~ (range_from (usize_max c) lo = range_to (usize_max c) (blen t) hi /\ w = []) ->
  drain_iter c lo hi s = (Ret (Err e), s1) ->
  replace_range c lo hi (enc w) s = (Ret (Err e), s) /\ s1 = s.
Proof.
  intros Hc Hs L Hn E. destruct (c26_drain c s t lo hi Hc Hs) as (D1 & D2 & D3).
  destruct (replace_texts c s t lo hi w Hc Hs) as (_ & _ & P3 & P4 & _ & P6 & _).
  set (a := range_from (usize_max c) lo) in *. set (b := range_to (usize_max c) (blen t) hi) in *.
  destruct (N.lt_ge_cases b a) as [L1|L1].
  { rewrite (D2 (or_introl L1)) in E. injection E as <- <-. auto. }
  destruct (N.lt_ge_cases (blen t) b) as [L2|L2].
  { rewrite (D2 (or_intror L2)) in E. injection E as <- <-. auto. }
  destruct (slice_dec t a b L1 L2) as [(pre & mid & post & Et & Ha & Hb)|Hd].
  - destruct (D1 pre mid post Et Ha Hb) as (d' & s' & E' & _). rewrite E in E'. discriminate E'.
  - rewrite (D3 L1 L2 Hd) in E. injection E as <- <-. auto.
Qed.

(** Three ways to append what fits. *)
Lemma c53_append c s t w : valid_cfg c -> shows c s t ->
  exists u s1 s2 it s3, push_str_truncate c (enc w) s = (Ret tt, s1) /\ shows c s1 u /\
    add c s (enc w) = Ret s2 /\ shows c s2 u /\
    extend_strs c 2 list_iter [item_of w] s = (Ret tt, it, s3) /\ shows c s3 u /\
    (forall s4, try_push_str c (enc w) s = (Ret (Ok tt), s4) -> shows c s4 u).
Proof.
  intros Hc Hs. destruct (c06_push_str_truncate c s t w Hc Hs) as (p & Hp & (s1 & E1 & S1)).
  destruct (c33_extend_strs c list_iter [item_of w] [w] [] s t 2 Hc Hs) as (q & s3 & it & Hq & E3 & S3 & _).
  { exists []. split; [|reflexivity]. econstructor; [reflexivity | constructor]. } { cbn. lia. }
  cbn [concat] in Hq. rewrite app_nil_r in Hq. rewrite <- (longest_fit_unique _ _ _ _ Hp Hq) in S3.
  exists (t ++ p), s1, s1, it, s3. split; [exact E1|]. split; [exact S1|].
  split; [unfold add, run_local; rewrite E1; reflexivity|]. split; [exact S1|]. split; [exact E3|]. split; [exact S3|].
  intros s4 E4. destruct (c05_try_push_str c s t w Hc Hs) as [P1 P2].
  destruct (N.le_gt_cases (blen t + blen w) (cap c)) as [L|L].
  - destruct (P1 L) as (s' & E' & S'). rewrite E4 in E'. injection E' as ->.
    apply longest_fit_fit in Hp. rewrite fit_id in Hp by lia. rewrite Hp. exact S'.
  - rewrite (P2 L) in E4. discriminate E4.
Qed.

(** Truncating twice is truncating to the smaller size. *)
Lemma c53_truncate_twice c s t m n s1 s2 : valid_cfg c -> shows c s t ->
  truncate c m s = (Ret (Ok tt), s1) -> truncate c n s1 = (Ret (Ok tt), s2) ->
  exists u, shows c s2 u /\ returns c (truncate c (N.min m n) s) (Ok tt) u.
Proof.
  intros Hc Hs E1 E2.
  assert (K : forall s t n s', shows c s t -> truncate c n s = (Ret (Ok tt), s') ->
    (blen t <= n /\ shows c s' t) \/ (n < blen t /\ exists pre post, splits t n pre post /\ shows c s' pre)).
  { clear - Hc. intros s t n s' Hs E. destruct (truncate_texts c s t n Hc Hs) as (H1 & H2 & H3).
    destruct (N.le_gt_cases (blen t) n) as [L|L].
    - left. split; [exact L|]. destruct (H1 L) as (x & Ex & Sx). rewrite E in Ex. injection Ex as ->. exact Sx.
    - right. split; [exact L|]. destruct (boundary_dec t n) as [(pre & post & B)|B].
      + exists pre, post. split; [exact B|]. destruct (H2 pre post B) as (x & Ex & Sx). rewrite E in Ex.
        injection Ex as ->. exact Sx.
      + rewrite (H3 L B) in E. discriminate E. }
  destruct (K s t m s1 Hs E1) as [[L1 S1]|(L1 & pre & post & [B1 B1'] & S1)].
  - destruct (K s1 t n s2 S1 E2) as [[L2 S2]|(L2 & pre & post & B2 & S2)].
    + exists t. split; [exact S2|]. apply (proj1 (truncate_texts c s t (N.min m n) Hc Hs)). lia.
    + exists pre. split; [exact S2|]. rewrite N.min_r by lia.
      exact (proj1 (proj2 (truncate_texts c s t n Hc Hs)) pre post B2).
  - destruct (K s1 pre n s2 S1 E2) as [[L2 S2]|(L2 & pre' & post' & [B2 B2'] & S2)].
    + exists pre. split; [exact S2|]. rewrite N.min_l by lia.
      exact (proj1 (proj2 (truncate_texts c s t m Hc Hs)) pre post (conj B1 B1')).
    + exists pre'. split; [exact S2|]. rewrite N.min_r by lia.
      apply (proj1 (proj2 (truncate_texts c s t n Hc Hs)) pre' (post' ++ post)).
      split; [rewrite B1, B2, <- app_assoc; reflexivity | exact B2'].
Qed.

(** ** C54 *)
(** All or nothing: in one piece or in two. *)
Lemma c54_try_push c s t a b : valid_cfg c -> shows c s t ->
  (blen t + blen (a ++ b) <= cap c <->
     exists s1, try_push_str c (enc a) s = (Ret (Ok tt), s1) /\ exists s2, try_push_str c (enc b) s1 = (Ret (Ok tt), s2)) /\
  (forall s1 s2, try_push_str c (enc a) s = (Ret (Ok tt), s1) -> try_push_str c (enc b) s1 = (Ret (Ok tt), s2) ->
     exists u, shows c s2 u /\ returns c (try_push_str c (enc (a ++ b)) s) (Ok tt) u).
Proof.
  intros Hc Hs. rewrite blen_app.
  assert (K : forall s t w s', shows c s t -> try_push_str c (enc w) s = (Ret (Ok tt), s') ->
    blen t + blen w <= cap c /\ shows c s' (t ++ w)).
  { clear - Hc. intros s t w s' Hs E. destruct (c05_try_push_str c s t w Hc Hs) as [P1 P2].
    destruct (N.le_gt_cases (blen t + blen w) (cap c)) as [L|L].
    - split; [exact L|]. destruct (P1 L) as (x & Ex & Sx). rewrite E in Ex. injection Ex as ->. exact Sx.
    - rewrite (P2 L) in E. discriminate E. }
  split; [split|].
  - intros L. destruct (c05_try_push_str c s t a Hc Hs) as [P1 _]. destruct P1 as (s1 & E1 & S1); [lia|].
    exists s1. split; [exact E1|]. destruct (c05_try_push_str c s1 (t ++ a) b Hc S1) as [P2 _].
    destruct P2 as (s2 & E2 & _); [rewrite blen_app; lia|]. exists s2. exact E2.
  - intros (s1 & E1 & s2 & E2). destruct (K s t a s1 Hs E1) as [L1 S1].
    destruct (K s1 (t ++ a) b s2 S1 E2) as [L2 _]. rewrite blen_app in L2. lia.
  - intros s1 s2 E1 E2. destruct (K s t a s1 Hs E1) as [L1 S1].
    destruct (K s1 (t ++ a) b s2 S1 E2) as [L2 S2]. rewrite blen_app in L2.
    exists ((t ++ a) ++ b). split; [exact S2|]. rewrite <- app_assoc.
    apply (c05_try_push_str c s t (a ++ b) Hc Hs). rewrite blen_app. lia.
Qed.

(** Cutting: two pieces give at least what one piece gives, and the same when the
    first is not cut. *)
Lemma push_truncate_law c s t a b s1 s2 s3 u v : valid_cfg c -> shows c s t ->
  push_str_truncate c (enc a) s = (Ret tt, s1) -> push_str_truncate c (enc b) s1 = (Ret tt, s2) ->
  push_str_truncate c (enc (a ++ b)) s = (Ret tt, s3) -> shows c s2 u -> shows c s3 v ->
  prefix_of v u /\ (blen t + blen a <= cap c -> u = v).
Proof.
  intros Hc Hs E1 E2 E3 S2 S3.
  destruct (c06_push_str_truncate c s t a Hc Hs) as (p & Hp & (x1 & F1 & T1)). rewrite E1 in F1. injection F1 as <-.
  destruct (c06_push_str_truncate c s1 (t ++ p) b Hc T1) as (q & Hq & (x2 & F2 & T2)). rewrite E2 in F2. injection F2 as <-.
  destruct (c06_push_str_truncate c s t (a ++ b) Hc Hs) as (r & Hr & (x3 & F3 & T3)). rewrite E3 in F3. injection F3 as <-.
  rewrite (shows_fun c s2 u _ S2 T2), (shows_fun c s3 v _ S3 T3). clear S2 S3 u v.
  pose proof (shows_cap c s t Hs) as Lt. pose proof (shows_cap c s1 _ T1) as L1. rewrite blen_app in *.
  destruct (N.le_gt_cases (blen t + blen a) (cap c)) as [L|L].
  - assert (p = a) as ->. { apply longest_fit_fit in Hp. rewrite fit_id in Hp by lia. exact Hp. }
    assert (Er : r = a ++ q).
    { apply (longest_fit_unique (cap c - blen t) (a ++ b)); [exact Hr|].
      destruct Hq as (Pq & Lq & Mq). destruct Pq as [z Hz]. split; [|split].
      - exists z. rewrite Hz, app_assoc. reflexivity.
      - rewrite blen_app. lia.
      - intros y [z' Hy] Ly.
        destruct (app_eq_app a b y z' Hy) as (l & [[Ha Hz']|[Hy' Hb]]).
        + exists (l ++ q). rewrite app_assoc, <- Ha. reflexivity.
        + subst y. destruct (Mq l) as [k Hk].
          * exists z'. exact Hb.
          * rewrite blen_app in Ly. lia.
          * exists k. rewrite <- app_assoc, <- Hk. reflexivity. }
    subst r. split; [|intros _; rewrite <- app_assoc; reflexivity].
    rewrite <- app_assoc. apply prefix_refl.
  - split; [|intros; lia].
    assert (r = p) as ->.
    { apply (longest_fit_unique (cap c - blen t) (a ++ b)); [exact Hr|].
      destruct Hp as ([z Hz] & Lp & Mp). split; [|split].
      - exists (z ++ b). rewrite app_assoc, <- Hz. reflexivity.
      - exact Lp.
      - intros y [z' Hy] Ly. apply Mp; [|exact Ly].
        destruct (app_eq_app a b y z' Hy) as (l & [[Ha Hz']|[Hy' Hb]]).
        + exists l. exact Ha.
        + subst y. rewrite blen_app in Ly. lia. }
    exists q. rewrite <- app_assoc. reflexivity.
Qed.
Lemma c54_push_truncate c s t a b : valid_cfg c -> shows c s t ->
  exists s1 s2 s3 u v,
    push_str_truncate c (enc a) s = (Ret tt, s1) /\ push_str_truncate c (enc b) s1 = (Ret tt, s2) /\
    push_str_truncate c (enc (a ++ b)) s = (Ret tt, s3) /\ shows c s2 u /\ shows c s3 v /\
    prefix_of v u /\ (blen t + blen a <= cap c -> u = v).
Proof.
  intros Hc Hs.
  destruct (c06_push_str_truncate c s t a Hc Hs) as (p & _ & (s1 & E1 & S1)).
  destruct (c06_push_str_truncate c s1 _ b Hc S1) as (q & _ & (s2 & E2 & S2)).
  destruct (c06_push_str_truncate c s t (a ++ b) Hc Hs) as (r & _ & (s3 & E3 & S3)).
  exists s1, s2, s3, ((t ++ p) ++ q), (t ++ r).
  pose proof (push_truncate_law c s t a b s1 s2 s3 _ _ Hc Hs E1 E2 E3 S2 S3). auto 10.
Qed.

(** ** C55 *)
(** From an [ArrayString<M>] to an [ArrayString<N>]. *)
Lemma c55_convert c n s t : valid_cfg c -> 1 <= n <= 255 -> shows c s t ->
  exists b, as_str c s = Ret b /\
  (blen t <= n -> makes_ok (with_cap c n) (try_from_str (with_cap c n) b) t) /\
  (n < blen t -> try_from_str (with_cap c n) b = Ret (Err mkOutOfBounds)) /\
  (cap c <= n -> makes_ok (with_cap c n) (try_from_str (with_cap c n) b) t) /\
  (exists p, longest_fit n t p /\ makes (with_cap c n) (from_str_truncate (with_cap c n) b) p).
Proof.
  intros Hc Hn Hs. assert (Hv : valid_cfg (with_cap c n)) by (split; [exact (proj1 Hc) | exact Hn]).
  exists (enc t). split; [exact (shows_as_str c s t Hs)|].
  destruct (c08_try_from_str (with_cap c n) t Hv) as [P1 P2]. cbn [cap with_cap] in P1, P2.
  split; [intros L; exact (proj1 (P1 L))|]. split; [intros L; exact (proj1 (P2 L))|].
  split; [intros L; apply P1; pose proof (shows_cap c s t Hs); lia|].
  destruct (c09_from_str_truncate (with_cap c n) t Hv) as (p & Hp & Mp & _). exists p. split; assumption.
Qed.

(** Cutting to one capacity, then to another: as cutting to the smaller. *)
Lemma c55_compose c m n w : valid_cfg c -> 1 <= m <= 255 -> 1 <= n <= 255 ->
  exists s b u, from_str_truncate (with_cap c m) (enc w) = Ret s /\ as_str (with_cap c m) s = Ret b /\
    makes (with_cap c n) (from_str_truncate (with_cap c n) b) u /\
    makes (with_cap c (N.min m n)) (from_str_truncate (with_cap c (N.min m n)) (enc w)) u.
Proof.
  intros Hc Hm Hn.
  assert (Hv : forall k, 1 <= k <= 255 -> valid_cfg (with_cap c k)) by (intros k Hk; split; [exact (proj1 Hc) | exact Hk]).
  destruct (c09_from_str_truncate (with_cap c m) w (Hv m Hm)) as (p & Hp & (s & E & Sp) & _).
  destruct (c09_from_str_truncate (with_cap c n) p (Hv n Hn)) as (q & Hq & Mq & _).
  destruct (c09_from_str_truncate (with_cap c (N.min m n)) w (Hv (N.min m n) ltac:(lia))) as (r & Hr & Mr & _).
  cbn [cap with_cap] in *. exists s, (enc p), q. split; [exact E|]. split; [exact (shows_as_str _ _ _ Sp)|].
  split; [exact Mq|].
  assert (r = q) as ->; [|exact Mr].
  apply (longest_fit_unique (N.min m n) w); [exact Hr|].
  destruct Hp as ([z Hz] & Lp & Mp'). destruct Hq as ([z' Hz'] & Lq & Mq'). split; [|split].
  - exists (z' ++ z). rewrite app_assoc, <- Hz'. exact Hz.
  - pose proof (prefix_blen q p (ex_intro _ z' Hz')). lia.
  - intros y Hy Ly. apply Mq'; [|lia]. apply Mp'; [exact Hy | lia].
Qed.
