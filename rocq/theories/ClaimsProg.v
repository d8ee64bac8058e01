(** Statements about programs with several variables (C70). *)
From Coq Require Import ZArith ZifyBool ZifyN ZifyNat Arith.
From Verif Require Import Base Char Spec RustStd ModelError Model RustFmt ModelImpl ModelDrain TextOps SpecOps
  ModelOps IterSpec ListFacts Utf8Facts CoreFacts MethodFacts IterFacts OrderFacts ImplFacts DrainFacts OpsFacts Obs
  ClaimsOps SpecProg ModelProg ObsProg.

(** ** Lists of variables *)
Lemma forall2_nth {A B} (P : A -> B -> Prop) l m i : Forall2 P l m ->
  match nth_error l i, nth_error m i with
  | Some a, Some b => P a b
  | None, None => True
  | _, _ => False
  end.
Proof.
  intros F. revert i; induction F as [|a b l m H F IH]; intros [|i]; cbn; auto; apply IH.
Qed.

Lemma forall2_set {A B} (P : A -> B -> Prop) l m i a b : Forall2 P l m -> P a b ->
  Forall2 P (set_nth i a l) (set_nth i b m).
Proof.
  intros F H. revert i; induction F as [|x y l m Hx F IH]; intros [|i]; cbn; constructor; auto.
Qed.

Lemma forall2_snoc {A B} (P : A -> B -> Prop) l m a b : Forall2 P l m -> P a b -> Forall2 P (l ++ [a]) (m ++ [b]).
Proof. intros F H. apply Forall2_app; auto. Qed.

Lemma set_nth_other {A} i k (x : A) l : i <> k -> nth_error (set_nth i x l) k = nth_error l k.
Proof.
  revert i k; induction l as [|y l IH]; intros [|i] [|k] H; cbn; auto; congruence.
Qed.

Lemma set_nth_length {A} i (x : A) l : length (set_nth i x l) = length l.
Proof. revert i; induction l as [|y l IH]; intros [|i]; cbn; auto. Qed.

Lemma set_nth_app {A} i (x : A) l m : (i < length l)%nat -> set_nth i x (l ++ m) = set_nth i x l ++ m.
Proof.
  revert i; induction l as [|y l IH]; intros [|i] H; cbn in *; try lia; auto.
  f_equal. apply IH. lia.
Qed.

Lemma order_cmp a b : order a b = text_cmp a b.
Proof. revert b; induction a as [|x a IH]; intros [|y b]; cbn; auto. Qed.

(** ** Taking characters from a draining iterator *)
Section Step.
Variable c : cfg.
Hypothesis Hu : 65535 <= usize_max c.

Lemma for_cap_valid n : 1 <= n <= 255 -> valid_cfg (for_cap c n).
Proof. intros H. split; [exact Hu | exact H]. Qed.

Lemma shows_for n s t : shows (with_cap c n) s t <-> rep (for_cap c n) s t.
Proof. exact (shows_rep (for_cap c n) s t). Qed.

Lemma drain_collect n m d u : 1 <= n <= 255 -> 1 <= m <= 255 -> rep (for_cap c m) (drained d) u ->
  exists a d', from_chars_truncate (for_cap c n) (char_fuel (for_cap c n)) (drain_iterator (for_cap c m)) d = (Ret a, d') /\
    rep (for_cap c n) a (fit n u) /\ rep (for_cap c m) (drained d') (skipn (S (length (fit n u))) u).
Proof.
  intros Hn Hm R. set (cn := for_cap c n). set (cm := for_cap c m).
  pose proof (for_cap_valid n Hn) as Vn. pose proof (for_cap_valid m Hm) as Vm. fold cn in Vn. fold cm in Vm, R.
  assert (Y : forall u d, rep cm (drained d) u -> forall k, (k <= length u)%nat ->
    exists d', yields (drain_iterator cm) d (firstn k u) d' /\ rep cm (drained d') (skipn k u)).
  { clear - Vm. intros u. induction u as [|x u IH]; intros d R k L.
    - exists d. destruct k; cbn; (split; [constructor | exact R]).
    - destruct k as [|k]; [exists d; cbn; split; [constructor | exact R]|].
      destruct (drain_next_rep cm Vm d _ R) as (d1 & E1 & R1). cbn in E1, R1.
      destruct (IH d1 R1 k ltac:(cbn in L; lia)) as (d2 & Y2 & R2).
      exists d2. cbn [firstn skipn]. split; [|exact R2]. econstructor; [exact E1 | exact Y2]. }
  destruct (chars_cases n u 0 ltac:(lia)) as [L|(l1 & x & l2 & -> & L1 & L2)].
  - rewrite N.add_0_l in L. rewrite fit_all by exact L.
    destruct (drain_ends cm Vm d u R) as (d' & E & R').
    destruct (from_chars_truncate_end cn Vn (drain_iterator cm) (char_fuel cn) d u d' E L) as (a & Ea & Ra).
    { pose proof (length_le_cap cn u L). unfold char_fuel. lia. }
    exists a, d'. split; [exact Ea|]. split; [exact Ra|].
    rewrite skipn_all2 by lia. exact R'.
  - rewrite N.add_0_l in L1, L2.
    rewrite fit_stop by assumption.
    destruct (Y _ d R (S (length l1))) as (d' & Yd & Rd); [rewrite app_length; cbn; lia|].
    assert (Ef : firstn (S (length l1)) (l1 ++ x :: l2) = l1 ++ [x]).
    { rewrite (app_assoc l1 [x] l2 : l1 ++ x :: l2 = _). rewrite firstn_app.
      assert (El : length (l1 ++ [x]) = S (length l1)) by (rewrite app_length; cbn; lia).
      rewrite firstn_all2 by lia. rewrite El, Nat.sub_diag. cbn. apply app_nil_r. }
    rewrite Ef in Yd.
    destruct (from_chars_truncate_stop cn Vn (drain_iterator cm) (char_fuel cn) d l1 x d' Yd L1 L2) as (a & Ea & Ra).
    { pose proof (length_le_cap cn l1 L1). unfold char_fuel. lia. }
    exists a, d'. split; [exact Ea|]. split; [exact Ra | exact Rd].
Qed.

Lemma run_with_op n a u s : run_with c n a (enc u) s = run_op (for_cap c n) (with_text a u) s.
Proof. destruct a; reflexivity. Qed.

Lemma var_str_shows v x : var_shows c v x -> var_str c v = Ret (enc (ttext x)).
Proof.
  destruct v as [n s|n d]; intros (Hn & _ & -> & R); apply shows_for in R; cbn; unfold drain_as_str;
    apply as_str_rep; exact R.
Qed.

Lemma typed_with a u : typed_op (with_text a u).
Proof. destruct a; exact I. Qed.

Lemma var_rep (dr : bool) n s t : 1 <= n <= 255 -> rep (for_cap c n) s t ->
  var_shows c (if dr then VDrain n (mkDrain s) else VStr n s) (mktvar dr n t).
Proof.
  intros Hn R. apply shows_for in R. destruct dr; (split; [exact Hn|]); (split; [reflexivity|]); (split; [reflexivity | exact R]).
Qed.
Lemma str_rep n s t : 1 <= n <= 255 -> rep (for_cap c n) s t -> var_shows c (VStr n s) (mktvar false n t).
Proof. exact (var_rep false n s t). Qed.
Lemma drn_rep n d t : 1 <= n <= 255 -> rep (for_cap c n) (drained d) t -> var_shows c (VDrain n d) (mktvar true n t).
Proof. destruct d as [s]. exact (var_rep true n s t). Qed.

(** A call on a string variable. *)
Lemma call_sim i n (r : outcome out * astring) o t w u :
  1 <= n <= 255 -> world_shows c w u -> sim (for_cap c n) r (t_op (usize_max c) n o t) ->
  let '(r', t') := t_op (usize_max c) n o t in
  omap PRet (fst r) = omap PRet r' /\
  world_shows c (set_nth i (VStr n (snd r)) w) (set_nth i (mktvar false n t') u).
Proof.
  intros Hn F (s' & -> & R). destruct (t_op (usize_max c) n o t) as [r' t']. cbn [fst snd] in *.
  split; [reflexivity|]. apply forall2_set; [exact F|].
  first [apply str_rep | apply drn_rep]; [exact Hn | exact R].
Qed.

Lemma made_sim (r : outcome (result var Error)) n dr (p : result text Error) w u :
  world_shows c w u ->
  (match p with
   | Ok t => exists v, r = Ret (Ok v) /\ var_shows c v (mktvar dr n t)
   | Err e => r = Ret (Err e)
   end) ->
  fst (made r w) = fst (t_made dr n p u) /\ world_shows c (snd (made r w)) (snd (t_made dr n p u)).
Proof.
  intros F H. destruct p as [t|e].
  - destruct H as (v & -> & V). cbn. split; [reflexivity|]. apply forall2_snoc; assumption.
  - subst r. cbn. auto.
Qed.

Lemma run_cmd_sim p w u : typed_cmd p -> world_shows c w u ->
  fst (run_cmd c p w) = fst (t_cmd (usize_max c) p u) /\
  world_shows c (snd (run_cmd c p w)) (snd (t_cmd (usize_max c) p u)).
Proof.
  intros T F. destruct p as [n k|n j|j|i o|i a j|i j sp|i m|i lo hi|j front|i j|n j|i j|i j|i j];
    unfold run_cmd, t_cmd; cbv zeta.
  - (* PMake *)
    destruct T as [Hn Tk]. pose proof (build_sim (for_cap c n) (for_cap_valid n Hn) k Tk) as S.
    cbn [cap for_cap] in S.
    destruct (t_ctor n k) as [[t|e]| | |]; cbn [sim_ctor] in S.
    + destruct S as (s & -> & R). destruct (made_sim (omap (map_ok (VStr n)) (Ret (Ok s))) n false (Ok t) w u F) as [E G].
      { exists (VStr n s). split; [reflexivity|]. first [apply str_rep | apply drn_rep]; [exact Hn | exact R]. }
      cbn [fst snd]. rewrite E. split; [reflexivity | exact G].
    + rewrite S. cbn. auto.
    + rewrite S. cbn. auto.
    + rewrite S. cbn. auto.
    + rewrite S. cbn. auto.
  - (* PFrom *)
    pose proof (forall2_nth _ _ _ j F) as V.
    destruct (nth_error w j) as [y|]; destruct (nth_error u j) as [x|]; try contradiction; [|cbn; auto].
    rewrite (var_str_shows _ _ V). cbn [obind].
    pose proof (build_sim (for_cap c n) (for_cap_valid n T) (CTryFromStr (ttext x)) I) as S.
    cbn [t_ctor cap for_cap build] in S.
    match goal with |- context [made ?r w] =>
      destruct (made_sim r n false (if blen (ttext x) <=? n then Ok (ttext x) else Err EOutOfBounds) w u F) as [E G] end.
    { destruct (blen (ttext x) <=? n); cbn [sim_ctor] in S.
      - destruct S as (s & E & R). destruct (try_from_str (for_cap c n) (enc (ttext x))) as [[s'|]| | |]; cbn in E; try discriminate.
        injection E as ->. exists (VStr n s). split; [reflexivity|]. first [apply str_rep | apply drn_rep]; [exact T | exact R].
      - destruct (try_from_str (for_cap c n) (enc (ttext x))) as [[s'|]| | |]; cbn in S; try discriminate.
        reflexivity. }
    cbn [fst snd]. rewrite E. split; [reflexivity | exact G].
  - (* PCopy *)
    pose proof (forall2_nth _ _ _ j F) as V.
    destruct (nth_error w j) as [[n s|n d]|]; destruct (nth_error u j) as [x|]; try contradiction; cbn [fst snd].
    + split; [reflexivity|]. apply forall2_snoc; assumption.
    + split; [reflexivity|]. apply forall2_snoc; [assumption|]. destruct d. exact V.
    + auto.
  - (* PCall *)
    pose proof (forall2_nth _ _ _ i F) as V.
    destruct (nth_error w i) as [[n s|n d]|]; destruct (nth_error u i) as [[dr n' t]|]; try contradiction; cbn [fst snd]; auto;
      destruct V as (Hn & Hd & -> & R); cbn in Hd, Hn, R; subst dr; cbn [fst snd tcap]; auto.
    apply shows_for in R.
    pose proof (call_sim i n' (run_op (for_cap c n') o s) o t w u Hn F) as S.
    specialize (S (run_op_sim (for_cap c n') (for_cap_valid n' Hn) o s t R T)).
    destruct (t_op (usize_max c) n' o t) as [r' t']. destruct S as [-> G]. cbn [fst snd]. auto.
  - (* PWith *)
    pose proof (forall2_nth _ _ _ i F) as V. pose proof (forall2_nth _ _ _ j F) as V'.
    destruct (nth_error w i) as [[n s|n d]|]; destruct (nth_error u i) as [[dr n' t]|]; try contradiction; cbn [fst snd]; auto;
      destruct V as (Hn & Hd & -> & R); cbn in Hd, Hn, R; subst dr; cbn [fst snd tcap]; auto.
    apply shows_for in R.
    destruct (nth_error w j) as [y|]; destruct (nth_error u j) as [x|]; try contradiction; [|auto].
    destruct (Nat.eqb i j); [auto|].
    pose proof (call_sim i n' (run_op (for_cap c n') (with_text a (ttext x)) s) (with_text a (ttext x)) t w u Hn F) as S.
    specialize (S (run_op_sim (for_cap c n') (for_cap_valid n' Hn) _ s t R (typed_with _ _))).
    rewrite (var_str_shows _ _ V'). 
    change ((b <~ slift (Ret (enc (ttext x)));; run_with c n' a b) s) with (run_with c n' a (enc (ttext x)) s).
    rewrite run_with_op.
    destruct (t_op (usize_max c) n' (with_text a (ttext x)) t) as [r' t']. destruct S as [-> G]. cbn [fst snd]. auto.
  - (* PWriteTo *)
    pose proof (forall2_nth _ _ _ i F) as V. pose proof (forall2_nth _ _ _ j F) as V'.
    destruct (nth_error w i) as [[n s|n d]|]; destruct (nth_error u i) as [[dr n' t]|]; try contradiction; cbn [fst snd]; auto;
      destruct V as (Hn & Hd & -> & R); cbn in Hd, Hn, R; subst dr; cbn [fst snd tcap]; auto.
    apply shows_for in R.
    destruct (nth_error w j) as [[m s'|m d']|]; destruct (nth_error u j) as [[dr m' t2]|]; try contradiction; auto;
      destruct V' as (Hm & Hd & -> & R'); cbn in Hd, Hm, R'; subst dr; cbn [fst snd tcap]; auto.
    apply shows_for in R'.
    destruct (Nat.eqb i j); [auto|].
    pose proof (call_sim i n' (run_op (for_cap c n') (OWriteStr t2) s) (OWriteStr t2) t w u Hn F) as S.
    specialize (S (run_op_sim (for_cap c n') (for_cap_valid n' Hn) (OWriteStr t2) s t R I)).
    assert (E : to_out (fun r => RFmt (is_ok r))
       (display (for_cap c m') (mksink (write_str (for_cap c n')) (write_char (for_cap c n'))) sp s') s
       = run_op (for_cap c n') (OWriteStr t2) s).
    { unfold run_op, to_out, sbind. rewrite (display_rep (for_cap c m') _ sp s' t2 s R'). reflexivity. }
    rewrite E.
    destruct (t_op (usize_max c) n' (OWriteStr t2) t) as [r' t']. destruct S as [-> G]. cbn [fst snd]. auto.
  - (* PSplit *)
    pose proof (forall2_nth _ _ _ i F) as V.
    destruct (nth_error w i) as [[n s|n d]|]; destruct (nth_error u i) as [[dr n' t]|]; try contradiction; cbn [fst snd]; auto;
      destruct V as (Hn & Hd & -> & R); cbn in Hd, Hn, R; subst dr; cbn [fst snd tcap]; auto.
    apply shows_for in R.
    destruct (split_off_runs (for_cap c n') (for_cap_valid n' Hn) m s t R) as (s' & R' & H).
    destruct (t_split_off m t) as [p t'] eqn:Et. cbn [fst snd] in R', H.
    assert (F' : world_shows c (set_nth i (VStr n' s') w) (set_nth i (mktvar false n' t') u)).
    { apply forall2_set; [exact F|]. first [apply str_rep | apply drn_rep]; [exact Hn | exact R']. }
    destruct p as [m0|e].
    + destruct H as (d & -> & Rd).
      destruct (made_sim (Ret (Ok (VStr n' d))) n' false (Ok m0) _ _ F') as [E G].
      { exists (VStr n' d). split; [reflexivity|]. first [apply str_rep | apply drn_rep]; [exact Hn | exact Rd]. }
      cbn [fst snd]. cbn [omap obind map_ok] in *. rewrite E. split; [reflexivity | exact G].
    + destruct H as (-> & _). cbn. auto.
  - (* PDrain *)
    pose proof (forall2_nth _ _ _ i F) as V.
    destruct (nth_error w i) as [[n s|n d]|]; destruct (nth_error u i) as [[dr n' t]|]; try contradiction; cbn [fst snd]; auto;
      destruct V as (Hn & Hd & -> & R); cbn in Hd, Hn, R; subst dr; cbn [fst snd tcap]; auto.
    apply shows_for in R.
    destruct (drain_iter_runs (for_cap c n') (for_cap_valid n' Hn) lo hi s t R) as (s' & R' & H).
    change (usize_max (for_cap c n')) with (usize_max c) in *.
    destruct (t_drain (usize_max c) lo hi t) as [p t'] eqn:Et. cbn [fst snd] in R', H.
    assert (F' : world_shows c (set_nth i (VStr n' s') w) (set_nth i (mktvar false n' t') u)).
    { apply forall2_set; [exact F|]. first [apply str_rep | apply drn_rep]; [exact Hn | exact R']. }
    destruct p as [m0|e].
    + destruct H as (d & -> & Rd).
      destruct (made_sim (Ret (Ok (VDrain n' d))) n' true (Ok m0) _ _ F') as [E G].
      { exists (VDrain n' d). split; [reflexivity|]. first [apply str_rep | apply drn_rep]; [exact Hn | exact Rd]. }
      cbn [fst snd]. cbn [omap obind map_ok] in *. rewrite E. split; [reflexivity | exact G].
    + destruct H as (-> & _). cbn. auto.
  - (* PNext *)
    pose proof (forall2_nth _ _ _ j F) as V.
    destruct (nth_error w j) as [[n s|n d]|]; destruct (nth_error u j) as [[dr n' t]|]; try contradiction; cbn [fst snd]; auto;
      destruct V as (Hn & Hd & -> & R); cbn in Hd, Hn, R; subst dr; cbn [fst snd tcap]; auto.
    apply shows_for in R.
    assert (H : exists d', (if front then drain_next (for_cap c n') d else drain_next_back (for_cap c n') d)
        = (Ret (fst (t_deque_step front t)), d') /\ rep (for_cap c n') (drained d') (snd (t_deque_step front t))).
    { destruct front; [apply drain_next_rep | apply drain_next_back_rep]; auto using for_cap_valid. }
    destruct H as (d' & -> & R').
    destruct (t_deque_step front t) as [r t']. cbn [fst snd] in *. split; [reflexivity|].
    apply forall2_set; [exact F|]. first [apply str_rep | apply drn_rep]; [exact Hn | exact R'].
  - (* PExtend *)
    pose proof (forall2_nth _ _ _ i F) as V. pose proof (forall2_nth _ _ _ j F) as V'.
    destruct (nth_error w i) as [[n s|n d]|]; destruct (nth_error u i) as [[dr n' t]|]; try contradiction; cbn [fst snd]; auto;
      destruct V as (Hn & Hd & -> & R); cbn in Hd, Hn, R; subst dr; cbn [fst snd tcap]; auto.
    apply shows_for in R.
    destruct (nth_error w j) as [[m s'|m d']|]; destruct (nth_error u j) as [[dr m' t2]|]; try contradiction; auto;
      destruct V' as (Hm & Hd & -> & R'); cbn in Hd, Hm, R'; subst dr; cbn [fst snd tcap]; auto.
    apply shows_for in R'.
    destruct (drain_collect n' m' d' t2 Hn Hm R') as (a & d1 & Ea & Ra & Rd).
    destruct (extend_with_Ret (for_cap c n') (for_cap_valid n' Hn) a (fit n' t2) d1 s t Ra R) as (s1 & E1 & R1).
    unfold extend_chars. rewrite Ea, E1. cbn [omap obind fst snd]. split; [reflexivity|].
    apply forall2_set; [apply forall2_set; [exact F|]|].
    + first [apply str_rep | apply drn_rep]; [exact Hn | exact R1].
    + first [apply str_rep | apply drn_rep]; [exact Hm | exact Rd].
  - (* PCollect *)
    pose proof (forall2_nth _ _ _ j F) as V.
    destruct (nth_error w j) as [[m s|m d]|]; destruct (nth_error u j) as [[dr m' t]|]; try contradiction; cbn [fst snd]; auto;
      destruct V as (Hm & Hd & -> & R); cbn in Hd, Hm, R; subst dr; cbn [fst snd tcap]; auto.
    apply shows_for in R.
    destruct (drain_collect n m' d t T Hm R) as (a & d1 & Ea & Ra & Rd).
    change (from_iter_chars (for_cap c n) (char_fuel (for_cap c n)) (drain_iterator (for_cap c m')) d)
      with (from_chars_truncate (for_cap c n) (char_fuel (for_cap c n)) (drain_iterator (for_cap c m')) d).
    rewrite Ea. cbn [omap obind].
    destruct (made_sim (Ret (Ok (VStr n a))) n false (Ok (fit n t)) 
      (set_nth j (VDrain m' d1) w) (set_nth j (mktvar true m' (skipn (S (length (fit n t))) t)) u)) as [E G].
    { apply forall2_set; [exact F|]. first [apply str_rep | apply drn_rep]; [exact Hm | exact Rd]. }
    { exists (VStr n a). split; [reflexivity|]. first [apply str_rep | apply drn_rep]; [exact T | exact Ra]. }
    cbn [fst snd]. rewrite E. split; [reflexivity | exact G].
  - (* PEq *)
    pose proof (forall2_nth _ _ _ i F) as V. pose proof (forall2_nth _ _ _ j F) as V'.
    destruct (nth_error w i) as [[n s|n d]|]; destruct (nth_error u i) as [[dr n' t]|]; try contradiction; cbn [fst snd]; auto;
      destruct V as (Hn & Hd & -> & R); cbn in Hd, Hn, R; subst dr; cbn [fst snd tcap]; auto.
    apply shows_for in R.
    destruct (nth_error w j) as [y|]; destruct (nth_error u j) as [x|]; try contradiction; [|auto].
    destruct (run_op_sim (for_cap c n') (for_cap_valid n' Hn) (OEqStr (ttext x)) s t R I) as (s1 & E1 & _).
    change (usize_max (for_cap c n')) with (usize_max c) in E1. change (cap (for_cap c n')) with n' in E1.
    rewrite (var_str_shows _ _ V'). cbn [obind fst snd]. split; [|exact F]. f_equal. rewrite <- (f_equal fst E1 : _ = fst (t_op _ _ _ _)).
    unfold run_op. cbn [fst]. destruct (eq_str (for_cap c n') s (enc (ttext x))); reflexivity.
  - (* PCmp *)
    pose proof (forall2_nth _ _ _ i F) as V. pose proof (forall2_nth _ _ _ j F) as V'.
    destruct (nth_error w i) as [[n s|n d]|]; destruct (nth_error u i) as [[dr n' t]|]; try contradiction; auto;
    destruct (nth_error w j) as [[m s'|m d']|]; destruct (nth_error u j) as [[dr2 m' t2]|]; try contradiction; auto;
      destruct V as (Hn & Hd & -> & R); try destruct V' as (Hm & Hd' & -> & R'); cbn in Hd, Hn, R; try cbn in Hd', Hm, R'; subst;
      cbn [fst snd tcap is_drain ttext Bool.eqb andb]; auto;
      apply shows_for in R; apply shows_for in R';
      (destruct (N.eqb_spec n' m') as [->|]; [|auto]); cbn [fst snd]; (split; [|exact F]); rewrite order_cmp.
    + rewrite (ord_cmp_rep (for_cap c m') s s' t t2 R R'). reflexivity.
    + unfold drain_cmp, drain_as_str.
      rewrite (as_str_rep (for_cap c m') _ _ R), (as_str_rep (for_cap c m') _ _ R'). cbn [obind omap].
      rewrite str_cmp_enc. reflexivity.
  - (* PSwap *)
    pose proof (forall2_nth _ _ _ i F) as V. pose proof (forall2_nth _ _ _ j F) as V'.
    destruct (nth_error w i) as [x|]; destruct (nth_error u i) as [tx|]; try contradiction; auto.
    destruct (nth_error w j) as [y|]; destruct (nth_error u j) as [ty|]; try contradiction; auto.
    assert (E : match x, y with VStr n _, VStr m _ | VDrain n _, VDrain m _ => n =? m | _, _ => false end
              = Bool.eqb (is_drain tx) (is_drain ty) && (tcap tx =? tcap ty)).
    { destruct V as (_ & V). destruct V' as (_ & V').
      destruct x, y, tx, ty; cbn in *; destruct V as (-> & -> & _), V' as (-> & -> & _); reflexivity. }
    rewrite E. destruct (Bool.eqb _ _ && (tcap tx =? tcap ty) && negb (Nat.eqb i j)); [|auto].
    cbn [fst snd]. split; [reflexivity|]. apply forall2_set; [apply forall2_set|]; assumption.
Qed.

Lemma run_cmds_sim l w u : Forall typed_cmd l -> world_shows c w u ->
  fst (run_cmds c l w) = fst (t_cmds (usize_max c) l u) /\
  world_shows c (snd (run_cmds c l w)) (snd (t_cmds (usize_max c) l u)).
Proof.
  revert w u; induction l as [|p l IH]; intros w u T F; cbn [run_cmds t_cmds]; [auto|].
  inversion T as [|? ? Tp Tl]; subst.
  destruct (run_cmd_sim p w u Tp F) as [E G].
  destruct (run_cmd c p w) as [r w1], (t_cmd (usize_max c) p u) as [r' u1]. cbn [fst snd] in E, G. subst r'.
  destruct (IH w1 u1 Tl G) as [E2 G2].
  destruct (run_cmds c l w1) as [rs w2], (t_cmds (usize_max c) l u1) as [rs' u2]. cbn [fst snd] in *. subst rs'. auto.
Qed.
End Step.

(** ** C70 *)
Lemma c70_lock_step c l w u : 65535 <= usize_max c -> Forall typed_cmd l -> world_shows c w u ->
  exists w', run_cmds c l w = (fst (t_cmds (usize_max c) l u), w') /\
    world_shows c w' (snd (t_cmds (usize_max c) l u)).
Proof.
  intros Hu T F. destruct (run_cmds_sim c Hu l w u T F) as [E G].
  exists (snd (run_cmds c l w)). split; [|exact G]. rewrite <- E. apply surjective_pairing.
Qed.

(** Only calls with closures, iterators, formattings or index ranges can do other than return. *)
Lemma t_cmd_cases umax p u o : fst (t_cmd umax p u) = Some o ->
  (exists r, o = Ret r) \/
  (exists i q n t, p = PCall i q /\ o = omap PRet (fst (t_op umax n q t))) \/
  (exists n k, p = PMake n k /\ o = omap (fun _ => PDone) (t_ctor n k)).
Proof.
  intros E.
  assert (K : forall n q t, benign q -> exists r, omap PRet (fst (t_op umax n q t)) = Ret r).
  { intros n q t Hq. destruct (t_op_returns umax n q t Hq) as (r & t' & ->). eexists. reflexivity. }
  destruct p as [n k|n j|j|i q|i a j|i j sp|i m|i lo hi|j front|i j|n j|i j|i j|i j];
    cbn [t_cmd] in E; cbv zeta in E.
  - destruct (t_ctor n k) as [[t|e]| | |] eqn:C; cbn in E; injection E as <-; eauto;
      right; right; exists n, k; rewrite C; auto.
  - destruct (nth_error u j) as [x|]; [|discriminate]. cbn in E.
    destruct (blen (ttext x) <=? n); cbn in E; injection E as <-; eauto.
  - destruct (nth_error u j); cbn in E; [|discriminate]. injection E as <-. eauto.
  - destruct (nth_error u i) as [[[|] n t]|]; try discriminate.
    right; left. exists i, q, n, t. destruct (t_op umax n q t) as [r t']. cbn in E. injection E as <-. auto.
  - destruct (nth_error u i) as [[[|] n t]|]; try discriminate. destruct (nth_error u j) as [x|]; [|discriminate].
    destruct (Nat.eqb i j); [discriminate|]. left.
    specialize (K n (with_text a (ttext x)) t). destruct (t_op umax n _ t) as [r t'].
    cbn in E, K. injection E as <-. apply K. destruct a; exact I.
  - destruct (nth_error u i) as [[[|] n t]|]; try discriminate. destruct (nth_error u j) as [[[|] m t2]|]; try discriminate.
    destruct (Nat.eqb i j); [discriminate|]. left.
    specialize (K n (OWriteStr t2) t I). destruct (t_op umax n _ t) as [r t']. cbn [fst] in E, K. injection E as <-. exact K.
  - destruct (nth_error u i) as [[[|] n t]|]; try discriminate.
    destruct (t_split_off m t) as [[|] t']; cbn in E; injection E as <-; eauto.
  - destruct (nth_error u i) as [[[|] n t]|]; try discriminate.
    destruct (t_drain umax lo hi t) as [[|] t']; cbn in E; injection E as <-; eauto.
  - destruct (nth_error u j) as [[[|] n t]|]; try discriminate.
    destruct (t_deque_step front t) as [r t']; cbn in E; injection E as <-; eauto.
  - destruct (nth_error u i) as [[[|] n t]|]; try discriminate. destruct (nth_error u j) as [[[|] m t2]|]; try discriminate.
    cbn in E. injection E as <-. eauto.
  - destruct (nth_error u j) as [[[|] m t2]|]; try discriminate. cbn in E. injection E as <-. eauto.
  - destruct (nth_error u i) as [[[|] n t]|]; try discriminate. destruct (nth_error u j) as [x|]; [|discriminate].
    left. specialize (K n (OEqStr (ttext x)) t I). cbn [fst] in E. injection E as <-. exact K.
  - destruct (nth_error u i) as [x|]; [|discriminate]. destruct (nth_error u j) as [y|]; [|discriminate].
    destruct (Bool.eqb (is_drain x) (is_drain y) && (tcap x =? tcap y)); [|discriminate]. injection E as <-. eauto.
  - destruct (nth_error u i) as [x|]; [|discriminate]. destruct (nth_error u j) as [y|]; [|discriminate].
    destruct (Bool.eqb (is_drain x) (is_drain y) && (tcap x =? tcap y) && negb (Nat.eqb i j)); [|discriminate].
    injection E as <-. eauto.
Qed.

Lemma t_cmds_all umax (P : outcome pout -> Prop) l : (forall p u o, In p l -> fst (t_cmd umax p u) = Some o -> P o) ->
  forall u o, In (Some o) (fst (t_cmds umax l u)) -> P o.
Proof.
  induction l as [|p l IH]; intros H u o; cbn [t_cmds]; [contradiction|].
  specialize (H p u) as Hp. destruct (t_cmd umax p u) as [r u1] eqn:E1.
  destruct (t_cmds umax l u1) as [rs u2] eqn:E2. cbn [fst In]. intros [->|Hi].
  - apply Hp; [left; reflexivity | reflexivity].
  - apply (IH (fun q v o' Hq => H q v o' (or_intror Hq)) u1). rewrite E2. exact Hi.
Qed.

Lemma c70_safe c l rs w : 65535 <= usize_max c -> Forall typed_cmd l -> run_cmds c l [] = (rs, w) ->
  (exists u, world_shows c w u) /\
  (Forall harmless_cmd l -> forall o, In (Some o) rs -> (exists r, o = Ret r) \/ o = Panic) /\
  (Forall benign_cmd l -> forall o, In (Some o) rs -> exists r, o = Ret r).
Proof.
  intros Hu T E. destruct (c70_lock_step c l [] [] Hu T) as (w' & E' & G); [constructor|].
  rewrite E in E'. injection E' as -> <-. split; [|split].
  - eauto.
  - intros H. rewrite Forall_forall in H.
    apply (t_cmds_all (usize_max c) (fun o => (exists r, o = Ret r) \/ o = Panic) l).
    intros p u o Hp Eo. specialize (H p Hp). apply calm_cases.
    destruct (t_cmd_cases _ _ _ _ Eo) as [(r & ->)|[(i & q & n & t & -> & ->)|(n & k & -> & ->)]].
    + exact I.
    + pose proof (t_op_calm (usize_max c) n q t H) as C. destruct (fst (t_op (usize_max c) n q t)); exact C.
    + pose proof (t_ctor_calm n k H) as C. destruct (t_ctor n k); exact C.
  - intros H. rewrite Forall_forall in H.
    apply (t_cmds_all (usize_max c) (fun o => exists r, o = Ret r) l).
    intros p u o Hp Eo. specialize (H p Hp).
    destruct (t_cmd_cases _ _ _ _ Eo) as [(r & ->)|[(i & q & n & t & -> & ->)|(n & k & -> & ->)]].
    + eauto.
    + destruct (t_op_returns (usize_max c) n q t H) as (r & t' & ->). cbn. eauto.
    + destruct (t_ctor_returns n k H) as (r & ->). cbn. eauto.
Qed.

(** The same program in two builds of the same word size. *)
Lemma c70_builds c1 c2 l : 65535 <= usize_max c1 -> usize_max c1 = usize_max c2 -> Forall typed_cmd l ->
  exists rs w1 w2 u, run_cmds c1 l [] = (rs, w1) /\ run_cmds c2 l [] = (rs, w2) /\
    world_shows c1 w1 u /\ world_shows c2 w2 u.
Proof.
  intros Hu He T. destruct (c70_lock_step c1 l [] [] Hu T) as (w1 & E1 & G1); [constructor|].
  destruct (c70_lock_step c2 l [] [] ltac:(lia) T) as (w2 & E2 & G2); [constructor|].
  rewrite <- He in E2, G2. eauto 10.
Qed.

(** A command leaves all other variables as they are, byte for byte. *)
Lemma nth_snoc {A} (l : list A) x k : (k < length l)%nat -> nth_error (l ++ [x]) k = nth_error l k.
Proof. intros H. apply nth_error_app1. exact H. Qed.

Lemma made_nth r w k : (k < length w)%nat -> nth_error (snd (made r w)) k = nth_error w k.
Proof. intros H. destruct r as [[v|e]| | |]; cbn; auto using nth_snoc. Qed.

Lemma c70_frame c p w r w' k : run_cmd c p w = (r, w') -> (k < length w)%nat -> ~ changes p k ->
  nth_error w' k = nth_error w k.
Proof.
  intros E Hk Hn. apply (f_equal snd) in E. cbn [snd] in E. subst w'.
  destruct p as [n q|n j|j|i q|i a j|i j sp|i m|i lo hi|j front|i j|n j|i j|i j|i j];
    unfold run_cmd; cbv zeta; cbn [changes] in Hn;
  repeat match goal with
  | |- context [match nth_error ?w ?i with _ => _ end] => destruct (nth_error w i) as [[? ?|? ?]|]
  | |- context [if ?b then _ else _] => destruct b
  | |- context [let '(_, _) := ?x in _] => destruct x
  end; cbn [fst snd]; rewrite ?made_nth, ?nth_snoc by (rewrite ?set_nth_length; exact Hk);
  rewrite ?set_nth_other by (intros ->; tauto); reflexivity.
Qed.
