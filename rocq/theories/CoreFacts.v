(** The representation of a text by an [ArrayString], and what the low level
    functions (as_str, truncate_str, replace_range) do on it. *)
From Coq Require Import ZArith ZifyBool ZifyN ZifyNat Arith.
From Verif Require Import Base Char Spec RustStd ModelError Model TextOps ListFacts Utf8Facts.

(** ** Stepping through the state monad *)
Lemma sbind_ret {S A B} (m : ST S A) (k : A -> ST S B) s a s' :
  m s = (Ret a, s') -> sbind m k s = k a s'.
Proof. intros H. unfold sbind. rewrite H. reflexivity. Qed.

Lemma stry_ok {S A B E F} (conv : E -> F) (m : ST S (result A E)) (k : A -> ST S (result B F)) s a s' :
  m s = (Ret (Ok a), s') -> stry conv m k s = k a s'.
Proof. intros H. unfold stry, sbind. rewrite H. reflexivity. Qed.

Lemma stry_err {S A B E F} (conv : E -> F) (m : ST S (result A E)) (k : A -> ST S (result B F)) s e s' :
  m s = (Ret (Err e), s') -> stry conv m k s = (Ret (Err (conv e)), s').
Proof. intros H. unfold stry, sbind. rewrite H. reflexivity. Qed.

(** The first [size] bytes of the array are the encoding of [t]. *)
Definition rep (c : cfg) (s : astring) (t : text) : Prop :=
  typed c s /\ size s = blen t /\ exists junk, arr s = enc t ++ junk.

Section Facts.
Variable c : cfg.
Hypothesis Hc : valid_cfg c.

Lemma rep_len s t : rep c s t -> len s = blen t.
Proof. intros (_ & H & _). exact H. Qed.

Lemma rep_cap s t : rep c s t -> blen t <= cap c.
Proof.
  intros ((H & _ & _) & _ & junk & E). rewrite E, lenN_app, enc_len in H. lia.
Qed.

Lemma rep_cap255 s t : rep c s t -> blen t <= cap c /\ cap c <= 255 /\ 65535 <= usize_max c.
Proof.
  intros H. pose proof (rep_cap s t H). destruct Hc as (H1 & H2). lia.
Qed.

Lemma as_ref_bytes_rep s t : rep c s t -> as_ref_bytes c s = Ret (enc t).
Proof.
  intros H. pose proof (rep_cap s t H) as K. destruct H as ((H1 & H2 & H3) & H4 & junk & E).
  unfold as_ref_bytes, debug_assert, len. rewrite H4.
  replace (blen t <=? cap c) with true by lia.
  assert (G : slice_get_unchecked_to (arr s) (blen t) = Ret (enc t)).
  { unfold slice_get_unchecked_to. rewrite H1. replace (blen t <=? cap c) with true by lia.
    rewrite E, <- enc_len, takeN_app_exact. reflexivity. }
  destruct (debug c); cbn [obind]; exact G.
Qed.

Lemma as_str_rep s t : rep c s t -> as_str c s = Ret (enc t).
Proof.
  intros H. pose proof (as_ref_bytes_rep s t H) as E.
  unfold as_str, as_ref_str, debug_assert. rewrite E. cbn [obind].
  unfold from_utf8_unchecked. rewrite from_utf8_ok_enc. destruct (debug c); reflexivity.
Qed.

(** What a caller can observe determines the representation. *)
Lemma rep_of_as_str s t : typed c s -> as_str c s = Ret (enc t) -> rep c s t.
Proof.
  intros T H. pose proof T as (H1 & H2 & H3). split; [exact T|].
  unfold as_str, as_ref_str in H.
  assert (B : exists b, as_ref_bytes c s = Ret b /\ b = enc t).
  { destruct (as_ref_bytes c s) as [b| | |] eqn:E.
    - exists b. split; [reflexivity|]. unfold from_utf8_unchecked in H.
      destruct (debug_assert c _) as [u| | |]; try discriminate. cbn [obind] in H.
      destruct (from_utf8_ok b); [|discriminate]. congruence.
    - destruct (debug_assert c _); discriminate.
    - destruct (debug_assert c _); discriminate.
    - destruct (debug_assert c _); discriminate. }
  destruct B as (b & B & Eb). clear H. unfold as_ref_bytes in B.
  destruct (debug_assert c _); try discriminate. cbn [obind] in B.
  unfold slice_get_unchecked_to, len in B.
  destruct (N.leb_spec (size s) (lenN (arr s))) as [L|L]; [|discriminate].
  injection B as B. rewrite <- B in Eb. clear B b.
  split.
  - rewrite <- enc_len, <- Eb, lenN_takeN. lia.
  - exists (dropN (size s) (arr s)). rewrite <- Eb. symmetry. apply takeN_dropN.
Qed.

Lemma rep_fun s t t' : rep c s t -> rep c s t' -> t = t'.
Proof.
  intros H H'. apply as_str_rep in H, H'. apply enc_inj. congruence.
Qed.

Lemma as_mut_rep s t : rep c s t -> as_mut c s = (Ret (enc t), s).
Proof.
  intros H. pose proof (rep_cap s t H) as K. pose proof H as ((H1 & H2 & H3) & H4 & junk & E).
  unfold as_mut, sread, debug_assert, len. rewrite H4.
  replace (blen t <=? cap c) with true by lia.
  assert (G : slice_get_unchecked_to (arr s) (blen t) = Ret (enc t)).
  { unfold slice_get_unchecked_to. rewrite H1. replace (blen t <=? cap c) with true by lia.
    rewrite E, <- enc_len, takeN_app_exact. reflexivity. }
  unfold from_utf8_unchecked. destruct (debug c); cbn [obind]; rewrite G; cbn [obind];
    rewrite from_utf8_ok_enc; reflexivity.
Qed.

Lemma is_char_boundary_rep s t i : rep c s t ->
  is_char_boundary c s i =
  Ret (match split_at i t with Some _ => Ok tt | None => Err mkUtf8 end).
Proof.
  intros H. unfold is_char_boundary. rewrite (as_str_rep s t H). cbn [obind].
  rewrite str_boundary_split. destruct (split_at i t); reflexivity.
Qed.

Lemma new_rep : rep c (new c) [].
Proof.
  unfold new. repeat split; cbn [arr size].
  - rewrite lenN_repeat. lia.
  - apply Forall_forall. intros x Hx. apply repeat_spec in Hx. lia.
  - eexists. reflexivity.
Qed.

(** ** truncate_str *)

Lemma fit_spec n t : longest_fit n t (fit n t).
Proof.
  revert n. induction t as [|x t IH]; intros n; cbn [fit].
  - split; [exists []; reflexivity|]. split; [cbn; lia|]. intros q Hq _. exact Hq.
  - destruct (N.leb_spec (clen x) n) as [L|L].
    + destruct (IH (n - clen x)) as ((r & E) & Hl & Hm). split; [|split].
      * exists r. cbn. congruence.
      * cbn. lia.
      * intros q (r' & E') Lq. destruct q as [|y q].
        -- eexists; reflexivity.
        -- cbn in E'. injection E' as <- E'. cbn in Lq.
           destruct (Hm q) as (z & Ez); [exists r'; exact E'|lia|].
           exists z. cbn. congruence.
    + split; [eexists; reflexivity|]. split; [cbn; lia|].
      intros q (r' & E') Lq. destruct q as [|y q]; [exists []; reflexivity|].
      cbn in E'. injection E' as <- E'. cbn in Lq. lia.
Qed.

Lemma longest_fit_fun n t p q : longest_fit n t p -> longest_fit n t q -> p = q.
Proof.
  intros (H1 & H2 & H3) (K1 & K2 & K3).
  destruct (H3 q K1 K2) as (r & E). destruct (K3 p H1 H2) as (r' & E').
  rewrite E, <- app_assoc in E'.
  assert (L : length (r ++ r') = O).
  { apply (f_equal (@length char)) in E'. rewrite !app_length in *. lia. }
  destruct r; [|discriminate]. rewrite app_nil_r in E. exact E.
Qed.

Lemma fit_all n t : blen t <= n -> fit n t = t.
Proof.
  revert n. induction t as [|x t IH]; intros n H; [reflexivity|]. cbn in *.
  replace (clen x <=? n) with true by lia. rewrite IH by lia. reflexivity.
Qed.

Lemma fit_le n t : blen (fit n t) <= n.
Proof. apply (fit_spec n t). Qed.

Lemma fit_prefix n t : exists r, t = fit n t ++ r.
Proof. destruct (fit_spec n t) as (H & _). exact H. Qed.

(** The cut falls less than four bytes before [n]. *)
Lemma fit_gap n t : n < blen t -> n < blen (fit n t) + 4.
Proof.
  revert n. induction t as [|x t IH]; intros n H; cbn in *; [lia|].
  pose proof (clen_range x). destruct (N.leb_spec (clen x) n) as [L|L]; cbn.
  - specialize (IH (n - clen x)). lia.
  - lia.
Qed.

Lemma fit_nil_iff_boundary n t k : k <= n -> n < blen t -> str_is_char_boundary (enc t) k = true ->
  k <= blen (fit n t).
Proof.
  intros Hk Hn B. apply str_boundary_iff in B as (p & q & -> & Hp).
  destruct (fit_spec n (p ++ q)) as (_ & _ & M). destruct (M p) as (z & E).
  - exists q; reflexivity.
  - lia.
  - rewrite E, blen_app. lia.
Qed.

Lemma fit_boundary n t : str_is_char_boundary (enc t) (blen (fit n t)) = true.
Proof.
  destruct (fit_prefix n t) as (r & E). rewrite E at 1. apply str_boundary_app.
Qed.

Lemma get_unchecked_fit n t : str_get_unchecked (enc t) 0 (blen (fit n t)) = Ret (enc (fit n t)).
Proof.
  unfold str_get_unchecked. destruct (fit_prefix n t) as (r & E).
  pose proof (str_get_enc [] (fit n t) r) as G. cbn [app] in G. rewrite <- E in G.
  cbn [blen] in G. rewrite N.add_0_l in G. rewrite G. reflexivity.
Qed.

Lemma truncate_str_fit w n : truncate_str c (enc w) n = Ret (enc (fit n w)).
Proof.
  unfold truncate_str. rewrite enc_len.
  destruct (N.leb_spec (blen w) n) as [L|L].
  { rewrite fit_all by exact L. reflexivity. }
  pose proof (fit_gap n w L) as G. pose proof (fit_le n w) as F.
  pose proof (fun k H => fit_nil_iff_boundary n w k H L) as B.
  pose proof (fit_boundary n w) as D. pose proof (get_unchecked_fit n w) as U.
  destruct (str_is_char_boundary (enc w) n) eqn:E0.
  { apply B in E0; [|lia]. replace n with (blen (fit n w)) at 1 by lia. exact U. }
  assert (N0 : n <> blen (fit n w)) by (intros E; rewrite E in E0 at 1; congruence).
  unfold usub. replace (1 <=? n) with true by lia. cbn [obind].
  destruct (str_is_char_boundary (enc w) (n - 1)) eqn:E1.
  { apply B in E1; [|lia]. replace (n - 1) with (blen (fit n w)) by lia. exact U. }
  assert (N1 : n - 1 <> blen (fit n w)) by (intros E; rewrite E in E1; congruence).
  replace (1 <=? n - 1) with true by lia. cbn [obind].
  destruct (str_is_char_boundary (enc w) (n - 1 - 1)) eqn:E2.
  { apply B in E2; [|lia]. replace (n - 1 - 1) with (blen (fit n w)) by lia. exact U. }
  assert (N2 : n - 1 - 1 <> blen (fit n w)) by (intros E; rewrite E in E2; congruence).
  replace (1 <=? n - 1 - 1) with true by lia. cbn [obind].
  replace (n - 1 - 1 - 1) with (blen (fit n w)) by lia. exact U.
Qed.

(** ** replace_range *)

Lemma start_of_spec lo : start_of c lo = range_from (usize_max c) lo.
Proof. destruct lo; reflexivity. Qed.

Lemma end_of_spec hi n : end_of c hi n = range_to (usize_max c) n hi.
Proof. destruct hi; reflexivity. Qed.

Lemma ptr_copy_shape (a m p j : list N) k :
  lenN a + k + lenN p <= lenN (a ++ m ++ p ++ j) ->
  exists M Y,
    ptr_copy (a ++ m ++ p ++ j) (lenN a + lenN m) (lenN a + k) (lenN p) = Ret (a ++ M ++ p ++ Y) /\
    lenN M = k /\ lenN (a ++ M ++ p ++ Y) = lenN (a ++ m ++ p ++ j) /\
    (Forall (fun b => b < 256) (a ++ m ++ p ++ j) -> Forall (fun b => b < 256) (a ++ M ++ p ++ Y)).
Proof.
  intros H. set (mem := a ++ m ++ p ++ j) in *.
  exists (takeN k (m ++ p ++ j)), (dropN (lenN a + k + lenN p) mem).
  assert (LM : lenN mem = lenN a + lenN m + lenN p + lenN j) by (unfold mem; rewrite !lenN_app; lia).
  assert (E1 : takeN (lenN a + k) mem = a ++ takeN k (m ++ p ++ j)).
  { unfold mem. rewrite takeN_app_ge by lia. f_equal. f_equal. lia. }
  assert (E2 : takeN (lenN p) (dropN (lenN a + lenN m) mem) = p).
  { unfold mem. rewrite app_assoc, <- lenN_app, dropN_app_exact, takeN_app_exact. reflexivity. }
  split; [|split; [|split]].
  - unfold ptr_copy. replace (_ && _) with true by lia. rewrite E1, E2, <- !app_assoc. reflexivity.
  - rewrite lenN_takeN, !lenN_app. lia.
  - rewrite !lenN_app, lenN_takeN, lenN_dropN, !lenN_app. lia.
  - intros F. pose proof F as F'. unfold mem in F'. apply Forall_app in F' as [F1 F2].
    pose proof F2 as F3. apply Forall_app in F3 as [_ F3]. apply Forall_app in F3 as [F3 _].
    apply Forall_app. split; [exact F1|]. apply Forall_app. split; [apply Forall_takeN; exact F2|].
    apply Forall_app. split; [exact F3|apply Forall_dropN; exact F].
Qed.

Lemma ptr_copy_from_shape (a M y w : list N) :
  lenN M = lenN w -> ptr_copy_from (a ++ M ++ y) w (lenN a) (lenN w) = Ret (a ++ w ++ y).
Proof.
  intros H. unfold ptr_copy_from. rewrite !lenN_app. replace (_ && _) with true by lia.
  rewrite takeN_app_exact, (takeN_all (lenN w) w) by lia.
  assert (E : dropN (lenN a + lenN w) (a ++ M ++ y) = y).
  { rewrite app_assoc, <- H, <- lenN_app. apply dropN_app_exact. }
  rewrite E. reflexivity.
Qed.

Lemma into_lossy_small n : n < 256 -> into_lossy n = n.
Proof. apply N.mod_small. Qed.

Lemma rep_intro s t : lenN (arr s) = cap c -> Forall (fun b => b < 256) (arr s) ->
  size s = blen t -> (exists junk, arr s = enc t ++ junk) -> rep c s t.
Proof.
  intros H1 H2 H3 (j & E). destruct Hc as [_ H4]. split; [|split; [exact H3|eauto]].
  split; [exact H1|]. split; [exact H2|].
  rewrite E, lenN_app, enc_len in H1. lia.
Qed.

(** The successful path. *)
Lemma replace_range_ok lo hi w s pre mid post :
  rep c s (pre ++ mid ++ post) ->
  range_from (usize_max c) lo = blen pre ->
  range_to (usize_max c) (blen (pre ++ mid ++ post)) hi = blen pre + blen mid ->
  blen pre + blen w + blen post <= cap c ->
  exists s', replace_range c lo hi (enc w) s = (Ret (Ok tt), s') /\ rep c s' (pre ++ w ++ post).
Proof.
  intros R Ha Hb Hw. set (t := pre ++ mid ++ post) in *.
  pose proof (rep_cap255 s t R) as (K & K1 & K2).
  assert (Lt : blen t = blen pre + blen mid + blen post) by (unfold t; rewrite !blen_app; lia).
  assert (S1 : split_at (blen pre) t = Some (pre, mid ++ post)) by apply split_at_app.
  assert (S2 : split_at (blen pre + blen mid) t = Some (pre ++ mid, post)).
  { unfold t. rewrite app_assoc, <- blen_app. apply split_at_app. }
  unfold replace_range. rewrite start_of_spec, end_of_spec, Ha, (rep_len s t R), Hb.
  rewrite !enc_len.
  destruct ((blen pre =? blen pre + blen mid) && (blen w =? 0)) eqn:E0.
  { exists s. split; [reflexivity|].
    assert (M0 : mid = []) by (apply blen_0; lia). assert (W0 : w = []) by (apply blen_0; lia).
    unfold t in R. rewrite M0 in R. rewrite W0. exact R. }
  assert (IB : forall x y, x <= y -> is_inside_boundary x y = Ok tt).
  { intros x y L. unfold is_inside_boundary. replace (x <=? y) with true by lia. reflexivity. }
  assert (NL : forall a1, (x <- uadd c (len (mkastring a1 (size s))) (blen w) ;; y <- uadd c x (blen pre) ;;
                 usub c y (blen pre + blen mid)) = Ret (blen pre + blen w + blen post)).
  { intros a1. change (len (mkastring a1 (size s))) with (len s). rewrite (rep_len s t R).
    unfold uadd. replace (blen t + blen w <=? usize_max c) with true by lia. cbn [obind].
    replace (blen t + blen w + blen pre <=? usize_max c) with true by lia. cbn [obind].
    unfold usub. replace (blen pre + blen mid <=? blen t + blen w + blen pre) with true by lia.
    f_equal. lia. }
  pose proof R as ((T1 & T2 & T3) & Sz & junk & A).
  erewrite stry_ok by (unfold sret; rewrite IB by lia; reflexivity).
  erewrite stry_ok by (unfold sread; rewrite (rep_len s t R), IB by lia; reflexivity).
  erewrite stry_ok by (unfold sret; rewrite IB by (unfold capacity; lia); reflexivity).
  erewrite stry_ok by (unfold sread; rewrite (is_char_boundary_rep s t _ R), S1; reflexivity).
  erewrite stry_ok by (unfold sread; rewrite (is_char_boundary_rep s t _ R), S2; reflexivity).
  erewrite sbind_ret by (unfold sread; rewrite <- (NL (arr s)); destruct s; reflexivity).
  erewrite stry_ok by (unfold sret; rewrite IB by (unfold capacity; lia); reflexivity).
  erewrite sbind_ret by (unfold slift, ptr_add; replace (0 + blen pre <=? cap c) with true by lia; reflexivity).
  erewrite sbind_ret by (unfold slift, ptr_add;
    replace (0 + (blen pre + blen mid) <=? cap c) with true by lia; reflexivity).
  erewrite sbind_ret by (unfold slift, ptr_add;
    replace (0 + blen pre + blen w <=? cap c) with true by lia; reflexivity).
  rewrite !N.add_0_l.
  (* after the memmove *)
  assert (M : exists a1 M Y,
    (if negb (blen pre + blen mid =? blen pre + blen w)
     then a <~ sread (fun s => n <- usub c (len s) (blen pre + blen mid) ;;
                               ptr_copy (arr s) (blen pre + blen mid) (blen pre + blen w) n) ;;
          set_arr a
     else sret tt) s = (Ret tt, mkastring a1 (size s)) /\
    a1 = enc pre ++ M ++ enc post ++ Y /\ lenN M = blen w /\
    lenN a1 = cap c /\ Forall (fun b => b < 256) a1).
  { unfold t in A. rewrite !enc_app, <- !app_assoc in A.
    destruct (blen pre + blen mid =? blen pre + blen w) eqn:E1; cbn [negb].
    - exists (arr s), (enc mid), junk. repeat split; auto.
      + destruct s; reflexivity.
      + rewrite enc_len. lia.
    - destruct (ptr_copy_shape (enc pre) (enc mid) (enc post) junk (blen w)) as (M & Y & P1 & P2 & P3 & P4).
      { rewrite <- A, T1, !enc_len. lia. }
      exists (enc pre ++ M ++ enc post ++ Y), M, Y.
      rewrite !enc_len in P1. rewrite <- A in P1, P3, P4.
      split; [|split; [reflexivity|split; [exact P2|split; [congruence|auto]]]].
      erewrite sbind_ret.
      2:{ unfold sread, usub. rewrite (rep_len s t R).
          replace (blen pre + blen mid <=? blen t) with true by lia. cbn [obind].
          replace (blen t - (blen pre + blen mid)) with (blen post) by lia.
          rewrite P1. reflexivity. }
      reflexivity. }
  destruct M as (a1 & M & Y & M1 & M2 & M3 & M4 & M5).
  erewrite sbind_ret by exact M1. clear M1.
  (* after the copy of the new bytes *)
  assert (P : (if negb (blen w =? 0)
     then a <~ sread (fun s => ptr_copy_from (arr s) (enc w) (blen pre) (blen w)) ;; set_arr a
     else sret tt) (mkastring a1 (size s)) =
     (Ret tt, mkastring (enc pre ++ enc w ++ enc post ++ Y) (size s))).
  { destruct (blen w =? 0) eqn:E2; cbn [negb].
    - assert (W0 : w = []) by (apply blen_0; lia). rewrite W0 in *.
      assert (M = []) as -> by (apply lenN_0; cbn in M3; lia). rewrite M2. reflexivity.
    - erewrite sbind_ret.
      2:{ unfold sread. cbn [arr]. rewrite M2. rewrite <- (enc_len pre), <- (enc_len w).
          rewrite ptr_copy_from_shape by (rewrite enc_len; exact M3). reflexivity. }
      reflexivity. }
  erewrite sbind_ret by exact P. clear P.
  erewrite sbind_ret by (unfold sread; rewrite NL; reflexivity).
  unfold sbind, sret.
  unfold set_size, smodify. cbn [arr size]. rewrite into_lossy_small by lia.
  eexists. split; [reflexivity|]. apply rep_intro; cbn [arr size].
  - rewrite !lenN_app, !enc_len. rewrite M2, !lenN_app, !enc_len in M4. lia.
  - rewrite M2 in M5. apply Forall_app in M5 as (F1 & F2). apply Forall_app in F2 as (_ & F2).
    apply Forall_app. split; [exact F1|]. apply Forall_app. split; [apply enc_bytes|exact F2].
  - rewrite !blen_app. lia.
  - exists Y. rewrite !enc_app, <- !app_assoc. reflexivity.
Qed.

Lemma replace_range_rep lo hi w s t :
  rep c s t ->
  let '(r, t') := t_replace_range (usize_max c) (cap c) lo hi w t in
  exists s', replace_range c lo hi (enc w) s = (Ret r, s') /\ rep c s' t' /\
    (forall e, r = Err e -> s' = s).
Proof.
  intros R. pose proof (rep_cap255 s t R) as (K & K1 & K2).
  unfold t_replace_range.
  set (a := range_from (usize_max c) lo). set (b := range_to (usize_max c) (blen t) hi).
  destruct ((a =? b) && (blen w =? 0)) eqn:E0.
  { exists s. split; [|split; [exact R|reflexivity]].
    unfold replace_range. rewrite start_of_spec, end_of_spec, (rep_len s t R), enc_len.
    fold a b. rewrite E0. reflexivity. }
  assert (U : forall r, 
    (_ <~? from_oob ? sret (is_inside_boundary a b) ;;
     _ <~? from_oob ? sread (fun s => Ret (is_inside_boundary b (len s))) ;;
     _ <~? from_oob ? sret (is_inside_boundary (blen w) (capacity c)) ;;
     _ <~? from_utf8_err ? sread (fun s => is_char_boundary c s a) ;;
     _ <~? from_utf8_err ? sread (fun s => is_char_boundary c s b) ;;
     n <~ sread (fun s => x <- uadd c (len s) (blen w) ;; y <- uadd c x a ;; usub c y b) ;;
     _ <~? from_oob ? sret (is_inside_boundary n (capacity c)) ;;
     sret (Ok tt)) s = (Ret (Err r), s) ->
    replace_range c lo hi (enc w) s = (Ret (Err r), s)).
  { intros r H. unfold replace_range. rewrite start_of_spec, end_of_spec, (rep_len s t R), !enc_len.
    fold a b. rewrite E0. revert H. unfold stry, sbind, sread, sret.
    destruct (is_inside_boundary a b); [|exact (fun H => H)].
    destruct (is_inside_boundary b (len s)); [|exact (fun H => H)].
    destruct (is_inside_boundary (blen w) (capacity c)); [|exact (fun H => H)].
    destruct (is_char_boundary c s a) as [[]| | |]; try exact (fun H => H).
    destruct (is_char_boundary c s b) as [[]| | |]; try exact (fun H => H).
    destruct (x <- uadd c (len s) (blen w) ;; y <- uadd c x a ;; usub c y b) as [n| | |]; try exact (fun H => H).
    destruct (is_inside_boundary n (capacity c)); [discriminate|exact (fun H => H)]. }
  assert (V : forall r, replace_range c lo hi (enc w) s = (Ret (Err r), s) ->
    exists s', replace_range c lo hi (enc w) s = (Ret (Err r), s') /\ rep c s' t /\
      (forall e, @Err unit Error r = Err e -> s' = s)).
  { intros r H. exists s. auto. }
  assert (IB : forall x y, x <= y -> is_inside_boundary x y = Ok tt).
  { intros x y L. unfold is_inside_boundary. replace (x <=? y) with true by lia. reflexivity. }
  assert (OB : forall x y, y < x -> is_inside_boundary x y = Err mkOutOfBounds).
  { intros x y L. unfold is_inside_boundary. replace (x <=? y) with false by lia. reflexivity. }
  destruct (N.ltb_spec b a) as [L1|L1].
  { apply V, U. erewrite stry_err by (unfold sret; rewrite OB by lia; reflexivity). reflexivity. }
  assert (St1 : forall B (k : unit -> ST astring (result B Error)),
    stry from_oob (sret (is_inside_boundary a b)) k s = k tt s).
  { intros. erewrite stry_ok by (unfold sret; rewrite IB by lia; reflexivity). reflexivity. }
  destruct (N.ltb_spec (blen t) b) as [L2|L2].
  { apply V, U. rewrite St1.
    erewrite stry_err by (unfold sread; rewrite (rep_len s t R), OB by lia; reflexivity). reflexivity. }
  assert (St2 : forall B (k : unit -> ST astring (result B Error)),
    stry from_oob (sread (fun s => Ret (is_inside_boundary b (len s)))) k s = k tt s).
  { intros. erewrite stry_ok by (unfold sread; rewrite (rep_len s t R), IB by lia; reflexivity). reflexivity. }
  destruct (N.ltb_spec (cap c) (blen w)) as [L3|L3].
  { apply V, U. rewrite St1, St2.
    erewrite stry_err by (unfold sret; rewrite OB by (unfold capacity; lia); reflexivity). reflexivity. }
  assert (St3 : forall B (k : unit -> ST astring (result B Error)),
    stry from_oob (sret (is_inside_boundary (blen w) (capacity c))) k s = k tt s).
  { intros. erewrite stry_ok by (unfold sret; rewrite IB by (unfold capacity; lia); reflexivity). reflexivity. }
  destruct (split_at a t) as [[pre rest]|] eqn:Ea.
  2:{ apply V, U. rewrite St1, St2, St3.
      erewrite stry_err by (unfold sread; rewrite (is_char_boundary_rep s t _ R), Ea; reflexivity).
      reflexivity. }
  assert (St4 : forall B (k : unit -> ST astring (result B Error)),
    stry from_utf8_err (sread (fun s => is_char_boundary c s a)) k s = k tt s).
  { intros. erewrite stry_ok by (unfold sread; rewrite (is_char_boundary_rep s t _ R), Ea; reflexivity).
    reflexivity. }
  destruct (split_at b t) as [[pre' post]|] eqn:Eb.
  2:{ apply V, U. rewrite St1, St2, St3, St4.
      erewrite stry_err by (unfold sread; rewrite (is_char_boundary_rep s t _ R), Eb; reflexivity).
      reflexivity. }
  pose proof Ea as Ea'. pose proof Eb as Eb'.
  apply split_at_Some in Ea', Eb'.
  destruct (splits_three _ _ _ _ _ _ _ Ea' Eb' L1) as (mid & E1 & E2 & E3 & E4).
  destruct Ea' as (_ & La). destruct Eb' as (_ & Lb).
  destruct (N.leb_spec (blen pre + blen w + blen post) (cap c)) as [L4|L4].
  - rewrite E3 in R. destruct (replace_range_ok lo hi w s pre mid post R) as (s' & P1 & P2).
    + symmetry. exact La.
    + rewrite <- E3. fold b. lia.
    + exact L4.
    + exists s'. split; [exact P1|]. split; [exact P2|]. discriminate.
  - apply V, U. rewrite St1, St2, St3, St4.
    erewrite stry_ok by (unfold sread; rewrite (is_char_boundary_rep s t _ R), Eb; reflexivity).
    assert (Lt : blen t = blen pre + blen mid + blen post) by (rewrite E3, !blen_app; lia).
    erewrite sbind_ret.
    2:{ unfold sread. rewrite (rep_len s t R). unfold uadd.
        replace (blen t + blen w <=? usize_max c) with true by lia. cbn [obind].
        replace (blen t + blen w + a <=? usize_max c) with true by lia. cbn [obind].
        unfold usub. replace (b <=? blen t + blen w + a) with true by lia. reflexivity. }
    erewrite stry_err by (unfold sret; rewrite OB by (unfold capacity; lia); reflexivity). reflexivity.
Qed.

End Facts.
