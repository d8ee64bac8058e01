(** [CacheString], the integrations, and sizes (C39-C42, C51). *)
From Coq Require Import ZArith ZifyBool ZifyN ZifyNat Arith.
From Verif Require Import Base Char Spec RustStd ModelError Model RustFmt ModelImpl ModelDrain TextOps SpecOps
  ModelOps ModelCache ModelCacheOps ModelIntegration Layout IterSpec ListFacts Utf8Facts CoreFacts MethodFacts
  IterFacts OrderFacts ImplFacts DrainFacts OpsFacts Obs ObsCache ClaimsEdit ClaimsIter ClaimsTrait.

(** ** C39 *)

Lemma valid_c63 c0 : valid_cfg c0 -> valid_cfg (c63 c0).
Proof. intros [H _]. split; [exact H|]. cbn. lia. Qed.

Lemma cache_out_inner {A} (f : A -> out) (m : ST astring A) s :
  cache_out f (on_inner m) s = (let '(r, i) := to_out f m (inner s) in (r, mkCache i)).
Proof. unfold cache_out, to_out, sbind, on_inner. destruct (m (inner s)) as [[a| | |] i]; reflexivity. Qed.

Lemma run_fprog_inner c0 p : forall s,
  run_fprog (cache_write_str c0) p s = (let '(r, i) := run_fprog (write_str (c63 c0)) p (inner s) in (r, mkCache i)).
Proof.
  induction p as [r| |bs next IH]; intros s; cbn [run_fprog]; [destruct s; reflexivity | destruct s; reflexivity|].
  unfold sbind. unfold cache_write_str at 1, on_inner. fold (c63 c0).
  change (mkcfg (usize_max c0) (debug c0) CACHE_STRING_SIZE) with (c63 c0).
  destruct (write_str (c63 c0) bs (inner s)) as [[r| | |] i]; try reflexivity. apply IH.
Qed.

Lemma cache_run_op_inner c0 o s :
  cache_run_op c0 o s = (let '(r, i) := run_op (c63 c0) o (inner s) in (r, mkCache i)).
Proof.
  destruct o; cbn [cache_run_op run_op]; try (apply cache_out_inner); try (destruct s; reflexivity).
  - unfold cache_retain. fold (c63 c0). change (mkcfg (usize_max c0) (debug c0) CACHE_STRING_SIZE) with (c63 c0).
    destruct (retain (c63 c0) f x (inner s)) as [[r i] x']. reflexivity.
  - unfold cache_drain, sbind, on_inner. change (mkcfg (usize_max c0) (debug c0) CACHE_STRING_SIZE) with (c63 c0).
    destruct (drain_iter (c63 c0) lo hi (inner s)) as [[r| | |] i]; reflexivity.
  - unfold cache_split_off, sbind, on_inner. change (mkcfg (usize_max c0) (debug c0) CACHE_STRING_SIZE) with (c63 c0).
    destruct (split_off (c63 c0) i (inner s)) as [[[d|e]| | |] i']; reflexivity.
  - unfold cache_extend_chars. change (mkcfg (usize_max c0) (debug c0) CACHE_STRING_SIZE) with (c63 c0).
    destruct (extend_chars (c63 c0) (char_fuel (c63 c0)) next it (inner s)) as [[r it'] i]. reflexivity.
  - unfold cache_extend_strs. change (mkcfg (usize_max c0) (debug c0) CACHE_STRING_SIZE) with (c63 c0).
    destruct (extend_strs (c63 c0) fuel (map_iter item_of_pair (map_iter same2 next)) it (inner s)) as [[r it'] i].
    reflexivity.
  - unfold cache_add. change (mkcfg (usize_max c0) (debug c0) CACHE_STRING_SIZE) with (c63 c0).
    destruct (add (c63 c0) (inner s) (enc w)); destruct s; reflexivity.
  - unfold cache_out, to_out, cache_write_char, write_char, sbind, slift, cache_write_str, on_inner.
    change (mkcfg (usize_max c0) (debug c0) CACHE_STRING_SIZE) with (c63 c0).
    destruct (encode_utf8 x 4) as [b| | |]; try (destruct s; reflexivity).
    destruct (write_str (c63 c0) b (inner s)) as [[r| | |] i]; reflexivity.
  - unfold cache_out, to_out, sbind, cache_write_fmt, write_fmt. rewrite run_fprog_inner.
    destruct (run_fprog (write_str (c63 c0)) (formatting_prog p) (inner s)) as [[r| | |] i]; reflexivity.
  - unfold cache_out, to_out, sbind, cache_index_mut, on_inner.
    change (mkcfg (usize_max c0) (debug c0) CACHE_STRING_SIZE) with (c63 c0).
    destruct (index_mut (c63 c0) r (inner s)) as [[q| | |] i]; try reflexivity.
    destruct (lenN (enc w) =? lenN (snd q)); [|reflexivity].
    cbn [inner]. destruct (str_write (fst q) (enc w) i) as [[u| | |] i']; reflexivity.
  - unfold cache_display. change (mkcfg (usize_max c0) (debug c0) CACHE_STRING_SIZE) with (c63 c0).
    destruct (display (c63 c0) buffer sp (inner s) []) as [[r| | |] b]; destruct s; reflexivity.
Qed.

Lemma cache_run_ops_inner c0 l : forall s,
  cache_run_ops c0 l s = (let '(rs, i) := run_ops (c63 c0) l (inner s) in (rs, mkCache i)).
Proof.
  induction l as [|o l IH]; intros s; cbn [cache_run_ops run_ops]; [destruct s; reflexivity|].
  rewrite cache_run_op_inner. destruct (run_op (c63 c0) o (inner s)) as [r i]. rewrite IH. cbn [inner].
  destruct (run_ops (c63 c0) l i) as [rs i']. reflexivity.
Qed.

(** The same history on a [CacheString] and on an [ArrayString<63>] with the same
    text gives the same results and the same text. *)
Lemma c39_history c0 s a t l : valid_cfg c0 -> cache_shows c0 s t -> shows (c63 c0) a t -> Forall typed_op l ->
  exists rs s' a' t', cache_run_ops c0 l s = (rs, s') /\ run_ops (c63 c0) l a = (rs, a') /\
    cache_shows c0 s' t' /\ shows (c63 c0) a' t'.
Proof.
  intros Hc Hs Ha Hl. apply valid_c63 in Hc. apply shows_rep in Hs, Ha.
  destruct (run_ops_sim (c63 c0) Hc l (inner s) t Hs Hl) as (i & E1 & R1).
  destruct (run_ops_sim (c63 c0) Hc l a t Ha Hl) as (a' & E2 & R2).
  eexists _, (mkCache i), a', _. rewrite cache_run_ops_inner, E1.
  split; [reflexivity|]. split; [exact E2|]. split; apply shows_rep; [exact R1 | exact R2].
Qed.

(** What each call does to the text, in the terms of SpecOps.v. *)
Lemma c39_calls c0 s t o : valid_cfg c0 -> cache_shows c0 s t -> typed_op o ->
  exists s', cache_run_op c0 o s = (fst (t_op (usize_max c0) 63 o t), s') /\
    cache_shows c0 s' (snd (t_op (usize_max c0) 63 o t)).
Proof.
  intros Hc Hs Ho. apply valid_c63 in Hc. apply shows_rep in Hs.
  destruct (run_op_sim (c63 c0) Hc o (inner s) t Hs Ho) as (i & E & R). cbn [c63 usize_max cap] in E, R.
  exists (mkCache i). rewrite cache_run_op_inner. fold (c63 c0) in *. rewrite E.
  split; [reflexivity | apply shows_rep; exact R].
Qed.

Lemma cache_build_inner c0 k : cache_build c0 k = omap (map_ok mkCache) (build (c63 c0) k).
Proof.
  destruct k; cbn [cache_build build]; try reflexivity;
    change (mkcfg (usize_max c0) (debug c0) CACHE_STRING_SIZE) with (c63 c0).
  - unfold cache_try_from_str. change (mkcfg (usize_max c0) (debug c0) CACHE_STRING_SIZE) with (c63 c0).
    destruct (try_from_str (c63 c0) (enc w)) as [[a|e]| | |]; reflexivity.
  - unfold cache_from_str, from_str. change (mkcfg (usize_max c0) (debug c0) CACHE_STRING_SIZE) with (c63 c0).
    destruct (try_from_str (c63 c0) (enc w)) as [[a|e]| | |]; reflexivity.
  - unfold cache_from_str_truncate. change (mkcfg (usize_max c0) (debug c0) CACHE_STRING_SIZE) with (c63 c0).
    destruct (from_str_truncate (c63 c0) (enc w)); reflexivity.
  - unfold cache_from. change (mkcfg (usize_max c0) (debug c0) CACHE_STRING_SIZE) with (c63 c0).
    destruct (from_ref_str (c63 c0) (enc w)); reflexivity.
  - unfold cache_try_from_iterator, wrap_res_fst.
    change (mkcfg (usize_max c0) (debug c0) CACHE_STRING_SIZE) with (c63 c0).
    destruct (try_from_iterator (c63 c0) fuel (map_iter item_of_pair next) it) as [[[a|e]| | |] it']; reflexivity.
  - unfold cache_from_iterator_truncate, wrap_fst.
    change (mkcfg (usize_max c0) (debug c0) CACHE_STRING_SIZE) with (c63 c0).
    destruct (from_iterator_truncate (c63 c0) fuel (map_iter item_of_pair next) it) as [[a| | |] it']; reflexivity.
  - unfold cache_try_from_chars, wrap_res_fst.
    change (mkcfg (usize_max c0) (debug c0) CACHE_STRING_SIZE) with (c63 c0).
    destruct (try_from_chars (c63 c0) (char_fuel (c63 c0)) next it) as [[[a|e]| | |] it']; reflexivity.
  - unfold cache_from_chars_truncate, wrap_fst.
    change (mkcfg (usize_max c0) (debug c0) CACHE_STRING_SIZE) with (c63 c0).
    destruct (from_chars_truncate (c63 c0) (char_fuel (c63 c0)) next it) as [[a| | |] it']; reflexivity.
  - unfold cache_from_iter_strs, wrap_fst.
    change (mkcfg (usize_max c0) (debug c0) CACHE_STRING_SIZE) with (c63 c0).
    destruct (from_iter_strs (c63 c0) fuel (map_iter item_of_pair (map_iter same2 next)) it) as [[a| | |] it']; reflexivity.
  - unfold cache_from_iter_chars, wrap_fst.
    change (mkcfg (usize_max c0) (debug c0) CACHE_STRING_SIZE) with (c63 c0).
    destruct (from_iter_chars (c63 c0) (char_fuel (c63 c0)) next it) as [[a| | |] it']; reflexivity.
  - unfold cache_from_utf16_truncate. change (mkcfg (usize_max c0) (debug c0) CACHE_STRING_SIZE) with (c63 c0).
    destruct (from_utf16_truncate (c63 c0) us) as [[a|e]| | |]; reflexivity.
  - unfold cache_from_utf16_lossy_truncate. change (mkcfg (usize_max c0) (debug c0) CACHE_STRING_SIZE) with (c63 c0).
    destruct (from_utf16_lossy_truncate (c63 c0) us); reflexivity.
Qed.

(** Constructors: the same text or the same failure as [ArrayString<63>]'s. *)
Lemma c39_constructors c0 k : valid_cfg c0 -> typed_ctor k ->
  match t_ctor 63 k with
  | Ret (Ok t) => exists s a, cache_build c0 k = Ret (Ok s) /\ build (c63 c0) k = Ret (Ok a) /\
                    cache_shows c0 s t /\ shows (c63 c0) a t
  | Ret (Err e) => cache_build c0 k = Ret (Err e) /\ build (c63 c0) k = Ret (Err e)
  | Panic => cache_build c0 k = Panic /\ build (c63 c0) k = Panic
  | UB => cache_build c0 k = UB /\ build (c63 c0) k = UB
  | Diverge => cache_build c0 k = Diverge /\ build (c63 c0) k = Diverge
  end.
Proof.
  intros Hc Hk. apply valid_c63 in Hc. rewrite cache_build_inner. pose proof (build_sim (c63 c0) Hc k Hk) as H.
  change (t_ctor 63 k) with (t_ctor (cap (c63 c0)) k).
  destruct (t_ctor (cap (c63 c0)) k) as [[t|e]| | |]; cbn in H.
  - destruct H as (a & E & R). exists (mkCache a), a. rewrite E. split; [reflexivity|]. split; [reflexivity|].
    split; apply shows_rep; exact R.
  - rewrite H. split; reflexivity.
  - rewrite H. split; reflexivity.
  - rewrite H. split; reflexivity.
  - rewrite H. split; reflexivity.
Qed.

(** Observers, comparisons and conversions. *)
Lemma c39_traits c0 s s' t t' w h st : cache_shows c0 s t -> cache_shows c0 s' t' ->
  cache_capacity = 63 /\ cache_len s = blen t /\
  cache_as_ref c0 s = Ret (enc t) /\ cache_as_ref_bytes c0 s = Ret (enc t) /\ cache_borrow c0 s = Ret (enc t) /\
  (exists b, cache_eq c0 s s' = Ret b /\ (b = true <-> t = t')) /\
  (exists b, cache_eq_str c0 s (enc w) = Ret b /\ cache_eq_ref_str c0 s (enc w) = Ret b /\ (b = true <-> t = w)) /\
  (exists o, cache_cmp c0 s s' = Ret o /\ cache_partial_cmp c0 s s' = Ret (Some o) /\
     (o = Eq <-> t = t') /\ (o = Lt <-> text_lt t t') /\ (o = Gt <-> text_lt t' t)) /\
  cache_hash c0 h s st = Ret (str_hash h (enc t) st).
Proof.
  intros H1 H2. pose proof (proj1 (shows_rep _ _ _) H1) as R1.
  split; [reflexivity|]. split; [exact (rep_len (c63 c0) _ _ R1)|].
  split; [exact (proj2 H1)|]. split; [exact (as_ref_bytes_rep (c63 c0) _ _ R1)|]. split; [exact (proj2 H1)|].
  destruct (c30_eq (c63 c0) (inner s) (inner s') t t' w H1 H2) as [A B].
  split; [exact A|]. split; [exact B|]. split; [|exact (proj1 (c32_hash (c63 c0) (inner s) t h st H1))].
  destruct (c31_cmp (c63 c0) (inner s) (inner s') t t' H1 H2) as (o & E & _ & Ho).
  exists o. split; [exact E|]. split; [|exact Ho]. unfold cache_partial_cmp, cache_cmp.
  change (mkcfg (usize_max c0) (debug c0) CACHE_STRING_SIZE) with (c63 c0). rewrite E. reflexivity.
Qed.

Lemma c39_from_array c0 a t : shows (c63 c0) a t -> cache_shows c0 (cache_from_array a) t.
Proof. intros H. exact H. Qed.

(** [&mut str] access. *)
Lemma c39_mut c0 s t : cache_shows c0 s t ->
  cache_as_mut c0 s = (Ret (enc t), s) /\ cache_borrow_mut c0 s = (Ret (enc t), s).
Proof.
  intros H. destruct (c38_as_mut (c63 c0) (inner s) t H) as (E & _ & _ & E4).
  unfold cache_as_mut, cache_borrow_mut, on_inner. change (mkcfg (usize_max c0) (debug c0) CACHE_STRING_SIZE) with (c63 c0).
  rewrite E, E4. destruct s. split; reflexivity.
Qed.

(** Character iterators of any kind: how much is taken from them, and what it
    makes of the value. *)
Lemma c39_from_chars c0 {IT} (next : iter IT char) it : valid_cfg c0 -> well_behaved next ->
  let fuel := char_fuel (c63 c0) in
  cache_from_iter_chars c0 fuel next it = cache_from_chars_truncate c0 fuel next it /\
  ((exists l it' s s', ends next it l it' /\ blen l <= 63 /\
      cache_from_chars_truncate c0 fuel next it = (Ret s, it') /\ cache_shows c0 s l /\
      cache_try_from_chars c0 fuel next it = (Ret (Ok s'), it') /\ cache_shows c0 s' l) \/
   (exists l x it' s, yields next it (l ++ [x]) it' /\ blen l <= 63 < blen l + clen x /\
      cache_from_chars_truncate c0 fuel next it = (Ret s, it') /\ cache_shows c0 s l /\
      cache_try_from_chars c0 fuel next it = (Ret (Err mkOutOfBounds), it')) \/
   (exists l it', panics next it l it' /\ blen l <= 63 /\
      cache_from_chars_truncate c0 fuel next it = (Panic, it') /\
      cache_try_from_chars c0 fuel next it = (Panic, it'))).
Proof.
  intros Hc Hw fuel. apply valid_c63 in Hc. split; [reflexivity|]. unfold cache_shows, fuel.
  unfold cache_try_from_chars, cache_from_chars_truncate.
  change (mkcfg (usize_max c0) (debug c0) CACHE_STRING_SIZE) with (c63 c0).
  destruct (chars_trichotomy (c63 c0) next it Hw) as
    [(l & it' & He & L)|[(l & x & it' & Hy & L1 & L2)|(l & it' & Hp & L)]].
  - assert (Hf : (length l < char_fuel (c63 c0))%nat).
    { pose proof (length_le_cap (c63 c0) l L). unfold char_fuel. lia. }
    destruct (from_chars_truncate_end (c63 c0) Hc next _ it l it' He L Hf) as (s & E & R).
    destruct (try_from_chars_end (c63 c0) Hc next _ it l it' He L Hf) as (s' & E' & R').
    left. exists l, it', (mkCache s), (mkCache s'). rewrite E, E'. apply shows_rep in R. apply shows_rep in R'.
    split; [exact He|]. split; [exact L|]. split; [reflexivity|]. split; [exact R|]. split; [reflexivity | exact R'].
  - assert (Hf : (length l < char_fuel (c63 c0))%nat).
    { pose proof (length_le_cap (c63 c0) l L1). unfold char_fuel. lia. }
    destruct (from_chars_truncate_stop (c63 c0) Hc next _ it l x it' Hy L1 L2 Hf) as (s & E & R).
    pose proof (try_from_chars_stop (c63 c0) Hc next _ it l x it' Hy L1 L2 Hf) as E'.
    right; left. exists l, x, it', (mkCache s). rewrite E, E'. apply shows_rep in R.
    split; [exact Hy|]. split; [exact (conj L1 L2)|]. split; [reflexivity|]. split; [exact R | reflexivity].
  - assert (Hf : (length l < char_fuel (c63 c0))%nat).
    { pose proof (length_le_cap (c63 c0) l L). unfold char_fuel. lia. }
    pose proof (from_chars_truncate_panic (c63 c0) Hc next _ it l it' Hp L Hf) as E.
    pose proof (try_from_chars_panic (c63 c0) Hc next _ it l it' Hp L Hf) as E'.
    right; right. exists l, it'. rewrite E, E'. split; [exact Hp|]. split; [exact L|]. split; reflexivity.
Qed.

Lemma c39_extend_chars c0 {IT} (next : iter IT char) it s t :
  valid_cfg c0 -> well_behaved next -> cache_shows c0 s t ->
  let fuel := char_fuel (c63 c0) in
  cache_extend_char_refs c0 fuel next it s = cache_extend_chars c0 fuel next it s /\
  ((exists l it' s' p, ends next it l it' /\ blen l <= 63 /\ longest_fit (63 - blen t) l p /\
      cache_extend_chars c0 fuel next it s = (Ret tt, it', s') /\ cache_shows c0 s' (t ++ p)) \/
   (exists l x it' s' p, yields next it (l ++ [x]) it' /\ blen l <= 63 < blen l + clen x /\
      longest_fit (63 - blen t) l p /\
      cache_extend_chars c0 fuel next it s = (Ret tt, it', s') /\ cache_shows c0 s' (t ++ p)) \/
   (exists l it', panics next it l it' /\ blen l <= 63 /\
      cache_extend_chars c0 fuel next it s = (Panic, it', s))).
Proof.
  intros Hc Hw Hs fuel. apply valid_c63 in Hc. split; [reflexivity|]. unfold cache_shows, fuel in *.
  unfold cache_extend_chars. change (mkcfg (usize_max c0) (debug c0) CACHE_STRING_SIZE) with (c63 c0).
  destruct (c45_extend_chars (c63 c0) next it (inner s) t Hc Hw Hs) as
    [(l & it' & a & p & He & L & Hp & E & R)|[(l & x & it' & a & p & Hy & L & Hp & E & R)|(l & it' & Hp & L & E)]];
    rewrite E.
  - left. exists l, it', (mkCache a), p.
    split; [exact He|]. split; [exact L|]. split; [exact Hp|]. split; [reflexivity | exact R].
  - right; left. exists l, x, it', (mkCache a), p.
    split; [exact Hy|]. split; [exact L|]. split; [exact Hp|]. split; [reflexivity | exact R].
  - right; right. exists l, it'. split; [exact Hp|]. split; [exact L|]. destruct s; reflexivity.
Qed.

(** Iterators of strings. *)
Lemma c39_strs c0 {IT} (next : iter IT as_ref_item) it l it' s t fuel :
  valid_cfg c0 -> cache_shows c0 s t -> ends next it (map item_of l) it' -> (length l < fuel)%nat ->
  exists p q s1 s2 it1, longest_fit 63 (concat l) p /\ longest_fit (63 - blen t) (concat l) q /\
    cache_from_iterator_truncate c0 fuel next it = (Ret s1, it1) /\
    cache_from_iter_strs c0 fuel next it = (Ret s1, it1) /\ cache_shows c0 s1 p /\
    cache_extend_strs c0 fuel next it s = (Ret tt, it1, s2) /\ cache_shows c0 s2 (t ++ q) /\
    (blen (concat l) <= 63 -> it1 = it' /\
       exists s3, cache_try_from_iterator c0 fuel next it = (Ret (Ok s3), it1) /\ cache_shows c0 s3 (concat l)) /\
    (63 < blen (concat l) -> exists l1 x l2, l = l1 ++ x :: l2 /\
       blen (concat l1) <= 63 < blen (concat l1) + blen x /\ yields next it (map item_of (l1 ++ [x])) it1 /\
       cache_try_from_iterator c0 fuel next it = (Ret (Err mkOutOfBounds), it1)).
Proof.
  intros Hc Hs He Hf. apply valid_c63 in Hc. unfold cache_shows in *.
  unfold cache_from_iterator_truncate, cache_from_iter_strs, from_iter_strs, cache_extend_strs, extend_strs,
    cache_try_from_iterator.
  change (mkcfg (usize_max c0) (debug c0) CACHE_STRING_SIZE) with (c63 c0).
  destruct (c11_from_iterator_truncate (c63 c0) next it l it' fuel Hc He Hf) as (p & Hp & T1 & T2).
  destruct (c33_extend_strs (c63 c0) next it l it' (inner s) t fuel Hc Hs He Hf) as (q & s2 & i2 & Hq & E2 & R2 & _).
  destruct (c10_try_from_iterator (c63 c0) next it l it' fuel Hc He Hf) as (U1 & U2).
  unfold extend_strs in E2.
  destruct (N.le_gt_cases (blen (concat l)) 63) as [L|L].
  - destruct (T1 L) as (a & Ea & Ra). destruct (U1 L) as (a3 & E3 & R3).
    assert (i2 = it').
    { rewrite Ea in E2. cbn [extend_with] in E2.
      destruct ((b <~ slift (as_ref_str (c63 c0) a) ;; push_str_truncate (c63 c0) b) (inner s)).
      injection E2 as _ <- _. reflexivity. }
    subst i2. exists p, q, (mkCache a), (mkCache s2), it'. rewrite E2, Ea, E3.
    split; [exact Hp|]. split; [exact Hq|]. split; [reflexivity|]. split; [reflexivity|]. split; [exact Ra|].
    split; [reflexivity|]. split; [exact R2|]. split; [|intros; lia].
    intros _. split; [reflexivity|]. exists (mkCache a3). split; [reflexivity | exact R3].
  - destruct (T2 L) as (l1 & x & l2 & i1 & a & -> & L1 & Hy & Ea & Ra).
    destruct (U2 L) as (m1 & y & m2 & i3 & Hm & M1 & Hy3 & E3).
    assert (i2 = i1).
    { rewrite Ea in E2. cbn [extend_with] in E2.
      destruct ((b <~ slift (as_ref_str (c63 c0) a) ;; push_str_truncate (c63 c0) b) (inner s)).
      injection E2 as _ <- _. reflexivity. }
    subst i2.
    assert (Hsame : m1 = l1 /\ y = x).
    { cbn [cap c63] in L1, M1. revert Hm L1 M1. clear. revert m1.
      generalize 63 as n. intros n m1 Hm [A1 A2] [B1 B2]. revert m1 n Hm A1 A2 B1 B2.
      induction l1 as [|w l1 IH]; intros m1 n Hm A1 A2 B1 B2; destruct m1 as [|v m1]; cbn [app concat] in *.
      - injection Hm as -> _. split; reflexivity.
      - injection Hm as -> _. rewrite blen_app in B1. change (blen []) with 0 in A2. lia.
      - injection Hm as -> _. rewrite blen_app in A1. change (blen []) with 0 in B2. lia.
      - injection Hm as -> Hm. rewrite blen_app in *.
        destruct (IH m1 (n - blen v) Hm) as [-> ->]; try lia. split; reflexivity. }
    destruct Hsame as [-> ->].
    assert (i3 = i1) by (eapply yields_fun; eassumption). subst i3.
    exists p, q, (mkCache a), (mkCache s2), i1. rewrite E2, Ea, E3.
    split; [exact Hp|]. split; [exact Hq|]. split; [reflexivity|]. split; [reflexivity|]. split; [exact Ra|].
    split; [reflexivity|]. split; [exact R2|]. split; [intros; lia|].
    intros _. exists l1, x, l2. split; [reflexivity|]. split; [exact L1|]. split; [exact Hy | reflexivity].
Qed.

(** [retain] through [DerefMut], with the closure's state. *)
Lemma c39_retain c0 {F} (f : char -> ST F bool) (g : F -> char -> bool * F) x s t :
  valid_cfg c0 -> cache_shows c0 s t -> (forall a y, f a y = (Ret (fst (g y a)), snd (g y a))) ->
  exists s', cache_retain c0 f x s = (Ret tt, s', snd (filter_st g x t)) /\ cache_shows c0 s' (fst (filter_st g x t)).
Proof.
  intros Hc Hs Hg. apply valid_c63 in Hc.
  destruct (c22_retain (c63 c0) f g x (inner s) t Hc Hs Hg) as (a & E & R).
  exists (mkCache a). split; [|exact R]. unfold cache_retain.
  change (mkcfg (usize_max c0) (debug c0) CACHE_STRING_SIZE) with (c63 c0). rewrite E. reflexivity.
Qed.

(** Printing, to any writer. *)
Lemma c39_display c0 s t W (k : sink W) sp w : cache_shows c0 s t ->
  cache_display c0 k sp s w = wstr k (enc t) w.
Proof. intros Hs. exact (c36_display (c63 c0) (inner s) t W k sp w Hs). Qed.

(** ** C40 *)
Lemma c40_serialize c s t R (f : list N -> R) : shows c s t -> serialize c f s = Ret (f (enc t)).
Proof. intros [_ H]. unfold serialize. rewrite H. reflexivity. Qed.

Lemma c40_deserialize c E : valid_cfg c ->
  (forall w, exists p, longest_fit (cap c) w p /\
     makes_ok c (deserialize c (E := E) (VBorrowedStr (enc w))) p /\
     makes_ok c (deserialize c (E := E) (VBorrowedBytes (enc w))) p) /\
  (forall b, (forall w, b <> enc w) -> deserialize c (E := E) (VBorrowedBytes b) = Ret (Err InvalidValue)) /\
  (forall b, deserialize c (E := E) (VStr b) = Ret (Err InvalidType) /\
             deserialize c (E := E) (VString b) = Ret (Err InvalidType) /\
             deserialize c (E := E) (VBytes b) = Ret (Err InvalidType) /\
             deserialize c (E := E) (VByteBuf b) = Ret (Err InvalidType)) /\
  deserialize c (E := E) VOther = Ret (Err InvalidType) /\
  (forall e : E, deserialize c (DeErr e) = Ret (Err (FromFormat e))).
Proof.
  intros Hc. split.
  { intros w. destruct (c09_from_str_truncate c w Hc) as (p & Hp & (a & E1 & S1) & _).
    exists p. split; [exact Hp|]. unfold deserialize. cbn [deserialize_ref_str]. unfold valid_or.
    rewrite (proj2 (from_utf8_ok_iff (enc w)) (ex_intro _ w eq_refl)), E1.
    split; exists a; (split; [reflexivity | exact S1]). }
  split.
  { intros b Hb. unfold deserialize. cbn [deserialize_ref_str]. unfold valid_or.
    destruct (from_utf8_ok b) eqn:Eb; [|reflexivity]. apply from_utf8_ok_iff in Eb. destruct Eb as (w & ->).
    exfalso. exact (Hb w eq_refl). }
  split; [intros b; repeat split|]. split; reflexivity.
Qed.

(** What was serialized is read back. *)
Lemma c40_round_trip c E s t : valid_cfg c -> shows c s t ->
  exists v, serialize c (fun b => VBorrowedStr (E := E) b) s = Ret v /\ makes_ok c (deserialize c v) t.
Proof.
  intros Hc Hs. exists (VBorrowedStr (enc t)). split; [exact (c40_serialize c s t _ _ Hs)|].
  destruct (c09_whole c t Hc) as (a & Ea & Sa).
  { apply shows_rep in Hs. exact (rep_cap c s t Hs). }
  exists a. unfold deserialize. cbn [deserialize_ref_str]. rewrite Ea. split; [reflexivity | exact Sa].
Qed.

(** ** C41 *)
Lemma c41_to_sql c s t O R (f : list N -> ST O R) o : shows c s t -> to_sql c f s o = f (enc t) o.
Proof. intros [_ H]. unfold to_sql. erewrite sbind_ret by (unfold slift; rewrite H; reflexivity). reflexivity. Qed.

Lemma from_sql_at c V E (g : V -> result str_ptr E) v w : g v = Ok (At (enc w)) ->
  from_sql c g v = (a <- from_str_truncate c (enc w) ;; Ret (Ok a)).
Proof.
  intros Ew. unfold from_sql. rewrite Ew. unfold debug_assert. destruct (debug c); cbn [obind negb is_null str_deref];
    rewrite from_utf8_ok_enc; reflexivity.
Qed.

Lemma c41_from_sql c V E (g : V -> result str_ptr E) v : valid_cfg c ->
  (forall w, g v = Ok (At (enc w)) -> exists p, longest_fit (cap c) w p /\ makes_ok c (from_sql c g v) p) /\
  (forall e, g v = Err e -> from_sql c g v = Ret (Err e)).
Proof.
  intros Hc. split.
  - intros w Ew. destruct (c09_from_str_truncate c w Hc) as (p & Hp & (a & E1 & S1) & _).
    exists p. split; [exact Hp|]. exists a. rewrite (from_sql_at c V E g v w Ew), E1. split; [reflexivity | exact S1].
  - intros e Ee. unfold from_sql. rewrite Ee. reflexivity.
Qed.

(** What the backend must not return: the assertion sees only null pointers, and only in debug builds. *)
Lemma c41_bad_pointer c V E (g : V -> result str_ptr E) v :
  (g v = Ok Null -> from_sql c g v = if debug c then Panic else UB) /\
  (g v = Ok Dangling -> from_sql c g v = UB) /\
  (forall b, (forall w, b <> enc w) -> g v = Ok (At b) -> from_sql c g v = UB).
Proof.
  split; [|split].
  - intros H. unfold from_sql, debug_assert. rewrite H. destruct (debug c); reflexivity.
  - intros H. unfold from_sql, debug_assert. rewrite H. destruct (debug c); reflexivity.
  - intros b Hb H. unfold from_sql, debug_assert. rewrite H.
    assert (F : from_utf8_ok b = false).
    { destruct (from_utf8_ok b) eqn:F; [|reflexivity]. destruct (proj1 (from_utf8_ok_iff b) F) as (w & Ew). destruct (Hb w Ew). }
    destruct (debug c); cbn [obind negb is_null str_deref]; rewrite F; reflexivity.
Qed.

Lemma c41_round_trip c V E (g : V -> result str_ptr E) (column : list N -> V) s t v0 : valid_cfg c -> shows c s t ->
  (forall w, g (column (enc w)) = Ok (At (enc w))) ->
  exists v, to_sql c (fun b _ => (Ret tt, column b)) s v0 = (Ret tt, v) /\ makes_ok c (from_sql c g v) t.
Proof.
  intros Hc Hs Hg. exists (column (enc t)). split; [exact (c41_to_sql c s t _ _ _ v0 Hs)|].
  destruct (c09_whole c t Hc) as (a & Ea & Sa).
  { apply shows_rep in Hs. exact (rep_cap c s t Hs). }
  exists a. rewrite (from_sql_at c V E g _ t (Hg t)), Ea. split; [reflexivity | exact Sa].
Qed.

(** ** C42 *)
Lemma round_up_1 n : round_up n 1 = n.
Proof. unfold round_up. rewrite N.div_1_r, N.mul_1_r. lia. Qed.

Lemma c42_array_string swap n : size_of (arraystring_layout swap n) = n + 1 /\ align_of (arraystring_layout swap n) = 1.
Proof.
  destruct swap; cbn [arraystring_layout rev app struct_layout place array_layout u8_layout size_of align_of N.max];
    unfold struct_layout; cbn [place size_of align_of array_layout u8_layout]; rewrite ?round_up_1;
    cbn [N.max N.compare Pos.compare Pos.compare_cont]; rewrite ?round_up_1; cbn [size_of align_of]; lia.
Qed.

Lemma c42_cache_string swap : cachestring_layout swap = mklayout 64 64.
Proof. destruct swap; reflexivity. Qed.

Lemma c42_drain swap n : size_of (drain_layout swap n) = n + 1 /\ align_of (drain_layout swap n) = 1.
Proof.
  unfold drain_layout, struct_layout. cbn [place].
  destruct (c42_array_string swap n) as [E1 E2]. rewrite E1, E2, N.max_id.
  cbn [size_of align_of]. rewrite ?round_up_1. split; lia.
Qed.

Lemma c42_max_string swap : size_of (maxstring_layout swap) = 256 /\ align_of (maxstring_layout swap) = 1.
Proof. exact (c42_array_string swap 255). Qed.

Lemma c42_small_string swap word :
  size_of (smallstring_layout swap word) = 3 * word + 1.
Proof. unfold smallstring_layout. rewrite (proj1 (c42_array_string swap (small_capacity word))).
  unfold small_capacity. cbn [size_of usize_layout]. lia. Qed.

Lemma round_up_mult k a : 0 < a -> round_up (k * a) a = k * a.
Proof.
  intros Ha. unfold round_up. replace (k * a + a - 1) with (k * a + (a - 1)) by lia.
  rewrite N.div_add_l by lia. rewrite N.div_small by lia. lia.
Qed.

Lemma c42_std_string word : 1 <= word -> size_of (string_layout word) = 3 * word.
Proof.
  intros Hw. unfold string_layout, struct_layout. cbn [place size_of align_of usize_layout].
  assert (E0 : round_up 0 word = 0) by (rewrite <- (N.mul_0_l word) at 1; rewrite round_up_mult by lia; lia).
  rewrite E0. rewrite N.add_0_l.
  assert (E1 : round_up word word = word) by (rewrite <- (N.mul_1_l word) at 1; rewrite round_up_mult by lia; lia).
  rewrite E1. replace (word + word) with (2 * word) by lia. rewrite round_up_mult by lia.
  replace (2 * word + word) with (3 * word) by lia.
  replace (N.max (N.max (N.max 1 word) word) word) with word by lia.
  cbn [size_of]. apply round_up_mult. lia.
Qed.

(** ** C51 *)
Lemma c51_stored_length c s t : valid_cfg c -> shows c s t ->
  size s = blen t /\ blen t <= 255 /\ into_lossy (blen t) = blen t.
Proof.
  intros Hc Hs. apply shows_rep in Hs. pose proof (rep_cap c s t Hs) as L. pose proof (rep_len c s t Hs) as E.
  destruct Hc as [_ Hcap]. split; [exact E|]. split; [lia|]. unfold into_lossy. apply N.mod_small. lia.
Qed.

(** Every text of at most [cap] bytes can be held. *)
Lemma c51_holds c t : valid_cfg c -> blen t <= cap c -> exists s, shows c s t.
Proof. intros Hc L. destruct (c09_whole c t Hc L) as (s & _ & S). exists s. exact S. Qed.

Lemma c51_capacities m d word : 65535 <= m -> 2 <= word <= 8 ->
  (forall n, 1 <= n <= 255 -> valid_cfg (mkcfg m d n)) /\
  valid_cfg (mkcfg m d CACHE_STRING_SIZE) /\ valid_cfg (mkcfg m d (small_capacity word)) /\
  valid_cfg (mkcfg m d 255).
Proof.
  intros Hm Hw. unfold valid_cfg, small_capacity, CACHE_STRING_SIZE. cbn [usize_max cap size_of usize_layout].
  split; [intros n Hn; lia|]. lia.
Qed.

(** 255 is the largest capacity the code supports: at 256 a text that fits is stored with length 0. *)
Lemma c51_bound (d : bool) : exists w s, blen w = 256 /\
    try_from_str (mkcfg 65535 d 256) (enc w) = Ret (Ok s) /\
    len s = 0 /\ as_str (mkcfg 65535 d 256) s = Ret [].
Proof.
  exists (repeat (mkchar 104 eq_refl) 256), (mkastring (repeat 104 256) 0).
  split; [vm_compute; reflexivity|]. split; [|split; [reflexivity|]]; destruct d; vm_compute; reflexivity.
Qed.

(** ** The integrations of [CacheString] (C40, C41) *)
Lemma c40_cache c0 s t E : valid_cfg c0 -> cache_shows c0 s t ->
  (forall R (f : list N -> R), cache_serialize c0 f s = Ret (f (enc t))) /\
  (forall w, exists p a, longest_fit 63 w p /\
     cache_deserialize c0 (E := E) (VBorrowedStr (enc w)) = Ret (Ok a) /\
     cache_deserialize c0 (E := E) (VBorrowedBytes (enc w)) = Ret (Ok a) /\ cache_shows c0 a p) /\
  (forall b, (forall w, b <> enc w) -> cache_deserialize c0 (E := E) (VBorrowedBytes b) = Ret (Err InvalidValue)) /\
  (forall b, cache_deserialize c0 (E := E) (VStr b) = Ret (Err InvalidType) /\
             cache_deserialize c0 (E := E) (VString b) = Ret (Err InvalidType) /\
             cache_deserialize c0 (E := E) (VBytes b) = Ret (Err InvalidType) /\
             cache_deserialize c0 (E := E) (VByteBuf b) = Ret (Err InvalidType)) /\
  cache_deserialize c0 (E := E) VOther = Ret (Err InvalidType) /\
  (forall e : E, cache_deserialize c0 (DeErr e) = Ret (Err (FromFormat e))).
Proof.
  intros Hc Hs. apply valid_c63 in Hc. split; [intros R f; exact (c40_serialize (c63 c0) (inner s) t R f Hs)|]. split.
  - intros w. destruct (proj1 (c40_deserialize (c63 c0) E Hc) w) as (p & Hp & (a & Ea & Sa) & (a' & Ea' & Sa')).
    exists p, (mkCache a). split; [exact Hp|]. unfold cache_deserialize.
    change (mkcfg (usize_max c0) (debug c0) CACHE_STRING_SIZE) with (c63 c0). rewrite Ea, Ea'.
    split; [reflexivity|]. split; [|exact Sa].
    unfold deserialize in Ea, Ea'. cbn [deserialize_ref_str] in Ea, Ea'. unfold valid_or in Ea'.
    destruct (from_utf8_ok (enc w)); [|discriminate]. cbn [obind] in *. rewrite Ea in Ea'. injection Ea' as ->. reflexivity.
  - split; [|split; [intros b; split; [|split; [|split]]; reflexivity | split; [reflexivity | intros e; reflexivity]]].
    intros b Hb. unfold cache_deserialize.
    change (mkcfg (usize_max c0) (debug c0) CACHE_STRING_SIZE) with (c63 c0).
    rewrite (proj1 (proj2 (c40_deserialize (c63 c0) E Hc)) b Hb). reflexivity.
Qed.

Lemma c41_cache c0 s t V X (g : V -> result str_ptr X) v : valid_cfg c0 -> cache_shows c0 s t ->
  (forall O R (f : list N -> ST O R) o, cache_to_sql c0 f s o = f (enc t) o) /\
  (forall w, g v = Ok (At (enc w)) ->
     exists p a, longest_fit 63 w p /\ cache_from_sql c0 g v = Ret (Ok a) /\ cache_shows c0 a p) /\
  (forall e, g v = Err e -> cache_from_sql c0 g v = Ret (Err e)) /\
  (g v = Ok Null -> cache_from_sql c0 g v = if debug c0 then Panic else UB) /\
  (g v = Ok Dangling -> cache_from_sql c0 g v = UB) /\
  (forall b, (forall w, b <> enc w) -> g v = Ok (At b) -> cache_from_sql c0 g v = UB) /\
  (forall (column : list N -> V), (forall w, g (column (enc w)) = Ok (At (enc w))) ->
     exists v' a, cache_to_sql c0 (fun b _ => (Ret tt, column b)) s v = (Ret tt, v') /\
       cache_from_sql c0 g v' = Ret (Ok a) /\ cache_shows c0 a t).
Proof.
  intros Hc Hs. apply valid_c63 in Hc. split; [intros O R f o; exact (c41_to_sql (c63 c0) (inner s) t O R f o Hs)|].
  destruct (c41_from_sql (c63 c0) V X g v Hc) as [H1 H2]. destruct (c41_bad_pointer (c63 c0) V X g v) as (H3 & H4 & H5).
  split; [|split; [|split; [|split; [|split]]]].
  - intros w Ew. destruct (H1 w Ew) as (p & Hp & (a & Ea & Sa)). exists p, (mkCache a). split; [exact Hp|].
    split; [|exact Sa]. unfold cache_from_sql. change (mkcfg (usize_max c0) (debug c0) CACHE_STRING_SIZE) with (c63 c0).
    rewrite Ea. reflexivity.
  - intros e Ee. unfold cache_from_sql. change (mkcfg (usize_max c0) (debug c0) CACHE_STRING_SIZE) with (c63 c0).
    rewrite (H2 e Ee). reflexivity.
  - intros E. unfold cache_from_sql. change (mkcfg (usize_max c0) (debug c0) CACHE_STRING_SIZE) with (c63 c0).
    rewrite (H3 E). change (debug (c63 c0)) with (debug c0). destruct (debug c0); reflexivity.
  - intros E. unfold cache_from_sql. change (mkcfg (usize_max c0) (debug c0) CACHE_STRING_SIZE) with (c63 c0).
    rewrite (H4 E). reflexivity.
  - intros b Hb E. unfold cache_from_sql. change (mkcfg (usize_max c0) (debug c0) CACHE_STRING_SIZE) with (c63 c0).
    rewrite (H5 b Hb E). reflexivity.
  - intros column Hg. destruct (c41_round_trip (c63 c0) V X g column (inner s) t v Hc Hs Hg) as (v' & E1 & a & E2 & Sa).
    exists v', (mkCache a). split; [exact E1|]. split; [|exact Sa].
    unfold cache_from_sql. change (mkcfg (usize_max c0) (debug c0) CACHE_STRING_SIZE) with (c63 c0). rewrite E2. reflexivity.
Qed.
