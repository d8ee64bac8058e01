(** Constructors from iterators and UTF-16, [retain], [extend] and hostile
    arguments (C10-C17, C22, C33, C44-C46). *)
From Coq Require Import ZArith ZifyBool ZifyN ZifyNat Arith.
From Verif Require Import Base Char Spec RustStd ModelError Model ModelImpl TextOps IterSpec
  ListFacts Utf8Facts CoreFacts MethodFacts IterFacts Utf16Facts ImplFacts Obs.

Lemma map_item_of l : map item_of l = map item2 (map (fun w => (w, w)) l).
Proof. rewrite map_map. reflexivity. Qed.

Lemma concat_fst l : concat (map fst (map (fun w : text => (w, w)) l)) = concat l.
Proof. rewrite map_map. cbn. rewrite map_id. reflexivity. Qed.

(** Where a list of pieces exceeds [n] bytes. *)
Lemma exceeds (n : N) (l : list text) : n < blen (concat l) ->
  exists l1 x l2, l = l1 ++ x :: l2 /\ blen (concat l1) <= n /\ n < blen (concat l1) + blen x.
Proof.
  intros H. destruct (pieces_cases n l 0) as [L|(l1 & x & l2 & E & L1 & L2)]; [lia | lia |].
  exists l1, x, l2. split; [exact E|]. lia.
Qed.

Lemma exceeds_chars (n : N) (l : text) : n < blen l ->
  exists l1 x l2, l = l1 ++ x :: l2 /\ blen l1 <= n /\ n < blen l1 + clen x.
Proof.
  intros H. destruct (chars_cases n l 0) as [L|(l1 & x & l2 & E & L1 & L2)]; [lia | lia |].
  exists l1, x, l2. split; [exact E|]. lia.
Qed.

(** ** C10 *)
Lemma c10_try_from_iterator c {IT} (next : iter IT as_ref_item) it l it' fuel :
  valid_cfg c -> ends next it (map item_of l) it' -> (length l < fuel)%nat ->
  (blen (concat l) <= cap c ->
     exists s, try_from_iterator c fuel next it = (Ret (Ok s), it') /\ shows c s (concat l)) /\
  (cap c < blen (concat l) ->
     exists l1 x l2 it1, l = l1 ++ x :: l2 /\ blen (concat l1) <= cap c < blen (concat l1) + blen x /\
       yields next it (map item_of (l1 ++ [x])) it1 /\
       try_from_iterator c fuel next it = (Ret (Err mkOutOfBounds), it1)).
Proof.
  intros Hc He Hf. split; intros L.
  - rewrite map_item_of in He.
    destruct (try_from_iterator_end c Hc next fuel it _ it' He) as (s & E & R).
    + rewrite concat_fst. exact L.
    + rewrite map_length. exact Hf.
    + rewrite concat_fst in R. apply shows_rep in R. exists s. split; assumption.
  - destruct (exceeds _ _ L) as (l1 & x & l2 & -> & L1 & L2).
    rewrite map_app in He. cbn [map] in He. destruct (ends_yields_app _ _ _ _ _ _ He) as (it1 & Hy).
    assert (Hy' : yields next it (map item_of (l1 ++ [x])) it1) by (rewrite map_app; exact Hy).
    exists l1, x, l2, it1. split; [reflexivity|]. split; [lia|]. split; [exact Hy'|].
    rewrite map_item_of, map_app in Hy'. cbn [map] in Hy'.
    apply (try_from_iterator_stop c Hc next fuel it (map (fun w => (w, w)) l1) (x, x) it1 Hy').
    + rewrite concat_fst. exact L1.
    + rewrite concat_fst. exact L2.
    + rewrite map_length. rewrite app_length in Hf. cbn [length] in Hf. lia.
Qed.

(** ** C11 *)
Lemma c11_from_iterator_truncate c {IT} (next : iter IT as_ref_item) it l it' fuel :
  valid_cfg c -> ends next it (map item_of l) it' -> (length l < fuel)%nat ->
  exists p, longest_fit (cap c) (concat l) p /\
  (blen (concat l) <= cap c -> exists s, from_iterator_truncate c fuel next it = (Ret s, it') /\ shows c s p) /\
  (cap c < blen (concat l) ->
     exists l1 x l2 it1 s, l = l1 ++ x :: l2 /\ blen (concat l1) <= cap c < blen (concat l1) + blen x /\
       yields next it (map item_of (l1 ++ [x])) it1 /\
       from_iterator_truncate c fuel next it = (Ret s, it1) /\ shows c s p).
Proof.
  intros Hc He Hf. exists (fit (cap c) (concat l)). split; [apply fit_longest|]. split; intros L.
  - rewrite fit_id by exact L. rewrite map_item_of in He.
    destruct (from_iterator_truncate_end c Hc next fuel it _ it' He) as (s & E & R).
    + rewrite concat_fst. exact L.
    + rewrite map_length. exact Hf.
    + rewrite concat_fst in R. apply shows_rep in R. exists s. split; assumption.
  - destruct (exceeds _ _ L) as (l1 & x & l2 & -> & L1 & L2).
    rewrite map_app in He. cbn [map] in He. destruct (ends_yields_app _ _ _ _ _ _ He) as (it1 & Hy).
    assert (Hy' : yields next it (map item_of (l1 ++ [x])) it1) by (rewrite map_app; exact Hy).
    pose proof Hy' as Hy2. rewrite map_item_of, map_app in Hy2. cbn [map] in Hy2.
    destruct (from_iterator_truncate_stop c Hc next fuel it (map (fun w => (w, w)) l1) (x, x) it1 Hy2)
      as (s & E & R).
    + rewrite concat_fst. exact L1.
    + rewrite concat_fst. exact L2.
    + rewrite map_length. rewrite app_length in Hf. cbn [length] in Hf. lia.
    + exists l1, x, l2, it1, s. split; [reflexivity|]. split; [lia|]. split; [exact Hy'|]. split; [exact E|].
      apply shows_rep. rewrite concat_fst in R. cbn [snd] in R.
      rewrite concat_app. cbn [concat]. rewrite fit_app_fits by exact L1.
      rewrite fit_app_exceeds by lia. exact R.
Qed.

Lemma c11_collect c {IT} (next : iter IT as_ref_item) it l it' fuel :
  valid_cfg c -> ends next it (map item_of l) it' -> (length l < fuel)%nat ->
  exists p, longest_fit (cap c) (concat l) p /\
  (blen (concat l) <= cap c -> exists s, from_iter_strs c fuel next it = (Ret s, it') /\ shows c s p) /\
  (cap c < blen (concat l) ->
     exists l1 x l2 it1 s, l = l1 ++ x :: l2 /\ blen (concat l1) <= cap c < blen (concat l1) + blen x /\
       yields next it (map item_of (l1 ++ [x])) it1 /\
       from_iter_strs c fuel next it = (Ret s, it1) /\ shows c s p).
Proof. exact (c11_from_iterator_truncate c next it l it' fuel). Qed.

(** ** C45: every way a constructor from characters can go *)
Lemma c45_from_chars_truncate c {IT} (next : iter IT char) it : valid_cfg c -> well_behaved next ->
  (exists l it' s, ends next it l it' /\ blen l <= cap c /\
     from_chars_truncate c (char_fuel c) next it = (Ret s, it') /\ shows c s l) \/
  (exists l x it' s, yields next it (l ++ [x]) it' /\ blen l <= cap c < blen l + clen x /\
     from_chars_truncate c (char_fuel c) next it = (Ret s, it') /\ shows c s l) \/
  (exists l it', panics next it l it' /\ blen l <= cap c /\
     from_chars_truncate c (char_fuel c) next it = (Panic, it')).
Proof.
  intros Hc Hw. destruct (chars_trichotomy c next it Hw) as
    [(l & it' & He & L)|[(l & x & it' & Hy & L1 & L2)|(l & it' & Hp & L)]].
  - left. destruct (from_chars_truncate_end c Hc next (char_fuel c) it l it' He L) as (s & E & R).
    + pose proof (length_le_cap c l L). unfold char_fuel. lia.
    + exists l, it', s. apply shows_rep in R. repeat split; assumption || apply R.
  - right; left. destruct (from_chars_truncate_stop c Hc next (char_fuel c) it l x it' Hy L1 L2) as (s & E & R).
    + pose proof (length_le_cap c l L1). unfold char_fuel. lia.
    + exists l, x, it', s. apply shows_rep in R. split; [exact Hy|]. split; [lia|]. split; assumption.
  - right; right. exists l, it'. split; [exact Hp|]. split; [exact L|].
    apply (from_chars_truncate_panic c Hc next (char_fuel c) it l it' Hp L).
    pose proof (length_le_cap c l L). unfold char_fuel. lia.
Qed.

Lemma c45_collect c {IT} (next : iter IT char) it : valid_cfg c -> well_behaved next ->
  (exists l it' s, ends next it l it' /\ blen l <= cap c /\
     from_iter_chars c (char_fuel c) next it = (Ret s, it') /\ shows c s l) \/
  (exists l x it' s, yields next it (l ++ [x]) it' /\ blen l <= cap c < blen l + clen x /\
     from_iter_chars c (char_fuel c) next it = (Ret s, it') /\ shows c s l) \/
  (exists l it', panics next it l it' /\ blen l <= cap c /\
     from_iter_chars c (char_fuel c) next it = (Panic, it')).
Proof. exact (c45_from_chars_truncate c next it). Qed.

Lemma c45_try_from_chars c {IT} (next : iter IT char) it : valid_cfg c -> well_behaved next ->
  (exists l it' s, ends next it l it' /\ blen l <= cap c /\
     try_from_chars c (char_fuel c) next it = (Ret (Ok s), it') /\ shows c s l) \/
  (exists l x it', yields next it (l ++ [x]) it' /\ blen l <= cap c < blen l + clen x /\
     try_from_chars c (char_fuel c) next it = (Ret (Err mkOutOfBounds), it')) \/
  (exists l it', panics next it l it' /\ blen l <= cap c /\
     try_from_chars c (char_fuel c) next it = (Panic, it')).
Proof.
  intros Hc Hw. destruct (chars_trichotomy c next it Hw) as
    [(l & it' & He & L)|[(l & x & it' & Hy & L1 & L2)|(l & it' & Hp & L)]].
  - left. destruct (try_from_chars_end c Hc next (char_fuel c) it l it' He L) as (s & E & R).
    + pose proof (length_le_cap c l L). unfold char_fuel. lia.
    + exists l, it', s. apply shows_rep in R. repeat split; assumption || apply R.
  - right; left. exists l, x, it'. split; [exact Hy|]. split; [lia|].
    apply (try_from_chars_stop c Hc next (char_fuel c) it l x it' Hy L1 L2).
    pose proof (length_le_cap c l L1). unfold char_fuel. lia.
  - right; right. exists l, it'. split; [exact Hp|]. split; [exact L|].
    apply (try_from_chars_panic c Hc next (char_fuel c) it l it' Hp L).
    pose proof (length_le_cap c l L). unfold char_fuel. lia.
Qed.

Lemma c45_extend_chars c {IT} (next : iter IT char) it s t : valid_cfg c -> well_behaved next -> shows c s t ->
  (exists l it' s' p, ends next it l it' /\ blen l <= cap c /\ longest_fit (cap c - blen t) l p /\
     extend_chars c (char_fuel c) next it s = (Ret tt, it', s') /\ shows c s' (t ++ p)) \/
  (exists l x it' s' p, yields next it (l ++ [x]) it' /\ blen l <= cap c < blen l + clen x /\
     longest_fit (cap c - blen t) l p /\
     extend_chars c (char_fuel c) next it s = (Ret tt, it', s') /\ shows c s' (t ++ p)) \/
  (exists l it', panics next it l it' /\ blen l <= cap c /\
     extend_chars c (char_fuel c) next it s = (Panic, it', s)).
Proof.
  intros Hc Hw Hs. apply shows_rep in Hs. unfold extend_chars.
  destruct (c45_from_chars_truncate c next it Hc Hw) as
    [(l & it' & a & He & L & E & R)|[(l & x & it' & a & Hy & L & E & R)|(l & it' & Hp & L & E)]];
    rewrite E.
  - left. apply shows_rep in R. destruct (extend_with_Ret c Hc a l it' s t R Hs) as (s' & E' & R').
    exists l, it', s', (fit (cap c - blen t) l). split; [exact He|]. split; [exact L|].
    split; [apply fit_longest|]. split; [exact E'|]. apply shows_rep. exact R'.
  - right; left. apply shows_rep in R. destruct (extend_with_Ret c Hc a l it' s t R Hs) as (s' & E' & R').
    exists l, x, it', s', (fit (cap c - blen t) l). split; [exact Hy|]. split; [exact L|].
    split; [apply fit_longest|]. split; [exact E'|]. apply shows_rep. exact R'.
  - right; right. exists l, it'. split; [exact Hp|]. split; [exact L|]. reflexivity.
Qed.

(** At most [capacity + 1] items are pulled in each case above. *)
Lemma c45_pulled c (l : text) (x : char) : blen l <= cap c -> lenN (l ++ [x]) <= cap c + 1.
Proof.
  intros L. pose proof (length_le_blen l). unfold lenN in *. rewrite app_length. cbn [length]. lia.
Qed.

(** ** C12, C13 *)
Lemma c12_try_from_chars c {IT} (next : iter IT char) it l it' : valid_cfg c -> ends next it l it' ->
  (blen l <= cap c -> exists s, try_from_chars c (char_fuel c) next it = (Ret (Ok s), it') /\ shows c s l) /\
  (cap c < blen l -> exists it1, try_from_chars c (char_fuel c) next it = (Ret (Err mkOutOfBounds), it1)).
Proof.
  intros Hc He. split; intros L.
  - destruct (try_from_chars_end c Hc next (char_fuel c) it l it' He L) as (s & E & R).
    + pose proof (length_le_cap c l L). unfold char_fuel. lia.
    + exists s. split; [exact E | apply shows_rep; exact R].
  - destruct (exceeds_chars _ _ L) as (l1 & x & l2 & -> & L1 & L2).
    destruct (ends_yields_app _ _ _ _ _ _ He) as (it1 & Hy). exists it1.
    apply (try_from_chars_stop c Hc next (char_fuel c) it l1 x it1 Hy L1 L2).
    pose proof (length_le_cap c l1 L1). unfold char_fuel. lia.
Qed.

Lemma c13_from_chars_truncate c {IT} (next : iter IT char) it l it' : valid_cfg c -> ends next it l it' ->
  exists p s it1, longest_fit (cap c) l p /\
    from_chars_truncate c (char_fuel c) next it = (Ret s, it1) /\
    from_iter_chars c (char_fuel c) next it = (Ret s, it1) /\ shows c s p.
Proof.
  intros Hc He. exists (fit (cap c) l).
  assert (H : exists s it1, from_chars_truncate c (char_fuel c) next it = (Ret s, it1) /\ rep c s (fit (cap c) l)).
  { destruct (N.leb_spec (blen l) (cap c)) as [L|L].
    - rewrite fit_id by exact L.
      destruct (from_chars_truncate_end c Hc next (char_fuel c) it l it' He L) as (s & E & R).
      + pose proof (length_le_cap c l L). unfold char_fuel. lia.
      + exists s, it'. split; assumption.
    - destruct (exceeds_chars _ _ L) as (l1 & x & l2 & -> & L1 & L2).
      destruct (ends_yields_app _ _ _ _ _ _ He) as (it1 & Hy).
      destruct (from_chars_truncate_stop c Hc next (char_fuel c) it l1 x it1 Hy L1 L2) as (s & E & R).
      + pose proof (length_le_cap c l1 L1). unfold char_fuel. lia.
      + exists s, it1. rewrite fit_stop by assumption. split; assumption. }
  destruct H as (s & it1 & E & R). exists s, it1. unfold from_iter_chars.
  split; [apply fit_longest|]. split; [exact E|]. split; [exact E|]. apply shows_rep. exact R.
Qed.

(** ** C14 *)
Lemma c14_try_from_utf16 c us items : valid_cfg c -> utf16_items us items ->
  (forall t, items = map Some t -> blen t <= cap c -> makes_ok c (try_from_utf16 c us) t) /\
  (forall t rest, items = map Some t ++ None :: rest -> blen t <= cap c ->
     try_from_utf16 c us = Ret (Err EUtf16)) /\
  (forall t x rest, items = map Some t ++ Some x :: rest -> blen t <= cap c < blen t + clen x ->
     try_from_utf16 c us = Ret (Err EOutOfBounds)).
Proof.
  intros Hc Hi. split; [|split].
  - intros t -> L. destruct (try_from_utf16_ok c Hc us t Hi L) as (s & E & R).
    exists s. split; [exact E | apply shows_rep; exact R].
  - intros t rest -> L. exact (try_from_utf16_bad c Hc us t rest Hi L).
  - intros t x rest -> [L1 L2]. exact (try_from_utf16_long c Hc us t x rest Hi L1 L2).
Qed.

(** One of the three cases always applies, for every slice of 16 bit units. *)
Lemma c14_cases_exhaust c us : Forall (fun u => u < 65536) us ->
  exists items, utf16_items us items /\
  ((exists t, items = map Some t /\ blen t <= cap c) \/
   (exists t rest, items = map Some t ++ None :: rest /\ blen t <= cap c) \/
   (exists t x rest, items = map Some t ++ Some x :: rest /\ blen t <= cap c < blen t + clen x)).
Proof.
  intros Hu. destruct (utf16_items_total us Hu) as (items & Hi). exists items. split; [exact Hi|].
  destruct (items_cases (cap c) items) as [(t & E & L)|[(t & r & E & L)|(t & x & r & E & L1 & L2)]].
  - left. exists t. split; assumption.
  - right; left. exists t, r. split; assumption.
  - right; right. exists t, x, r. split; [exact E|]. lia.
Qed.

(** ** C15 *)
Lemma c15_from_utf16_truncate c us items : valid_cfg c -> utf16_items us items ->
  (forall t, items = map Some t -> blen t <= cap c -> makes_ok c (from_utf16_truncate c us) t) /\
  (forall t rest, items = map Some t ++ None :: rest -> blen t <= cap c ->
     from_utf16_truncate c us = Ret (Err mkUtf16)) /\
  (forall t x rest, items = map Some t ++ Some x :: rest -> blen t <= cap c < blen t + clen x ->
     makes_ok c (from_utf16_truncate c us) t).
Proof.
  intros Hc Hi. split; [|split].
  - intros t -> L. destruct (from_utf16_truncate_ok c Hc us t Hi L) as (s & E & R).
    exists s. split; [exact E | apply shows_rep; exact R].
  - intros t rest -> L. exact (from_utf16_truncate_bad c Hc us t rest Hi L).
  - intros t x rest -> [L1 L2]. destruct (from_utf16_truncate_long c Hc us t x rest Hi L1 L2) as (s & E & R).
    exists s. split; [exact E | apply shows_rep; exact R].
Qed.

(** Valid UTF-16: the longest prefix that fits. *)
Lemma c15_valid_input c us t : valid_cfg c -> utf16_items us (map Some t) ->
  exists p, longest_fit (cap c) t p /\ makes_ok c (from_utf16_truncate c us) p.
Proof.
  intros Hc Hi. destruct (c15_from_utf16_truncate c us _ Hc Hi) as (H1 & _ & H3).
  exists (fit (cap c) t). split; [apply fit_longest|].
  destruct (N.leb_spec (blen t) (cap c)) as [L|L].
  - rewrite fit_id by exact L. apply H1; [reflexivity | exact L].
  - destruct (exceeds_chars _ _ L) as (l1 & x & l2 & -> & L1 & L2).
    rewrite fit_stop by assumption. apply (H3 l1 x (map Some l2)); [rewrite map_app; reflexivity | lia].
Qed.

(** ** C16 *)
Lemma c16_from_utf16_lossy_truncate c us items : valid_cfg c -> utf16_items us items ->
  exists p, longest_fit (cap c) (lossy items) p /\ makes c (from_utf16_lossy_truncate c us) p.
Proof.
  intros Hc Hi. destruct (from_utf16_lossy_truncate_runs c Hc us items Hi) as (s & E & R).
  exists (fit (cap c) (lossy items)). split; [apply fit_longest|].
  exists s. split; [exact E | apply shows_rep; exact R].
Qed.

(** ** C17 *)
Lemma lossy_Some t : lossy (map Some t) = t.
Proof. unfold lossy. rewrite map_map. apply map_id. Qed.

Lemma c17_round_trip c t : valid_cfg c -> blen t <= cap c ->
  makes_ok c (try_from_utf16 c (enc16 t)) t /\ makes_ok c (from_utf16_truncate c (enc16 t)) t /\
  makes c (from_utf16_lossy_truncate c (enc16 t)) t.
Proof.
  intros Hc L. pose proof (enc16_items t) as Hi. split; [|split].
  - apply (proj1 (c14_try_from_utf16 c _ _ Hc Hi)); [reflexivity | exact L].
  - apply (proj1 (c15_from_utf16_truncate c _ _ Hc Hi)); [reflexivity | exact L].
  - destruct (c16_from_utf16_lossy_truncate c _ _ Hc Hi) as (p & Hp & Hm).
    rewrite lossy_Some in Hp. apply longest_fit_fit in Hp. rewrite fit_id in Hp by exact L. subst p. exact Hm.
Qed.

(** ** C22 *)
Lemma filter_run_st {F} (f : char -> ST F bool) (g : F -> char -> bool * F) t :
  (forall a y, f a y = (Ret (fst (g y a)), snd (g y a))) ->
  forall x, filter_run f x t = (Ret (fst (filter_st g x t)), snd (filter_st g x t)).
Proof.
  intros Hf. induction t as [|a t IH]; intros x; cbn [filter_run filter_st]; [reflexivity|].
  rewrite Hf. destruct (g x a) as [b x1]. cbn [fst snd]. rewrite IH.
  destruct (filter_st g x1 t) as [l x2]. cbn [fst snd]. destruct b; reflexivity.
Qed.

Lemma c22_retain c {F} (f : char -> ST F bool) (g : F -> char -> bool * F) x s t :
  valid_cfg c -> shows c s t -> (forall a y, f a y = (Ret (fst (g y a)), snd (g y a))) ->
  exists s', retain c f x s = (Ret tt, s', snd (filter_st g x t)) /\ shows c s' (fst (filter_st g x t)).
Proof.
  intros Hc Hs Hf. apply shows_rep in Hs.
  destruct (retain_Ret c Hc f x s t _ _ Hs (filter_run_st f g t Hf x)) as (s' & E & R).
  exists s'. split; [exact E | apply shows_rep; exact R].
Qed.

Lemma filter_st_log (p : char -> bool) t log :
  filter_st (fun log a => (p a, log ++ [a])) log t = (filter p t, log ++ t).
Proof.
  revert log; induction t as [|a t IH]; intros log; cbn [filter_st filter]; [rewrite app_nil_r; reflexivity|].
  rewrite IH. rewrite <- app_assoc. cbn [app]. destruct (p a); reflexivity.
Qed.

(** A closure that writes down its arguments sees every character once, in order. *)
Lemma c22_calls c (p : char -> bool) s t : valid_cfg c -> shows c s t ->
  exists s', retain c (fun a log => (Ret (p a), log ++ [a])) [] s = (Ret tt, s', t) /\ shows c s' (filter p t).
Proof.
  intros Hc Hs.
  destruct (c22_retain c (fun a log => (Ret (p a), log ++ [a])) (fun log a => (p a, log ++ [a])) [] s t Hc Hs)
    as (s' & E & R); [reflexivity|].
  rewrite filter_st_log in E, R. cbn [fst snd app] in E, R. exists s'. split; assumption.
Qed.

(** ** C33 *)
Lemma c33_extend_chars c {IT} (next : iter IT char) it l it' s t :
  valid_cfg c -> shows c s t -> ends next it l it' ->
  exists p s' it1, longest_fit (cap c - blen t) l p /\
    extend_chars c (char_fuel c) next it s = (Ret tt, it1, s') /\
    extend_char_refs c (char_fuel c) next it s = (Ret tt, it1, s') /\ shows c s' (t ++ p).
Proof.
  intros Hc Hs He. apply shows_rep in Hs. pose proof (rep_cap c s t Hs) as Hcap.
  destruct (c13_from_chars_truncate c next it l it' Hc He) as (p & a & it1 & Hp & E & _ & R).
  apply shows_rep in R. apply longest_fit_fit in Hp. subst p.
  destruct (extend_with_Ret c Hc a _ it1 s t R Hs) as (s' & E' & R').
  rewrite t_extend_fit in R' by assumption.
  exists (fit (cap c - blen t) l), s', it1. split; [apply fit_longest|].
  assert (Ee : extend_chars c (char_fuel c) next it s = (Ret tt, it1, s')) by (unfold extend_chars; rewrite E; exact E').
  split; [exact Ee|]. split; [exact Ee|]. apply shows_rep. exact R'.
Qed.

(** The iterator is left behind the first item that does not fit an empty value. *)
Lemma c33_extend_strs c {IT} (next : iter IT as_ref_item) it l it' s t fuel :
  valid_cfg c -> shows c s t -> ends next it (map item_of l) it' -> (length l < fuel)%nat ->
  exists p s' it1, longest_fit (cap c - blen t) (concat l) p /\
    extend_strs c fuel next it s = (Ret tt, it1, s') /\ shows c s' (t ++ p) /\
    (blen (concat l) <= cap c -> it1 = it') /\
    (cap c < blen (concat l) -> exists l1 x l2, l = l1 ++ x :: l2 /\
       blen (concat l1) <= cap c < blen (concat l1) + blen x /\ yields next it (map item_of (l1 ++ [x])) it1).
Proof.
  intros Hc Hs He Hf. apply shows_rep in Hs.
  destruct (extend_strs_ends c Hc next fuel it l it' s t Hs He Hf) as (s' & it1 & E & R).
  exists (fit (cap c - blen t) (concat l)), s', it1. split; [apply fit_longest|].
  split; [exact E|]. split; [apply shows_rep; exact R|].
  assert (Hit : forall a, fst (from_iterator_truncate c fuel next it) = Ret a ->
    it1 = snd (from_iterator_truncate c fuel next it)).
  { intros a Ea. unfold extend_strs, extend_with in E. destruct (from_iterator_truncate c fuel next it) as [o i].
    cbn [fst snd] in *. subst o.
    destruct ((b <~ slift (as_ref_str c a) ;; push_str_truncate c b) s) as [o s1].
    injection E as _ <- _. reflexivity. }
  destruct (c11_from_iterator_truncate c next it l it' fuel Hc He Hf) as (p & _ & H1 & H2). split; intros L.
  - destruct (H1 L) as (a & Ea & _). rewrite Ea in Hit. exact (Hit a eq_refl).
  - destruct (H2 L) as (l1 & x & l2 & i & a & -> & L1 & Hy & Ea & _). rewrite Ea in Hit.
    rewrite (Hit a eq_refl). exists l1, x, l2. split; [reflexivity | split; [exact L1 | exact Hy]].
Qed.

(** ** C44 *)
Lemma filter_run_panics {F} (f : char -> ST F bool) pre a post kept : forall x x1 x2,
  filter_run f x pre = (Ret kept, x1) -> f a x1 = (Panic, x2) ->
  filter_run f x (pre ++ a :: post) = (Panic, x2).
Proof.
  revert kept; induction pre as [|b pre IH]; intros kept x x1 x2 E1 E2; cbn [filter_run app] in *.
  - injection E1 as _ ->. rewrite E2. reflexivity.
  - destruct (f b x) as [[k| | |] y]; try discriminate.
    destruct (filter_run f y pre) as [[l| | |] z] eqn:E; try discriminate.
    injection E1 as _ ->. rewrite (IH l y x1 x2 E E2). reflexivity.
Qed.

(** The closure handles [pre] and panics on [a]. *)
Lemma c44_retain c {F} (f : char -> ST F bool) s pre a post kept x x1 x2 :
  valid_cfg c -> shows c s (pre ++ a :: post) ->
  filter_run f x pre = (Ret kept, x1) -> f a x1 = (Panic, x2) ->
  retain c f x s = (Panic, s, x2).
Proof.
  intros Hc Hs E1 E2. apply shows_rep in Hs.
  exact (retain_Panic c Hc f x s _ x2 Hs (filter_run_panics f pre a post kept x x1 x2 E1 E2)).
Qed.

Lemma c44_extend c : valid_cfg c -> forall s,
  (forall IT (next : iter IT char) it l it', panics next it l it' -> blen l <= cap c ->
     extend_chars c (char_fuel c) next it s = (Panic, it', s) /\
     extend_char_refs c (char_fuel c) next it s = (Panic, it', s)) /\
  (forall IT (next : iter IT as_ref_item) it l it' fuel, panics next it (map item2 l) it' ->
     blen (concat (map fst l)) <= cap c -> (length l < fuel)%nat ->
     extend_strs c fuel next it s = (Panic, it', s)).
Proof.
  intros Hc s. split.
  - intros IT next it l it' Hp L.
    assert (E : extend_chars c (char_fuel c) next it s = (Panic, it', s)).
    { apply (extend_chars_panic c Hc next (char_fuel c) it l it' s Hp L).
      pose proof (length_le_cap c l L). unfold char_fuel. lia. }
    split; exact E.
  - intros IT next it l it' fuel Hp L Hf. exact (extend_strs_panic c Hc next fuel it l it' s Hp L Hf).
Qed.

Lemma c44_constructors c : valid_cfg c ->
  (forall IT (next : iter IT char) it l it', panics next it l it' -> blen l <= cap c ->
     try_from_chars c (char_fuel c) next it = (Panic, it') /\
     from_chars_truncate c (char_fuel c) next it = (Panic, it') /\
     from_iter_chars c (char_fuel c) next it = (Panic, it')) /\
  (forall IT (next : iter IT as_ref_item) it l it' fuel, panics next it (map item2 l) it' ->
     blen (concat (map fst l)) <= cap c -> (length l < fuel)%nat ->
     try_from_iterator c fuel next it = (Panic, it') /\
     from_iterator_truncate c fuel next it = (Panic, it') /\
     from_iter_strs c fuel next it = (Panic, it')).
Proof.
  intros Hc. split.
  - intros IT next it l it' Hp L.
    assert (Hf : (length l < char_fuel c)%nat) by (pose proof (length_le_cap c l L); unfold char_fuel; lia).
    split; [exact (try_from_chars_panic c Hc next _ it l it' Hp L Hf)
           | split; exact (from_chars_truncate_panic c Hc next _ it l it' Hp L Hf)].
  - intros IT next it l it' fuel Hp L Hf.
    split; [exact (try_from_iterator_panic c Hc next _ it l it' Hp L Hf)
           | split; exact (from_iterator_truncate_panic c Hc next _ it l it' Hp L Hf)].
Qed.

(** ** C46 *)
Lemma c46_fits c {IT} (next : iter IT as_ref_item) it (l : list (text * text)) it' fuel :
  valid_cfg c -> ends next it (map item2 l) it' -> blen (concat (map fst l)) <= cap c -> (length l < fuel)%nat ->
  exists s, from_iterator_truncate c fuel next it = (Ret s, it') /\ shows c s (concat (map fst l)).
Proof.
  intros Hc He L Hf. destruct (from_iterator_truncate_end c Hc next fuel it l it' He L Hf) as (s & E & R).
  exists s. split; [exact E | apply shows_rep; exact R].
Qed.

(** [w1], [w2]: what the item that does not fit answers first and second. *)
Lemma c46_stops c {IT} (next : iter IT as_ref_item) it (l : list (text * text)) w1 w2 it' fuel :
  valid_cfg c -> yields next it (map item2 (l ++ [(w1, w2)])) it' ->
  blen (concat (map fst l)) <= cap c < blen (concat (map fst l)) + blen w1 -> (length l < fuel)%nat ->
  exists q s, longest_fit (cap c - blen (concat (map fst l))) w2 q /\
    from_iterator_truncate c fuel next it = (Ret s, it') /\ shows c s (concat (map fst l) ++ q).
Proof.
  intros Hc Hy [L1 L2] Hf.
  destruct (from_iterator_truncate_stop c Hc next fuel it l (w1, w2) it' Hy L1 L2 Hf) as (s & E & R).
  eexists _, s. split; [apply fit_longest|]. split; [exact E | apply shows_rep; exact R].
Qed.

(** [try_from_iterator] looks at the first answer only. *)
Lemma c46_try c {IT} (next : iter IT as_ref_item) it (l : list (text * text)) fuel :
  valid_cfg c -> blen (concat (map fst l)) <= cap c -> (length l < fuel)%nat ->
  (forall it', ends next it (map item2 l) it' ->
     exists s, try_from_iterator c fuel next it = (Ret (Ok s), it') /\ shows c s (concat (map fst l))) /\
  (forall w1 w2 it', yields next it (map item2 (l ++ [(w1, w2)])) it' -> cap c < blen (concat (map fst l)) + blen w1 ->
     try_from_iterator c fuel next it = (Ret (Err mkOutOfBounds), it')).
Proof.
  intros Hc L Hf. split.
  - intros it' He. destruct (try_from_iterator_end c Hc next fuel it l it' He L Hf) as (s & E & R).
    exists s. split; [exact E | apply shows_rep; exact R].
  - intros w1 w2 it' Hy L2. exact (try_from_iterator_stop c Hc next fuel it l (w1, w2) it' Hy L L2 Hf).
Qed.
