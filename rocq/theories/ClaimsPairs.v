(** The fallible and the truncating variants of a call (C67), ways out of a string
    and back into one (C68), the crate's unit tests for every input (C69). *)
From Coq Require Import ZArith ZifyBool ZifyN ZifyNat Arith Lia.
From Verif Require Import Base Char Spec RustStd RustFmt ModelError Model ModelImpl ModelDrain ModelCache ModelIntegration RustJson
  TextOps SpecOps ModelOps IterSpec SpecJson ListFacts Utf8Facts CoreFacts MethodFacts IterFacts Utf16Facts ImplFacts Obs ObsCache
  ClaimsEdit ClaimsLaws ClaimsIter ClaimsTrait ClaimsCache ClaimsTests ClaimsFit ClaimsJson.

(** ** C67 *)
Lemma fit_whole n w p : longest_fit n w p -> blen w <= n -> p = w.
Proof. intros H L. apply longest_fit_fit in H. subst p. apply fit_all. exact L. Qed.

Lemma fit_short n w p : longest_fit n w p -> n < blen w -> prefix_of p w /\ p <> w.
Proof. intros (P1 & P2 & _) L. split; [exact P1|]. intros ->. lia. Qed.

Lemma c67_new c w : valid_cfg c ->
  exists p, makes c (from_str_truncate c (enc w)) p /\
  ((p = w /\ makes_ok c (try_from_str c (enc w)) w) \/
   (prefix_of p w /\ p <> w /\ try_from_str c (enc w) = Ret (Err mkOutOfBounds))).
Proof.
  intros Hc. destruct (c09_from_str_truncate c w Hc) as (p & Hp & H1 & _). exists p. split; [exact H1|].
  destruct (c08_try_from_str c w Hc) as [T1 T2]. destruct (N.leb_spec (blen w) (cap c)) as [L|L].
  - left. split; [exact (fit_whole _ _ _ Hp L) | exact (proj1 (T1 L))].
  - right. destruct (fit_short _ _ _ Hp L) as [P1 P2]. split; [exact P1|]. split; [exact P2 | exact (proj1 (T2 L))].
Qed.

Lemma c67_push c s t w : valid_cfg c -> shows c s t ->
  exists p, returns c (push_str_truncate c (enc w) s) tt (t ++ p) /\
  ((p = w /\ returns c (try_push_str c (enc w) s) (Ok tt) (t ++ w)) \/
   (prefix_of p w /\ p <> w /\ try_push_str c (enc w) s = (Ret (Err mkOutOfBounds), s))).
Proof.
  intros Hc Hs. destruct (c06_push_str_truncate c s t w Hc Hs) as (p & Hp & H1). exists p. split; [exact H1|].
  destruct (c05_try_push_str c s t w Hc Hs) as [T1 T2]. pose proof (shows_cap c s t Hs) as B.
  destruct (N.leb_spec (blen t + blen w) (cap c)) as [L|L].
  - left. split; [apply (fit_whole _ _ _ Hp); lia | exact (T1 L)].
  - right. destruct (fit_short _ _ _ Hp) as [P1 P2]; [lia|]. split; [exact P1|]. split; [exact P2 | exact (T2 L)].
Qed.

Lemma c67_insert c s pre post w : valid_cfg c -> shows c s (pre ++ post) ->
  exists p, returns c (insert_str_truncate c (blen pre) (enc w) s) (Ok tt) (pre ++ p ++ post) /\
  ((p = w /\ returns c (try_insert_str c (blen pre) (enc w) s) (Ok tt) (pre ++ w ++ post)) \/
   (prefix_of p w /\ p <> w /\ try_insert_str c (blen pre) (enc w) s = (Ret (Err EOutOfBounds), s))).
Proof.
  intros Hc Hs. pose proof (shows_cap c s _ Hs) as B.
  destruct (insert_truncate_texts c s _ (blen pre) w Hc Hs) as (p & Hp & _ & _ & _ & H1).
  destruct (insert_texts c s _ (blen pre) w Hc Hs) as (_ & _ & _ & _ & T2 & T1).
  assert (Sp : splits (pre ++ post) (blen pre) pre post) by (split; reflexivity).
  exists p. split; [exact (H1 _ _ Sp)|]. destruct (N.leb_spec (blen (pre ++ post) + blen w) (cap c)) as [L|L].
  - left. split; [apply (fit_whole _ _ _ Hp); lia | exact (T1 _ _ Sp L)].
  - right. destruct (fit_short _ _ _ Hp) as [P1 P2]; [lia|]. split; [exact P1|]. split; [exact P2|].
    apply T2; [exists pre, post; exact Sp | exact L |]. intros ->. apply P2. destruct P1 as (r & Er).
    symmetry in Er. apply app_eq_nil in Er. apply Er.
Qed.

(** An index the truncating call rejects is rejected by the other one too, and what
    the other one accepts the truncating call does in the same way. *)
Lemma c67_insert_index c s t i w : valid_cfg c -> shows c s t ->
  (forall e, insert_str_truncate c i (enc w) s = (Ret (Err e), s) ->
     exists e', try_insert_str c i (enc w) s = (Ret (Err e'), s)) /\
  (forall s1, try_insert_str c i (enc w) s = (Ret (Ok tt), s1) ->
     exists u, shows c s1 u /\ returns c (insert_str_truncate c i (enc w) s) (Ok tt) u).
Proof.
  intros Hc Hs. pose proof (shows_cap c s _ Hs) as B.
  destruct (insert_truncate_texts c s t i w Hc Hs) as (p & Hp & I1 & I2 & I3 & I4).
  destruct (insert_texts c s t i w Hc Hs) as (T1 & T2 & T3 & T4 & T5 & T6).
  destruct (N.leb_spec i (blen t)) as [L|L].
  2:{ rewrite (T1 L). split; [intros e _; eexists; reflexivity | intros s1 E; discriminate E]. }
  destruct (boundary_dec t i) as [(pre & post & Sp)|Nb].
  - destruct (I4 _ _ Sp) as (s2 & E2 & S2). rewrite E2. split; [intros e E; discriminate E|].
    intros s1 E. destruct (N.leb_spec (blen t + blen w) (cap c)) as [F|F].
    + destruct (T6 _ _ Sp F) as (s3 & E3 & S3). rewrite E3 in E. injection E as <-. exists (pre ++ w ++ post).
      split; [exact S3|]. rewrite <- (fit_whole _ _ _ Hp) by lia. exists s2. split; [reflexivity | exact S2].
    + destruct w as [|x w]; [cbn [blen] in F; lia|]. rewrite T5 in E; [discriminate E | exists pre, post; exact Sp | exact F | discriminate].
  - split.
    + intros e E. destruct w as [|x w].
      { destruct (I3 L) as (s2 & E2 & _); [|rewrite E2 in E; discriminate E].
        destruct Hp as ((r & Er) & _). symmetry in Er. apply app_eq_nil in Er. apply Er. }
      destruct (N.leb_spec (blen (x :: w)) (cap c)) as [F|F].
      * eexists. apply T4; [exact L | discriminate | exact F | exact Nb].
      * eexists. apply T3; [exact L | exact F].
    + intros s1 E. destruct w as [|x w].
      { destruct (T2 L eq_refl) as (s3 & E3 & S3). rewrite E3 in E. injection E as <-. exists t. split; [exact S3|].
        apply I3; [exact L|]. destruct Hp as ((r & Er) & _). symmetry in Er. apply app_eq_nil in Er. apply Er. }
      destruct (N.leb_spec (blen (x :: w)) (cap c)) as [F|F].
      * rewrite T4 in E; [discriminate E | exact L | discriminate | exact F | exact Nb].
      * rewrite T3 in E; [discriminate E | exact L | exact F].
Qed.

Lemma c67_chars c {IT} (next : iter IT char) it l it' : valid_cfg c -> ends next it l it' ->
  exists p s it1, from_chars_truncate c (char_fuel c) next it = (Ret s, it1) /\ shows c s p /\
  ((p = l /\ exists s', try_from_chars c (char_fuel c) next it = (Ret (Ok s'), it1) /\ shows c s' l) \/
   (prefix_of p l /\ p <> l /\ try_from_chars c (char_fuel c) next it = (Ret (Err mkOutOfBounds), it1))).
Proof.
  intros Hc He. destruct (N.leb_spec (blen l) (cap c)) as [L|L].
  - assert (F : (length l < char_fuel c)%nat) by (pose proof (length_le_cap c l L); unfold char_fuel; lia).
    destruct (from_chars_truncate_end c Hc next _ it l it' He L F) as (s & E & R).
    destruct (try_from_chars_end c Hc next _ it l it' He L F) as (s' & E' & R').
    exists l, s, it'. split; [exact E|]. split; [apply shows_rep; exact R|]. left. split; [reflexivity|].
    exists s'. split; [exact E' | apply shows_rep; exact R'].
  - destruct (exceeds_chars _ _ L) as (l1 & x & l2 & -> & L1 & L2).
    assert (F : (length l1 < char_fuel c)%nat) by (pose proof (length_le_cap c l1 L1); unfold char_fuel; lia).
    destruct (ends_yields_app _ _ _ _ _ _ He) as (it1 & Hy).
    destruct (from_chars_truncate_stop c Hc next _ it l1 x it1 Hy L1 L2 F) as (s & E & R).
    exists l1, s, it1. split; [exact E|]. split; [apply shows_rep; exact R|]. right.
    split; [exists (x :: l2); reflexivity|]. split; [|exact (try_from_chars_stop c Hc next _ it l1 x it1 Hy L1 L2 F)].
    intros H. rewrite <- (app_nil_r l1) in H at 1. apply app_inv_head in H. discriminate H.
Qed.

Lemma c67_strs c {IT} (next : iter IT as_ref_item) it l it' fuel :
  valid_cfg c -> ends next it (map item_of l) it' -> (length l < fuel)%nat ->
  exists p s it1, from_iterator_truncate c fuel next it = (Ret s, it1) /\ shows c s p /\
  ((p = concat l /\ exists s', try_from_iterator c fuel next it = (Ret (Ok s'), it1) /\ shows c s' (concat l)) \/
   (prefix_of p (concat l) /\ p <> concat l /\ try_from_iterator c fuel next it = (Ret (Err mkOutOfBounds), it1))).
Proof.
  intros Hc He Hf. destruct (c11_from_iterator_truncate c next it l it' fuel Hc He Hf) as (p & Hp & T1 & _).
  destruct (c10_try_from_iterator c next it l it' fuel Hc He Hf) as [R1 _].
  destruct (N.leb_spec (blen (concat l)) (cap c)) as [L|L].
  - destruct (T1 L) as (s & E & Ss). destruct (R1 L) as (s' & E' & Ss'). exists p, s, it'. split; [exact E|]. split; [exact Ss|].
    left. split; [exact (fit_whole _ _ _ Hp L)|]. exists s'. split; assumption.
  - clear T1 R1 Hp p. destruct (exceeds _ _ L) as (l1 & x & l2 & -> & L1 & L2).
    rewrite map_app in He. cbn [map] in He. destruct (ends_yields_app _ _ _ _ _ _ He) as (it1 & Hy).
    assert (Hy' : yields next it (map item2 (map (fun w => (w, w)) l1 ++ [(x, x)])) it1).
    { rewrite map_app, <- map_item_of. exact Hy. }
    assert (F : (length (map (fun w : text => (w, w)) l1) < fuel)%nat).
    { rewrite map_length. rewrite app_length in Hf. cbn [length] in Hf. lia. }
    assert (L1' := L1). assert (L2' := L2). rewrite <- concat_fst in L1', L2'.
    destruct (from_iterator_truncate_stop c Hc next fuel it _ (x, x) it1 Hy' L1' L2' F) as (s & E & R).
    exists (concat l1 ++ fit (cap c - blen (concat l1)) x), s, it1. rewrite concat_fst in R. cbn [snd] in R.
    split; [exact E|]. split; [apply shows_rep; exact R|]. right.
    split; [|split; [|exact (try_from_iterator_stop c Hc next fuel it _ (x, x) it1 Hy' L1' L2' F)]].
    + destruct (fit_prefix (cap c - blen (concat l1)) x) as (r & Er). exists (r ++ concat l2).
      rewrite concat_app. cbn [concat]. rewrite <- !app_assoc. f_equal. rewrite app_assoc, <- Er. reflexivity.
    + intros H. rewrite <- H in L. rewrite blen_app in L. pose proof (fit_le (cap c - blen (concat l1)) x). lia.
Qed.

Lemma fit_next n t x r : blen t <= n < blen t + clen x -> longest_fit n (t ++ x :: r) t.
Proof.
  intros L. replace t with (fit n (t ++ x :: r)) at 2; [apply fit_longest|].
  revert n L. induction t as [|y t IH]; intros n L; cbn [app fit blen] in *.
  - destruct (N.leb_spec (clen x) n); [lia | reflexivity].
  - destruct (N.leb_spec (clen y) n); [|lia]. rewrite IH by lia. reflexivity.
Qed.

Lemma lossy_app a b : lossy (a ++ b) = lossy a ++ lossy b.
Proof. apply map_app. Qed.

Lemma c67_utf16 c us : valid_cfg c -> Forall (fun u => u < 65536) us ->
  (exists t, makes_ok c (try_from_utf16 c us) t /\ makes_ok c (from_utf16_truncate c us) t /\
     makes c (from_utf16_lossy_truncate c us) t) \/
  (try_from_utf16 c us = Ret (Err EUtf16) /\ from_utf16_truncate c us = Ret (Err mkUtf16) /\
     exists t, makes c (from_utf16_lossy_truncate c us) t) \/
  (try_from_utf16 c us = Ret (Err EOutOfBounds) /\
     exists t, makes_ok c (from_utf16_truncate c us) t /\ makes c (from_utf16_lossy_truncate c us) t).
Proof.
  intros Hc Hu. destruct (c14_cases_exhaust c us Hu) as (items & Hi & H).
  destruct (c14_try_from_utf16 c us items Hc Hi) as (A1 & A2 & A3).
  destruct (c15_from_utf16_truncate c us items Hc Hi) as (B1 & B2 & B3).
  destruct (c16_from_utf16_lossy_truncate c us items Hc Hi) as (p & Hp & Cp).
  destruct H as [(t & E & L)|[(t & r & E & L)|(t & x & r & E & L)]].
  - left. exists t. split; [exact (A1 t E L)|]. split; [exact (B1 t E L)|]. subst items. rewrite lossy_Some in Hp.
    rewrite (fit_whole _ _ _ Hp L) in Cp. exact Cp.
  - right. left. split; [exact (A2 t r E L)|]. split; [exact (B2 t r E L)|]. exists p. exact Cp.
  - right. right. split; [exact (A3 t x r E L)|]. exists t. split; [exact (B3 t x r E L)|]. subst items.
    rewrite lossy_app, lossy_Some in Hp. cbn [lossy map] in Hp.
    rewrite (longest_fit_unique _ _ _ _ Hp (fit_next _ _ _ _ L)) in Cp. exact Cp.
Qed.

(** ** C68 *)
Lemma chars_ends t : ends chars_iter (enc t) t [].
Proof. apply chars_end. Qed.

Lemma c68_chars c c' s t : valid_cfg c' -> shows c s t -> blen t <= cap c' ->
  exists b, as_ref_str c s = Ret b /\
    (exists a, try_from_chars c' (char_fuel c') chars_iter b = (Ret (Ok a), []) /\ shows c' a t) /\
    (exists a, from_iter_chars c' (char_fuel c') chars_iter b = (Ret a, []) /\ shows c' a t) /\
    (forall a u, shows c' a u -> blen u + blen t <= cap c' ->
       exists a', extend_chars c' (char_fuel c') chars_iter b a = (Ret tt, [], a') /\ shows c' a' (u ++ t)).
Proof.
  intros Hc' [_ Hs] L. exists (enc t). split; [exact Hs|].
  assert (F : (length t < char_fuel c')%nat) by (pose proof (length_le_cap c' t L); unfold char_fuel; lia).
  destruct (try_from_chars_end c' Hc' chars_iter _ _ t [] (chars_ends t) L F) as (a & E & R).
  destruct (from_chars_truncate_end c' Hc' chars_iter _ _ t [] (chars_ends t) L F) as (a' & E' & R').
  split; [exists a; split; [exact E | apply shows_rep; exact R]|].
  split; [exists a'; split; [exact E' | apply shows_rep; exact R']|].
  intros b u Hb Lb. unfold extend_chars. rewrite E'. unfold extend_with.
  destruct (c06_whole c' b u t Hc' Hb Lb) as (b' & Eb & Sb). exists b'. split; [|exact Sb].
  unfold sbind, slift. rewrite (as_str_rep c' _ _ R' : as_ref_str c' a' = _), Eb. reflexivity.
Qed.

Lemma c68_drain c c' s t : valid_cfg c -> valid_cfg c' -> shows c s t -> blen t <= cap c' ->
  exists d s' a d', drain_iter c Unbounded Unbounded s = (Ret (Ok d), s') /\ shows c s' [] /\
    from_iter_chars c' (char_fuel c') (drain_iterator c) d = (Ret a, d') /\ shows c' a t /\ shows c (drained d') [].
Proof.
  intros Hc Hc' Hs L. destruct (c26_drain c s t Unbounded Unbounded Hc Hs) as (H & _).
  destruct (H [] t []) as (d & s' & E & _ & Sd & Ss); [rewrite app_nil_r; reflexivity | reflexivity | reflexivity |].
  destruct (c27_iterator c d t Hc Sd) as (d' & He & S').
  assert (F : (length t < char_fuel c')%nat) by (pose proof (length_le_cap c' t L); unfold char_fuel; lia).
  destruct (from_chars_truncate_end c' Hc' (drain_iterator c) _ d t d' He L F) as (a & Ea & Ra).
  exists d, s', a, d'. split; [exact E|]. split; [exact Ss|]. split; [exact Ea|]. split; [apply shows_rep; exact Ra | exact S'].
Qed.

(** Strings of any capacities joined into one. *)
Lemma list_ends {A} (l : list A) : ends list_iter l l [].
Proof.
  exists []. split; [|reflexivity]. induction l as [|x l IH]; [constructor|]. econstructor; [reflexivity | exact IH].
Qed.

Lemma c68_join c' (l : list (cfg * astring)) (ts : list text) : valid_cfg c' ->
  Forall2 (fun p t => shows (fst p) (snd p) t) l ts ->
  exists bs, map (fun p => as_ref_str (fst p) (snd p)) l = map Ret bs /\
  (blen (concat ts) <= cap c' ->
     exists a, try_from_iterator c' (S (length l)) list_iter (map (fun b => mkitem b b) bs) = (Ret (Ok a), []) /\
       shows c' a (concat ts)) /\
  (exists p a it, longest_fit (cap c') (concat ts) p /\
     from_iter_strs c' (S (length l)) list_iter (map (fun b => mkitem b b) bs) = (Ret a, it) /\ shows c' a p).
Proof.
  intros Hc H. exists (map enc ts). split; [|].
  { induction H as [|p t l ts [_ Hp] _ IH]; [reflexivity|]. cbn [map]. rewrite IH, (Hp : as_ref_str _ _ = _). reflexivity. }
  assert (Hl : length ts = length l) by (symmetry; clear -H; induction H; cbn; congruence).
  rewrite map_map. change (map (fun x => mkitem (enc x) (enc x)) ts) with (map item_of ts).
  assert (He := list_ends (map item_of ts)). assert (Hf : (length ts < S (length l))%nat) by lia. split.
  - intros L. apply (c10_try_from_iterator c' list_iter _ ts [] _ Hc He Hf). exact L.
  - destruct (c11_from_iterator_truncate c' list_iter _ ts [] _ Hc He Hf) as (p & Hp & H1 & H2).
    destruct (N.leb_spec (blen (concat ts)) (cap c')) as [L|L].
    + destruct (H1 L) as (a & E & Sa). exists p, a, []. split; [exact Hp|]. split; [exact E | exact Sa].
    + destruct (H2 L) as (_ & _ & _ & it & a & _ & _ & _ & E & Sa). exists p, a, it. split; [exact Hp|]. split; [exact E | exact Sa].
Qed.

(** [write!(a, "{}", s)], with whatever options. *)
Lemma c68_write c c' s t a u sp : valid_cfg c' -> shows c s t -> shows c' a u ->
  (blen u + blen t <= cap c' ->
     returns c' (display c (mksink (write_str c') (write_char c')) sp s a) (Ok tt) (u ++ t)) /\
  (cap c' < blen u + blen t ->
     display c (mksink (write_str c') (write_char c')) sp s a = (Ret (Err mkFmtError), a)).
Proof.
  intros Hc' Hs Ha. rewrite (c36_display c s t _ _ sp a Hs). exact (c35_write_str c' a u t Hc' Ha).
Qed.

(** ** C69 *)
Lemma c69_truncate_str c w n : exists p, longest_fit n w p /\ truncate_str c (enc w) n = Ret (enc p).
Proof. exists (fit n w). split; [apply fit_longest | apply truncate_str_fit]. Qed.

Lemma from_json c t : valid_cfg c ->
  (json_plain t -> exists p, longest_fit (cap c) t p /\ makes_ok c (json_from_str (deserialize c) (json_str (enc t))) p) /\
  (~ json_plain t -> json_from_str (deserialize c) (json_str (enc t)) = Ret (Err InvalidType)).
Proof.
  intros Hc. destruct (json_text t) as (sc & sl & E & E1 & E2).
  destruct (c40_deserialize c json_error Hc) as (D1 & _ & D2 & _). split; intros P.
  - apply E2 in P. subst sc. cbn [ref_of app] in E, E1. subst sl. destruct (D1 t) as (p & Hp & (a & Ea & Sa) & _).
    exists p. split; [exact Hp|]. exists a. split; [|exact Sa]. unfold json_from_str. rewrite E, Ea. reflexivity.
  - unfold json_from_str. rewrite E. unfold ref_of. destruct sc as [|b sc]; [exfalso; apply P, E2; reflexivity|].
    destruct (D2 ((b :: sc) ++ sl)) as [Es _]. rewrite Es. reflexivity.
Qed.

Lemma c69_json c c' s t : valid_cfg c' -> shows c s t ->
  exists d, serialize c json_str s = Ret d /\
  (json_plain t -> exists p, longest_fit (cap c') t p /\ makes_ok c' (json_from_str (deserialize c') d) p) /\
  (~ json_plain t -> json_from_str (deserialize c') d = Ret (Err InvalidType)).
Proof.
  intros Hc' Hs. exists (json_str (enc t)). split; [exact (c40_serialize c s t _ json_str Hs) | exact (from_json c' t Hc')].
Qed.

Lemma c69_json_cache c0 c' s t : valid_cfg c' -> cache_shows c0 s t ->
  exists d, cache_serialize c0 json_str s = Ret d /\
  (json_plain t -> exists p, longest_fit (cap c') t p /\ makes_ok c' (json_from_str (deserialize c') d) p) /\
  (~ json_plain t -> json_from_str (deserialize c') d = Ret (Err InvalidType)).
Proof. intros Hc' Hs. exact (c69_json (c63 c0) c' (inner s) t Hc' Hs). Qed.

(** A column keeps the text it is given: [column] writes, [g] reads. *)
Lemma c69_sql c c' s t V X (g : V -> result str_ptr X) (column : list N -> V) v0 : valid_cfg c' -> shows c s t ->
  (forall w, g (column (enc w)) = Ok (At (enc w))) ->
  exists v, to_sql c (fun b _ => (Ret tt, column b)) s v0 = (Ret tt, v) /\
  exists p, longest_fit (cap c') t p /\ makes_ok c' (from_sql c' g v) p.
Proof.
  intros Hc' Hs Hg. exists (column (enc t)). split; [exact (c41_to_sql c s t _ _ _ v0 Hs)|].
  apply (c41_from_sql c' V X g (column (enc t)) Hc'). apply Hg.
Qed.

Lemma c69_sql_cache c0 s t V X (g : V -> result str_ptr X) (column : list N -> V) v0 : valid_cfg c0 -> cache_shows c0 s t ->
  (forall w, g (column (enc w)) = Ok (At (enc w))) ->
  exists v, cache_to_sql c0 (fun b _ => (Ret tt, column b)) s v0 = (Ret tt, v) /\
  exists a, cache_from_sql c0 g v = Ret (Ok a) /\ cache_shows c0 a t.
Proof.
  intros Hc Hs Hg. destruct (c41_cache c0 s t V X g (column (enc t)) Hc Hs) as (T & F & _).
  exists (column (enc t)). split; [apply T|]. destruct (F t (Hg t)) as (p & a & Hp & E & Sa). exists a. split; [exact E|].
  rewrite (fit_whole _ _ _ Hp) in Sa; [exact Sa|]. exact (shows_cap (c63 c0) (inner s) t Hs).
Qed.
