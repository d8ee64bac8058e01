(** What the trait implementations do, in terms of texts. *)
From Coq Require Import ZArith ZifyBool ZifyN ZifyNat Arith.
From Verif Require Import Base Char Spec RustStd ModelError Model RustFmt ModelImpl TextOps SpecOps IterSpec
  ListFacts Utf8Facts CoreFacts MethodFacts IterFacts OrderFacts.

(** ** Prefixes that fit *)
Lemma fit_fit n m t : n <= m -> fit n (fit m t) = fit n t.
Proof.
  revert n m; induction t as [|x t IH]; intros n m H; cbn [fit]; [reflexivity|].
  destruct (N.leb_spec (clen x) m) as [L|L].
  - cbn [fit]. destruct (N.leb_spec (clen x) n) as [L'|L']; [|reflexivity].
    rewrite IH by lia. reflexivity.
  - destruct (N.leb_spec (clen x) n) as [L'|L']; [lia|reflexivity].
Qed.

(** ** ASCII case on bytes *)
Lemma upper_byte b : b < 128 ->
  to_ascii_uppercase b = if (97 <=? b) && (b <=? 122) then b - 32 else b.
Proof.
  intros H. apply N.eqb_eq.
  apply (fin_check 128 (fun b => to_ascii_uppercase b =? if (97 <=? b) && (b <=? 122) then b - 32 else b)).
  - vm_compute. reflexivity.
  - lia.
Qed.

Lemma lower_byte b : b < 128 ->
  to_ascii_lowercase b = if (65 <=? b) && (b <=? 90) then b + 32 else b.
Proof.
  intros H. apply N.eqb_eq.
  apply (fin_check 128 (fun b => to_ascii_lowercase b =? if (65 <=? b) && (b <=? 90) then b + 32 else b)).
  - vm_compute. reflexivity.
  - lia.
Qed.

Lemma upper_high b : 128 <= b -> to_ascii_uppercase b = b.
Proof. intros H. unfold to_ascii_uppercase, in_range. destruct (N.leb_spec b 122); [lia|]. rewrite andb_false_r. reflexivity. Qed.

Lemma lower_high b : 128 <= b -> to_ascii_lowercase b = b.
Proof. intros H. unfold to_ascii_lowercase, in_range. destruct (N.leb_spec b 90); [lia|]. rewrite andb_false_r. reflexivity. Qed.

Lemma char_of_small n : n < 128 -> exists d, char_of_N n = Some d /\ code d = n.
Proof.
  intros H. apply scalar_char. unfold is_scalar. destruct (N.ltb_spec n 0xD800); [reflexivity | lia].
Qed.

Lemma ascii_upper_code x :
  code (ascii_upper x) = if (97 <=? code x) && (code x <=? 122) then code x - 32 else code x.
Proof.
  unfold ascii_upper. destruct ((97 <=? code x) && (code x <=? 122)) eqn:E; [|reflexivity].
  destruct (char_of_small (code x - 32)) as (d & -> & Hd); [lia|]. exact Hd.
Qed.

Lemma ascii_lower_code x :
  code (ascii_lower x) = if (65 <=? code x) && (code x <=? 90) then code x + 32 else code x.
Proof.
  unfold ascii_lower. destruct ((65 <=? code x) && (code x <=? 90)) eqn:E; [|reflexivity].
  destruct (char_of_small (code x + 32)) as (d & -> & Hd); [lia|]. exact Hd.
Qed.

Lemma map_enc1_high f x : (forall b, 128 <= b -> f b = b) -> 128 <= code x -> map f (enc1 x) = enc1 x.
Proof.
  intros Hf H. unfold enc1.
  destruct (N.ltb_spec (code x) 0x80); [lia|].
  destruct (N.ltb_spec (code x) 0x800); [|destruct (N.ltb_spec (code x) 0x10000)];
    cbn [map]; rewrite !Hf by lia; reflexivity.
Qed.

Lemma map_upper_enc t : map to_ascii_uppercase (enc t) = enc (map ascii_upper t).
Proof.
  induction t as [|x t IH]; [reflexivity|].
  cbn [map]. rewrite !enc_cons, map_app, IH. f_equal.
  destruct (N.ltb_spec (code x) 128) as [L|L].
  - unfold enc1. rewrite !ascii_upper_code.
    destruct (N.ltb_spec (code x) 0x80); [|lia]. cbn [map]. rewrite upper_byte by lia.
    destruct ((97 <=? code x) && (code x <=? 122)) eqn:E.
    + destruct (N.ltb_spec (code x - 32) 0x80); [reflexivity | lia].
    + destruct (N.ltb_spec (code x) 0x80); [reflexivity | lia].
  - rewrite (map_enc1_high _ _ upper_high L). f_equal. apply char_eq. rewrite ascii_upper_code.
    destruct ((97 <=? code x) && (code x <=? 122)) eqn:E; lia.
Qed.

Lemma map_lower_enc t : map to_ascii_lowercase (enc t) = enc (map ascii_lower t).
Proof.
  induction t as [|x t IH]; [reflexivity|].
  cbn [map]. rewrite !enc_cons, map_app, IH. f_equal.
  destruct (N.ltb_spec (code x) 128) as [L|L].
  - unfold enc1. rewrite !ascii_lower_code.
    destruct (N.ltb_spec (code x) 0x80); [|lia]. cbn [map]. rewrite lower_byte by lia.
    destruct ((65 <=? code x) && (code x <=? 90)) eqn:E.
    + destruct (N.ltb_spec (code x + 32) 0x80); [reflexivity | lia].
    + destruct (N.ltb_spec (code x) 0x80); [reflexivity | lia].
  - rewrite (map_enc1_high _ _ lower_high L). f_equal. apply char_eq. rewrite ascii_lower_code.
    destruct ((65 <=? code x) && (code x <=? 90)) eqn:E; lia.
Qed.

Section Facts.
Variable c : cfg.
Hypothesis Hc : valid_cfg c.

(** ** Comparisons and hash *)
Lemma partial_eq_rep s s' t t' : rep c s t -> rep c s' t' ->
  exists b, partial_eq c s s' = Ret b /\ (b = true <-> t = t').
Proof.
  intros R R'. unfold partial_eq. rewrite (as_str_rep c _ _ R), (as_str_rep c _ _ R'). cbn.
  eexists. split; [reflexivity|]. apply str_eq_enc.
Qed.

Lemma eq_str_rep s t w : rep c s t -> exists b, eq_str c s (enc w) = Ret b /\ (b = true <-> t = w).
Proof.
  intros R. unfold eq_str. rewrite (as_str_rep c _ _ R). cbn.
  eexists. split; [reflexivity|]. apply str_eq_enc.
Qed.

Lemma ord_cmp_rep s s' t t' : rep c s t -> rep c s' t' -> ord_cmp c s s' = Ret (text_cmp t t').
Proof.
  intros R R'. unfold ord_cmp. rewrite (as_str_rep c _ _ R), (as_str_rep c _ _ R'). cbn.
  rewrite str_cmp_enc. reflexivity.
Qed.

Lemma hash_rep h s t st : rep c s t -> hash c h s st = Ret (str_hash h (enc t) st).
Proof. intros R. unfold hash. rewrite (as_str_rep c _ _ R). reflexivity. Qed.

(** ** Add *)
Lemma add_rep s t w : rep c s t ->
  exists s', add c s (enc w) = Ret s' /\ rep c s' (t_push_str_truncate (cap c) w t).
Proof.
  intros R. destruct (push_str_truncate_runs c Hc w s t R) as (s' & E & R').
  exists s'. split; [|exact R']. unfold add, run_local. rewrite E. reflexivity.
Qed.

(** ** Write *)
Definition fres (b : bool) : result unit FmtError := if b then Ok tt else Err mkFmtError.

Lemma write_str_rep w s t : rep c s t ->
  runs_f c s (write_str c (enc w) s)
    (fres (fst (t_write_str (cap c) w t)), snd (t_write_str (cap c) w t)).
Proof.
  intros R. destruct (try_push_str_runs c Hc w s t R) as (s' & E & R' & Hs).
  unfold runs_f, write_str, t_write_str, t_try_push_str in *.
  exists s'. erewrite sbind_ret by exact E.
  destruct (blen t + blen w <=? cap c); cbn in *.
  - split; [reflexivity|]. split; [exact R'|]. discriminate.
  - split; [reflexivity|]. split; [exact R'|]. intros e _. exact (Hs _ eq_refl).
Qed.

Lemma write_char_rep x s t : rep c s t ->
  runs_f c s (write_char c x s)
    (fres (fst (t_write_str (cap c) [x] t)), snd (t_write_str (cap c) [x] t)).
Proof.
  intros R. unfold write_char. erewrite sbind_ret by (unfold slift; rewrite encode_utf8_4; reflexivity).
  rewrite <- enc_single. apply write_str_rep. exact R.
Qed.

(** The byte level program of a formatting. *)
Fixpoint prog_of (p : formatting) : fprog :=
  match p with
  | FStop b => PEnd (fres b)
  | FPanic => PPanic
  | FPiece w next => PWrite (enc w) (fun r => prog_of (next (match r with Ok _ => true | Err _ => false end)))
  end.

Definition fout (o : option bool) : outcome (result unit FmtError) :=
  match o with Some b => Ret (fres b) | None => Panic end.

Lemma write_fmt_rep p s t : rep c s t ->
  exists s', write_fmt c (prog_of p) s = (fout (fst (t_write_fmt (cap c) p t)), s') /\
    rep c s' (snd (t_write_fmt (cap c) p t)).
Proof.
  unfold write_fmt. revert s t; induction p as [b| |w next IH]; intros s t R; cbn [prog_of run_fprog t_write_fmt].
  - exists s. split; [reflexivity | exact R].
  - exists s. split; [reflexivity | exact R].
  - destruct (write_str_rep w s t R) as (s1 & E & R1 & _).
    destruct (t_write_str (cap c) w t) as [b t1] eqn:Et. cbn [fst snd] in *.
    erewrite sbind_ret by exact E.
    destruct (IH b s1 t1 R1) as (s2 & E2 & R2).
    exists s2. split; [|exact R2]. rewrite <- E2. destruct b; reflexivity.
Qed.

(** ** Display *)
Lemma display_rep {W} (k : sink W) sp s t w : rep c s t -> display c k sp s w = wstr k (enc t) w.
Proof.
  intros R. unfold display. erewrite sbind_ret by (unfold slift; rewrite (as_str_rep c _ _ R); reflexivity).
  reflexivity.
Qed.

(** ** Index *)

Lemma boundary_le t a : str_is_char_boundary (enc t) a = true -> a <= blen t.
Proof.
  intros H. apply str_boundary_iff in H. destruct H as (p & q & H). eapply splits_le. exact H.
Qed.

Lemma str_index_pos_spec umax t r : range_u8 r -> 65535 <= umax ->
  let '(a, b) := ends_of_range (blen t) r in
  str_index_pos umax (enc t) (to_usize_range r) =
  match str_get (enc t) a b with Some _ => Ret (a, b) | None => Panic end.
Proof.
  intros Hr Hu. unfold str_get.
  destruct r as [a|b| |a b|b|a b e]; cbn [ends_of_range to_usize_range str_index_pos range_u8] in *.
  - rewrite <- (enc_len t) at 1. rewrite <- (enc_len t), str_boundary_len.
    destruct (str_is_char_boundary (enc t) a) eqn:E.
    + apply boundary_le in E. rewrite enc_len. destruct (N.leb_spec a (blen t)); [reflexivity|lia].
    + rewrite andb_false_r. reflexivity.
  - rewrite str_boundary_0. destruct (N.leb_spec 0 b); [|lia]. cbn [andb].
    destruct (str_is_char_boundary (enc t) b); reflexivity.
  - rewrite str_boundary_0. rewrite <- (enc_len t), str_boundary_len.
    destruct (N.leb_spec 0 (lenN (enc t))); [reflexivity|lia].
  - destruct ((a <=? b) && _ && _); reflexivity.
  - unfold incl_to_range. destruct (N.eqb_spec b umax); [lia|].
    destruct ((0 <=? b + 1) && _ && _); reflexivity.
  - unfold incl_to_range. destruct (N.eqb_spec b umax); [lia|].
    destruct ((a <=? b + 1) && _ && _); reflexivity.
Qed.

Lemma index_rep s t r : rep c s t -> range_u8 r ->
  index c s r =
  match str_get (enc t) (fst (ends_of_range (blen t) r)) (snd (ends_of_range (blen t) r)) with
  | Some b => Ret b | None => Panic end.
Proof.
  intros R Hr. unfold index. rewrite (as_str_rep c _ _ R). cbn [obind]. unfold str_index_range.
  pose proof (str_index_pos_spec (usize_max c) t r Hr (proj1 Hc)) as H.
  destruct (ends_of_range (blen t) r) as [a b]. cbn [fst snd]. rewrite H. unfold str_get.
  destruct ((a <=? b) && _ && _); reflexivity.
Qed.

Lemma index_mut_rep s t r : rep c s t -> range_u8 r ->
  index_mut c r s =
  (match str_get (enc t) (fst (ends_of_range (blen t) r)) (snd (ends_of_range (blen t) r)) with
   | Some b => Ret (fst (ends_of_range (blen t) r), b) | None => Panic end, s).
Proof.
  intros R Hr. unfold index_mut, as_mut_str. erewrite sbind_ret by exact (as_mut_rep c _ _ R).
  pose proof (str_index_pos_spec (usize_max c) t r Hr (proj1 Hc)) as H.
  destruct (ends_of_range (blen t) r) as [a b]. cbn [fst snd]. unfold sbind, slift. rewrite H. unfold str_get.
  destruct ((a <=? b) && _ && _); reflexivity.
Qed.

(** ** Writing through [&mut str] *)
Lemma str_write_rep s pre mid new post : rep c s (pre ++ mid ++ post) -> blen new = blen mid ->
  exists s', str_write (blen pre) (enc new) s = (Ret tt, s') /\ rep c s' (pre ++ new ++ post) /\
    size s' = size s /\ takeN (blen pre) (arr s') = takeN (blen pre) (arr s) /\
    dropN (blen pre + blen mid) (arr s') = dropN (blen pre + blen mid) (arr s).
Proof.
  intros (T & Hs & junk & Ha) Hb. destruct T as (T1 & T2 & T3).
  unfold str_write, len. rewrite enc_len, Hs, Ha.
  assert (E1 : takeN (blen pre) (enc (pre ++ mid ++ post) ++ junk) = enc pre).
  { rewrite enc_app, <- app_assoc, <- enc_len. apply takeN_app_exact. }
  assert (E2 : dropN (blen pre + blen new) (enc (pre ++ mid ++ post) ++ junk) = enc post ++ junk).
  { rewrite Hb. rewrite app_assoc, enc_app. rewrite <- app_assoc.
    replace (blen pre + blen mid) with (lenN (enc (pre ++ mid))) by (rewrite enc_len, blen_app; reflexivity).
    apply dropN_app_exact. }
  rewrite E1, E2.
  assert (E3 : enc pre ++ enc new ++ enc post ++ junk = enc (pre ++ new ++ post) ++ junk).
  { rewrite !enc_app, <- !app_assoc. reflexivity. }
  rewrite E3.
  assert (E4 : blen (pre ++ mid ++ post) = blen (pre ++ new ++ post)) by (rewrite !blen_app; lia).
  cbv zeta. rewrite E4, <- (enc_len (pre ++ new ++ post)), takeN_app_exact, !from_utf8_ok_enc, enc_len.
  destruct (N.leb_spec (blen pre + blen new) (blen (pre ++ new ++ post))) as [L|L];
    [|rewrite !blen_app in L; lia].
  cbn [andb]. eexists. split; [reflexivity|]. cbn [arr size].
  split; [|split; [reflexivity|split]].
  - apply rep_intro; cbn [arr size].
    + exact Hc.
    + rewrite <- T1, Ha, !lenN_app, !enc_len, E4. reflexivity.
    + rewrite Ha in T2. apply Forall_app in T2. destruct T2 as [_ T2].
      apply Forall_app. split; [apply enc_bytes | exact T2].
    + reflexivity.
    + eexists. reflexivity.
  - rewrite enc_app, <- app_assoc, <- enc_len, takeN_app_exact. reflexivity.
  - rewrite <- Hb. replace (dropN (blen pre + blen new) (enc (pre ++ new ++ post) ++ junk)) with (enc post ++ junk).
    + symmetry; exact E2.
    + rewrite app_assoc, enc_app, <- app_assoc.
      replace (blen pre + blen new) with (lenN (enc (pre ++ new))) by (rewrite enc_len, blen_app; reflexivity).
      symmetry. apply dropN_app_exact.
Qed.

Lemma map_blen f t : (forall x, clen (f x) = clen x) -> blen (map f t) = blen t.
Proof. intros H. induction t as [|x t IH]; cbn; [reflexivity|]. rewrite H, IH. reflexivity. Qed.

Lemma clen_upper x : clen (ascii_upper x) = clen x.
Proof.
  unfold clen. rewrite ascii_upper_code. destruct ((97 <=? code x) && (code x <=? 122)) eqn:E; [|reflexivity].
  destruct (N.ltb_spec (code x - 32) 0x80), (N.ltb_spec (code x) 0x80); try lia; reflexivity.
Qed.

Lemma clen_lower x : clen (ascii_lower x) = clen x.
Proof.
  unfold clen. rewrite ascii_lower_code. destruct ((65 <=? code x) && (code x <=? 90)) eqn:E; [|reflexivity].
  destruct (N.ltb_spec (code x + 32) 0x80), (N.ltb_spec (code x) 0x80); try lia; reflexivity.
Qed.

Lemma write_all_rep s t t' : rep c s t -> blen t' = blen t ->
  runs c (str_write 0 (enc t') s) tt t'.
Proof.
  intros R Hb.
  destruct (str_write_rep s [] t t' []) as (s' & E & R' & _).
  - cbn. rewrite app_nil_r. exact R.
  - exact Hb.
  - exists s'. split; [exact E|]. cbn in R'. rewrite app_nil_r in R'. exact R'.
Qed.

Lemma uppercase_rep s t : rep c s t -> runs c (make_ascii_uppercase c s) tt (map ascii_upper t).
Proof.
  intros R. unfold make_ascii_uppercase, deref_mut.
  unfold runs. erewrite sbind_ret by exact (as_mut_rep c _ _ R). rewrite map_upper_enc.
  apply write_all_rep with (t := t); [exact R | apply map_blen, clen_upper].
Qed.

Lemma lowercase_rep s t : rep c s t -> runs c (make_ascii_lowercase c s) tt (map ascii_lower t).
Proof.
  intros R. unfold make_ascii_lowercase, deref_mut.
  unfold runs. erewrite sbind_ret by exact (as_mut_rep c _ _ R). rewrite map_lower_enc.
  apply write_all_rep with (t := t); [exact R | apply map_blen, clen_lower].
Qed.

(** ** Extend *)
Lemma extend_with_Ret {S} a u (it : S) s t : rep c a u -> rep c s t ->
  exists s', extend_with c (Ret a, it) s = (Ret tt, it, s') /\ rep c s' (t_extend (cap c) u t).
Proof.
  intros Ra R. destruct (push_str_truncate_runs c Hc u s t R) as (s' & E & R').
  exists s'. split; [|exact R']. unfold extend_with.
  erewrite sbind_ret by (unfold slift; rewrite (as_str_rep c _ _ Ra : as_ref_str c a = _); reflexivity).
  rewrite E. reflexivity.
Qed.

Lemma t_extend_fit u t : blen t <= cap c -> t_extend (cap c) (fit (cap c) u) t = t_extend (cap c) u t.
Proof. intros H. unfold t_extend. rewrite fit_fit by lia. reflexivity. Qed.

(** A finite iterator of characters. *)
Lemma from_chars_truncate_ends {S} (next : iter S char) fuel it l it' :
  ends next it l it' -> (length l < fuel)%nat ->
  exists s it1, from_chars_truncate c fuel next it = (Ret s, it1) /\ rep c s (fit (cap c) l).
Proof.
  intros He Hf. destruct (chars_cases (cap c) l 0) as [L|(l1 & x & l2 & El & L1 & L2)]; [lia| |].
  - destruct (from_chars_truncate_end c Hc next fuel it l it' He) as (s & E & R); [lia|exact Hf|].
    exists s, it'. rewrite fit_all by lia. auto.
  - destruct He as (e & Hy & _). rewrite El in Hy.
    replace (l1 ++ x :: l2) with ((l1 ++ [x]) ++ l2) in Hy by (rewrite <- app_assoc; reflexivity).
    destruct (yields_split _ _ _ _ _ Hy) as (it1 & Hy1 & _).
    destruct (from_chars_truncate_stop c Hc next fuel it l1 x it1 Hy1) as (s & E & R); [lia|lia| |].
    + rewrite El, app_length in Hf. cbn in Hf. lia.
    + exists s, it1. rewrite El, fit_stop by lia. auto.
Qed.

Lemma from_iterator_truncate_ends {S} (next : iter S as_ref_item) fuel it l it' :
  ends next it (map item_of l) it' -> (length l < fuel)%nat ->
  exists s it1, from_iterator_truncate c fuel next it = (Ret s, it1) /\ rep c s (fit (cap c) (concat l)).
Proof.
  intros He Hf.
  assert (Hm : forall l, map item_of l = map item2 (map (fun w => (w, w)) l)).
  { intros k. rewrite map_map. reflexivity. }
  assert (Hd : forall l : list text, map fst (map (fun w => (w, w)) l) = l).
  { intros k. rewrite map_map. cbn. apply map_id. }
  destruct (pieces_cases (cap c) l 0) as [L|(l1 & x & l2 & El & L1 & L2)]; [lia| |].
  - rewrite Hm in He.
    destruct (from_iterator_truncate_end c Hc next fuel it _ it' He) as (s & E & R).
    + rewrite Hd. lia.
    + rewrite map_length. exact Hf.
    + exists s, it'. rewrite Hd in R. rewrite fit_all by lia. auto.
  - destruct He as (e & Hy & _). rewrite El in Hy.
    replace (l1 ++ x :: l2) with ((l1 ++ [x]) ++ l2) in Hy by (rewrite <- app_assoc; reflexivity).
    rewrite map_app in Hy.
    destruct (yields_split _ _ _ _ _ Hy) as (it1 & Hy1 & _).
    rewrite Hm, map_app in Hy1. cbn [map] in Hy1.
    destruct (from_iterator_truncate_stop c Hc next fuel it _ (x, x) it1 Hy1) as (s & E & R).
    + rewrite Hd. lia.
    + rewrite Hd. cbn [fst]. lia.
    + rewrite map_length. rewrite El, app_length in Hf. cbn in Hf. lia.
    + exists s, it1. split; [exact E|]. rewrite Hd in R. cbn [snd] in R.
      rewrite El, concat_app. cbn [concat].
      rewrite fit_app_fits by lia. rewrite fit_app_exceeds by lia. exact R.
Qed.

Lemma extend_chars_ends {S} (next : iter S char) fuel it l it' s t :
  rep c s t -> ends next it l it' -> (length l < fuel)%nat ->
  exists s' it1, extend_chars c fuel next it s = (Ret tt, it1, s') /\ rep c s' (t_extend (cap c) l t).
Proof.
  intros R He Hf. destruct (from_chars_truncate_ends next fuel it l it' He Hf) as (a & it1 & E & Ra).
  unfold extend_chars. rewrite E.
  destruct (extend_with_Ret a _ it1 s t Ra R) as (s' & E' & R').
  exists s', it1. split; [exact E'|]. rewrite t_extend_fit in R' by (eapply rep_cap; eauto). exact R'.
Qed.

Lemma extend_strs_ends {S} (next : iter S as_ref_item) fuel it l it' s t :
  rep c s t -> ends next it (map item_of l) it' -> (length l < fuel)%nat ->
  exists s' it1, extend_strs c fuel next it s = (Ret tt, it1, s') /\
    rep c s' (t_extend (cap c) (concat l) t).
Proof.
  intros R He Hf. destruct (from_iterator_truncate_ends next fuel it l it' He Hf) as (a & it1 & E & Ra).
  unfold extend_strs. rewrite E.
  destruct (extend_with_Ret a _ it1 s t Ra R) as (s' & E' & R').
  exists s', it1. split; [exact E'|]. rewrite t_extend_fit in R' by (eapply rep_cap; eauto). exact R'.
Qed.

(** An iterator that goes on past the capacity. *)
Lemma extend_chars_stop {S} (next : iter S char) fuel it l x it' s t :
  rep c s t -> yields next it (l ++ [x]) it' -> blen l <= cap c -> cap c < blen l + clen x ->
  (length l < fuel)%nat ->
  exists s', extend_chars c fuel next it s = (Ret tt, it', s') /\ rep c s' (t_extend (cap c) l t).
Proof.
  intros R Hy L1 L2 Hf.
  destruct (from_chars_truncate_stop c Hc next fuel it l x it' Hy L1 L2 Hf) as (a & E & Ra).
  unfold extend_chars. rewrite E. apply extend_with_Ret; assumption.
Qed.

Lemma extend_chars_panic {S} (next : iter S char) fuel it l it' s :
  panics next it l it' -> blen l <= cap c -> (length l < fuel)%nat ->
  extend_chars c fuel next it s = (Panic, it', s).
Proof.
  intros Hp L Hf. unfold extend_chars.
  rewrite (from_chars_truncate_panic c Hc next fuel it l it' Hp L Hf). reflexivity.
Qed.

Lemma extend_strs_panic {S} (next : iter S as_ref_item) fuel it l it' s :
  panics next it (map item2 l) it' -> blen (concat (map fst l)) <= cap c -> (length l < fuel)%nat ->
  extend_strs c fuel next it s = (Panic, it', s).
Proof.
  intros Hp L Hf. unfold extend_strs.
  rewrite (from_iterator_truncate_panic c Hc next fuel it l it' Hp L Hf). reflexivity.
Qed.

End Facts.
