(** [Drain] and the trait implementations (C27, C30-C32, C34-C38, C50). *)
From Coq Require Import String.
From Coq Require Import ZArith ZifyBool ZifyN ZifyNat Arith.
From Verif Require Import Base Char Spec RustStd ModelError Model RustFmt SpecFmt ModelImpl ModelDrain TextOps SpecOps ModelOps IterSpec
  ListFacts Utf8Facts CoreFacts MethodFacts IterFacts OrderFacts ImplFacts DrainFacts OpsFacts Obs ClaimsEdit ClaimsIter.

(** ** C27 *)
Lemma t_deque_len sched t : length (fst (t_deque sched t)) = length sched.
Proof.
  revert t; induction sched as [|f sched IH]; intros t; cbn [t_deque]; [reflexivity|].
  destruct (t_deque_step f t) as [o t1]. specialize (IH t1). destruct (t_deque sched t1) as [os t2].
  cbn [fst length] in *. congruence.
Qed.

Lemma t_pop_None t : fst (t_pop t) = None -> t = [].
Proof.
  unfold t_pop. destruct (rev t) as [|x r] eqn:E; cbn [fst]; [|discriminate].
  intros _. rewrite <- (rev_involutive t), E. reflexivity.
Qed.

Lemma t_deque_step_None f t o t1 : t_deque_step f t = (o, t1) -> o = None -> t = [] /\ t1 = [].
Proof.
  unfold t_deque_step. destruct f.
  - destruct t; intros E; injection E as <- <-; [tauto | discriminate].
  - intros E Eo. pose proof (t_pop_None t) as H. rewrite E in H. specialize (H Eo). subst t.
    cbn in E. injection E as _ <-. tauto.
Qed.

Lemma t_deque_None sched t : In None (fst (t_deque sched t)) -> snd (t_deque sched t) = [].
Proof.
  revert t; induction sched as [|f sched IH]; intros t; cbn [t_deque]; [intros []|].
  destruct (t_deque_step f t) as [o t1] eqn:E. specialize (IH t1).
  destruct (t_deque sched t1) as [os t2] eqn:E2. cbn [fst snd] in *.
  intros [H|H]; [|apply IH; exact H].
  destruct (t_deque_step_None f t o t1 E H) as [_ ->]. rewrite t_deque_nil in E2. injection E2 as _ <-. reflexivity.
Qed.

Lemma c27_drain c d t sched : valid_cfg c -> shows c (drained d) t ->
  exists os d' rest, drain_calls c sched d = (Ret os, d') /\
    shows c (drained d') rest /\ drain_as_str c d' = Ret (enc rest) /\ length os = length sched /\
    t = taken true sched os ++ rest ++ rev (taken false sched os) /\
    (In None os -> rest = []).
Proof.
  intros Hc Hs. apply shows_rep in Hs. destruct (drain_calls_rep c Hc sched d t Hs) as (d' & E & R).
  eexists _, d', _. split; [exact E|]. split; [apply shows_rep; exact R|]. split; [apply as_str_rep; exact R|].
  split; [apply t_deque_len|]. split; [apply t_deque_all | apply t_deque_None].
Qed.

(** An exhausted drain stays exhausted. *)
Lemma c27_fused c d sched : valid_cfg c -> shows c (drained d) [] ->
  exists d', drain_calls c sched d = (Ret (map (fun _ => None) sched), d') /\ shows c (drained d') [].
Proof.
  intros Hc Hs. apply shows_rep in Hs. destruct (drain_calls_rep c Hc sched d [] Hs) as (d' & E & R).
  rewrite t_deque_nil in E, R. exists d'. split; [exact E | apply shows_rep; exact R].
Qed.

(** Used as an iterator ([for], [collect], [extend]) it hands out the text and ends. *)
Lemma c27_iterator c d t : valid_cfg c -> shows c (drained d) t ->
  exists d', ends (drain_iterator c) d t d' /\ shows c (drained d') [].
Proof.
  intros Hc Hs. apply shows_rep in Hs. destruct (drain_ends c Hc d t Hs) as (d' & E & R).
  exists d'. split; [exact E | apply shows_rep; exact R].
Qed.

(** [Drain]'s comparisons and hash are those of the text left in it. *)
Lemma c27_traits c d e t u : shows c (drained d) t -> shows c (drained e) u ->
  (exists b, drain_eq c d e = Ret b /\ (b = true <-> t = u)) /\
  (exists o, drain_cmp c d e = Ret o /\ drain_partial_cmp c d e = Ret (Some o) /\
     (o = Eq <-> t = u) /\ (o = Lt <-> text_lt t u) /\ (o = Gt <-> text_lt u t)) /\
  (forall h st, drain_hash c h d st = Ret (str_hash h (enc t) st)) /\
  drain_clone d = d /\ shows c (drained (drain_default c)) [].
Proof.
  intros [_ H1] [_ H2]. unfold drain_eq, drain_partial_cmp, drain_cmp, drain_hash, drain_as_str.
  rewrite H1, H2. cbn [obind]. rewrite str_cmp_enc.
  split; [eexists; split; [reflexivity | apply str_eq_enc]|].
  split; [eexists; split; [reflexivity | split; [reflexivity | split; [apply text_cmp_Eq | split; [apply text_cmp_Lt | apply text_cmp_Gt]]]]|].
  split; [reflexivity|]. split; [destruct d; reflexivity | apply shows_rep, new_rep].
Qed.

(** ** C30 *)
Lemma c30_eq c s s' t t' w : shows c s t -> shows c s' t' ->
  (exists b, partial_eq c s s' = Ret b /\ (b = true <-> t = t')) /\
  (exists b, eq_str c s (enc w) = Ret b /\ eq_ref_str c s (enc w) = Ret b /\ (b = true <-> t = w)).
Proof.
  intros H1 H2. apply shows_rep in H1, H2. split; [exact (partial_eq_rep c s s' t t' H1 H2)|].
  destruct (eq_str_rep c s t w H1) as (b & E & Hb). exists b. split; [exact E|]. split; [exact E | exact Hb].
Qed.

Lemma c30_equivalence c s1 s2 s3 t1 t2 t3 : shows c s1 t1 -> shows c s2 t2 -> shows c s3 t3 ->
  partial_eq c s1 s1 = Ret true /\
  partial_eq c s1 s2 = partial_eq c s2 s1 /\
  (partial_eq c s1 s2 = Ret true -> partial_eq c s2 s3 = Ret true -> partial_eq c s1 s3 = Ret true).
Proof.
  intros H1 H2 H3. apply shows_rep in H1, H2, H3.
  destruct (partial_eq_rep c s1 s1 t1 t1 H1 H1) as (b11 & E11 & B11).
  destruct (partial_eq_rep c s1 s2 t1 t2 H1 H2) as (b12 & E12 & B12).
  destruct (partial_eq_rep c s2 s1 t2 t1 H2 H1) as (b21 & E21 & B21).
  destruct (partial_eq_rep c s2 s3 t2 t3 H2 H3) as (b23 & E23 & B23).
  destruct (partial_eq_rep c s1 s3 t1 t3 H1 H3) as (b13 & E13 & B13).
  rewrite E11, E12, E21, E23, E13. split; [f_equal; apply B11; reflexivity|]. split.
  - f_equal. apply eq_true_iff_eq. rewrite B12, B21. split; congruence.
  - intros Ea Eb. injection Ea as ->. injection Eb as ->. f_equal. apply B13.
    transitivity t2; [apply B12 | apply B23]; reflexivity.
Qed.

(** ** C31 *)
Lemma c31_cmp c s s' t t' : shows c s t -> shows c s' t' ->
  exists o, ord_cmp c s s' = Ret o /\ partial_cmp c s s' = Ret (Some o) /\
    (o = Eq <-> t = t') /\ (o = Lt <-> text_lt t t') /\ (o = Gt <-> text_lt t' t).
Proof.
  intros H1 H2. apply shows_rep in H1, H2. exists (text_cmp t t'). unfold partial_cmp.
  rewrite (ord_cmp_rep c s s' t t' H1 H2).
  split; [reflexivity|]. split; [reflexivity|].
  split; [apply text_cmp_Eq | split; [apply text_cmp_Lt | apply text_cmp_Gt]].
Qed.

Lemma c31_total_order (a b d : text) :
  ~ text_lt a a /\ (text_lt a b -> text_lt b d -> text_lt a d) /\
  (text_lt a b \/ a = b \/ text_lt b a).
Proof.
  split; [apply text_lt_irrefl|]. split; [apply text_lt_trans|].
  destruct (text_cmp a b) eqn:E.
  - right; left. apply text_cmp_Eq. exact E.
  - left. apply text_cmp_Lt. exact E.
  - right; right. apply text_cmp_Gt. exact E.
Qed.

(** ** C32 *)
Lemma c32_hash c s t h st : shows c s t ->
  hash c h s st = Ret (str_hash h (enc t) st) /\ borrow c s = Ret (enc t) /\ deref c s = Ret (enc t).
Proof.
  intros H. pose proof H as [_ E]. apply shows_rep in H. split; [exact (hash_rep c h s t st H)|].
  split; exact E.
Qed.

Lemma c32_hash_eq c s s' t t' h st : shows c s t -> shows c s' t' ->
  partial_eq c s s' = Ret true -> hash c h s st = hash c h s' st.
Proof.
  intros H1 H2 E. apply shows_rep in H1, H2.
  destruct (partial_eq_rep c s s' t t' H1 H2) as (b & Eb & B). rewrite E in Eb. injection Eb as <-.
  rewrite (hash_rep c h s t st H1), (hash_rep c h s' t' st H2), (proj1 B eq_refl). reflexivity.
Qed.

(** ** C34 *)
Lemma c34_add c s t w : valid_cfg c -> shows c s t ->
  exists p, longest_fit (cap c - blen t) w p /\ makes c (add c s (enc w)) (t ++ p) /\
    returns c (push_str_truncate c (enc w) s) tt (t ++ p).
Proof.
  intros Hc Hs. destruct (c06_push_str_truncate c s t w Hc Hs) as (p & Hp & Hr).
  exists p. split; [exact Hp|]. split; [|exact Hr].
  apply shows_rep in Hs. destruct (add_rep c Hc s t w Hs) as (s' & E & R).
  apply longest_fit_fit in Hp. subst p. exists s'. split; [exact E | apply shows_rep; exact R].
Qed.

Lemma c34_conversions c w : valid_cfg c ->
  (exists p, longest_fit (cap c) w p /\ makes c (from_ref_str c (enc w)) p /\ makes c (from_str_truncate c (enc w)) p) /\
  ((makes_ok c (from_str c (enc w)) w /\ makes_ok c (try_from_str c (enc w)) w) \/
   (from_str c (enc w) = Ret (Err mkOutOfBounds) /\ try_from_str c (enc w) = Ret (Err mkOutOfBounds))).
Proof.
  intros Hc. split.
  - destruct (c09_from_str_truncate c w Hc) as (p & Hp & H1 & H2). exists p. auto.
  - destruct (c08_try_from_str c w Hc) as [P1 P2]. destruct (N.leb_spec (blen w) (cap c)) as [L|L].
    + left. destruct (P1 L). auto.
    + right. destruct (P2 L). auto.
Qed.

Lemma c34_collect_strs c {IT} (next : iter IT as_ref_item) it l it' fuel :
  valid_cfg c -> ends next it (map item_of l) it' -> (length l < fuel)%nat ->
  exists p s it1, longest_fit (cap c) (concat l) p /\
    from_iter_strs c fuel next it = (Ret s, it1) /\ shows c s p.
Proof.
  intros Hc He Hf. destruct (from_iterator_truncate_ends c Hc next fuel it l it' He Hf) as (s & it1 & E & R).
  eexists _, s, it1. split; [apply fit_longest|]. split; [exact E | apply shows_rep; exact R].
Qed.

(** ** C35 *)
Lemma c35_write_str c s t w : valid_cfg c -> shows c s t ->
  (blen t + blen w <= cap c -> returns c (write_str c (enc w) s) (Ok tt) (t ++ w)) /\
  (cap c < blen t + blen w -> write_str c (enc w) s = (Ret (Err mkFmtError), s)).
Proof.
  intros Hc Hs. apply shows_rep in Hs. pose proof (write_str_rep c Hc w s t Hs) as H.
  unfold t_write_str in H. split; intros L; destruct (N.leb_spec (blen t + blen w) (cap c)) as [L1|L1]; try lia.
  - exact (returns_f _ _ _ _ _ H).
  - exact (unchanged_f _ _ _ _ _ H).
Qed.

Lemma c35_write_char c s t x : valid_cfg c -> shows c s t ->
  (blen t + clen x <= cap c -> returns c (write_char c x s) (Ok tt) (t ++ [x])) /\
  (cap c < blen t + clen x -> write_char c x s = (Ret (Err mkFmtError), s)).
Proof.
  intros Hc Hs. apply shows_rep in Hs. pose proof (write_char_rep c Hc x s t Hs) as H.
  unfold t_write_str in H. rewrite blen_cons in H. cbn [blen] in H. rewrite N.add_0_r in H.
  split; intros L; destruct (N.leb_spec (blen t + clen x) (cap c)) as [L1|L1]; try lia.
  - exact (returns_f _ _ _ _ _ H).
  - exact (unchanged_f _ _ _ _ _ H).
Qed.

Lemma c35_write_fmt c s t ws : valid_cfg c -> shows c s t ->
  exists ws1 ws2 r, ws = ws1 ++ ws2 /\
    returns c (write_fmt c (pieces (map enc ws)) s) r (t ++ concat ws1) /\
    ((r = Ok tt /\ ws2 = []) \/
     (r = Err mkFmtError /\ exists w rest, ws2 = w :: rest /\ cap c < blen (t ++ concat ws1) + blen w)).
Proof.
  intros Hc. revert s t; induction ws as [|w ws IH]; intros s t Hs.
  - exists [], [], (Ok tt). split; [reflexivity|]. cbn [concat]. rewrite app_nil_r.
    split; [exists s; split; [reflexivity | exact Hs]|]. left. split; reflexivity.
  - destruct (c35_write_str c s t w Hc Hs) as [H1 H2].
    destruct (N.leb_spec (blen t + blen w) (cap c)) as [L|L].
    + destruct (H1 L) as (s1 & E1 & S1). destruct (IH s1 (t ++ w) S1) as (ws1 & ws2 & r & -> & (s2 & E2 & S2) & Hr).
      exists (w :: ws1), ws2, r. split; [reflexivity|]. cbn [concat]. rewrite app_assoc. split; [|exact Hr].
      exists s2. split; [|exact S2]. unfold write_fmt in *. cbn [map pieces run_fprog].
      erewrite sbind_ret by exact E1. exact E2.
    + exists [], (w :: ws), (Err mkFmtError). split; [reflexivity|]. cbn [concat]. rewrite app_nil_r. split.
      * exists s. split; [|exact Hs]. unfold write_fmt. cbn [map pieces run_fprog].
        erewrite sbind_ret by exact (H2 L). reflexivity.
      * right. split; [reflexivity|]. exists w, ws. split; [reflexivity | exact L].
Qed.

(** Any formatting at all, also one that looks at the results, goes on after an
    error or panics: what it did to the text so far stays, and nothing else. *)
Lemma c35_any_formatting c s t p : valid_cfg c -> shows c s t ->
  exists s', write_fmt c (formatting_prog p) s =
    (match fst (t_write_fmt (cap c) p t) with
     | Some true => Ret (Ok tt)
     | Some false => Ret (Err mkFmtError)
     | None => Panic
     end, s') /\ shows c s' (snd (t_write_fmt (cap c) p t)).
Proof.
  intros Hc Hs. apply shows_rep in Hs. destruct (write_fmt_rep c Hc p s t Hs) as (s' & E & R).
  exists s'. split; [|apply shows_rep; exact R]. rewrite formatting_prog_eq, E.
  destruct (fst (t_write_fmt (cap c) p t)) as [[]|]; reflexivity.
Qed.

(** ** C36 *)
Lemma c36_display c s t W (k : sink W) sp w : shows c s t ->
  display c k sp s w = wstr k (enc t) w.
Proof. intros Hs. apply shows_rep in Hs. exact (display_rep c k sp s t w Hs). Qed.

(** ** C37 *)
Lemma str_get_None t a b : ~ (a <= b /\ boundary t a /\ boundary t b) -> str_get (enc t) a b = None.
Proof.
  intros H. destruct (str_get (enc t) a b) as [r|] eqn:E; [|reflexivity]. exfalso. apply H.
  apply str_get_Some in E. destruct E as (p & m & q & -> & <- & <- & _). split; [lia|].
  split; [exists p, (m ++ q); split; reflexivity|].
  exists (p ++ m), q. split; [rewrite app_assoc; reflexivity | apply blen_app].
Qed.

Lemma c37_index c s t r : valid_cfg c -> shows c s t -> range_u8 r ->
  let a := fst (ends_of_range (blen t) r) in
  let b := snd (ends_of_range (blen t) r) in
  (forall pre mid post, t = pre ++ mid ++ post -> blen pre = a -> blen (pre ++ mid) = b ->
     index c s r = Ret (enc mid) /\ index_mut c r s = (Ret (a, enc mid), s)) /\
  (~ (a <= b /\ boundary t a /\ boundary t b) ->
     index c s r = Panic /\ index_mut c r s = (Panic, s)).
Proof.
  intros Hc Hs Hr a b. apply shows_rep in Hs.
  pose proof (index_rep c Hc s t r Hs Hr) as E1. pose proof (index_mut_rep c Hc s t r Hs Hr) as E2.
  fold a b in E1, E2. split.
  - intros pre mid post -> Ha Hb. rewrite blen_app in Hb. rewrite <- Ha, <- Hb in E1, E2.
    rewrite str_get_enc in E1, E2. rewrite Ha in E2. split; assumption.
  - intros H. rewrite (str_get_None t a b H) in E1, E2. split; assumption.
Qed.

Lemma c37_same_as_str c s t r : valid_cfg c -> shows c s t -> (forall a b, r <> RIncl a b true) ->
  index c s r = str_index_range (usize_max c) (enc t) r.
Proof.
  intros Hc Hs Hr. destruct Hs as [_ Hs]. unfold index. rewrite Hs. cbn [obind]. f_equal.
  destruct r as [| | | | |a b e]; try reflexivity. destruct e; [exfalso; exact (Hr a b eq_refl) | reflexivity].
Qed.

(** ** C38 *)
Lemma c38_as_mut c s t : shows c s t ->
  as_mut c s = (Ret (enc t), s) /\ as_mut_str c s = (Ret (enc t), s) /\
  deref_mut c s = (Ret (enc t), s) /\ borrow_mut c s = (Ret (enc t), s).
Proof.
  intros Hs. apply shows_rep in Hs. pose proof (as_mut_rep c s t Hs) as E.
  split; [exact E|]. split; [exact E|]. split; exact E.
Qed.

Lemma c38_write c s pre mid post new : valid_cfg c -> shows c s (pre ++ mid ++ post) -> blen new = blen mid ->
  exists s', str_write (blen pre) (enc new) s = (Ret tt, s') /\ shows c s' (pre ++ new ++ post) /\
    len s' = len s /\ takeN (blen pre) (arr s') = takeN (blen pre) (arr s) /\
    dropN (blen pre + blen mid) (arr s') = dropN (blen pre + blen mid) (arr s).
Proof.
  intros Hc Hs E. apply shows_rep in Hs.
  destruct (str_write_rep c Hc s pre mid new post Hs E) as (s' & E' & R & Hz & Hp & Hq).
  exists s'. split; [exact E'|]. split; [apply shows_rep; exact R|]. split; [exact Hz|]. split; assumption.
Qed.

Lemma c38_ascii_case c s t : valid_cfg c -> shows c s t ->
  returns c (make_ascii_uppercase c s) tt (map ascii_upper t) /\
  returns c (make_ascii_lowercase c s) tt (map ascii_lower t).
Proof.
  intros Hc Hs. apply shows_rep in Hs.
  split; apply returns_runs; [exact (uppercase_rep c Hc s t Hs) | exact (lowercase_rep c Hc s t Hs)].
Qed.

Lemma c38_ascii_letters (x : char) :
  code (ascii_upper x) = (if (97 <=? code x) && (code x <=? 122) then code x - 32 else code x) /\
  code (ascii_lower x) = (if (65 <=? code x) && (code x <=? 90) then code x + 32 else code x).
Proof. split; [apply ascii_upper_code | apply ascii_lower_code]. Qed.

(** ** C50 *)
Lemma c50_eq a b d : (error_eq a b = true <-> a = b) /\
  (error_eq a b = error_eq b a) /\
  (error_eq a b = true -> error_eq b d = true -> error_eq a d = true).
Proof. destruct a, b, d; cbn; split; try (split; congruence); split; congruence. Qed.

(** What is printed: the name of the variant, and for [Debug for Error] the enum too. *)
Lemma c50_texts e (a : Utf8) (b : Utf16) (o : OutOfBounds) :
  error_display e = lit (variant_name e) /\ error_debug e = lit "Error::" ++ lit (variant_name e) /\
  utf8_display a = lit "Utf8" /\ utf8_debug a = lit "Utf8" /\
  utf16_display b = lit "Utf16" /\ utf16_debug b = lit "Utf16" /\
  oob_display o = lit "OutOfBounds" /\ oob_debug o = lit "OutOfBounds".
Proof. destruct e; repeat split. Qed.

(** The hash is that of the variant's name, so equal errors hash alike. *)
Lemma c50_hash a b h st : error_hash h a st = str_hash h (lit (variant_name a)) st /\
  (error_eq a b = true -> error_hash h a st = error_hash h b st).
Proof. destruct a, b; cbn; split; intros; try discriminate; reflexivity. Qed.

(** Different errors print differently. *)
Lemma c50_distinct a b :
  (error_display a = error_display b -> a = b) /\ (error_debug a = error_debug b -> a = b) /\
  (lit (variant_name a) = lit (variant_name b) -> a = b).
Proof. destruct a, b; cbn; repeat split; intros H; congruence. Qed.

Lemma c50_conversions (a : Utf8) (b : Utf16) (o : OutOfBounds) (u : unit) :
  from_utf8_err a = EUtf8 /\ from_utf16_err b = EUtf16 /\ from_oob o = EOutOfBounds /\
  error_from_utf8_error u = EUtf8 /\ error_from_decode_utf16 u = EUtf16 /\ error_from_encode_utf16 u = EUtf16 /\
  from_utf8_err (utf8_from_utf8_error u) = EUtf8 /\
  from_utf16_err (utf16_from_decode_utf16 u) = EUtf16 /\ from_utf16_err (utf16_from_encode_utf16 u) = EUtf16 /\
  error_display (from_utf8_err a) = utf8_display a /\ error_display (from_utf16_err b) = utf16_display b /\
  error_display (from_oob o) = oob_display o.
Proof. repeat split. Qed.
