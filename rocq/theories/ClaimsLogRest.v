(** The statements of PropLogs.v and PropLogLines.v about [CacheString], serde, diesel and [Debug]. *)
From Verif Require Import Base Char Spec RustStd RustFmt RustFmtBeside ModelError Model ModelImpl ModelDrain IterSpec Obs ObsCache ObsLogs ObsLogLines OpsFacts
  ClaimsCache ClaimsLogs ClaimsLogLines ModelLogsRest.
From Coq Require Import String.

Lemma cache_cfg c0 : mkcfg (usize_max c0) (debug c0) CACHE_STRING_SIZE = c63 c0.
Proof. reflexivity. Qed.

Lemma l_cache_run_ops_inner c0 tr db {W} (log : event -> ST W unit) l : forall s w,
  l_cache_run_ops c0 tr db log l s w =
    (let '(rs, i, w') := l_run_ops (c63 c0) tr db log l (inner s) w in (rs, mkCache i, w')).
Proof.
  induction l as [|o l IH]; intros s w; cbn [l_cache_run_ops l_run_ops]; [destruct s; reflexivity|].
  unfold l_cache_run_op, l_on_inner. rewrite cache_cfg. cbn [fst snd].
  destruct (l_run_op (c63 c0) tr db log o (inner s, w)) as [r [i w1]]. rewrite IH. cbn [inner].
  destruct (l_run_ops (c63 c0) tr db log l i w1) as [[rs i2] w2]. reflexivity.
Qed.

Lemma c71_cache c0 tr db {W} (log : event -> ST W unit) : quiet tr db log ->
  (forall k w, exists w', l_cache_build c0 tr db log k w = (cache_build c0 k, w')) /\
  (forall l s w, exists w', l_cache_run_ops c0 tr db log l s w =
     (fst (cache_run_ops c0 l s), snd (cache_run_ops c0 l s), w')).
Proof.
  intros Q. split.
  - intros k w. destruct (c71_quiet (c63 c0) tr db log Q) as [H _]. destruct (H k w) as (w' & E).
    exists w'. unfold l_cache_build. rewrite cache_cfg. unfold sbind. rewrite E, cache_build_inner.
    destruct (build (c63 c0) k) as [[s|e]| | |]; reflexivity.
  - intros l s w. destruct (c71_quiet (c63 c0) tr db log Q) as [_ H]. destruct (H l (inner s) w) as (w' & E).
    exists w'. rewrite l_cache_run_ops_inner, cache_run_ops_inner, E.
    destruct (run_ops (c63 c0) l (inner s)) as [rs i]. reflexivity.
Qed.

(** A program that catches panics between its calls. *)
Lemma c71_cache_history c0 tr db {W} (log : event -> ST W unit) l s t w : valid_cfg c0 -> a_logger tr db log ->
  cache_shows c0 s t -> Forall typed_op l -> Forall harmless l -> no_torn tr db log l ->
  exists rs s' w' t', l_cache_run_ops c0 tr db log l s w = (rs, s', w') /\ cache_shows c0 s' t' /\
    Forall (fun o => o = Panic \/ exists r, o = Ret r) rs.
Proof.
  intros Hc L S T H N.
  destruct (c71_history (c63 c0) tr db log l (inner s) t w (valid_c63 c0 Hc) L S T H N) as (rs & i & w' & t' & E & S' & F).
  exists rs, (mkCache i), w', t'. rewrite l_cache_run_ops_inner, E. auto.
Qed.

(** serde and diesel. *)
Lemma from_str_truncate_answers c tr db {W} (log : event -> ST W unit) b : a_logger tr db log ->
  answers tr db log (l_from_str_truncate c tr db log (sret b)) (from_str_truncate c b).
Proof. intros L. exact (from_str_truncate_reads c tr db log L True (fun _ => I) _ _ (reads_sret _ _)). Qed.

Lemma c71_serde c tr db {W} (log : event -> ST W unit) s : a_logger tr db log ->
  (forall R (ser : list N -> R), answers tr db log (l_serialize c tr log ser s) (serialize c ser s)) /\
  (forall E (v : visit E), answers tr db log (l_deserialize c tr db log v) (deserialize c v)) /\
  (forall V E (f : V -> result str_ptr E) v, answers tr db log (l_from_sql c tr db log f v) (from_sql c f v)).
Proof.
  intros L. split; [|split].
  - intros R ser. apply reads_bind; [apply as_str_reads; exact L|intros; apply reads_sret].
  - intros E v. unfold l_deserialize, deserialize. destruct (deserialize_ref_str v); [|apply reads_sret].
    apply reads_bind; [apply from_str_truncate_answers, L|intros; apply reads_sret].
  - intros V E f v. unfold l_from_sql, from_sql. destruct (f v); [|apply reads_sret].
    apply reads_bind; [apply reads_slift|]. intros _ _. apply reads_bind; [apply reads_slift|]. intros b _.
    apply reads_bind; [apply from_str_truncate_answers, L|intros; apply reads_sret].
Qed.

Lemma c71_to_sql c tr db {W} (log : event -> ST W unit) s {O R} (f : list N -> ST O R) x w : a_logger tr db log ->
  (exists w', l_to_sql c tr log f s (x, w) = (fst (to_sql c f s x), (snd (to_sql c f s x), w'))) \/
  (can_panic tr db log /\ exists w', l_to_sql c tr log f s (x, w) = (Panic, (x, w'))).
Proof.
  intros L. unfold l_to_sql, to_sql, sbind, on_log, on_out, slift. cbn [fst snd].
  destruct (as_str_reads c tr db log L s w) as (w' & [E|[B E]]); rewrite E.
  - left. exists w'. destruct (as_str c s) as [b| | |]; cbn [fst snd]; try reflexivity.
    destruct (f b x) as [r x']. reflexivity.
  - right. split; [exact B|]. exists w'. reflexivity.
Qed.

Lemma log_between tr db {W} (log : event -> ST W unit) {O D B R} (m : ST O D) (g : ST W B) (o : outcome B) (rest : D -> B -> ST O R) x w :
  answers tr db log g o ->
  let p := (d <~ m ;; b <~ slift o ;; rest d b) x in
  let q := (d <~ on_out m ;; b <~ on_log g ;; on_out (rest d b)) (x, w) in
  (exists w', q = (fst p, (snd p, w'))) \/ (can_panic tr db log /\ exists w', q = (Panic, (snd (m x), w'))).
Proof.
  intros H p q. unfold p, q, sbind, on_out, on_log, slift. clear p q. cbn [fst snd].
  destruct (m x) as [[d| | |] x1]; cbn [fst snd]; [|left; exists w; reflexivity..].
  destruct (H w) as (w' & [E|[B0 E]]); rewrite E.
  - left. exists w'. destruct o as [b| | |]; cbn [fst snd]; try reflexivity. destruct (rest d b x1) as [r x2]. reflexivity.
  - right. split; [exact B0|]. exists w'. reflexivity.
Qed.

Lemma c71_debug c tr db {W} (log : event -> ST W unit) s str_debug u8_debug {O} (k : sink O) alt x w : a_logger tr db log ->
  let p := debug_fmt c str_debug u8_debug s O k alt x in
  (exists w', l_debug_fmt c tr log str_debug u8_debug s k alt (x, w) = (fst p, (snd p, w'))) \/
  (can_panic tr db log /\ exists w', l_debug_fmt c tr log str_debug u8_debug s k alt (x, w) =
     (Panic, (snd (debug_start k (lit "ArrayString") x), w'))).
Proof.
  intros L p. exact (log_between tr db log (debug_start k (lit "ArrayString")) _ _ (fun d b =>
    d <~ struct_field k alt d (lit "array") (str_debug b) ;;
    d <~ struct_field k alt d (lit "size") (u8_debug (size s)) ;;
    struct_finish k alt d) x w (as_str_reads c tr db log L s)).
Qed.

Lemma tuple_beside {Y W} (k : sink W) alt d (v : debug_beside Y) (v' v2 : debug_impl) (B : Prop) y x :
  (forall O (k : sink O) o,
     (exists y', v O k alt (y, o) = (fst (v' O k alt o), (y', snd (v' O k alt o)))) \/
     (B /\ exists y', v O k alt (y, o) = (Panic, (y', snd (v2 O k alt o))) /\ fst (v2 O k alt o) = Panic)) ->
  (exists y', tuple_field_beside k alt d v (y, x) = (fst (tuple_field k alt d v' x), (y', snd (tuple_field k alt d v' x)))) \/
  (B /\ exists y', tuple_field_beside k alt d v (y, x) = (Panic, (y', snd (tuple_field k alt d v2 x)))).
Proof.
  intros H. unfold tuple_field_beside, tuple_field, debug_and_then.
  destruct (fst d) as [u|e]; [|left; exists y; reflexivity]. destruct alt.
  - unfold fthen, stry, sbind, on_snd, padded_beside, padded. cbn [fst snd].
    destruct ((if snd d then sret (Ok tt) else wstr k (lit "(" ++ [10])) x) as [[[[]|e]| | |] x1]; cbn [fst snd];
      try (left; exists y; reflexivity).
    destruct (H _ (pad_adapter k) (x1, true)) as [(y' & E)|(HB & y' & E & P)].
    + left. rewrite E. destruct (v' _ (pad_adapter k) true (x1, true)) as [[[[]|e]| | |] [x2 b]]; cbn [fst snd];
        try (eexists; reflexivity).
      destruct (wstr (pad_adapter k) (lit "," ++ [10]) (x2, b)) as [[[[]|e]| | |] [x3 b']]; cbn [fst snd]; eexists; reflexivity.
    + right. split; [exact HB|]. exists y'. rewrite E.
      destruct (v2 _ (pad_adapter k) true (x1, true)) as [o [x2 b]]. cbn [fst] in P. subst o. reflexivity.
  - unfold fthen, stry, sbind, on_snd. cbn [fst snd].
    destruct (wstr k (if snd d then lit ", " else lit "(") x) as [[[[]|e]| | |] x1]; cbn [fst snd];
      try (left; exists y; reflexivity).
    destruct (H _ k x1) as [(y' & E)|(HB & y' & E & P)]; rewrite E.
    + left. destruct (v' _ k false x1) as [[[[]|e]| | |] x2]; cbn [fst snd]; eexists; reflexivity.
    + right. split; [exact HB|]. exists y'. destruct (v2 _ k false x1) as [o x2]. cbn [fst] in P. subst o. reflexivity.
Qed.

Lemma debug_tuple_answers c tr db {W} (log : event -> ST W unit) name s str_debug u8_debug {O} (k : sink O) alt x w :
  a_logger tr db log ->
  let p := (d <~ debug_start k name ;; d <~ tuple_field k alt d (debug_fmt c str_debug u8_debug s) ;; tuple_finish k d) x in
  (exists w', l_debug_tuple c tr log name str_debug u8_debug s k alt (x, w) = (fst p, (snd p, w'))) \/
  (can_panic tr db log /\ exists w', l_debug_tuple c tr log name str_debug u8_debug s k alt (x, w) =
     (Panic, (snd ((d <~ debug_start k name ;; tuple_field k alt d named_panic) x), w'))).
Proof.
  intros L. unfold l_debug_tuple, swapped, sbind. cbn [fst snd]. unfold on_snd at 1 3. cbn [fst snd].
  destruct (debug_start k name x) as [[d| | |] x1]; cbn [fst snd]; try (left; exists w; reflexivity).
  match goal with |- context [tuple_field_beside k alt d ?v (w, x1)] =>
    destruct (tuple_beside k alt d v (debug_fmt c str_debug u8_debug s) named_panic (can_panic tr db log) w x1)
      as [(w' & E)|(HB & w' & E)] end.
  - intros O' k' o. cbn [fst snd].
    destruct (c71_debug c tr db log s str_debug u8_debug k' alt o w L) as [(w' & E)|(HB & w' & E)]; rewrite E.
    + left. eexists. reflexivity.
    + right. split; [exact HB|]. eexists. split; reflexivity.
  - rewrite E. left. destruct (tuple_field k alt d (debug_fmt c str_debug u8_debug s) x1) as [[d2| | |] x2]; cbn [fst snd];
      try (exists w'; reflexivity).
    unfold on_snd. cbn [fst snd]. destruct (tuple_finish k d2 x2) as [o x3]. exists w'. reflexivity.
  - rewrite E. right. split; [exact HB|]. exists w'. reflexivity.
Qed.

Lemma c71_debug_drain c tr db {W} (log : event -> ST W unit) d str_debug u8_debug {O} (k : sink O) alt x w : a_logger tr db log ->
  let p := drain_debug c str_debug u8_debug d O k alt x in
  (exists w', l_drain_debug c tr log str_debug u8_debug d k alt (x, w) = (fst p, (snd p, w'))) \/
  (can_panic tr db log /\ exists w', l_drain_debug c tr log str_debug u8_debug d k alt (x, w) =
     (Panic, (snd ((b <~ debug_start k (lit "Drain") ;; tuple_field k alt b named_panic) x), w'))).
Proof. intros L. exact (debug_tuple_answers c tr db log (lit "Drain") (drained d) str_debug u8_debug k alt x w L). Qed.

Lemma c71_debug_cache c0 tr db {W} (log : event -> ST W unit) s str_debug u8_debug {O} (k : sink O) alt x w : a_logger tr db log ->
  let p := cache_debug c0 str_debug u8_debug s O k alt x in
  (exists w', l_cache_debug c0 tr log str_debug u8_debug s k alt (x, w) = (fst p, (snd p, w'))) \/
  (can_panic tr db log /\ exists w', l_cache_debug c0 tr log str_debug u8_debug s k alt (x, w) =
     (Panic, (snd ((b <~ debug_start k (lit "CacheString") ;; tuple_field k alt b named_panic) x), w'))).
Proof. intros L. exact (debug_tuple_answers (c63 c0) tr db log (lit "CacheString") (inner s) str_debug u8_debug k alt x w L). Qed.

(** What is logged. *)
Lemma c74_cache c0 tr db h s t l : valid_cfg c0 -> cache_shows c0 s t -> Forall typed_op h ->
  exists s' l', l_cache_run_ops c0 tr db record h s l = (fst (t_ops (usize_max c0) 63 h t), s', l') /\
    cache_shows c0 s' (snd (t_ops (usize_max c0) 63 h t)) /\
    log_grew tr db l (history_lines (usize_max c0) 63 h t) l'.
Proof.
  intros Hc S T. destruct (c74_history (c63 c0) tr db h (inner s) t l (valid_c63 c0 Hc) S T) as (i & l' & E & S' & G).
  exists (mkCache i), l'. rewrite l_cache_run_ops_inner, E. auto.
Qed.

Lemma c74_cache_build c0 tr db k l : valid_cfg c0 -> typed_ctor k ->
  exists l', l_cache_build c0 tr db record k l = (cache_build c0 k, l') /\ log_grew tr db l (build_lines 63 k) l'.
Proof.
  intros Hc Tk. destruct (c74_build (c63 c0) tr db k l (valid_c63 c0 Hc) Tk) as (l' & E & G).
  exists l'. split; [|exact G]. unfold l_cache_build. rewrite cache_cfg. unfold sbind. rewrite E, cache_build_inner.
  destruct (build (c63 c0) k) as [[s|e]| | |]; reflexivity.
Qed.
