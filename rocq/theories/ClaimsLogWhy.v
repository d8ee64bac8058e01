(** The statements of PropLogWhy.v. *)
From Verif Require Import Base Char Spec RustStd ModelError Model ModelImpl ModelCache ModelCacheOps CoreFacts Obs ObsCache ObsLogs
  ObsLogLines ModelLogsRest ObsLogWhy OpsFacts ClaimsOps ClaimsArgs ClaimsCache ClaimsLogs LogLines ClaimsLogLines ClaimsLogRest LogWhy.

Lemma grew_app tr db l n l' : log_grew tr db l n l' -> exists m, l' = l ++ m.
Proof. intros (m & E & _). exists m. exact E. Qed.

Lemma c76_call c db o s t l : valid_cfg c -> shows c s t -> typed_op o -> ends_at_failure o = true ->
  exists s' m, l_run_op c true db record o (s, l) = (fst (t_op (usize_max c) (cap c) o t), (s', l ++ m)) /\
    shows c s' (snd (t_op (usize_max c) (cap c) o t)) /\
    explained t (error_of (fst (t_op (usize_max c) (cap c) o t))) m.
Proof.
  intros Hc Sh To Ho. destruct (c74_debug c true db o s t l Hc Sh To) as (s' & l' & E & S' & _).
  destruct (J_op c Hc db o s t l (proj1 (shows_rep c s t) Sh) Ho) as (m & H1 & H2). rewrite E in H1, H2. cbn [fst snd] in H1, H2.
  subst l'. exists s', m. auto.
Qed.

Lemma c76_history c db h s t l : valid_cfg c -> shows c s t -> Forall typed_op h ->
  exists s' m, l_run_ops c true db record h s l = (fst (t_ops (usize_max c) (cap c) h t), s', l ++ m) /\
    shows c s' (snd (t_ops (usize_max c) (cap c) h t)) /\
    history_explained (usize_max c) (cap c) h t m.
Proof.
  intros Hc Sh Th. revert s t l Sh. induction Th as [|o h To Th IH]; intros s t l Sh; cbn [l_run_ops t_ops history_explained].
  { exists s, []. rewrite app_nil_r. auto. }
  assert (X : exists s1 m1, l_run_op c true db record o (s, l) = (fst (t_op (usize_max c) (cap c) o t), (s1, l ++ m1)) /\
    shows c s1 (snd (t_op (usize_max c) (cap c) o t)) /\
    (ends_at_failure o = true -> explained t (error_of (fst (t_op (usize_max c) (cap c) o t))) m1)).
  { destruct (ends_at_failure o) eqn:Ho.
    - destruct (c76_call c db o s t l Hc Sh To Ho) as (s1 & m1 & H1 & H2 & H3). exists s1, m1. auto.
    - destruct (c74_debug c true db o s t l Hc Sh To) as (s1 & l1 & H1 & H2 & H3). destruct (grew_app _ _ _ _ _ H3) as (m1 & ->).
      exists s1, m1. repeat split; auto; try apply H2. discriminate. }
  destruct X as (s1 & m1 & E1 & S1 & X1). rewrite E1.
  destruct (t_op (usize_max c) (cap c) o t) as [r t1]. cbn [fst snd] in *.
  destruct (IH s1 t1 (l ++ m1) S1) as (s2 & m2 & E2 & S2 & X2). rewrite E2.
  destruct (t_ops (usize_max c) (cap c) h t1) as [rs t2]. cbn [fst snd] in *.
  exists s2, (m1 ++ m2). rewrite app_assoc. split; [reflexivity|]. split; [exact S2|]. exists m1, m2. auto.
Qed.

Lemma c76_build c db k l : valid_cfg c -> typed_ctor k -> ends_at_failure_new k = true ->
  exists m, l_build c true db record k l = (build c k, l ++ m) /\ explained [] (error_of_new (t_ctor (cap c) k)) m.
Proof.
  intros Hc Hk He. destruct (c74_build c true db k l Hc Hk) as (l' & E & _).
  destruct (J_build c Hc db k l He) as (m & H1 & H2). rewrite E in H1, H2. cbn [fst snd] in H1, H2. subst l'.
  exists m. split; [exact E|]. pose proof (build_sim c Hc k Hk) as S. unfold sim_ctor in S.
  destruct (t_ctor (cap c) k) as [[t|e]| | |].
  - destruct S as (s & S & _). rewrite S in H2. exact H2.
  - rewrite S in H2. destruct e; exact H2.
  - rewrite S in H2. exact H2.
  - rewrite S in H2. exact H2.
  - rewrite S in H2. exact H2.
Qed.

Lemma c76_cache c0 db h s t l : valid_cfg c0 -> cache_shows c0 s t -> Forall typed_op h ->
  exists s' m, l_cache_run_ops c0 true db record h s l = (fst (t_ops (usize_max c0) 63 h t), s', l ++ m) /\
    cache_shows c0 s' (snd (t_ops (usize_max c0) 63 h t)) /\
    history_explained (usize_max c0) 63 h t m.
Proof.
  intros Hc S T. destruct (c76_history (c63 c0) db h (inner s) t l (valid_c63 c0 Hc) S T) as (i & m & E & S' & G).
  exists (mkCache i), m. rewrite l_cache_run_ops_inner, E. auto.
Qed.

Lemma c76_cache_build c0 db k l : valid_cfg c0 -> typed_ctor k -> ends_at_failure_new k = true ->
  exists m, l_cache_build c0 true db record k l = (cache_build c0 k, l ++ m) /\ explained [] (error_of_new (t_ctor 63 k)) m.
Proof.
  intros Hc Tk He. destruct (c76_build (c63 c0) db k l (valid_c63 c0 Hc) Tk He) as (m & E & G).
  exists m. split; [|exact G]. unfold l_cache_build. rewrite cache_cfg. unfold sbind. rewrite E, cache_build_inner.
  destruct (build (c63 c0) k) as [[s|e]| | |]; reflexivity.
Qed.
