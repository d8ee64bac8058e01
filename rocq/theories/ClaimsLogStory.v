(** The statements of PropLogStory.v. *)
From Coq Require Import ZArith ZifyBool ZifyN ZifyNat Arith.
From Verif Require Import Base Char Spec RustStd RustFmt ModelError Model ModelImpl ModelDrain ModelCache ModelCacheOps IterSpec ListFacts
  Utf8Facts CoreFacts MethodFacts IterFacts Utf16Facts ImplFacts DrainFacts Obs ObsCache ObsLogs ObsLogLines ObsLogStory OpsFacts ClaimsOps
  ClaimsArgs ClaimsCache ClaimsLogs ModelLogsRest ClaimsLogRest LogStory.

Section Calls.
Variable c : cfg.
Hypothesis Hc : valid_cfg c.
Variables tr db : bool.
Notation says := (says tr db).
Notation tells := (tells tr db).

Lemma out_told {A} (f : A -> out) (g : ST (astring * list event) A) m s L : tells g m s L -> tells (l_out f g) (to_out f m) s L.
Proof. apply tells_map. Qed.

Lemma read_told {A} (f : astring -> ST (list event) A) o s : says (f s) o [] -> tells (seen f) (fun s => (o, s)) s [].
Proof. intros H w. destruct (tells_seen tr db f s (fun _ => o) [] H w) as (w' & E & G). exists w'. auto. Qed.
Lemma read_out_told {A} (h : A -> out) (f : astring -> ST (list event) A) o s : says (f s) o [] ->
  tells (l_out h (seen f)) (fun s => (omap h o, s)) s [].
Proof.
  intros H w. destruct (out_told h _ _ s [] (read_told f o s H) w) as (w' & E & G). exists w'. split; [|exact G].
  rewrite E. unfold to_out, sbind. destruct o; reflexivity.
Qed.

Lemma op_told o s t : rep c s t ->
  tells (l_run_op c tr db record o) (run_op c o) s (story (cap c) (usize_max c) s o t).
Proof.
  intros R. destruct o; cbn [l_run_op]; unfold run_op.
  - apply out_told, push_str_told; [exact Hc|exact R|apply says_sret].
  - apply out_told, push_cut_told; [exact Hc|exact R|apply says_sret].
  - apply out_told, push_told; [exact Hc|exact R].
  - apply out_told, truncate_told; exact R.
  - apply out_told, pop_told.
  - apply out_told, trim_told; [exact Hc|exact R].
  - apply out_told, remove_told; [exact Hc|exact R].
  - exact (retain_told c tr db Hc f x s t R).
  - apply out_told, insert_told; [exact Hc|exact R].
  - apply out_told, insert_str_told; [exact Hc|exact R|apply says_sret].
  - apply out_told, insert_cut_told; [exact Hc|exact R].
  - apply out_told, clear_told.
  - refine (tells_ext tr db _ (r <~ drain c lo hi ;; slift (part_out c r)) _ s _ _ _).
    { unfold drain_iter, sbind. destruct (drain c lo hi s) as [[[d|e]| | |] s1]; reflexivity. }
    apply tells_then; [apply drain_told; [exact Hc|exact R]|]. intros. apply tells_slift.
  - apply tells_then; [apply split_off_told; [exact Hc|exact R]|]. intros. apply tells_slift.
  - apply out_told, replace_story; [exact Hc|exact R|apply says_sret].
  - pose proof (from_chars_truncate_collect c Hc next (char_fuel c) it) as H. cbn [story]. unfold char_fuel in *.
    assert (X : exists u, match fst (from_chars_truncate c (N.to_nat (cap c) + 2) next it) with Ret a => rep c a u | _ => True end /\
      match fst (t_collect (N.to_nat (cap c) + 2) (cap c) next it) with
      | Ret u => push_cut_story (cap c) t u | _ => [] end =
      match fst (from_chars_truncate c (N.to_nat (cap c) + 2) next it) with
      | Ret _ => push_cut_story (cap c) t u | _ => [] end).
    { destruct (t_collect (N.to_nat (cap c) + 2) (cap c) next it) as [[u| | |] it'];
        [destruct H as (a & E & Ra)|rename H into E..]; rewrite E; cbn [fst]; [exists u; auto|exists []; auto..]. }
    destruct X as (u & X1 & X2). rewrite X2, app_comm_cons.
    apply (extend_told c tr db Hc (l_from_chars_truncate c tr db record (N.to_nat (cap c) + 2) next it)
      (from_chars_truncate c (N.to_nat (cap c) + 2) next it) _ s t u);
      [apply from_chars_truncate_says; exact Hc|exact R|exact X1|reflexivity|reflexivity].
  - pose proof (from_iterator_truncate_collect c Hc (map_iter same2 next) fuel it) as H. cbn [story].
    assert (X : exists u, match fst (from_iterator_truncate c fuel (map_iter item_of_pair (map_iter same2 next)) it) with
        Ret a => rep c a u | _ => True end /\
      match fst (t_collect_strs fuel (cap c) (map_iter same2 next) it) with
      | Ret u => push_cut_story (cap c) t u | _ => [] end =
      match fst (from_iterator_truncate c fuel (map_iter item_of_pair (map_iter same2 next)) it) with
      | Ret _ => push_cut_story (cap c) t u | _ => [] end).
    { destruct (t_collect_strs fuel (cap c) (map_iter same2 next) it) as [[u| | |] it'];
        [destruct H as (a & E & Ra)|rename H into E..]; rewrite E; cbn [fst]; [exists u; auto|exists []; auto..]. }
    destruct X as (u & X1 & X2). rewrite X2, app_comm_cons.
    apply (extend_told c tr db Hc (l_from_iterator_truncate c tr db record fuel (map_iter item_of_pair (map_iter same2 next)) it)
      (from_iterator_truncate c fuel (map_iter item_of_pair (map_iter same2 next)) it) _ s t u);
      [apply from_iterator_truncate_says; exact Hc|exact R|exact X1|reflexivity|reflexivity].
  - intros w0. unfold l_add, add, run_local. cbn [fst snd].
    destruct (push_cut_told c tr db Hc (sret (enc w)) w s t R (says_sret tr db _) w0) as (w1 & E & G).
    rewrite E. exists w1. split; [|exact G].
    destruct (push_str_truncate_runs c Hc w s t R) as (s1 & X & _). rewrite X. reflexivity.
  - apply out_told, write_str_told; [exact Hc|exact R].
  - apply out_told. unfold write_char. rewrite encode_utf8_4, <- enc_single.
    apply (tells_ret tr db _ _ (enc [x]) s [] _ _ s); [apply tells_slift|reflexivity|]. exact (write_str_told c tr db Hc [x] s t R).
  - apply out_told, fmt_told; [exact Hc|exact R].
  - apply out_told. unfold l_index_mut, index_mut. cbn [story].
    apply tells_then.
    { apply tells_then.
      { intros w0. destruct (tells_seen tr db (l_as_mut_str c tr record) s (fun s => fst (as_mut_str c s)) [_] (says_as_mut_str c tr db s) w0)
          as (w1 & E & G). exists w1. auto. }
      intros b s1 _. apply hush_bind; [apply tells_slift|]. intros [a e] s2 _. apply tells_sret. }
    intros p s1 _. destruct (_ =? _); [apply tells_self|apply tells_sret].
  - apply out_told. unfold make_ascii_uppercase. cbn [story].
    apply hush_bind; [|intros; apply tells_self].
    intros w0. destruct (tells_seen tr db (l_as_mut c tr record) s (fun s => fst (as_mut c s)) [] (says_as_mut c tr db s) w0) as (w1 & E & G).
    exists w1. auto.
  - apply out_told. unfold make_ascii_lowercase. cbn [story].
    apply hush_bind; [|intros; apply tells_self].
    intros w0. destruct (tells_seen tr db (l_as_mut c tr record) s (fun s => fst (as_mut c s)) [] (says_as_mut c tr db s) w0) as (w1 & E & G).
    exists w1. auto.
  - apply (read_out_told RNum _ (Ret (len s))), says_len.
  - refine (tells_ext tr db _ _ _ s _ eq_refl (read_out_told RBool _ (is_empty c s) s _)).
    apply says_bind; [apply says_as_ref_str|intros; apply says_sret].
  - apply tells_sret.
  - refine (tells_ext tr db _ _ _ s _ eq_refl (read_out_told RBytes _ (as_str c s) s _)). apply says_as_str.
  - refine (tells_ext tr db _ _ _ s _ eq_refl (read_out_told RBool _ (eq_str c s (enc w)) s _)).
    apply says_bind; [apply says_as_str|intros; apply says_sret].
  - refine (tells_ext tr db _ _ _ s _ _ (read_told _ (b <- as_str c s ;;
      match write_one_str buffer b [] with
      | (Ret _, b) => Ret (RBytes b) | (Panic, _) => Panic | (UB, _) => UB | (Diverge, _) => Diverge end) s _)).
    + unfold display, sbind, slift. destruct (as_str c s) as [b| | |]; cbn [obind]; reflexivity.
    + apply says_bind; [apply says_as_str|intros; apply says_slift].
  - refine (tells_ext tr db _ _ _ s _ eq_refl (read_out_told RBytes _ (index c s r) s _)).
    apply says_bind; [apply says_as_str|intros; apply says_slift].
Qed.
End Calls.

(** ** The statements *)

Lemma c77_call c tr db o s t l : valid_cfg c -> shows c s t -> typed_op o ->
  exists s' l', l_run_op c tr db record o (s, l) = (fst (t_op (usize_max c) (cap c) o t), (s', l')) /\
    shows c s' (snd (t_op (usize_max c) (cap c) o t)) /\
    story_grew tr db l (story (cap c) (usize_max c) s o t) l'.
Proof.
  intros Hc Sh To. apply shows_rep in Sh.
  destruct (op_told c Hc tr db o s t Sh l) as (l' & E & G).
  destruct (run_op_sim c Hc o s t Sh To) as (s' & E2 & R'). rewrite E2 in E.
  exists s', l'. split; [exact E|]. split; [apply shows_rep; exact R'|exact G].
Qed.

Lemma c77_history c tr db h s t l : valid_cfg c -> shows c s t -> Forall typed_op h ->
  exists s' m, l_run_ops c tr db record h s l = (fst (t_ops (usize_max c) (cap c) h t), s', l ++ m) /\
    shows c s' (snd (t_ops (usize_max c) (cap c) h t)) /\
    history_told c tr db h t m.
Proof.
  intros Hc Sh Th. revert s t l Sh. induction Th as [|o h To Th IH]; intros s t l Sh; cbn [l_run_ops t_ops history_told].
  - exists s, []. rewrite app_nil_r. auto.
  - destruct (c77_call c tr db o s t l Hc Sh To) as (s1 & l1 & E1 & S1 & m1 & -> & G1). rewrite E1.
    destruct (t_op (usize_max c) (cap c) o t) as [r t1]. cbn [fst snd] in *.
    destruct (IH s1 t1 (l ++ m1) S1) as (s2 & m2 & E2 & S2 & G2). rewrite E2.
    destruct (t_ops (usize_max c) (cap c) h t1) as [rs t2]. cbn [fst snd] in *.
    exists s2, (m1 ++ m2). rewrite app_assoc. split; [reflexivity|]. split; [exact S2|].
    exists s, m1, m2. split; [reflexivity|]. split; [exact Sh|]. split; [exists m1; auto|exact G2].
Qed.

Lemma c77_build c tr db k l : valid_cfg c -> typed_ctor k ->
  exists l', l_build c tr db record k l = (build c k, l') /\ story_grew tr db l (build_story (cap c) k) l'.
Proof. intros Hc Hk. exact (build_told c tr db Hc k Hk l). Qed.

Lemma c77_cache c0 tr db h s t l : valid_cfg c0 -> cache_shows c0 s t -> Forall typed_op h ->
  exists s' m, l_cache_run_ops c0 tr db record h s l = (fst (t_ops (usize_max c0) 63 h t), s', l ++ m) /\
    cache_shows c0 s' (snd (t_ops (usize_max c0) 63 h t)) /\
    history_told (c63 c0) tr db h t m.
Proof.
  intros Hc S T. destruct (c77_history (c63 c0) tr db h (inner s) t l (valid_c63 c0 Hc) S T) as (i & m & E & S' & G).
  exists (mkCache i), m. rewrite l_cache_run_ops_inner, E. auto.
Qed.

Lemma c77_cache_build c0 tr db k l : valid_cfg c0 -> typed_ctor k ->
  exists l', l_cache_build c0 tr db record k l = (cache_build c0 k, l') /\ story_grew tr db l (build_story 63 k) l'.
Proof.
  intros Hc Tk. destruct (c77_build (c63 c0) tr db k l (valid_c63 c0 Hc) Tk) as (l' & E & G).
  exists l'. split; [|exact G]. unfold l_cache_build. rewrite cache_cfg. unfold sbind. rewrite E, cache_build_inner.
  destruct (build (c63 c0) k) as [[s|e]| | |]; reflexivity.
Qed.

Lemma c77_builds c1 c2 tr db o s t l : valid_cfg c1 -> usize_max c1 = usize_max c2 -> cap c1 = cap c2 -> shows c1 s t -> typed_op o ->
  exists r s1 s2 m1 m2, l_run_op c1 tr db record o (s, l) = (r, (s1, l ++ m1)) /\
    l_run_op c2 tr db record o (s, l) = (r, (s2, l ++ m2)) /\ filter speaks m1 = filter speaks m2.
Proof.
  intros Hc Eu Ec Sh To.
  assert (Hc2 : valid_cfg c2) by (unfold valid_cfg in *; rewrite <- Eu, <- Ec; exact Hc).
  assert (Sh2 : shows c2 s t).
  { apply shows_rep. apply shows_rep in Sh. unfold rep, typed in *. rewrite <- Ec. exact Sh. }
  destruct (c77_call c1 tr db o s t l Hc Sh To) as (s1 & l1 & E1 & _ & m1 & -> & _ & G1).
  destruct (c77_call c2 tr db o s t l Hc2 Sh2 To) as (s2 & l2 & E2 & _ & m2 & -> & _ & G2).
  rewrite <- Eu, <- Ec in *. exists (fst (t_op (usize_max c1) (cap c1) o t)), s1, s2, m1, m2.
  split; [exact E1|]. split; [exact E2|]. rewrite G1, G2. reflexivity.
Qed.
