(** The statements of PropLogLines.v. *)
From Coq Require Import ZArith ZifyBool ZifyN ZifyNat Arith.
From Verif Require Import Base Char Spec RustStd RustFmt ModelError Model ModelImpl ModelDrain IterSpec ListFacts Utf8Facts CoreFacts
  MethodFacts IterFacts Utf16Facts ImplFacts DrainFacts Obs ObsLogs ObsLogLines OpsFacts ClaimsOps ClaimsArgs ClaimsLogs LogLines.

Section Calls.
Variable c : cfg.
Hypothesis Hc : valid_cfg c.
Variables tr db : bool.
Notation says := (says tr db).
Notation tells := (tells tr db).

Lemma out_lines {A} (f : A -> out) (g : ST (astring * list event) A) m s L : tells g m s L -> tells (l_out f g) (to_out f m) s L.
Proof. apply tells_map. Qed.

Lemma read_lines {A} (f : astring -> ST (list event) A) o s : says (f s) o [] -> tells (seen f) (fun s => (o, s)) s [].
Proof. intros H w. destruct (tells_seen tr db f s (fun _ => o) [] H w) as (w' & E & G). exists w'. auto. Qed.
Lemma read_out_lines {A} (h : A -> out) (f : astring -> ST (list event) A) o s : says (f s) o [] ->
  tells (l_out h (seen f)) (fun s => (omap h o, s)) s [].
Proof.
  intros H w. destruct (out_lines h _ _ s [] (read_lines f o s H) w) as (w' & E & G). exists w'. split; [|exact G].
  rewrite E. unfold to_out, sbind. destruct o; reflexivity.
Qed.

Lemma op_lines o s t : rep c s t ->
  tells (l_run_op c tr db record o) (run_op c o) s (debug_lines (usize_max c) (cap c) o t).
Proof.
  intros R. destruct o; cbn [l_run_op]; unfold run_op.
  - apply out_lines, push_str_lines; [exact R|apply says_sret].
  - apply out_lines, push_str_truncate_lines; [exact R|apply says_sret].
  - apply out_lines, push_lines, R.
  - apply out_lines, truncate_tells.
  - apply out_lines, pop_tells.
  - apply out_lines, trim_lines; [exact Hc|exact R].
  - apply out_lines, remove_lines; [exact Hc|exact R].
  - exact (retain_lines c Hc tr db f x s t R).
  - apply out_lines, insert_char_lines, R.
  - apply out_lines, insert_str_lines; [exact R|apply says_sret].
  - apply out_lines, insert_str_truncate_lines, R.
  - apply out_lines, clear_tells.
  - refine (tells_ext tr db _ (r <~ drain c lo hi ;; slift (part_out c r)) _ s _ _ _).
    { unfold drain_iter, sbind. destruct (drain c lo hi s) as [[[d|e]| | |] s1]; reflexivity. }
    apply tells_then; [apply drain_call_lines; [exact Hc|exact R]|]. intros. apply tells_slift.
  - apply tells_then; [apply split_off_lines; [exact Hc|exact R]|]. intros. apply tells_slift.
  - apply out_lines, replace_lines, R.
  - pose proof (from_chars_truncate_collect c Hc next (char_fuel c) it) as H. cbn [debug_lines]. unfold char_fuel in *.
    assert (X : exists u, match fst (from_chars_truncate c (N.to_nat (cap c) + 2) next it) with Ret a => rep c a u | _ => True end /\
      match fst (t_collect (N.to_nat (cap c) + 2) (cap c) next it) with
      | Ret u => [push_line t (fit (cap c - blen t) u)] | _ => [] end =
      match fst (from_chars_truncate c (N.to_nat (cap c) + 2) next it) with
      | Ret _ => [push_line t (fit (cap c - blen t) u)] | _ => [] end).
    { destruct (t_collect (N.to_nat (cap c) + 2) (cap c) next it) as [[u| | |] it'];
        [destruct H as (a & E & Ra)|rename H into E..]; rewrite E; cbn [fst]; [exists u; auto|exists []; auto..]. }
    destruct X as (u & X1 & X2). rewrite X2.
    apply (extend_lines c tr db (l_from_chars_truncate c tr db record (N.to_nat (cap c) + 2) next it)
      (from_chars_truncate c (N.to_nat (cap c) + 2) next it) _ s t u);
      [apply from_chars_truncate_says; exact Hc|exact R|exact X1|reflexivity|reflexivity].
  - pose proof (from_iterator_truncate_collect c Hc (map_iter same2 next) fuel it) as H. cbn [debug_lines].
    assert (X : exists u, match fst (from_iterator_truncate c fuel (map_iter item_of_pair (map_iter same2 next)) it) with
        Ret a => rep c a u | _ => True end /\
      match fst (t_collect_strs fuel (cap c) (map_iter same2 next) it) with
      | Ret u => [push_line t (fit (cap c - blen t) u)] | _ => [] end =
      match fst (from_iterator_truncate c fuel (map_iter item_of_pair (map_iter same2 next)) it) with
      | Ret _ => [push_line t (fit (cap c - blen t) u)] | _ => [] end).
    { destruct (t_collect_strs fuel (cap c) (map_iter same2 next) it) as [[u| | |] it'];
        [destruct H as (a & E & Ra)|rename H into E..]; rewrite E; cbn [fst]; [exists u; auto|exists []; auto..]. }
    destruct X as (u & X1 & X2). rewrite X2.
    apply (extend_lines c tr db (l_from_iterator_truncate c tr db record fuel (map_iter item_of_pair (map_iter same2 next)) it)
      (from_iterator_truncate c fuel (map_iter item_of_pair (map_iter same2 next)) it) _ s t u);
      [apply from_iterator_truncate_says; exact Hc|exact R|exact X1|reflexivity|reflexivity].
  - intros w0. unfold l_add, add, run_local. cbn [fst snd].
    destruct (push_str_truncate_lines c tr db (sret (enc w)) w s t R (says_sret tr db _) w0) as (w1 & E & G).
    rewrite E. exists w1. split; [|exact G].
    destruct (push_str_truncate_runs c Hc w s t R) as (s1 & X & _). rewrite X. reflexivity.
  - apply out_lines, write_str_lines, R.
  - apply out_lines. unfold write_char. rewrite encode_utf8_4, <- enc_single.
    apply (tells_ret tr db _ _ (enc [x]) s [] _ _ s); [apply tells_slift|reflexivity|]. exact (write_str_lines c tr db [x] s t R).
  - apply out_lines, fmt_call_lines; [exact Hc|exact R].
  - apply out_lines. unfold l_index_mut, index_mut. cbn [debug_lines].
    apply hush_bind.
    { apply hush_bind.
      { intros w0. destruct (tells_seen tr db (l_as_mut_str c tr record) s (fun s => fst (as_mut_str c s)) [] (says_as_mut_str c tr db s) w0)
          as (w1 & E & G). exists w1. auto. }
      intros b s1 _. apply hush_bind; [apply tells_slift|]. intros [a e] s2 _. apply tells_sret. }
    intros p s1 _. destruct (_ =? _); [apply tells_self|apply tells_sret].
  - apply out_lines. unfold make_ascii_uppercase. cbn [debug_lines].
    apply hush_bind; [|intros; apply tells_self].
    intros w0. destruct (tells_seen tr db (l_as_mut c tr record) s (fun s => fst (as_mut c s)) [] (says_as_mut c tr db s) w0) as (w1 & E & G).
    exists w1. auto.
  - apply out_lines. unfold make_ascii_lowercase. cbn [debug_lines].
    apply hush_bind; [|intros; apply tells_self].
    intros w0. destruct (tells_seen tr db (l_as_mut c tr record) s (fun s => fst (as_mut c s)) [] (says_as_mut c tr db s) w0) as (w1 & E & G).
    exists w1. auto.
  - apply (read_out_lines RNum _ (Ret (len s))), says_len.
  - refine (tells_ext tr db _ _ _ s _ eq_refl (read_out_lines RBool _ (is_empty c s) s _)).
    apply says_bind; [apply says_as_ref_str|intros; apply says_sret].
  - apply tells_sret.
  - refine (tells_ext tr db _ _ _ s _ eq_refl (read_out_lines RBytes _ (as_str c s) s _)). apply says_as_str.
  - refine (tells_ext tr db _ _ _ s _ eq_refl (read_out_lines RBool _ (eq_str c s (enc w)) s _)).
    apply says_bind; [apply says_as_str|intros; apply says_sret].
  - refine (tells_ext tr db _ _ _ s _ _ (read_lines _ (b <- as_str c s ;;
      match write_one_str buffer b [] with
      | (Ret _, b) => Ret (RBytes b) | (Panic, _) => Panic | (UB, _) => UB | (Diverge, _) => Diverge end) s _)).
    + unfold display, sbind, slift. destruct (as_str c s) as [b| | |]; cbn [obind]; reflexivity.
    + apply says_bind; [apply says_as_str|intros; apply says_slift].
  - refine (tells_ext tr db _ _ _ s _ eq_refl (read_out_lines RBytes _ (index c s r) s _)).
    apply says_bind; [apply says_as_str|intros; apply says_slift].
Qed.
End Calls.

(** ** The statements *)

Lemma c74_debug c tr db o s t l : valid_cfg c -> shows c s t -> typed_op o ->
  exists s' l', l_run_op c tr db record o (s, l) = (fst (t_op (usize_max c) (cap c) o t), (s', l')) /\
    shows c s' (snd (t_op (usize_max c) (cap c) o t)) /\
    log_grew tr db l (debug_lines (usize_max c) (cap c) o t) l'.
Proof.
  intros Hc Sh To. apply shows_rep in Sh.
  destruct (op_lines c Hc tr db o s t Sh l) as (l' & E & G).
  destruct (run_op_sim c Hc o s t Sh To) as (s' & E2 & R'). rewrite E2 in E.
  exists s', l'. split; [exact E|]. split; [apply shows_rep; exact R'|exact G].
Qed.

Lemma c74_history c tr db h s t l : valid_cfg c -> shows c s t -> Forall typed_op h ->
  exists s' l', l_run_ops c tr db record h s l = (fst (t_ops (usize_max c) (cap c) h t), s', l') /\
    shows c s' (snd (t_ops (usize_max c) (cap c) h t)) /\
    log_grew tr db l (history_lines (usize_max c) (cap c) h t) l'.
Proof.
  intros Hc Sh Th. revert s t l Sh. induction Th as [|o h To Th IH]; intros s t l Sh; cbn [l_run_ops t_ops history_lines].
  - exists s, l. split; [reflexivity|]. split; [exact Sh|apply grew_refl].
  - destruct (c74_debug c tr db o s t l Hc Sh To) as (s1 & l1 & E1 & S1 & G1). rewrite E1.
    destruct (t_op (usize_max c) (cap c) o t) as [r t1]. cbn [fst snd] in *.
    destruct (IH s1 t1 l1 S1) as (s2 & l2 & E2 & S2 & G2). rewrite E2.
    destruct (t_ops (usize_max c) (cap c) h t1) as [rs t2]. cbn [fst snd] in *.
    exists s2, l2. split; [reflexivity|]. split; [exact S2|exact (grew_trans tr db _ _ _ _ _ G1 G2)].
Qed.

Lemma c74_build c tr db k l : valid_cfg c -> typed_ctor k ->
  exists l', l_build c tr db record k l = (build c k, l') /\ log_grew tr db l (build_lines (cap c) k) l'.
Proof. intros Hc Hk. exact (build_says c Hc tr db k Hk l). Qed.

Lemma c74_announce c {W} (log : event -> ST W unit) o s e w w' :
  announces s o = Some e -> log e w = (Panic, w') ->
  l_run_op c true true log o (s, w) = (Panic, (s, w')).
Proof.
  intros A E. destruct o; cbn [announces] in A; try (injection A as <-); try discriminate A.
  all: try (destruct p; try discriminate A; injection A as <-).
  all: unfold l_run_op, l_out, l_add, l_try_push_str, l_push_str_truncate, l_try_push, l_truncate, l_pop, l_trim, l_remove, l_retain,
    l_try_insert, l_try_insert_str, l_insert_str_truncate, l_clear, l_drain, l_split_off, l_replace_range,
    l_extend_chars, l_extend_strs, l_extend_with, l_from_chars_truncate, l_from_iterator_truncate, l_from_loop,
    l_write_str, l_try_push_str, l_index_mut, l_as_mut_str, l_as_mut, l_as_str, l_as_ref_str, l_as_ref_bytes, l_assert, l_end_of, l_len,
    trace, dbg, log_with;
    try rewrite encode_utf8_4; cbn [enc flat_map] in E; try rewrite app_nil_r in E.
  all: cbn [formatting_prog run_fprog l_write_str]; unfold sbind, seen, on_arg, sret, slift; cbn [fst snd].
  all: try (rewrite E; reflexivity).
  all: try (destruct hi; cbn [fst snd]; rewrite E; reflexivity).
  all: destruct (debug c); cbn [fst snd]; rewrite E; reflexivity.
Qed.

Lemma c74_announce_new c {W} (log : event -> ST W unit) k e w w' :
  announces_new k = Some e -> log e w = (Panic, w') -> l_build c true true log k w = (Panic, w').
Proof.
  intros A E. destruct k; cbn [announces_new] in A; try (injection A as <-); try discriminate A.
  all: unfold l_build, l_map, l_try_from_str, l_from_str_truncate, l_drop, l_try_from_iterator, l_from_iterator_truncate,
    l_try_from_chars, l_from_chars_truncate, l_try_from_utf16, l_from_utf16_truncate, l_from_utf16_lossy_truncate, l_drop, l_from_loop,
    trace, dbg, log_with; unfold sbind, sret; rewrite E; reflexivity.
Qed.
