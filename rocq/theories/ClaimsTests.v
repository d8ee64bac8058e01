(** The assertions of the project's parity tests, for every input (C61). *)
From Coq Require Import ZArith ZifyBool ZifyN ZifyNat Arith.
From Verif Require Import Base Char Spec RustStd RustIter ModelError Model ModelImpl ModelDrain TextOps SpecOps
  StringSpec TestSuite IterSpec ListFacts Utf8Facts CoreFacts MethodFacts IterFacts Utf16Facts ImplFacts DrainFacts
  OpsFacts Obs ClaimsEdit ClaimsIter ClaimsLaws ClaimsString ClaimsDrainIter.

Section Tests.
Variable c : cfg.
Hypothesis Hc : valid_cfg c.

Lemma bytes_rep a t : rep c a t -> bytes_a c a = Ret (Some (enc t)).
Proof using. intros R. unfold bytes_a. rewrite (as_str_rep c _ _ R). reflexivity. Qed.

Lemma start_fits s : blen s <= cap c -> exists ms, unwrap_a (try_from_str c (enc s)) = Ret ms /\ rep c ms s.
Proof using Hc.
  intros H. destruct (try_from_str_fits c Hc s H) as (ms & E & R). exists ms. rewrite E. split; [reflexivity|exact R].
Qed.

Lemma then_self_runs {A} s (m : ST astring A) a t : blen s <= cap c ->
  (forall ms, rep c ms s -> runs c (m ms) a t) -> then_self c s m = Ret (Some (enc t)).
Proof using Hc.
  intros H Hm. destruct (start_fits s H) as (ms & E & R). destruct (Hm ms R) as (s' & E' & R').
  unfold then_self, start_a. rewrite E. cbn [obind]. unfold run_local. rewrite E'. cbn [obind snd].
  apply bytes_rep. exact R'.
Qed.

Lemma then_pair_runs {A} s (m : ST astring A) a t : blen s <= cap c ->
  (forall ms, rep c ms s -> runs c (m ms) a t) -> then_pair c s m = Ret (Some (enc t, a)).
Proof using Hc.
  intros H Hm. destruct (start_fits s H) as (ms & E & R). destruct (Hm ms R) as (s' & E' & R').
  unfold then_pair, start_a. rewrite E. cbn [obind]. unfold run_local. rewrite E'. cbn [obind].
  rewrite (as_str_rep c _ _ R'). reflexivity.
Qed.

Lemma then_ok_runs {A E} s (m : ST astring (result A E)) p : blen s <= cap c ->
  (forall ms, rep c ms s -> runs_f c ms (m ms) p) ->
  then_ok c s m = Ret (match fst p with Ok _ => Some (enc (snd p)) | Err _ => None end).
Proof using Hc.
  intros H Hm. destruct (start_fits s H) as (ms & E0 & R). destruct (Hm ms R) as (s' & E' & R' & _).
  unfold then_ok, start_a. rewrite E0. cbn [obind]. unfold run_local. rewrite E'. cbn [obind].
  destruct (fst p); [apply bytes_rep; exact R' | reflexivity].
Qed.

Lemma then_map_runs {A B E} (f : A -> outcome B) s (m : ST astring (result A E)) p g : blen s <= cap c ->
  (forall a, f a = Ret (g a)) ->
  (forall ms, rep c ms s -> runs_f c ms (m ms) p) ->
  then_map c f s m = Ret (match fst p with Ok a => Some (enc (snd p), g a) | Err _ => None end).
Proof using Hc.
  intros H Hf Hm. destruct (start_fits s H) as (ms & E0 & R). destruct (Hm ms R) as (s' & E' & R' & _).
  unfold then_map, start_a. rewrite E0. cbn [obind]. unfold run_local. rewrite E'. cbn [obind].
  destruct (fst p) as [a|]; [|reflexivity]. rewrite (as_str_rep c _ _ R'). cbn [obind]. rewrite Hf. reflexivity.
Qed.

(** ** Constructors *)
Lemma chars_end t : ends chars_iter (enc t) t [].
Proof using.
  exists []. split; [|reflexivity]. induction t as [|x t IH]; [constructor|].
  econstructor; [apply chars_iter_enc | exact IH].
Qed.

Lemma t61_constructors s : blen s <= cap c ->
  try_from_str_a c s = Ret (Some (enc s)) /\
  from_str_truncate_a c s = Ret (Some (enc s)) /\
  try_from_chars_a c s = Ret (Some (enc s)) /\
  from_chars_a c s = Ret (Some (enc s)) /\
  try_from_iter_a c s = Ret (Some (enc s)) /\
  from_iter_a c s = Ret (Some (enc s)).
Proof using Hc.
  intros H.
  assert (Hl : (length s < char_fuel c)%nat)
    by (pose proof (length_le_cap c s H); unfold char_fuel; lia).
  split; [|split; [|split; [|split; [|split]]]].
  - unfold try_from_str_a. destruct (try_from_str_fits c Hc s H) as (a & E & R). rewrite E. cbn [obind result_a].
    apply bytes_rep. exact R.
  - unfold from_str_truncate_a. destruct (from_str_truncate_runs c Hc s) as (a & E & R). rewrite E. cbn [obind].
    rewrite (fit_id _ _ H) in R. apply bytes_rep. exact R.
  - unfold try_from_chars_a.
    destruct (try_from_chars_end c Hc chars_iter (char_fuel c) (enc s) s [] (chars_end s) H Hl) as (a & E & R).
    rewrite E. cbn [fst obind result_a]. apply bytes_rep. exact R.
  - unfold from_chars_a.
    destruct (from_chars_truncate_end c Hc chars_iter (char_fuel c) (enc s) s [] (chars_end s) H Hl) as (a & E & R).
    rewrite E. cbn [fst obind]. apply bytes_rep. exact R.
  - unfold try_from_iter_a.
    destruct (try_from_iterator_end c Hc list_iter 2 [mkitem (enc s) (enc s)] [(s, s)] []) as (a & E & R).
    + exists []. split; [|reflexivity]. econstructor; [reflexivity | constructor].
    + cbn [map concat fst]. rewrite app_nil_r. exact H.
    + cbn [length]. lia.
    + rewrite E. cbn [fst obind result_a]. cbn [map concat fst] in R. rewrite app_nil_r in R. apply bytes_rep. exact R.
  - unfold from_iter_a.
    destruct (from_iterator_truncate_end c Hc list_iter 2 [mkitem (enc s) (enc s)] [(s, s)] []) as (a & E & R).
    + exists []. split; [|reflexivity]. econstructor; [reflexivity | constructor].
    + cbn [map concat fst]. rewrite app_nil_r. exact H.
    + cbn [length]. lia.
    + rewrite E. cbn [fst obind]. cbn [map concat fst] in R. rewrite app_nil_r in R. apply bytes_rep. exact R.
Qed.

(** ** UTF-16 *)
Lemma all_some_map {A} (t : list A) : all_some (map Some t) = Some t.
Proof using. induction t as [|x t IH]; [reflexivity|]. cbn [map all_some]. rewrite IH. reflexivity. Qed.
Lemma all_some_bad {A} (t : list A) r : all_some (map Some t ++ None :: r) = None.
Proof using. induction t as [|x t IH]; [reflexivity|]. cbn [map app all_some]. rewrite IH. reflexivity. Qed.
Lemma lossy_Some t : lossy (map Some t) = t.
Proof using. induction t as [|x t IH]; [reflexivity|]. cbn [map]. unfold lossy in *. cbn [map]. rewrite IH. reflexivity. Qed.
Lemma lossy_app a b : lossy (a ++ b) = lossy a ++ lossy b.
Proof using. apply map_app. Qed.

Lemma t61_utf16 us : Forall (fun u => u < 65536) us -> blen (lossy (t_decode16 us)) <= cap c ->
  try_from_utf16_a c us = Ret (utf16_s us) /\
  from_utf16_a c us = Ret (utf16_s us) /\
  from_utf16_lossy_a c us = Ret (utf16_lossy_s us).
Proof using Hc.
  intros Hu H. pose proof (t_decode16_items us Hu) as Hi. unfold utf16_s, utf16_lossy_s.
  remember (t_decode16 us) as items eqn:Ei. clear Ei.
  split; [|split].
  - unfold try_from_utf16_a. destruct (items_cases (cap c) items) as [(t & -> & L)|[(t & r & -> & L)|(t & x & r & -> & L & L')]].
    + destruct (try_from_utf16_ok c Hc us t Hi L) as (a & E & R). rewrite E, all_some_map. cbn [obind result_a].
      apply bytes_rep. exact R.
    + rewrite (try_from_utf16_bad c Hc us t r Hi L), all_some_bad. reflexivity.
    + exfalso. rewrite lossy_app, lossy_Some, blen_app in H. cbn in H. lia.
  - unfold from_utf16_a. destruct (items_cases (cap c) items) as [(t & -> & L)|[(t & r & -> & L)|(t & x & r & -> & L & L')]].
    + destruct (from_utf16_truncate_ok c Hc us t Hi L) as (a & E & R). rewrite E, all_some_map. cbn [obind result_a].
      apply bytes_rep. exact R.
    + rewrite (from_utf16_truncate_bad c Hc us t r Hi L), all_some_bad. reflexivity.
    + exfalso. rewrite lossy_app, lossy_Some, blen_app in H. cbn in H. lia.
  - unfold from_utf16_lossy_a. destruct (from_utf16_lossy_truncate_runs c Hc us items Hi) as (a & E & R).
    rewrite E. cbn [obind]. rewrite (fit_id _ _ H) in R. apply bytes_rep. exact R.
Qed.

(** ** Edits *)
Lemma t61_appends s x : blen s <= cap c ->
  (blen s + blen s <= cap c ->
     try_push_str_a c s = Ret (s_bytes (string_op (usize_max c) (SPushStr false s) s)) /\
     push_str_a c s = Ret (s_bytes (string_op (usize_max c) (SPushStr true s) s)) /\
     add_str_a c s = Ret (s_bytes (string_op (usize_max c) (SAdd s) s))) /\
  (blen s + clen x <= cap c ->
     push_a c x s = Ret (s_bytes (string_op (usize_max c) (SPush x) s))).
Proof using Hc.
  intros H. split; [intros H2; split; [|split]|intros H2].
  - unfold try_push_str_a.
    rewrite (then_ok_runs s _ _ H (fun ms => try_push_str_runs c Hc s ms s)).
    unfold t_try_push_str. replace (_ <=? _) with true by lia. reflexivity.
  - unfold push_str_a.
    rewrite (then_self_runs s _ _ _ H (fun ms => push_str_truncate_runs c Hc s ms s)).
    unfold t_push_str_truncate. rewrite fit_id by lia. reflexivity.
  - unfold add_str_a, add. destruct (start_fits s H) as (ms & E & R). rewrite E. cbn [obind].
    destruct (push_str_truncate_runs c Hc s ms s R) as (s' & E' & R'). unfold run_local. rewrite E'. cbn [obind].
    unfold t_push_str_truncate in R'. rewrite fit_id in R' by lia. apply bytes_rep. exact R'.
  - unfold push_a.
    rewrite (then_ok_runs s _ _ H (fun ms => try_push_runs c Hc x ms s)).
    unfold t_try_push_str. cbn [blen]. replace (_ <=? _) with true by lia. reflexivity.
Qed.

Lemma t61_cuts s n : blen s <= cap c ->
  truncate_a c n s = Ret (s_bytes (string_op (usize_max c) (STruncate n) s)) /\
  pop_a c s = Ret (s_pair out_opt (string_op (usize_max c) SPop s)) /\
  trim_a c s = Ret (Some (enc (trim_text s))) /\
  remove_a c n s = Ret (s_pair out_char (string_op (usize_max c) (SRemove n) s)) /\
  clear_a c s = Ret (s_bytes (string_op (usize_max c) SClear s)) /\
  split_off_a c n s = Ret (s_pair out_text (string_op (usize_max c) (SSplitOff n) s)) /\
  drain_a c n s = Ret (s_pair out_text (string_op (usize_max c) (SDrain Unbounded (Excluded n)) s)) /\
  len_a c s = Ret (blen s) /\
  is_empty_a c s = Ret (match s with [] => true | _ => false end).
Proof using Hc.
  intros H. split; [|split; [|split; [|split; [|split; [|split; [|split; [|split]]]]]]].
  - unfold truncate_a. rewrite (then_ok_runs s _ _ H (fun ms => truncate_runs c Hc n ms s)).
    unfold t_truncate. cbn [string_op]. f_equal.
    destruct (N.leb_spec (blen s) n) as [L|L].
    + destruct (N.leb_spec n (blen s)) as [L'|L']; [|reflexivity].
      replace n with (blen s) by lia. rewrite split_at_end. reflexivity.
    + replace (n <=? blen s) with true by lia. destruct (split_at n s) as [[a b]|]; reflexivity.
  - unfold pop_a. rewrite (then_pair_runs s _ _ _ H (fun ms => pop_runs c Hc ms s)).
    cbn [string_op]. unfold t_pop. destruct (rev s) as [|x r] eqn:E; [|reflexivity].
    apply (f_equal (@rev char)) in E. rewrite rev_involutive in E. subst s. reflexivity.
  - unfold trim_a. exact (then_self_runs s _ _ _ H (fun ms => trim_runs c Hc ms s)).
  - unfold remove_a. rewrite (then_map_runs Ret s _ _ (fun x => x) H (fun a => eq_refl) (fun ms => remove_runs c Hc n ms s)).
    cbn [string_op]. unfold t_remove. f_equal.
    destruct (N.leb_spec (blen s) n) as [L|L].
    + destruct (split_at n s) as [[a b]|] eqn:E; [|reflexivity].
      apply split_at_Some in E as [-> E]. rewrite blen_app in L. destruct b as [|x b]; [reflexivity|].
      exfalso. rewrite blen_cons in L. pose proof (clen_range x). lia.
    + destruct (split_at n s) as [[a [|x b]]|] eqn:E; reflexivity.
  - unfold clear_a. exact (then_self_runs s _ _ _ H (fun ms => clear_runs c Hc ms s)).
  - unfold split_off_a. destruct (start_fits s H) as (ms & E & R).
    unfold then_map, start_a. rewrite E. cbn [obind]. unfold run_local.
    destruct (split_off_runs c Hc n ms s R) as (s' & R' & M). cbn [string_op]. unfold t_split_off in *.
    destruct (N.ltb_spec (blen s) n) as [L|L].
    + cbn [fst] in M. destruct M as [-> _]. cbn [obind].
      destruct (split_at n s) as [p|] eqn:Es; [|reflexivity]. apply split_at_le in Es. lia.
    + destruct (split_at n s) as [[a b]|]; cbn [fst snd] in M, R'.
      * destruct M as (sd & -> & Rd). cbn [obind]. rewrite (as_str_rep c _ _ R'). cbn [obind].
        rewrite (as_str_rep c _ _ Rd). reflexivity.
      * destruct M as [-> _]. reflexivity.
  - unfold drain_a. destruct (start_fits s H) as (ms & E & R).
    unfold then_map, start_a. rewrite E. cbn [obind]. unfold run_local.
    destruct (drain_iter_runs c Hc Unbounded (Excluded n) ms s R) as (s' & R' & M).
    cbn [string_op]. unfold s_slices, s_range. cbn [range_from range_to] in *.
    replace (0 <=? n) with true by lia. cbn [andb]. unfold t_drain in *. cbn [range_from range_to] in *.
    replace (n <? 0) with false in * by lia.
    rewrite split_at_0, N.sub_0_r in M, R'. unfold t_slice.
    destruct (N.ltb_spec (blen s) n) as [L|L].
    + replace (n <=? blen s) with false by lia. cbn [fst] in M. destruct M as [-> _]. reflexivity.
    + replace (n <=? blen s) with true by lia. replace (0 <=? n) with true by lia.
      rewrite split_at_0, N.sub_0_r.
      destruct (split_at n s) as [[a b]|] eqn:Es; cbn [fst snd] in M, R'.
      * destruct M as (d & -> & Rd). cbn [obind]. rewrite (as_str_rep c _ _ R'). cbn [obind].
        assert (Hl : (length a < char_fuel c)%nat).
        { pose proof (length_le_cap c a (rep_cap c _ _ Rd)). unfold char_fuel. lia. }
        destruct (c56_folds c d a (char_fuel c) Hc (proj2 (shows_rep c _ _) Rd) Hl) as (d' & _ & _ & _ & Ec).
        unfold drain_iterator. rewrite Ec. reflexivity.
      * destruct M as [-> _]. reflexivity.
  - unfold len_a. destruct (start_fits s H) as (ms & E & R). rewrite E. cbn [obind]. f_equal.
    exact (rep_len c _ _ R).
  - unfold is_empty_a. destruct (start_fits s H) as (ms & E & R). rewrite E. cbn [obind].
    exact (is_empty_rep c _ _ R).
Qed.

Lemma t61_inserts s n x : blen s <= cap c ->
  (blen s + clen x <= cap c ->
     try_insert_a c n x s = Ret (s_bytes (string_op (usize_max c) (SInsert n x) s))) /\
  (blen s + blen s <= cap c ->
     try_insert_str_a c n s = Ret (s_bytes (string_op (usize_max c) (SInsertStr false n s) s)) /\
     insert_str_a c n s = Ret (s_bytes (string_op (usize_max c) (SInsertStr true n s) s)) /\
     replace_range_a c n s =
       Ret (s_bytes (string_op (usize_max c) (SReplaceRange Unbounded (Excluded n) s) s))).
Proof using Hc.
  intros H.
  assert (K : forall w, blen s + blen w <= cap c -> (w = [] -> s = []) ->
    match fst (t_try_insert_str (cap c) n w s) with Ok _ => Some (enc (snd (t_try_insert_str (cap c) n w s))) | Err _ => None end
    = match split_at n s with Some (pre, post) => Some (enc (pre ++ w ++ post)) | None => None end).
  { intros w Hw Hn. unfold t_try_insert_str. destruct (N.ltb_spec (blen s) n) as [L|L].
    - destruct (split_at n s) as [p|] eqn:Es; [|reflexivity]. apply split_at_le in Es. lia.
    - destruct (N.eqb_spec (blen w) 0) as [Z|Z].
      + destruct w as [|y w]; [|exfalso; rewrite blen_cons in Z; pose proof (clen_range y); lia].
        rewrite (Hn eq_refl) in *. cbn [blen] in L. replace n with 0 by lia. reflexivity.
      + replace (cap c <? blen w) with false by lia. destruct (split_at n s) as [[a b]|]; [|reflexivity].
        replace (_ <=? _) with true by lia. reflexivity. }
  split; [intros H2|intros H2; split; [|split]].
  - unfold try_insert_a. rewrite (then_ok_runs s _ _ H (fun ms => try_insert_runs c Hc n x ms s)).
    rewrite (K [x]) by (cbn [blen]; try lia; discriminate). cbn [string_op].
    destruct (split_at n s) as [[a b]|]; reflexivity.
  - unfold try_insert_str_a. rewrite (then_ok_runs s _ _ H (fun ms => try_insert_str_runs c Hc n s ms s)).
    rewrite (K s) by (try lia; intros E; exact E). cbn [string_op].
    destruct (split_at n s) as [[a b]|]; reflexivity.
  - unfold insert_str_a. rewrite (then_ok_runs s _ _ H (fun ms => insert_str_truncate_runs c Hc n s ms s)).
    unfold t_insert_str_truncate. rewrite fit_id by lia.
    rewrite (K s) by (try lia; intros E; exact E). cbn [string_op].
    destruct (split_at n s) as [[a b]|]; reflexivity.
  - unfold replace_range_a.
    rewrite (then_ok_runs s _ _ H (fun ms => replace_range_runs c Hc Unbounded (Excluded n) s ms s)).
    unfold t_replace_range. cbn [string_op range_from range_to]. unfold s_slices, s_range. cbn [andb].
    replace (0 <=? n) with true by lia. cbn [andb]. f_equal.
    destruct (N.eqb_spec 0 n) as [<-|Z]; cbn [andb].
    + replace (0 <=? blen s) with true by lia. unfold t_slice. replace (0 <=? 0) with true by lia.
      rewrite split_at_0, N.sub_0_r, split_at_0. cbn [app].
      destruct (N.eqb_spec (blen s) 0) as [Zs|Zs].
      * destruct s as [|y w]; [reflexivity|]. exfalso; rewrite blen_cons in Zs; pose proof (clen_range y); lia.
      * replace (0 <? 0) with false by lia. replace (blen s <? 0) with false by lia.
        replace (cap c <? blen s) with false by lia. cbn [blen]. replace (_ <=? _) with true by lia. reflexivity.
    + replace (n <? 0) with false by lia. destruct (N.ltb_spec (blen s) n) as [L|L].
      * replace (n <=? blen s) with false by lia. reflexivity.
      * replace (n <=? blen s) with true by lia. replace (cap c <? blen s) with false by lia.
        unfold t_slice. replace (0 <=? n) with true by lia. rewrite !split_at_0, N.sub_0_r.
        destruct (split_at n s) as [[a b]|] eqn:Es; [|reflexivity].
        apply split_at_Some in Es as [Es _]. assert (blen b <= blen s) by (rewrite Es, blen_app; lia).
        cbn [blen]. replace (_ <=? _) with true by lia. reflexivity.
Qed.

Lemma t61_retain s p : blen s <= cap c ->
  retain_a c p s = Ret (s_bytes (string_op (usize_max c) (SRetain unit (fun _ x => (p x, tt)) tt) s)).
Proof using Hc.
  intros H. unfold retain_a. cbn [string_op s_bytes].
  rewrite (then_self_runs s _ tt (fst (filter_st (fun _ x => (p x, tt)) tt s)) H); [reflexivity|].
  intros ms R.
  assert (E : filter_run (fun x => sret (p x)) tt s = (Ret (fst (filter_st (fun (_ : unit) x => (p x, tt)) tt s)), tt)).
  { clear. induction s as [|y s IH]; [reflexivity|]. cbn [filter_run filter_st].
    change (sret (p y) tt) with (Ret (p y), tt). cbv iota beta. rewrite IH.
    destruct (filter_st _ tt s) as [r []]. cbn [fst]. destruct (p y); reflexivity. }
  destruct (retain_Ret c Hc _ tt ms s _ _ R E) as (s' & E' & R'). exists s'. rewrite E'. split; [reflexivity|exact R'].
Qed.
End Tests.

(** ** C61 *)
Lemma c61_constructors c s : valid_cfg c -> blen s <= cap c ->
  try_from_str_a c s = Ret (Some (enc s)) /\
  from_str_truncate_a c s = Ret (Some (enc s)) /\
  try_from_chars_a c s = Ret (Some (enc s)) /\
  from_chars_a c s = Ret (Some (enc s)) /\
  try_from_iter_a c s = Ret (Some (enc s)) /\
  from_iter_a c s = Ret (Some (enc s)).
Proof. intros Hc. apply t61_constructors. exact Hc. Qed.

Lemma c61_utf16 c us : valid_cfg c -> Forall (fun u => u < 65536) us -> blen (lossy (t_decode16 us)) <= cap c ->
  try_from_utf16_a c us = Ret (utf16_s us) /\
  from_utf16_a c us = Ret (utf16_s us) /\
  from_utf16_lossy_a c us = Ret (utf16_lossy_s us).
Proof. intros Hc. apply t61_utf16. exact Hc. Qed.

Lemma c61_appends c s x : valid_cfg c -> blen s <= cap c ->
  (blen s + blen s <= cap c ->
     try_push_str_a c s = Ret (s_bytes (string_op (usize_max c) (SPushStr false s) s)) /\
     push_str_a c s = Ret (s_bytes (string_op (usize_max c) (SPushStr true s) s)) /\
     add_str_a c s = Ret (s_bytes (string_op (usize_max c) (SAdd s) s))) /\
  (blen s + clen x <= cap c ->
     push_a c x s = Ret (s_bytes (string_op (usize_max c) (SPush x) s))).
Proof. intros Hc. apply t61_appends. exact Hc. Qed.

Lemma c61_cuts c s n p : valid_cfg c -> blen s <= cap c ->
  truncate_a c n s = Ret (s_bytes (string_op (usize_max c) (STruncate n) s)) /\
  pop_a c s = Ret (s_pair out_opt (string_op (usize_max c) SPop s)) /\
  trim_a c s = Ret (Some (enc (trim_text s))) /\
  remove_a c n s = Ret (s_pair out_char (string_op (usize_max c) (SRemove n) s)) /\
  retain_a c p s = Ret (s_bytes (string_op (usize_max c) (SRetain unit (fun _ x => (p x, tt)) tt) s)) /\
  clear_a c s = Ret (s_bytes (string_op (usize_max c) SClear s)) /\
  split_off_a c n s = Ret (s_pair out_text (string_op (usize_max c) (SSplitOff n) s)) /\
  drain_a c n s = Ret (s_pair out_text (string_op (usize_max c) (SDrain Unbounded (Excluded n)) s)) /\
  len_a c s = Ret (blen s) /\
  is_empty_a c s = Ret (match s with [] => true | _ => false end).
Proof.
  intros Hc H. pose proof (t61_retain c Hc s p H) as Hr. pose proof (t61_cuts c Hc s n H) as K.
  destruct K as (K1 & K2 & K3 & K4 & K5). split; [exact K1|]. split; [exact K2|]. split; [exact K3|].
  split; [exact K4|]. split; [exact Hr|]. exact K5.
Qed.

Lemma c61_inserts c s n x : valid_cfg c -> blen s <= cap c ->
  (blen s + clen x <= cap c ->
     try_insert_a c n x s = Ret (s_bytes (string_op (usize_max c) (SInsert n x) s))) /\
  (blen s + blen s <= cap c ->
     try_insert_str_a c n s = Ret (s_bytes (string_op (usize_max c) (SInsertStr false n s) s)) /\
     insert_str_a c n s = Ret (s_bytes (string_op (usize_max c) (SInsertStr true n s) s)) /\
     replace_range_a c n s =
       Ret (s_bytes (string_op (usize_max c) (SReplaceRange Unbounded (Excluded n) s) s))).
Proof. intros Hc. apply t61_inserts. exact Hc. Qed.
