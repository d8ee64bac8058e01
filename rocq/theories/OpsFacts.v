(** Lock-step: every call on a value with text [t] does what [t_op] says. *)
From Coq Require Import ZArith ZifyBool ZifyN ZifyNat Arith.
From Verif Require Import Base Char Spec RustStd ModelError Model RustFmt ModelImpl ModelDrain TextOps SpecOps
  ModelOps IterSpec ListFacts Utf8Facts CoreFacts MethodFacts IterFacts Utf16Facts OrderFacts ImplFacts DrainFacts.

(** ** Plumbing *)
Lemma to_out_ret {A} (f : A -> out) (m : ST astring A) s a s' :
  m s = (Ret a, s') -> to_out f m s = (Ret (f a), s').
Proof. intros E. unfold to_out. erewrite sbind_ret by exact E. reflexivity. Qed.

(** The outcome of a call seen on texts. *)
Definition sim (c : cfg) (o : outcome out * astring) (p : outcome out * text) : Prop :=
  exists s', o = (fst p, s') /\ rep c s' (snd p).

Section Facts.
Variable c : cfg.
Hypothesis Hc : valid_cfg c.

Lemma sim_runs {A} (f : A -> out) (m : ST astring A) s r t :
  runs c (m s) r t -> sim c (to_out f m s) (Ret (f r), t).
Proof. intros (s' & E & R). exists s'. split; [apply to_out_ret; exact E | exact R]. Qed.

Lemma sim_runs_f {A E} (f : result A E -> out) (m : ST astring (result A E)) s p :
  runs_f c s (m s) p -> sim c (to_out f m s) (let '(r, t') := p in (Ret (f r), t')).
Proof.
  intros (s' & Eq & R & _). destruct p as [r t']. exists s'. split; [apply to_out_ret; exact Eq | exact R].
Qed.

(** ** Iterators *)
Lemma collect_loop {IT R} (next : iter IT char) fuel it s t : rep c s t ->
  exists s', for_loop (R := R) fuel next (fun x => push_or_break (try_push c x)) it s =
    (omap (fun _ => None) (fst (t_collect fuel (cap c - blen t) next it)),
     snd (t_collect fuel (cap c - blen t) next it), s') /\
    forall u, fst (t_collect fuel (cap c - blen t) next it) = Ret u -> rep c s' (t ++ u).
Proof.
  revert it s t; induction fuel as [|fuel IH]; intros it s t R0; cbn [for_loop t_collect].
  - exists s. split; [reflexivity|]. discriminate.
  - destruct (next it) as [[[x|]| | |] it1].
    + pose proof (rep_cap c _ _ R0) as Hcap.
      destruct (N.leb_spec (clen x) (cap c - blen t)) as [L|L].
      * destruct (body_break_char c Hc (R := R) x s t R0) as (s1 & E1 & R1); [lia|]. rewrite E1.
        destruct (IH it1 s1 (t ++ [x]) R1) as (s2 & E2 & R2).
        replace (cap c - blen (t ++ [x])) with (cap c - blen t - clen x) in *
          by (rewrite blen_app, blen_cons; cbn [blen]; lia).
        rewrite E2. exists s2.
        destruct (t_collect fuel (cap c - blen t - clen x) next it1) as [[u| | |] it2]; cbn [fst snd omap obind] in *;
          (split; [reflexivity|]); try discriminate.
        intros u' Eu. injection Eu as <-. rewrite (app_assoc t [x] u : t ++ x :: u = _).
        apply R2. reflexivity.
      * pose proof (push1_fails c Hc x s t R0) as Hf. specialize (Hf ltac:(lia)).
        rewrite (push_or_break_err (R := R) c _ s _ _ Hf).
        exists s. split; [reflexivity|]. intros u Eu. injection Eu as <-. rewrite app_nil_r. exact R0.
    + exists s. split; [reflexivity|]. intros u Eu. injection Eu as <-. rewrite app_nil_r. exact R0.
    + exists s. split; [reflexivity|]. discriminate.
    + exists s. split; [reflexivity|]. discriminate.
    + exists s. split; [reflexivity|]. discriminate.
Qed.

Lemma from_chars_truncate_collect {IT} (next : iter IT char) fuel it :
  match t_collect fuel (cap c) next it with
  | (Ret u, it') => exists s, from_chars_truncate c fuel next it = (Ret s, it') /\ rep c s u
  | (Panic, it') => from_chars_truncate c fuel next it = (Panic, it')
  | (UB, it') => from_chars_truncate c fuel next it = (UB, it')
  | (Diverge, it') => from_chars_truncate c fuel next it = (Diverge, it')
  end.
Proof.
  destruct (collect_loop (R := Empty_set) next fuel it (new c) [] (new_rep c)) as (s' & E & R).
  cbn [blen] in *. rewrite N.sub_0_r in *.
  unfold from_chars_truncate. rewrite E.
  destruct (t_collect fuel (cap c) next it) as [[u| | |] it']; cbn [fst snd omap obind from_loop] in *; try reflexivity.
  exists s'. split; [reflexivity|]. apply (R u). reflexivity.
Qed.

Lemma try_collect_loop {IT} (next : iter IT char) fuel it s t : rep c s t ->
  exists s', for_loop fuel next (fun x => push_or_return (fun e => e) (try_push c x)) it s =
    (omap (fun r => match r with Ok _ => None | Err e => Some e end) (fst (t_try_collect fuel (cap c - blen t) next it)),
     snd (t_try_collect fuel (cap c - blen t) next it), s') /\
    forall u, fst (t_try_collect fuel (cap c - blen t) next it) = Ret (Ok u) -> rep c s' (t ++ u).
Proof.
  revert it s t; induction fuel as [|fuel IH]; intros it s t R0; cbn [for_loop t_try_collect].
  - exists s. split; [reflexivity|]. discriminate.
  - destruct (next it) as [[[x|]| | |] it1].
    + pose proof (rep_cap c _ _ R0) as Hcap.
      destruct (N.leb_spec (clen x) (cap c - blen t)) as [L|L].
      * destruct (body_return_char c Hc x s t R0) as (s1 & E1 & R1); [lia|]. rewrite E1.
        destruct (IH it1 s1 (t ++ [x]) R1) as (s2 & E2 & R2).
        replace (cap c - blen (t ++ [x])) with (cap c - blen t - clen x) in *
          by (rewrite blen_app, blen_cons; cbn [blen]; lia).
        rewrite E2. exists s2.
        destruct (t_try_collect fuel (cap c - blen t - clen x) next it1) as [[[u|e]| | |] it2]; cbn [fst snd omap obind] in *;
          (split; [reflexivity|]); try discriminate.
        intros u' Eu. injection Eu as <-. rewrite (app_assoc t [x] u : t ++ x :: u = _).
        apply R2. reflexivity.
      * pose proof (push1_fails c Hc x s t R0) as Hf. specialize (Hf ltac:(lia)).
        rewrite (push_or_return_err c _ _ s _ _ Hf).
        exists s. split; [reflexivity|]. discriminate.
    + exists s. split; [reflexivity|]. intros u Eu. injection Eu as <-. rewrite app_nil_r. exact R0.
    + exists s. split; [reflexivity|]. discriminate.
    + exists s. split; [reflexivity|]. discriminate.
    + exists s. split; [reflexivity|]. discriminate.
Qed.

Lemma try_from_chars_collect {IT} (next : iter IT char) fuel it :
  match t_try_collect fuel (cap c) next it with
  | (Ret (Ok u), it') => exists s, try_from_chars c fuel next it = (Ret (Ok s), it') /\ rep c s u
  | (Ret (Err e), it') => try_from_chars c fuel next it = (Ret (Err e), it')
  | (Panic, it') => try_from_chars c fuel next it = (Panic, it')
  | (UB, it') => try_from_chars c fuel next it = (UB, it')
  | (Diverge, it') => try_from_chars c fuel next it = (Diverge, it')
  end.
Proof.
  destruct (try_collect_loop next fuel it (new c) [] (new_rep c)) as (s' & E & R).
  cbn [blen] in *. rewrite N.sub_0_r in *.
  unfold try_from_chars. rewrite E.
  destruct (t_try_collect fuel (cap c) next it) as [[[u|e]| | |] it']; cbn [fst snd omap obind from_loop] in *; try reflexivity.
  exists s'. split; [reflexivity|]. apply (R u). reflexivity.
Qed.

Lemma item_of_pair_item2 p : item_of_pair p = item2 p.
Proof. reflexivity. Qed.

Lemma map_iter_ret {IT A B} (f : A -> B) (next : iter IT A) it :
  map_iter f next it = (omap (option_map f) (fst (next it)), snd (next it)).
Proof. unfold map_iter. destruct (next it) as [[o| | |] it']; reflexivity. Qed.

Lemma collect_strs_loop {IT} (next : iter IT (text * text)) fuel it s t : rep c s t ->
  exists s', for_loop fuel (map_iter item_of_pair next) (trunc_body c) it s =
    (omap (fun _ => None) (fst (t_collect_strs fuel (cap c - blen t) next it)),
     snd (t_collect_strs fuel (cap c - blen t) next it), s') /\
    forall u, fst (t_collect_strs fuel (cap c - blen t) next it) = Ret u -> rep c s' (t ++ u).
Proof.
  revert it s t; induction fuel as [|fuel IH]; intros it s t R0; cbn [for_loop t_collect_strs].
  - exists s. split; [reflexivity|]. discriminate.
  - rewrite map_iter_ret. destruct (next it) as [[[[w w2]|]| | |] it1]; cbn [fst snd omap obind option_map].
    + rewrite item_of_pair_item2. pose proof (rep_cap c _ _ R0) as Hcap.
      destruct (N.leb_spec (blen w) (cap c - blen t)) as [L|L].
      * destruct (trunc_body_ok c Hc (w, w2) s t R0) as (s1 & E1 & R1); [cbn [fst]; lia|]. rewrite E1.
        cbn [fst] in R1.
        destruct (IH it1 s1 (t ++ w) R1) as (s2 & E2 & R2).
        replace (cap c - blen (t ++ w)) with (cap c - blen t - blen w) in *
          by (rewrite blen_app; lia).
        rewrite E2. exists s2.
        destruct (t_collect_strs fuel (cap c - blen t - blen w) next it1) as [[u| | |] it2]; cbn [fst snd omap obind] in *;
          (split; [reflexivity|]); try discriminate.
        intros u' Eu. injection Eu as <-. rewrite app_assoc.
        apply R2. reflexivity.
      * destruct (trunc_body_stop c Hc (w, w2) s t R0) as (s1 & E1 & R1); [cbn [fst]; lia|]. rewrite E1.
        exists s1. split; [reflexivity|]. intros u Eu. injection Eu as <-. exact R1.
    + exists s. split; [reflexivity|]. intros u Eu. injection Eu as <-. rewrite app_nil_r. exact R0.
    + exists s. split; [reflexivity|]. discriminate.
    + exists s. split; [reflexivity|]. discriminate.
    + exists s. split; [reflexivity|]. discriminate.
Qed.

Lemma from_iterator_truncate_collect {IT} (next : iter IT (text * text)) fuel it :
  match t_collect_strs fuel (cap c) next it with
  | (Ret u, it') => exists s, from_iterator_truncate c fuel (map_iter item_of_pair next) it = (Ret s, it') /\ rep c s u
  | (Panic, it') => from_iterator_truncate c fuel (map_iter item_of_pair next) it = (Panic, it')
  | (UB, it') => from_iterator_truncate c fuel (map_iter item_of_pair next) it = (UB, it')
  | (Diverge, it') => from_iterator_truncate c fuel (map_iter item_of_pair next) it = (Diverge, it')
  end.
Proof.
  destruct (collect_strs_loop next fuel it (new c) [] (new_rep c)) as (s' & E & R).
  cbn [blen] in *. rewrite N.sub_0_r in *.
  rewrite from_iterator_truncate_unfold. rewrite E.
  destruct (t_collect_strs fuel (cap c) next it) as [[u| | |] it']; cbn [fst snd omap obind from_loop] in *; try reflexivity.
  exists s'. split; [reflexivity|]. apply (R u). reflexivity.
Qed.

Lemma try_collect_strs_loop {IT} (next : iter IT (text * text)) fuel it s t : rep c s t ->
  exists s', for_loop fuel (map_iter item_of_pair next)
      (fun x => push_or_return (fun e => e) (try_push_str c (ref1 x))) it s =
    (omap (fun r => match r with Ok _ => None | Err e => Some e end)
       (fst (t_try_collect_strs fuel (cap c - blen t) next it)),
     snd (t_try_collect_strs fuel (cap c - blen t) next it), s') /\
    forall u, fst (t_try_collect_strs fuel (cap c - blen t) next it) = Ret (Ok u) -> rep c s' (t ++ u).
Proof.
  revert it s t; induction fuel as [|fuel IH]; intros it s t R0; cbn [for_loop t_try_collect_strs].
  - exists s. split; [reflexivity|]. discriminate.
  - rewrite map_iter_ret. destruct (next it) as [[[[w w2]|]| | |] it1]; cbn [fst snd omap obind option_map].
    + unfold item_of_pair at 1. cbn [fst snd ref1]. pose proof (rep_cap c _ _ R0) as Hcap.
      destruct (N.leb_spec (blen w) (cap c - blen t)) as [L|L].
      * destruct (push_or_return_ok c (fun e => e) (try_push_str c (enc w)) s t (t ++ w)) as (s1 & E1 & R1);
          [apply push_fits; [exact Hc | exact R0 | lia] | exact R0 |]. rewrite E1.
        destruct (IH it1 s1 (t ++ w) R1) as (s2 & E2 & R2).
        replace (cap c - blen (t ++ w)) with (cap c - blen t - blen w) in *
          by (rewrite blen_app; lia).
        rewrite E2. exists s2.
        destruct (t_try_collect_strs fuel (cap c - blen t - blen w) next it1) as [[[u|e]| | |] it2]; cbn [fst snd omap obind] in *;
          (split; [reflexivity|]); try discriminate.
        intros u' Eu. injection Eu as <-. rewrite app_assoc.
        apply R2. reflexivity.
      * rewrite (push_or_return_err c (fun e => e) (try_push_str c (enc w)) s mkOutOfBounds t)
          by (apply push_fails; [exact Hc | exact R0 | lia]).
        exists s. split; [reflexivity|]. discriminate.
    + exists s. split; [reflexivity|]. intros u Eu. injection Eu as <-. rewrite app_nil_r. exact R0.
    + exists s. split; [reflexivity|]. discriminate.
    + exists s. split; [reflexivity|]. discriminate.
    + exists s. split; [reflexivity|]. discriminate.
Qed.

Lemma try_from_iterator_collect {IT} (next : iter IT (text * text)) fuel it :
  match t_try_collect_strs fuel (cap c) next it with
  | (Ret (Ok u), it') => exists s, try_from_iterator c fuel (map_iter item_of_pair next) it = (Ret (Ok s), it') /\ rep c s u
  | (Ret (Err e), it') => try_from_iterator c fuel (map_iter item_of_pair next) it = (Ret (Err e), it')
  | (Panic, it') => try_from_iterator c fuel (map_iter item_of_pair next) it = (Panic, it')
  | (UB, it') => try_from_iterator c fuel (map_iter item_of_pair next) it = (UB, it')
  | (Diverge, it') => try_from_iterator c fuel (map_iter item_of_pair next) it = (Diverge, it')
  end.
Proof.
  destruct (try_collect_strs_loop next fuel it (new c) [] (new_rep c)) as (s' & E & R).
  cbn [blen] in *. rewrite N.sub_0_r in *.
  unfold try_from_iterator. rewrite E.
  destruct (t_try_collect_strs fuel (cap c) next it) as [[[u|e]| | |] it']; cbn [fst snd omap obind from_loop] in *; try reflexivity.
  exists s'. split; [reflexivity|]. apply (R u). reflexivity.
Qed.

(** ** retain, all outcomes *)
Lemma filter_run_t_retain {F} (f : char -> ST F bool) x t : fst (filter_run f x t) = t_retain f x t.
Proof.
  revert x; induction t as [|a t IH]; intros x; cbn [filter_run t_retain]; [reflexivity|].
  destruct (f a x) as [[b| | |] x1]; try reflexivity.
  rewrite <- (IH x1). destruct (filter_run f x1 t) as [[l| | |] x2]; reflexivity.
Qed.

Lemma retain_fail {F} (f : char -> ST F bool) x s t o x' : rep c s t -> filter_run f x t = (o, x') ->
  (forall l, o <> Ret l) ->
  exists r, retain c f x s = (r, s, x') /\
    r = match o with Ret _ => Ret tt | Panic => Panic | UB => UB | Diverge => Diverge end.
Proof.
  intros R E Ho. unfold retain. rewrite (as_str_rep c _ _ R).
  assert (Hl : (length t < S (length (enc t)))%nat).
  { pose proof (length_le_enc t). lia. }
  destruct (filter_run_fail f t x o x' _ Hl E Ho) as (l & it1 & r & Hy & Hn & Hlen & Hb).
  pose proof (rep_cap c _ _ R) as Hcap.
  destruct (folds_break_char c Hc (R := Empty_set) l (new c) []) as (s' & Hf & R'); [apply new_rep | cbn [blen]; lia |].
  unfold from_chars_truncate.
  rewrite (for_loop_folds _ _ _ _ _ _ _ _ Hy Hf) by (pose proof (length_le_enc t); lia).
  destruct (S (length (enc t)) - length l)%nat as [|k] eqn:Ek.
  { pose proof (length_le_enc t). lia. }
  cbn [for_loop]. rewrite Hn.
  destruct o as [l'| | |]; [exfalso; exact (Ho l' eq_refl) | | | ]; cbn [from_loop]; eexists; split; reflexivity.
Qed.

(** ** Slices *)
Lemma t_slice_spec a b t :
  match t_slice a b t with
  | Some (pre, mid, post) => str_get (enc t) a b = Some (enc mid) /\ t = pre ++ mid ++ post /\
      blen pre = a /\ blen pre + blen mid = b
  | None => str_get (enc t) a b = None
  end.
Proof.
  unfold t_slice.
  destruct (N.leb_spec a b) as [L|L].
  2:{ unfold str_get. destruct (N.leb_spec a b); [lia | reflexivity]. }
  destruct (split_at a t) as [[pre rest]|] eqn:E.
  2:{ unfold str_get. rewrite str_boundary_split, E. destruct (a <=? b); reflexivity. }
  pose proof (split_at_more t a b pre rest E L) as E3.
  destruct (split_at (b - a) rest) as [[mid post]|] eqn:E2.
  - apply split_at_Some in E, E2. destruct E as [-> Hp], E2 as [-> Hm].
    split; [|split; [reflexivity | split; [exact Hp | lia]]].
    rewrite <- Hp. replace b with (blen pre + blen mid) by lia. apply str_get_enc.
  - unfold str_get. rewrite !str_boundary_split, E, E3. destruct (a <=? b); reflexivity.
Qed.

Lemma map_code_eq a b : map code a = map code b <-> a = b.
Proof.
  revert b; induction a as [|x a IH]; intros [|y b]; cbn; try (split; congruence).
  split.
  - intros E. injection E as E1 E2. apply char_eq in E1. apply IH in E2. congruence.
  - intros E. congruence.
Qed.

Lemma formatting_prog_eq p : forall s, write_fmt c (formatting_prog p) s = write_fmt c (prog_of p) s.
Proof.
  reflexivity.
Qed.

(** ** The main lemma *)
Lemma run_op_sim o s t : rep c s t -> typed_op o -> sim c (run_op c o s) (t_op (usize_max c) (cap c) o t).
Proof.
  intros R Ho.
  destruct o; cbn [run_op t_op].
  - apply sim_runs_f, try_push_str_runs; assumption.
  - apply sim_runs with (r := tt), push_str_truncate_runs; assumption.
  - apply sim_runs_f, try_push_runs; assumption.
  - apply sim_runs_f, truncate_runs; assumption.
  - pose proof (sim_runs ROptChar (pop c) s _ _ (pop_runs c Hc s t R)) as H.
    destruct (t_pop t) as [r t']. exact H.
  - apply sim_runs with (r := tt), trim_runs; assumption.
  - apply sim_runs_f, remove_runs; assumption.
  - (* retain *)
    rewrite <- filter_run_t_retain. destruct (filter_run f x t) as [[l| | |] x'] eqn:E; cbn [fst].
    + destruct (retain_Ret c Hc f x s t l x' R E) as (s' & E' & R'). rewrite E'.
      exists s'. split; [reflexivity | exact R'].
    + destruct (retain_fail f x s t Panic x' R E) as (r & E' & ->); [discriminate|]. rewrite E'.
      exists s. split; [reflexivity | exact R].
    + destruct (retain_fail f x s t UB x' R E) as (r & E' & ->); [discriminate|]. rewrite E'.
      exists s. split; [reflexivity | exact R].
    + destruct (retain_fail f x s t Diverge x' R E) as (r & E' & ->); [discriminate|]. rewrite E'.
      exists s. split; [reflexivity | exact R].
  - apply sim_runs_f, try_insert_runs; assumption.
  - apply sim_runs_f, try_insert_str_runs; assumption.
  - apply sim_runs_f, insert_str_truncate_runs; assumption.
  - apply sim_runs with (r := tt). eapply clear_runs; eassumption.
  - (* drain *)
    destruct (drain_iter_runs c Hc lo hi s t R) as (s' & R' & H).
    destruct (t_drain (usize_max c) lo hi t) as [[m|e] t']; cbn [fst snd map_ok] in *.
    + destruct H as (d & E & Rd). exists s'. split; [|exact R'].
      erewrite sbind_ret by exact E. unfold slift, part_out. cbn [map_ok]. rewrite (as_str_rep c _ _ Rd). reflexivity.
    + destruct H as [E ->]. exists s. split; [|exact R'].
      erewrite sbind_ret by exact E. reflexivity.
  - (* split_off *)
    destruct (split_off_runs c Hc i s t R) as (s' & R' & H).
    destruct (t_split_off i t) as [[m|e] t']; cbn [fst snd map_ok] in *.
    + destruct H as (d & E & Rd). exists s'. split; [|exact R'].
      erewrite sbind_ret by exact E. unfold slift, part_out. rewrite (as_str_rep c _ _ Rd). reflexivity.
    + destruct H as [E ->]. exists s. split; [|exact R'].
      erewrite sbind_ret by exact E. reflexivity.
  - apply sim_runs_f, replace_range_runs; assumption.
  - (* extend chars *)
    unfold extend_chars. pose proof (from_chars_truncate_collect next (char_fuel c) it) as H.
    unfold char_fuel in *.
    destruct (t_collect (N.to_nat (cap c) + 2) (cap c) next it) as [[u| | |] it']; cbn [fst].
    + destruct H as (a & E & Ra). rewrite E.
      destruct (extend_with_Ret c Hc a u it' s t Ra R) as (s' & E' & R'). rewrite E'.
      exists s'. split; [reflexivity | exact R'].
    + rewrite H. exists s. split; [reflexivity | exact R].
    + rewrite H. exists s. split; [reflexivity | exact R].
    + rewrite H. exists s. split; [reflexivity | exact R].
  - (* extend strs *)
    unfold extend_strs. pose proof (from_iterator_truncate_collect (map_iter same2 next) fuel it) as H.
    destruct (t_collect_strs fuel (cap c) (map_iter same2 next) it) as [[u| | |] it']; cbn [fst].
    + destruct H as (a & E & Ra). rewrite E.
      destruct (extend_with_Ret c Hc a u it' s t Ra R) as (s' & E' & R'). rewrite E'.
      exists s'. split; [reflexivity | exact R'].
    + rewrite H. exists s. split; [reflexivity | exact R].
    + rewrite H. exists s. split; [reflexivity | exact R].
    + rewrite H. exists s. split; [reflexivity | exact R].
  - destruct (add_rep c Hc s t w R) as (s' & E & R'). rewrite E. exists s'. split; [reflexivity | exact R'].
  - pose proof (sim_runs_f (fun r => RFmt (is_ok r)) (write_str c (enc w)) s _ (write_str_rep c Hc w s t R)) as H.
    destruct (t_write_str (cap c) w t) as [b t']. cbn [fst snd] in H. destruct b; exact H.
  - pose proof (sim_runs_f (fun r => RFmt (is_ok r)) (write_char c x) s _ (write_char_rep c Hc x s t R)) as H.
    destruct (t_write_str (cap c) [x] t) as [b t']. cbn [fst snd] in H. destruct b; exact H.
  - destruct (write_fmt_rep c Hc p s t R) as (s' & E & R').
    destruct (t_write_fmt (cap c) p t) as [o t']. cbn [fst snd] in *.
    exists s'. split; [|exact R']. unfold to_out, sbind. rewrite formatting_prog_eq, E.
    destruct o as [[|]|]; reflexivity.
  - (* overwrite *)
    pose proof (index_mut_rep c Hc s t r R Ho) as E.
    destruct (ends_of_range (blen t) r) as [a b]. cbn [fst snd] in E.
    pose proof (t_slice_spec a b t) as Hsl.
    destruct (t_slice a b t) as [[[pre mid] post]|].
    + destruct Hsl as (Eg & -> & Ha & Hb). rewrite Eg in E.
      assert (Em : forall (k : N * list N -> ST astring unit), sbind (index_mut c r) k s = k (a, enc mid) s)
        by (intros k; apply sbind_ret; exact E).
      unfold to_out at 1. unfold sbind at 1. rewrite Em. cbn [fst snd]. rewrite !enc_len.
      destruct (N.eqb_spec (blen w) (blen mid)) as [Ew|Ew].
      * destruct (str_write_rep c Hc s pre mid w post R Ew) as (s' & E' & R' & _).
        rewrite Ha in E'. rewrite E'. exists s'. split; [reflexivity | exact R'].
      * exists s. split; [reflexivity | exact R].
    + rewrite Hsl in E. exists s. split; [|exact R]. unfold to_out, sbind. rewrite E. reflexivity.
  - apply sim_runs with (r := tt), uppercase_rep; assumption.
  - apply sim_runs with (r := tt), lowercase_rep; assumption.
  - exists s. split; [|exact R]. cbn [fst]. rewrite (rep_len c _ _ R). reflexivity.
  - exists s. split; [|exact R]. cbn [fst]. rewrite (is_empty_rep c _ _ R). reflexivity.
  - exists s. split; [reflexivity | exact R].
  - exists s. split; [|exact R]. cbn [fst]. rewrite (as_str_rep c _ _ R). reflexivity.
  - exists s. split; [|exact R]. cbn [fst]. destruct (eq_str_rep c s t w R) as (b & E & Hb).
    rewrite E. cbn. destruct (list_eq_dec N.eq_dec (map code t) (map code w)) as [e|e];
      rewrite map_code_eq in e; [rewrite (proj2 Hb e) | destruct b; [exfalso; apply e, Hb; reflexivity|]]; reflexivity.
  - exists s. split; [|exact R]. rewrite (display_rep c buffer sp s t [] R). reflexivity.
  - pose proof (index_rep c Hc s t r R Ho) as E.
    destruct (ends_of_range (blen t) r) as [a b]. cbn [fst snd] in E.
    pose proof (t_slice_spec a b t) as Hsl.
    destruct (t_slice a b t) as [[[pre mid] post]|].
    + destruct Hsl as (Eg & _). rewrite Eg in E. rewrite E. exists s. split; [reflexivity | exact R].
    + rewrite Hsl in E. rewrite E. exists s. split; [reflexivity | exact R].
Qed.

Lemma run_ops_sim l s t : rep c s t -> Forall typed_op l ->
  exists s', run_ops c l s = (fst (t_ops (usize_max c) (cap c) l t), s') /\
    rep c s' (snd (t_ops (usize_max c) (cap c) l t)).
Proof.
  revert s t; induction l as [|o l IH]; intros s t R Hl; cbn [run_ops t_ops].
  - exists s. split; [reflexivity | exact R].
  - inversion Hl as [|? ? Ho Hl']; subst.
    destruct (run_op_sim o s t R Ho) as (s1 & E1 & R1). rewrite E1.
    destruct (t_op (usize_max c) (cap c) o t) as [r t1]. cbn [fst snd] in *.
    destruct (IH s1 t1 R1 Hl') as (s2 & E2 & R2). rewrite E2.
    destruct (t_ops (usize_max c) (cap c) l t1) as [rs t2]. exists s2. split; [reflexivity | exact R2].
Qed.

(** ** UTF-16 *)
Lemma t_decode16_items us : Forall (fun u => u < 65536) us -> utf16_items us (t_decode16 us).
Proof.
  remember (length us) as n eqn:En.
  assert (Hn : (length us <= n)%nat) by lia. clear En. revert us Hn.
  induction n as [|n IH]; intros us Hn Hu.
  - destruct us; [constructor | cbn in Hn; lia].
  - destruct us as [|u r]; [constructor|]. cbn [t_decode16 length] in *.
    inversion Hu as [|? ? Hu1 Hr]; subst.
    destruct ((0xD800 <=? u) && (u <=? 0xDBFF)) eqn:Eh.
    + assert (Hh : is_high u) by (unfold is_high; lia).
      destruct r as [|v r'].
      * apply u16_high; [exact Hh | discriminate | constructor].
      * inversion Hr as [|? ? Hv Hr']; subst. cbn [length] in Hn.
        destruct ((0xDC00 <=? v) && (v <=? 0xDFFF)) eqn:El.
        -- assert (Hl : is_low v) by (unfold is_low; lia). unfold is_high, is_low in *.
           destruct (scalar_char (65536 + (u - 55296) * 1024 + (v - 56320))) as (x & Ex & Cx).
           { unfold is_scalar. lia. }
           rewrite Ex. apply u16_pair; [exact Hh | exact Hl | exact Cx |]. apply IH; [lia | exact Hr'].
        -- apply u16_high; [exact Hh | | apply IH; [cbn [length]; lia | exact Hr]].
           intros l us' E. injection E as <- <-. unfold is_low. lia.
    + destruct (char_of_N u) as [x|] eqn:Ex.
      * apply char_of_N_Some in Ex. subst u. apply u16_bmp; [lia | apply IH; [lia | exact Hr]].
      * apply char_of_N_None in Ex. unfold is_scalar in Ex.
        apply u16_low; [unfold is_low; lia | apply IH; [lia | exact Hr]].
Qed.

Lemma t_take16_ok {E} (bad : E) long n t : blen t <= n -> t_take16 bad long n (map Some t) = Ok t.
Proof.
  revert n; induction t as [|x t IH]; intros n H; cbn [map t_take16]; [reflexivity|].
  rewrite blen_cons in H. destruct (N.leb_spec (clen x) n) as [L|L]; [|lia].
  rewrite IH by lia. reflexivity.
Qed.

Lemma t_take16_bad {E} (bad : E) long n t r : blen t <= n ->
  t_take16 bad long n (map Some t ++ None :: r) = Err bad.
Proof.
  revert n; induction t as [|x t IH]; intros n H; cbn [map app t_take16]; [reflexivity|].
  rewrite blen_cons in H. destruct (N.leb_spec (clen x) n) as [L|L]; [|lia].
  rewrite IH by lia. reflexivity.
Qed.

Lemma t_take16_long {E} (bad : E) long n t x r : blen t <= n -> n < blen t + clen x ->
  t_take16 bad long n (map Some t ++ Some x :: r) = match long with Ok u => Ok (t ++ u) | Err e => Err e end.
Proof.
  revert n; induction t as [|y t IH]; intros n H H2; cbn [map app t_take16].
  - cbn [blen] in H2. destruct (N.leb_spec (clen x) n) as [L|L]; [lia|]. destruct long; reflexivity.
  - rewrite blen_cons in *. destruct (N.leb_spec (clen y) n) as [L|L]; [|lia].
    rewrite IH by lia. destruct long; reflexivity.
Qed.

(** ** Constructors *)
Definition sim_ctor (o : outcome (result astring Error)) (p : outcome (result text Error)) : Prop :=
  match p with
  | Ret (Ok t) => exists s, o = Ret (Ok s) /\ rep c s t
  | Ret (Err e) => o = Ret (Err e)
  | Panic => o = Panic
  | UB => o = UB
  | Diverge => o = Diverge
  end.

Lemma build_sim k : typed_ctor k -> sim_ctor (build c k) (t_ctor (cap c) k).
Proof.
  intros Hk. destruct k; cbn [build t_ctor typed_ctor] in *.
  - exists (new c). split; [reflexivity | apply new_rep].
  - exists (new c). split; [reflexivity | apply new_rep].
  - destruct (N.leb_spec (blen w) (cap c)) as [L|L].
    + destruct (try_from_str_fits c Hc w L) as (s & E & R). exists s. rewrite E. split; [reflexivity | exact R].
    + unfold sim_ctor. rewrite (try_from_str_long c Hc w L). reflexivity.
  - unfold from_str. destruct (N.leb_spec (blen w) (cap c)) as [L|L].
    + destruct (try_from_str_fits c Hc w L) as (s & E & R). exists s. rewrite E. split; [reflexivity | exact R].
    + unfold sim_ctor. rewrite (try_from_str_long c Hc w L). reflexivity.
  - destruct (from_str_truncate_runs c Hc w) as (s & E & R). exists s. rewrite E. split; [reflexivity | exact R].
  - unfold from_ref_str.
    destruct (from_str_truncate_runs c Hc w) as (s & E & R). exists s. rewrite E. split; [reflexivity | exact R].
  - pose proof (try_from_iterator_collect next fuel it) as H.
    destruct (t_try_collect_strs fuel (cap c) next it) as [[[u|e]| | |] it'];
      [destruct H as (s & H & R) | | | |]; rewrite H; cbn; [exists s; split; [reflexivity|exact R]|..]; reflexivity.
  - pose proof (from_iterator_truncate_collect next fuel it) as H.
    destruct (t_collect_strs fuel (cap c) next it) as [[u| | |] it'];
      [destruct H as (s & H & R) | | |]; rewrite H; cbn; [exists s; split; [reflexivity|exact R]|..]; reflexivity.
  - pose proof (try_from_chars_collect next (char_fuel c) it) as H. unfold char_fuel in *.
    destruct (t_try_collect (N.to_nat (cap c) + 2) (cap c) next it) as [[[u|e]| | |] it'];
      [destruct H as (s & H & R) | | | |]; rewrite H; cbn; [exists s; split; [reflexivity|exact R]|..]; reflexivity.
  - pose proof (from_chars_truncate_collect next (char_fuel c) it) as H. unfold char_fuel in *.
    destruct (t_collect (N.to_nat (cap c) + 2) (cap c) next it) as [[u| | |] it'];
      [destruct H as (s & H & R) | | |]; rewrite H; cbn; [exists s; split; [reflexivity|exact R]|..]; reflexivity.
  - pose proof (from_iterator_truncate_collect (map_iter same2 next) fuel it) as H. unfold from_iter_strs.
    destruct (t_collect_strs fuel (cap c) (map_iter same2 next) it) as [[u| | |] it'];
      [destruct H as (s & H & R) | | |]; rewrite H; cbn; [exists s; split; [reflexivity|exact R]|..]; reflexivity.
  - pose proof (from_chars_truncate_collect next (char_fuel c) it) as H. unfold char_fuel, from_iter_chars in *.
    destruct (t_collect (N.to_nat (cap c) + 2) (cap c) next it) as [[u| | |] it'];
      [destruct H as (s & H & R) | | |]; rewrite H; cbn; [exists s; split; [reflexivity|exact R]|..]; reflexivity.
  - pose proof (t_decode16_items us Hk) as Hi.
    destruct (items_cases (cap c) (t_decode16 us)) as [(t & E & L)|[(t & r & E & L)|(t & x & r & E & L & L2)]];
      rewrite E in *.
    + rewrite t_take16_ok by exact L. apply (try_from_utf16_ok c Hc us t Hi L).
    + rewrite t_take16_bad by exact L. apply (try_from_utf16_bad c Hc us t r Hi L).
    + rewrite t_take16_long by assumption. apply (try_from_utf16_long c Hc us t x r Hi L L2).
  - pose proof (t_decode16_items us Hk) as Hi.
    destruct (items_cases (cap c) (t_decode16 us)) as [(t & E & L)|[(t & r & E & L)|(t & x & r & E & L & L2)]];
      rewrite E in *.
    + rewrite t_take16_ok by exact L.
      destruct (from_utf16_truncate_ok c Hc us t Hi L) as (s & Es & R). exists s. rewrite Es. split; [reflexivity | exact R].
    + rewrite t_take16_bad by exact L. unfold sim_ctor.
      rewrite (from_utf16_truncate_bad c Hc us t r Hi L). reflexivity.
    + rewrite t_take16_long by assumption.
      destruct (from_utf16_truncate_long c Hc us t x r Hi L L2) as (s & Es & R). exists s. rewrite Es, app_nil_r.
      split; [reflexivity | exact R].
  - pose proof (t_decode16_items us Hk) as Hi.
    destruct (from_utf16_lossy_truncate_runs c Hc us _ Hi) as (s & E & R). exists s. rewrite E.
    split; [reflexivity | exact R].
Qed.

(** ** Everything reachable shows a text *)
Lemma reachable_rep s : reachable c s -> exists t, rep c s t.
Proof.
  induction 1 as [k s Hk E | o s r s' H IH Ho E | i s d s' H IH E | lo hi s d s' H IH E
                 | d r d' H IH E | d r d' H IH E].
  - pose proof (build_sim k Hk) as B. rewrite E in B. unfold sim_ctor in B.
    destruct (t_ctor (cap c) k) as [[t|e]| | |]; try discriminate.
    destruct B as (s1 & E1 & R). injection E1 as <-. exists t. exact R.
  - destruct IH as (t & R). destruct (run_op_sim o s t R Ho) as (s1 & E1 & R1).
    rewrite E in E1. injection E1 as _ <-. eexists. exact R1.
  - destruct IH as (t & R). destruct (split_off_runs c Hc i s t R) as (s1 & R1 & H1).
    destruct (fst (t_split_off i t)) as [m|e].
    + destruct H1 as (d1 & E1 & Rd). rewrite E in E1. injection E1 as <- _. exists m. exact Rd.
    + destruct H1 as [E1 _]. rewrite E in E1. discriminate.
  - destruct IH as (t & R). destruct (drain_iter_runs c Hc lo hi s t R) as (s1 & R1 & H1).
    destruct (fst (t_drain (usize_max c) lo hi t)) as [m|e].
    + destruct H1 as (d1 & E1 & Rd). rewrite E in E1. injection E1 as <- _. exists m. exact Rd.
    + destruct H1 as [E1 _]. rewrite E in E1. discriminate.
  - destruct IH as (t & R). destruct (drain_next_rep c Hc d t R) as (d1 & E1 & R1).
    rewrite E in E1. injection E1 as _ <-. eexists. exact R1.
  - destruct IH as (t & R). destruct (drain_next_back_rep c Hc d t R) as (d1 & E1 & R1).
    rewrite E in E1. injection E1 as _ <-. eexists. exact R1.
Qed.

End Facts.

(** ** Well-behaved arguments make every call return *)
Lemma t_collect_returns {IT} (next : iter IT char) : always_returns next ->
  forall fuel n it, (N.to_nat n + 1 < fuel)%nat -> exists u it', t_collect fuel n next it = (Ret u, it').
Proof.
  intros Ha. induction fuel as [|fuel IH]; intros n it Hf; [lia|]. cbn [t_collect].
  destruct (Ha it) as (o & it1 & ->). destruct o as [x|]; [|eexists _, _; reflexivity].
  pose proof (clen_range x) as Hx. destruct (N.leb_spec (clen x) n) as [L|L]; [|eexists _, _; reflexivity].
  destruct (IH (n - clen x) it1) as (u & it2 & ->); [lia|]. eexists _, _; reflexivity.
Qed.

Lemma t_try_collect_returns {IT} (next : iter IT char) : always_returns next ->
  forall fuel n it, (N.to_nat n + 1 < fuel)%nat -> exists u it', t_try_collect fuel n next it = (Ret u, it').
Proof.
  intros Ha. induction fuel as [|fuel IH]; intros n it Hf; [lia|]. cbn [t_try_collect].
  destruct (Ha it) as (o & it1 & ->). destruct o as [x|]; [|eexists _, _; reflexivity].
  pose proof (clen_range x) as Hx. destruct (N.leb_spec (clen x) n) as [L|L]; [|eexists _, _; reflexivity].
  destruct (IH (n - clen x) it1) as (u & it2 & ->); [lia|]. destruct u; eexists _, _; reflexivity.
Qed.

Lemma t_collect_strs_returns {IT} (next : iter IT (text * text)) fuel n it :
  finite_run fuel next it -> exists u it', t_collect_strs fuel n next it = (Ret u, it').
Proof.
  revert n it; induction fuel as [|fuel IH]; intros n it; cbn [finite_run t_collect_strs]; [tauto|].
  destruct (next it) as [[[[w w2]|]| | |] it1]; intros H; try tauto; [|eexists _, _; reflexivity].
  destruct (blen w <=? n); [|eexists _, _; reflexivity].
  destruct (IH (n - blen w) it1 H) as (u & it2 & ->). eexists _, _; reflexivity.
Qed.

Lemma t_try_collect_strs_returns {IT} (next : iter IT (text * text)) fuel n it :
  finite_run fuel next it -> exists u it', t_try_collect_strs fuel n next it = (Ret u, it').
Proof.
  revert n it; induction fuel as [|fuel IH]; intros n it; cbn [finite_run t_try_collect_strs]; [tauto|].
  destruct (next it) as [[[[w w2]|]| | |] it1]; intros H; try tauto; [|eexists _, _; reflexivity].
  destruct (blen w <=? n); [|eexists _, _; reflexivity].
  destruct (IH (n - blen w) it1 H) as (u & it2 & ->). destruct u; eexists _, _; reflexivity.
Qed.

Lemma finite_run_map {IT A B} (f : A -> B) (next : iter IT A) fuel it :
  finite_run fuel next it -> finite_run fuel (map_iter f next) it.
Proof.
  revert it; induction fuel as [|fuel IH]; intros it; cbn [finite_run]; [tauto|]. rewrite map_iter_ret.
  destruct (next it) as [[[x|]| | |] it1]; cbn; try tauto. apply IH.
Qed.

Lemma t_retain_returns {F} (f : char -> ST F bool) t : (forall a x, exists b x', f a x = (Ret b, x')) ->
  forall x, exists u, t_retain f x t = Ret u.
Proof.
  intros Hf. induction t as [|a t IH]; intros x; cbn [t_retain]; [eexists; reflexivity|].
  destruct (Hf a x) as (b & x1 & ->). destruct (IH x1) as (u & ->). eexists; reflexivity.
Qed.

Lemma t_write_fmt_returns cap p : no_panic p -> forall t, exists b t', t_write_fmt cap p t = (Some b, t').
Proof.
  induction 1 as [b|w next H IH]; intros t; cbn [t_write_fmt]; [eexists _, _; reflexivity|].
  destruct (t_write_str cap w t) as [b t']. apply IH.
Qed.

Lemma t_op_returns umax cap o t : benign o -> exists r t', t_op umax cap o t = (Ret r, t').
Proof.
  intros Hb. destruct o; cbn [benign t_op] in *; try (eexists _, _; reflexivity);
    try (match goal with |- context [let '(_, _) := ?p in _] => destruct p end; eexists _, _; reflexivity).
  - destruct (t_retain_returns f t Hb x) as (u & ->). eexists _, _; reflexivity.
  - destruct (t_collect_returns next Hb (N.to_nat cap + 2) cap it) as (u & it' & ->); [lia|].
    eexists _, _; reflexivity.
  - destruct (t_collect_strs_returns (map_iter same2 next) fuel cap it (finite_run_map _ _ _ _ Hb)) as (u & it' & ->).
    eexists _, _; reflexivity.
  - destruct (t_write_fmt_returns cap p Hb t) as (b & t' & ->). eexists _, _; reflexivity.
  - contradiction.
  - contradiction.
Qed.

Lemma t_ctor_returns cap k : benign_ctor k -> exists r, t_ctor cap k = Ret r.
Proof.
  intros Hb. destruct k; cbn [benign_ctor t_ctor] in *; try (eexists; reflexivity).
  - destruct (t_try_collect_strs_returns next fuel cap it Hb) as (u & it' & ->). eexists; reflexivity.
  - destruct (t_collect_strs_returns next fuel cap it Hb) as (u & it' & ->). eexists; reflexivity.
  - destruct (t_try_collect_returns next Hb (N.to_nat cap + 2) cap it) as (u & it' & ->); [lia|]. eexists; reflexivity.
  - destruct (t_collect_returns next Hb (N.to_nat cap + 2) cap it) as (u & it' & ->); [lia|]. eexists; reflexivity.
  - destruct (t_collect_strs_returns (map_iter same2 next) fuel cap it (finite_run_map _ _ _ _ Hb)) as (u & it' & ->).
    eexists; reflexivity.
  - destruct (t_collect_returns next Hb (N.to_nat cap + 2) cap it) as (u & it' & ->); [lia|]. eexists; reflexivity.
Qed.
