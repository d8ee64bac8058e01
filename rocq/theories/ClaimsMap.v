(** Strings as keys of std's maps (C72). *)
From Coq Require Import Sorted Permutation.
From Verif Require Import Base Char Spec RustStd ModelError Model ModelImpl ModelCache IterSpec ListFacts Utf8Facts
  CoreFacts OrderFacts ImplFacts Obs ObsCache ObsMap.

Lemma same_text_spec a b : same_text a b = true <-> a = b.
Proof.
  unfold same_text. destruct (list_eq_dec N.eq_dec (map code a) (map code b)) as [E|E].
  - split; [|reflexivity]. intros _. revert b E. induction a as [|x a IH]; destruct b as [|y b]; try discriminate; [reflexivity|].
    cbn [map]. intros E. injection E as E1 E2. rewrite (char_eq x y E1), (IH b E2). reflexivity.
  - split; [discriminate|]. intros ->. congruence.
Qed.

Lemma text_dec (a b : text) : a = b \/ a <> b.
Proof.
  destruct (same_text a b) eqn:E; [left; apply same_text_spec; exact E|]. right. intros H.
  apply same_text_spec in H. congruence.
Qed.

(** ** Partial functions and lists of entries *)
Section Agree.
Context {V : Type}.

Definition agrees (f : text -> option V) (l : list (text * V)) : Prop :=
  NoDup (map fst l) /\ forall w v, f w = Some v <-> In (w, v) l.

Lemma put_same (w : text) (x : option V) f : t_put w x f w = x.
Proof. unfold t_put. rewrite (proj2 (same_text_spec w w) eq_refl). reflexivity. Qed.

Lemma put_other (w u : text) (x : option V) f : u <> w -> t_put w x f u = f u.
Proof.
  intros H. unfold t_put. destruct (same_text u w) eqn:E; [|reflexivity]. apply same_text_spec in E. contradiction.
Qed.

Lemma agrees_nil : agrees no_text [].
Proof. split; [constructor|]. intros w v. split; [discriminate | intros []]. Qed.

Lemma agrees_none f l w : agrees f l -> ~ In w (map fst l) -> f w = None.
Proof.
  intros [_ H] Hn. destruct (f w) as [v|] eqn:E; [|reflexivity]. exfalso. apply Hn.
  apply H in E. exact (in_map fst _ _ E).
Qed.

Lemma agrees_some f la w v lb : agrees f (la ++ (w, v) :: lb) -> f w = Some v.
Proof. intros [_ H]. apply H. apply in_elt. Qed.

Lemma nodup_middle (la : list text) w lb : NoDup (la ++ w :: lb) <-> NoDup (la ++ lb) /\ ~ In w (la ++ lb).
Proof.
  split.
  - intros H. split; [exact (NoDup_remove_1 _ _ _ H) | exact (NoDup_remove_2 _ _ _ H)].
  - intros [H Hn]. apply (Permutation_NoDup (l := w :: la ++ lb)).
    + apply Permutation_middle.
    + constructor; assumption.
Qed.

Lemma agrees_middle f la lb w v : agrees f (la ++ (w, v) :: lb) <->
  f w = Some v /\ ~ In w (map fst (la ++ lb)) /\ NoDup (map fst (la ++ lb)) /\
  forall u x, u <> w -> (f u = Some x <-> In (u, x) (la ++ lb)).
Proof.
  unfold agrees. rewrite map_app. cbn [map fst]. rewrite nodup_middle, <- map_app. split.
  - intros [[H1 H2] H]. split; [apply H; apply in_elt|]. split; [exact H2|]. split; [exact H1|].
    intros u x Hu. rewrite H, !in_app_iff. cbn [In]. split; [|tauto].
    intros [D|[D|D]]; [tauto | injection D as -> _; contradiction | tauto].
  - intros (E & H2 & H1 & H). split; [split; assumption|]. intros u x.
    destruct (text_dec u w) as [->|Hu].
    + rewrite E. split.
      * intros D. injection D as <-. apply in_elt.
      * rewrite in_app_iff. cbn [In]. intros D. assert (D' : In (w, x) (la ++ lb) \/ x = v).
        { rewrite in_app_iff. destruct D as [D|[D|D]]; [tauto | injection D as ->; tauto | tauto]. }
        destruct D' as [D'| ->]; [|reflexivity]. exfalso. apply H2. exact (in_map fst _ _ D').
    + rewrite (H u x Hu), !in_app_iff. cbn [In]. split; [tauto|].
      intros [D|[D|D]]; [tauto | injection D as -> _; contradiction | tauto].
Qed.

Lemma agrees_add f la lb w v : agrees f (la ++ lb) -> ~ In w (map fst (la ++ lb)) ->
  agrees (t_put w (Some v) f) (la ++ (w, v) :: lb).
Proof.
  intros [Hd H] Hn. apply agrees_middle. split; [apply put_same|]. split; [exact Hn|]. split; [exact Hd|].
  intros u x Hu. rewrite put_other by exact Hu. apply H.
Qed.

Lemma agrees_set f la lb w v v' : agrees f (la ++ (w, v) :: lb) ->
  agrees (t_put w (Some v') f) (la ++ (w, v') :: lb).
Proof.
  rewrite !agrees_middle. intros (_ & H1 & H2 & H). split; [apply put_same|]. split; [exact H1|]. split; [exact H2|].
  intros u x Hu. rewrite put_other by exact Hu. exact (H u x Hu).
Qed.

Lemma agrees_gone f l w : agrees f l -> ~ In w (map fst l) -> agrees (t_put w None f) l.
Proof.
  intros [Hd H] Hn. split; [exact Hd|]. intros u x. destruct (text_dec u w) as [->|Hu].
  - rewrite put_same. split; [discriminate|]. intros D. exfalso. apply Hn. exact (in_map fst _ _ D).
  - rewrite put_other by exact Hu. apply H.
Qed.

Lemma agrees_del f la lb w v : agrees f (la ++ (w, v) :: lb) -> agrees (t_put w None f) (la ++ lb).
Proof.
  rewrite agrees_middle. intros (_ & H1 & H2 & H). split; [exact H2|]. intros u x.
  destruct (text_dec u w) as [->|Hu].
  - rewrite put_same. split; [discriminate|]. intros D. exfalso. apply H1. exact (in_map fst _ _ D).
  - rewrite put_other by exact Hu. exact (H u x Hu).
Qed.
End Agree.

(** ** The maps *)
Section Maps.
Context {K V : Type}.
Variable kshows : K -> text -> Prop.
Variable kborrow : K -> outcome (list N).
Hypothesis kborrow_ok : forall k t, kshows k t -> kborrow k = Ret (enc t).

Definition shown (e : K * V) (x : text * V) : Prop := kshows (fst e) (fst x) /\ snd e = snd x.

Lemma entries_shown m l f : Forall2 shown m l -> agrees f l -> entries kshows m f (map fst l).
Proof.
  intros H [Hd A]. split; [|split; [exact Hd|]].
  - clear - H. induction H as [|e x m l [H _] _ IH]; constructor; assumption.
  - intros w v. rewrite A. replace (combine (map fst l) (map snd m)) with l; [reflexivity|].
    clear - H. induction H as [|e [u x] m l [_ H] _ IH]; [reflexivity|]. cbn [map combine fst snd] in *.
    rewrite <- IH, H. reflexivity.
Qed.

Section Hash.
Variable h : hasher.
Variable start : hstate h.
Variable finish : hstate h -> N.
Variable slot : N -> N.
Variable khash : K -> hstate h -> outcome (hstate h).
Variable keq : K -> K -> outcome bool.
Hypothesis khash_ok : forall k t st, kshows k t -> khash k st = Ret (str_hash h (enc t) st).
Hypothesis keq_ok : forall k t k' t', kshows k t -> kshows k' t' ->
  exists b, keq k k' = Ret b /\ (b = true <-> t = t').

Let at_ (w : text) : N := str_slot h start finish slot (enc w).

Definition stored (e : N * K * V) (x : text * V) : Prop :=
  let '(p, k, v) := e in p = at_ (fst x) /\ kshows k (fst x) /\ v = snd x.

Lemma table_find_spec w same m l : Forall2 stored m l ->
  (forall k t, kshows k t -> exists b, same k = Ret b /\ (b = true <-> w = t)) ->
  (table_find (at_ w) same m = Ret None /\ ~ In w (map fst l)) \/
  exists a k v b la lb, table_find (at_ w) same m = Ret (Some (a, (k, v), b)) /\
    l = la ++ (w, v) :: lb /\ Forall2 stored a la /\ Forall2 stored b lb /\ kshows k w.
Proof.
  intros H Hs. induction H as [|[[p k] v] [t x] m l (Ep & Hk & Ex) H IH].
  - left. split; [reflexivity | intros []].
  - cbn [fst snd] in *. subst x. cbn [table_find]. destruct (Hs k t Hk) as (b & Eb & Hb).
    destruct (text_dec w t) as [<-|Hw].
    + right. rewrite Ep, N.eqb_refl, Eb, (proj2 Hb eq_refl). cbn [obind].
      exists [], k, v, m, [], l. repeat split; try assumption. constructor.
    + assert (E : (if p =? at_ w then same k else Ret false) = Ret false).
      { destruct (p =? at_ w); [|reflexivity]. rewrite Eb. f_equal. destruct b; [|reflexivity].
        exfalso. apply Hw. apply Hb. reflexivity. }
      rewrite E. cbn [obind]. destruct IH as [[IH Hn]|(a & k0 & v0 & b0 & la & lb & IH & -> & Ha & Hb0 & Hk0)].
      * left. rewrite IH. split; [reflexivity|]. cbn [map fst]. intros [D|D]; [congruence | contradiction].
      * right. rewrite IH. exists ((p, k, v) :: a), k0, v0, b0, ((t, v) :: la), lb.
        repeat split; try assumption. constructor; [|exact Ha]. repeat split; assumption.
Qed.

Lemma key_slot_ok k w : kshows k w -> key_slot h start finish slot khash k = Ret (at_ w).
Proof. intros H. unfold key_slot. rewrite (khash_ok k w start H). reflexivity. Qed.

Lemma str_is_ok w k t : kshows k t -> exists b, str_is kborrow (enc w) k = Ret b /\ (b = true <-> w = t).
Proof.
  intros H. unfold str_is. rewrite (kborrow_ok k t H). cbn [obind]. eexists. split; [reflexivity|]. apply str_eq_enc.
Qed.

Lemma hash_call_sim o o' m l f : same_call kshows o o' -> Forall2 stored m l -> agrees f l ->
  exists m' l', hash_map_call kborrow h start finish slot khash keq o m = Ret (fst (t_map_op o' f), m') /\
    Forall2 stored m' l' /\ agrees (snd (t_map_op o' f)) l'.
Proof.
  intros Ho Hm Hf. destruct Ho as [k w v Hk|w|k w Hk|w]; cbn [hash_map_call t_map_op fst snd].
  - rewrite (key_slot_ok k w Hk). cbn [obind].
    destruct (table_find_spec w (keq k) m l Hm (fun k' t => keq_ok k w k' t Hk))
      as [[E Hn]|(a & k0 & v0 & b & la & lb & E & -> & Ha & Hb & Hk0)]; rewrite E; cbn [obind].
    + rewrite (agrees_none f l w Hf Hn). exists ((at_ w, k, v) :: m), ([] ++ (w, v) :: l).
      split; [reflexivity|]. split; [|apply agrees_add; assumption].
      constructor; [repeat split; assumption | exact Hm].
    + rewrite (agrees_some f la w v0 lb Hf). exists (a ++ (at_ w, k0, v) :: b), (la ++ (w, v) :: lb).
      split; [reflexivity|]. split; [|exact (agrees_set f la lb w v0 v Hf)].
      apply Forall2_app; [exact Ha|]. constructor; [repeat split; assumption | exact Hb].
  - change (str_slot h start finish slot (enc w)) with (at_ w).
    destruct (table_find_spec w _ m l Hm (str_is_ok w))
      as [[E Hn]|(a & k0 & v0 & b & la & lb & E & -> & Ha & Hb & Hk0)]; rewrite E; cbn [obind].
    + rewrite (agrees_none f l w Hf Hn). exists m, l. auto.
    + rewrite (agrees_some f la w v0 lb Hf). exists m, (la ++ (w, v0) :: lb). auto.
  - rewrite (key_slot_ok k w Hk). cbn [obind].
    destruct (table_find_spec w (keq k) m l Hm (fun k' t => keq_ok k w k' t Hk))
      as [[E Hn]|(a & k0 & v0 & b & la & lb & E & -> & Ha & Hb & Hk0)]; rewrite E; cbn [obind].
    + rewrite (agrees_none f l w Hf Hn). exists m, l. auto.
    + rewrite (agrees_some f la w v0 lb Hf). exists m, (la ++ (w, v0) :: lb). auto.
  - change (str_slot h start finish slot (enc w)) with (at_ w).
    destruct (table_find_spec w _ m l Hm (str_is_ok w))
      as [[E Hn]|(a & k0 & v0 & b & la & lb & E & -> & Ha & Hb & Hk0)]; rewrite E; cbn [obind].
    + rewrite (agrees_none f l w Hf Hn). exists m, l. split; [reflexivity|]. split; [exact Hm|].
      apply agrees_gone; assumption.
    + rewrite (agrees_some f la w v0 lb Hf). exists (a ++ b), (la ++ lb). split; [reflexivity|].
      split; [apply Forall2_app; assumption | exact (agrees_del f la lb w v0 Hf)].
Qed.

Lemma hash_run_sim os os' : Forall2 (same_call kshows) os os' -> forall m l f, Forall2 stored m l -> agrees f l ->
  exists m' l', hash_map_run kborrow h start finish slot khash keq os m = Ret (fst (t_map_run os' f), m') /\
    Forall2 stored m' l' /\ agrees (snd (t_map_run os' f)) l'.
Proof.
  induction 1 as [|o o' os os' Ho _ IH]; intros m l f Hm Hf.
  - exists m, l. auto.
  - cbn [hash_map_run t_map_run]. destruct (hash_call_sim o o' m l f Ho Hm Hf) as (m1 & l1 & E1 & Hm1 & Hf1).
    rewrite E1. cbn [obind]. destruct (t_map_op o' f) as [x f1]. cbn [fst snd] in *.
    destruct (IH m1 l1 f1 Hm1 Hf1) as (m2 & l2 & E2 & Hm2 & Hf2). rewrite E2. cbn [obind].
    destruct (t_map_run os' f1) as [xs f2]. cbn [fst snd] in *. exists m2, l2. auto.
Qed.

Lemma hash_map_texts (os : list (map_call K V)) os' : Forall2 (same_call kshows) os os' ->
  exists m ts, hash_map_run kborrow h start finish slot khash keq os [] = Ret (fst (t_map_run os' no_text), m) /\
    entries kshows (table_entries m) (snd (t_map_run os' no_text)) ts.
Proof.
  intros H. destruct (hash_run_sim os os' H [] [] no_text (Forall2_nil _) agrees_nil) as (m & l & E & Hm & Hf).
  exists m, (map fst l). split; [exact E|]. apply entries_shown; [|exact Hf].
  clear - Hm. induction Hm as [|[[p k] v] x m l (_ & H1 & H2) _ IH]; constructor; [split; assumption | exact IH].
Qed.
End Hash.

Section Tree.
Variable kcmp : K -> K -> outcome comparison.
Hypothesis kcmp_ok : forall k t k' t', kshows k t -> kshows k' t' -> kcmp k k' = Ret (text_cmp t t').

Lemma tree_search_spec w cmp m l : Forall2 shown m l -> StronglySorted text_lt (map fst l) ->
  (forall k t, kshows k t -> cmp k = Ret (text_cmp w t)) ->
  exists a x b la lb, tree_search cmp m = Ret (a, x, b) /\ Forall2 shown a la /\ Forall2 shown b lb /\
    (forall u, In u (map fst la) -> text_lt u w) /\ (forall u, In u (map fst lb) -> text_lt w u) /\
    match x with
    | None => m = a ++ b /\ l = la ++ lb
    | Some (k, v) => l = la ++ (w, v) :: lb /\ kshows k w
    end.
Proof.
  intros H Hl Hc. induction H as [|[k v] [t x] m l (Hk & Ex) H IH].
  - exists [], None, [], [], []. repeat split; try constructor; intros u [].
  - cbn [fst snd map] in *. subst x. apply StronglySorted_inv in Hl as [Hl Ht]. rewrite Forall_forall in Ht.
    cbn [tree_search]. rewrite (Hc k t Hk). cbn [obind]. destruct (text_cmp w t) eqn:E.
    + apply text_cmp_Eq in E. subst t. exists [], (Some (k, v)), m, [], l. repeat split; try assumption; try constructor; intros u [].
    + apply text_cmp_Lt in E. exists [], None, ((k, v) :: m), [], ((t, v) :: l).
      split; [reflexivity|]. split; [constructor|]. split; [constructor; [split; [exact Hk | reflexivity] | exact H]|].
      split; [intros u []|]. split; [|split; reflexivity]. cbn [map fst]. intros u [<-|D]; [exact E|].
      exact (text_lt_trans _ _ _ E (Ht u D)).
    + apply text_cmp_Gt in E. destruct (IH Hl) as (a & x & b & la & lb & Es & Ha & Hb & L1 & L2 & X). rewrite Es. cbn [obind].
      exists ((k, v) :: a), x, b, ((t, v) :: la), lb. split; [reflexivity|].
      split; [constructor; [split; [exact Hk | reflexivity] | exact Ha]|]. split; [exact Hb|].
      split; [cbn [map fst]; intros u [<-|D]; [exact E | exact (L1 u D)]|]. split; [exact L2|].
      destruct x as [[k0 v0]|].
      * destruct X as [-> Hk0]. split; [reflexivity | exact Hk0].
      * destruct X as [-> ->]. split; reflexivity.
Qed.

Lemma sorted_app (la lb : list text) : StronglySorted text_lt (la ++ lb) <->
  StronglySorted text_lt la /\ StronglySorted text_lt lb /\ forall u v, In u la -> In v lb -> text_lt u v.
Proof.
  induction la as [|x la IH]; cbn [app].
  - split; [intros H; repeat split; [constructor | exact H | intros u v []] | tauto].
  - split.
    + intros H. apply StronglySorted_inv in H as [H Hx]. rewrite Forall_forall in Hx. apply IH in H as (H1 & H2 & H3).
      split; [constructor; [exact H1 | apply Forall_forall; intros u Hu; apply Hx, in_app_iff; tauto]|].
      split; [exact H2|]. intros u v [<-|Hu] Hv; [apply Hx, in_app_iff; tauto | exact (H3 u v Hu Hv)].
    + intros (H1 & H2 & H3). apply StronglySorted_inv in H1 as [H1 Hx]. rewrite Forall_forall in Hx.
      constructor; [apply IH; repeat split; [assumption.. | intros u v Hu Hv; apply H3; [right|]; assumption]|].
      apply Forall_forall. intros u Hu. apply in_app_iff in Hu as [Hu|Hu]; [exact (Hx u Hu)|].
      apply H3; [left; reflexivity | exact Hu].
Qed.

Lemma sorted_insert (la lb : list text) w : StronglySorted text_lt (la ++ lb) ->
  (forall u, In u la -> text_lt u w) -> (forall u, In u lb -> text_lt w u) -> StronglySorted text_lt (la ++ w :: lb).
Proof.
  intros H L1 L2. apply sorted_app in H as (H1 & H2 & H3). apply sorted_app. split; [exact H1|]. split.
  - constructor; [exact H2 | apply Forall_forall; exact L2].
  - intros u v Hu [<-|Hv]; [exact (L1 u Hu) | exact (H3 u v Hu Hv)].
Qed.

Lemma sorted_delete (la lb : list text) w : StronglySorted text_lt (la ++ w :: lb) -> StronglySorted text_lt (la ++ lb).
Proof.
  intros H. apply sorted_app in H as (H1 & H2 & H3). apply StronglySorted_inv in H2 as [H2 _]. apply sorted_app.
  split; [exact H1|]. split; [exact H2|]. intros u v Hu Hv. apply H3; [exact Hu | right; exact Hv].
Qed.

Lemma str_versus_ok w k t : kshows k t -> str_versus kborrow (enc w) k = Ret (text_cmp w t).
Proof. intros H. unfold str_versus. rewrite (kborrow_ok k t H). cbn [obind]. rewrite str_cmp_enc. reflexivity. Qed.

Lemma not_there w (la lb : list text) : (forall u, In u la -> text_lt u w) -> (forall u, In u lb -> text_lt w u) ->
  ~ In w (la ++ lb).
Proof.
  intros L1 L2 D. apply in_app_iff in D as [D|D]; [exact (text_lt_irrefl w (L1 w D)) | exact (text_lt_irrefl w (L2 w D))].
Qed.

Lemma btree_call_sim o o' m l f : same_call kshows o o' ->
  Forall2 shown m l -> StronglySorted text_lt (map fst l) -> agrees f l ->
  exists m' l', btree_call kborrow kcmp o m = Ret (fst (t_map_op o' f), m') /\
    Forall2 shown m' l' /\ StronglySorted text_lt (map fst l') /\ agrees (snd (t_map_op o' f)) l'.
Proof.
  intros Ho Hm Hl Hf. destruct Ho as [k w v Hk|w|k w Hk|w]; cbn [btree_call t_map_op fst snd].
  1, 3: pose proof (tree_search_spec w (kcmp k) m l Hm Hl (fun k' t => kcmp_ok k w k' t Hk)) as P.
  3, 4: pose proof (tree_search_spec w (str_versus kborrow (enc w)) m l Hm Hl (str_versus_ok w)) as P.
  all: destruct P as (a & x & b & la & lb & E & Ha & Hb & L1 & L2 & X).
  all: rewrite E; cbn [obind fst snd]; pose proof (not_there w _ _ L1 L2) as Hn; rewrite <- map_app in Hn.
  all: destruct x as [[k0 v0]|]; [destruct X as [-> Hk0]; rewrite (agrees_some f la w v0 lb Hf)
                                 | destruct X as [-> ->]; rewrite (agrees_none f _ w Hf Hn)].
  - exists (a ++ (k0, v) :: b), (la ++ (w, v) :: lb). split; [reflexivity|].
    split; [apply Forall2_app; [exact Ha | constructor; [split; [exact Hk0 | reflexivity] | exact Hb]]|].
    split; [|exact (agrees_set f la lb w v0 v Hf)]. rewrite map_app in *. exact Hl.
  - exists (a ++ (k, v) :: b), (la ++ (w, v) :: lb). split; [reflexivity|].
    split; [apply Forall2_app; [exact Ha | constructor; [split; [exact Hk | reflexivity] | exact Hb]]|].
    split; [|exact (agrees_add f la lb w v Hf Hn)]. rewrite map_app in *. exact (sorted_insert _ _ w Hl L1 L2).
  - exists m, (la ++ (w, v0) :: lb). auto.
  - exists (a ++ b), (la ++ lb). auto.
  - exists m, (la ++ (w, v0) :: lb). auto.
  - exists (a ++ b), (la ++ lb). auto.
  - exists (a ++ b), (la ++ lb). split; [reflexivity|]. split; [apply Forall2_app; assumption|].
    split; [|exact (agrees_del f la lb w v0 Hf)]. rewrite map_app in *. exact (sorted_delete _ _ w Hl).
  - exists (a ++ b), (la ++ lb). split; [reflexivity|]. split; [exact Hm|]. split; [exact Hl|].
    apply agrees_gone; assumption.
Qed.

Lemma btree_run_sim os os' : Forall2 (same_call kshows) os os' -> forall m l f,
  Forall2 shown m l -> StronglySorted text_lt (map fst l) -> agrees f l ->
  exists m' l', btree_run kborrow kcmp os m = Ret (fst (t_map_run os' f), m') /\
    Forall2 shown m' l' /\ StronglySorted text_lt (map fst l') /\ agrees (snd (t_map_run os' f)) l'.
Proof.
  induction 1 as [|o o' os os' Ho _ IH]; intros m l f Hm Hl Hf.
  - exists m, l. auto.
  - cbn [btree_run t_map_run]. destruct (btree_call_sim o o' m l f Ho Hm Hl Hf) as (m1 & l1 & E1 & Hm1 & Hl1 & Hf1).
    rewrite E1. cbn [obind]. destruct (t_map_op o' f) as [x f1]. cbn [fst snd] in *.
    destruct (IH m1 l1 f1 Hm1 Hl1 Hf1) as (m2 & l2 & E2 & Hm2 & Hl2 & Hf2). rewrite E2. cbn [obind].
    destruct (t_map_run os' f1) as [xs f2]. cbn [fst snd] in *. exists m2, l2. auto.
Qed.

Lemma btree_texts (os : list (map_call K V)) os' : Forall2 (same_call kshows) os os' ->
  exists m ts, btree_run kborrow kcmp os [] = Ret (fst (t_map_run os' no_text), m) /\
    entries kshows m (snd (t_map_run os' no_text)) ts /\ StronglySorted text_lt ts.
Proof.
  intros H. destruct (btree_run_sim os os' H [] [] no_text (Forall2_nil _) (SSorted_nil _) agrees_nil)
    as (m & l & E & Hm & Hl & Hf).
  exists m, (map fst l). split; [exact E|]. split; [apply entries_shown; assumption | exact Hl].
Qed.
End Tree.
End Maps.

(** ** C72 *)
Lemma c72_hash_map V c h start finish slot (os : list (map_call astring V)) (ts : list (map_op V)) :
  Forall2 (same_call (shows c)) os ts ->
  exists m keys,
    hash_map_run (borrow c) h start finish slot (hash c h) (partial_eq c) os [] = Ret (fst (t_map_run ts no_text), m) /\
    entries (shows c) (table_entries m) (snd (t_map_run ts no_text)) keys.
Proof.
  apply hash_map_texts.
  - intros k t H. exact (proj2 H).
  - intros k t st H. apply (hash_rep c). apply shows_rep. exact H.
  - intros k t k' t' H H'. apply (partial_eq_rep c); apply shows_rep; assumption.
Qed.

Lemma c72_btree_map V c (os : list (map_call astring V)) (ts : list (map_op V)) :
  Forall2 (same_call (shows c)) os ts ->
  exists m keys,
    btree_run (borrow c) (ord_cmp c) os [] = Ret (fst (t_map_run ts no_text), m) /\
    entries (shows c) m (snd (t_map_run ts no_text)) keys /\ StronglySorted text_lt keys.
Proof.
  apply btree_texts.
  - intros k t H. exact (proj2 H).
  - intros k t k' t' H H'. apply (ord_cmp_rep c); apply shows_rep; assumption.
Qed.

Lemma c72_cache V c0 h start finish slot (os : list (map_call CacheString V)) (ts : list (map_op V)) :
  Forall2 (same_call (cache_shows c0)) os ts ->
  (exists m keys,
    hash_map_run (cache_borrow c0) h start finish slot (cache_hash c0 h) (cache_eq c0) os [] =
      Ret (fst (t_map_run ts no_text), m) /\
    entries (cache_shows c0) (table_entries m) (snd (t_map_run ts no_text)) keys) /\
  (exists m keys,
    btree_run (cache_borrow c0) (cache_cmp c0) os [] = Ret (fst (t_map_run ts no_text), m) /\
    entries (cache_shows c0) m (snd (t_map_run ts no_text)) keys /\ StronglySorted text_lt keys).
Proof.
  intros H. split; revert H; [apply hash_map_texts | apply btree_texts].
  - intros k t H. exact (proj2 H).
  - intros k t st H. apply (hash_rep (c63 c0)). apply shows_rep. exact H.
  - intros k t k' t' H H'. apply (partial_eq_rep (c63 c0)); apply shows_rep; assumption.
  - intros k t H. exact (proj2 H).
  - intros k t k' t' H H'. apply (ord_cmp_rep (c63 c0)); apply shows_rep; assumption.
Qed.
