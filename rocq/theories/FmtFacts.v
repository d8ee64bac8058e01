(** Debug output: the builders of core, run on any writer. *)
From Coq Require Import String.
From Coq Require Import ZArith ZifyBool ZifyN ZifyNat Arith.
From Verif Require Import Base Char Spec RustStd RustFmt SpecFmt ListFacts Utf8Facts.

Section OneSink.
Context {W : Type} (k : sink W).

Lemma fthen_assoc (a b d : ST W (result unit FmtError)) w :
  fthen (fthen a b) d w = fthen a (fthen b d) w.
Proof.
  unfold fthen, stry, sbind. destruct (a w) as [[[[]|e]| | |] w']; cbv [sret]; try reflexivity.
Qed.

Lemma fthen_ext (a a' b b' : ST W (result unit FmtError)) w :
  (forall w, a w = a' w) -> (forall w, b w = b' w) -> fthen a b w = fthen a' b' w.
Proof.
  intros Ha Hb. unfold fthen, stry, sbind. rewrite Ha.
  destruct (a' w) as [[[[]|e]| | |] w']; cbv [sret]; try reflexivity. apply Hb.
Qed.

Lemma fthen_ok_l (b : ST W (result unit FmtError)) w : fthen (sret (Ok tt)) b w = b w.
Proof. reflexivity. Qed.

Lemma fthen_ok_r (a : ST W (result unit FmtError)) w : fthen a (sret (Ok tt)) w = a w.
Proof.
  unfold fthen, stry, sbind. destruct (a w) as [[[[]|e]| | |] w']; reflexivity.
Qed.

Lemma do_calls_app l l' w : do_calls k (l ++ l') w = fthen (do_calls k l) (do_calls k l') w.
Proof.
  revert w; induction l as [|[bs|ch] l IH]; intros w; cbn [app do_calls].
  - reflexivity.
  - rewrite fthen_assoc. apply fthen_ext; [reflexivity | exact IH].
  - rewrite fthen_assoc. apply fthen_ext; [reflexivity | exact IH].
Qed.

Lemma do_one_str bs w : wstr k bs w = do_calls k [WStr bs] w.
Proof. cbn [do_calls]. symmetry. apply fthen_ok_r. Qed.

Lemma do_one_char ch w : wchar k ch w = do_calls k [WChar ch] w.
Proof. cbn [do_calls]. symmetry. apply fthen_ok_r. Qed.

Lemma fthen_calls a b l l' w :
  (forall w, a w = do_calls k l w) -> (forall w, b w = do_calls k l' w) ->
  fthen a b w = do_calls k (l ++ l') w.
Proof. intros Ha Hb. rewrite do_calls_app. apply fthen_ext; assumption. Qed.

(** ** [PadAdapter] as a translation of writes *)
Fixpoint pad_pieces (nl : bool) (l : list (list N)) : list wcall * bool :=
  match l with
  | [] => ([], nl)
  | p :: l =>
      let '(r, nl') := pad_pieces (ends_with_newline p) l in
      ((if nl then [WStr (lit "    ")] else []) ++ WStr p :: r, nl')
  end.

Fixpoint pad_calls (nl : bool) (l : list wcall) : list wcall * bool :=
  match l with
  | [] => ([], nl)
  | WStr bs :: l =>
      let '(r1, nl1) := pad_pieces nl (split_inclusive bs) in
      let '(r2, nl2) := pad_calls nl1 l in (r1 ++ r2, nl2)
  | WChar ch :: l =>
      let '(r, nl') := pad_calls (code ch =? 10) l in
      ((if nl then [WStr (lit "    ")] else []) ++ WChar ch :: r, nl')
  end.

(** [m], run on the adapter in state [nl], makes the writes [l] below and leaves
    the adapter in state [nl'] unless it fails. *)
Definition pads (m : ST (W * bool) (result unit FmtError)) (nl : bool) (l : list wcall) (nl' : bool) : Prop :=
  forall w, exists b,
    m (w, nl) = (fst (do_calls k l w), (snd (do_calls k l w), b)) /\
    (fst (do_calls k l w) = Ret (Ok tt) -> b = nl').

Lemma pads_nil nl : pads (sret (Ok tt)) nl [] nl.
Proof. intros w. exists nl. split; reflexivity. Qed.

Lemma pads_then a b nl l nl1 l' nl2 : pads a nl l nl1 -> pads b nl1 l' nl2 -> pads (fthen a b) nl (l ++ l') nl2.
Proof.
  intros Ha Hb w. rewrite do_calls_app. destruct (Ha w) as (x & E & Hx).
  unfold fthen, stry, sbind. rewrite E.
  destruct (do_calls k l w) as [[[[]|e]| | |] w']; cbn [fst snd] in *.
  - rewrite (Hx eq_refl). apply Hb.
  - exists x. split; [reflexivity | discriminate].
  - exists x. split; [reflexivity | discriminate].
  - exists x. split; [reflexivity | discriminate].
  - exists x. split; [reflexivity | discriminate].
Qed.

Lemma pads_under m nl l : (forall w, m w = do_calls k l w) -> pads (pad_under m) nl l nl.
Proof.
  intros H w. exists nl. unfold pad_under. cbn [fst snd]. rewrite H.
  destruct (do_calls k l w) as [o w']. split; reflexivity.
Qed.

Lemma pads_one newline m nl l : (forall w, m w = do_calls k l w) ->
  pads (pad_one k newline m) nl ((if nl then [WStr (lit "    ")] else []) ++ l) newline.
Proof.
  intros H w.
  assert (E : pad_one k newline m (w, nl) =
    fthen (if nl then pad_under (wstr k (lit "    ")) else sret (Ok tt))
      (_ <~ smodify (fun s : W * bool => (fst s, newline)) ;; pad_under m) (w, nl)) by reflexivity.
  rewrite E. clear E. revert w. change (pads (fthen (if nl then pad_under (wstr k (lit "    ")) else sret (Ok tt))
      (_ <~ smodify (fun s : W * bool => (fst s, newline)) ;; pad_under m)) nl
      ((if nl then [WStr (lit "    ")] else []) ++ l) newline).
  eapply pads_then with (nl1 := nl).
  - destruct nl; [|apply pads_nil]. apply pads_under. intros w. apply do_one_str.
  - intros w. cbv [sbind smodify fst snd]. apply (pads_under m newline l H w).
Qed.

Lemma pads_lines l : forall nl, pads (pad_lines k l) nl (fst (pad_pieces nl l)) (snd (pad_pieces nl l)).
Proof.
  induction l as [|p l IH]; intros nl; cbn [pad_lines pad_pieces].
  - apply pads_nil.
  - specialize (IH (ends_with_newline p)).
    destruct (pad_pieces (ends_with_newline p) l) as [r nl'] eqn:E. cbn [fst snd] in *.
    change (WStr p :: r) with ([WStr p] ++ r). rewrite app_assoc.
    eapply pads_then; [apply pads_one; intros w; apply do_one_str | exact IH].
Qed.

Lemma pads_calls l : forall nl, pads (do_calls (pad_adapter k) l) nl (fst (pad_calls nl l)) (snd (pad_calls nl l)).
Proof.
  induction l as [|[bs|ch] l IH]; intros nl; cbn [do_calls pad_calls].
  - apply pads_nil.
  - pose proof (pads_lines (split_inclusive bs) nl) as H1.
    destruct (pad_pieces nl (split_inclusive bs)) as [r1 nl1]. cbn [fst snd] in H1.
    specialize (IH nl1). destruct (pad_calls nl1 l) as [r2 nl2]. cbn [fst snd] in *.
    eapply pads_then; [exact H1 | exact IH].
  - specialize (IH (code ch =? 10)). destruct (pad_calls (code ch =? 10) l) as [r nl']. cbn [fst snd] in *.
    change (WChar ch :: r) with ([WChar ch] ++ r). rewrite app_assoc.
    eapply pads_then; [apply pads_one; intros w; apply do_one_char | exact IH].
Qed.

Lemma padded_calls (m : sink (W * bool) -> ST (W * bool) (result unit FmtError)) l w :
  (forall s, m (pad_adapter k) s = do_calls (pad_adapter k) l s) ->
  padded k m w = do_calls k (fst (pad_calls true l)) w.
Proof.
  intros H. unfold padded. rewrite H. destruct (pads_calls l true w) as (b & E & _). rewrite E.
  destruct (do_calls k (fst (pad_calls true l)) w) as [o w']. reflexivity.
Qed.
End OneSink.

(** ** The bytes of padded writes *)
Lemma indent_app nl a b : a <> [] ->
  indent_from nl (a ++ b) = indent_from nl a ++ indent_from (ends_with_newline a) b.
Proof.
  revert nl; induction a as [|x a IH]; intros nl H; [congruence|].
  cbn [app indent_from]. rewrite <- !app_assoc. f_equal. cbn [app]. f_equal.
  destruct a as [|y a].
  - cbn [app indent_from ends_with_newline rev]. reflexivity.
  - rewrite IH by discriminate. f_equal. f_equal.
    unfold ends_with_newline. cbn [rev].
    assert (Hr : rev a ++ [y] <> []) by (destruct (rev a); discriminate).
    destruct (rev a ++ [y]) as [|z q]; [congruence | reflexivity].
Qed.

Lemma split_inclusive_concat bs : concat (split_inclusive bs) = bs.
Proof.
  induction bs as [|b bs IH]; [reflexivity|]. cbn [split_inclusive].
  destruct (b =? 10); [cbn [concat app]; f_equal; exact IH|].
  destruct (split_inclusive bs) as [|p ps]; cbn [concat app] in *; f_equal; exact IH.
Qed.

(** A piece: not empty, with a newline at most at its end. *)
Definition one_line (p : list N) : Prop := p <> [] /\ forall a b, p = a ++ b -> b <> [] -> ~ In 10 a.

Lemma split_inclusive_lines bs : Forall one_line (split_inclusive bs).
Proof.
  induction bs as [|x bs IH]; [constructor|]. cbn [split_inclusive].
  destruct (N.eqb_spec x 10) as [->|Hx].
  - constructor; [|exact IH]. split; [discriminate|]. intros a b E Hb.
    destruct a as [|y a]; [intros []|]. injection E as <- E. symmetry in E.
    apply app_eq_nil in E. destruct E as [_ E]. congruence.
  - destruct (split_inclusive bs) as [|p ps].
    + constructor; [|constructor]. split; [discriminate|]. intros a b E Hb.
      destruct a as [|y a]; [intros []|]. injection E as <- E. symmetry in E.
      apply app_eq_nil in E. destruct E as [_ E]. congruence.
    + inversion IH as [|? ? [H1 H2] Hps]; subst. constructor; [|exact Hps].
      split; [discriminate|]. intros a b E Hb. destruct a as [|y a]; [intros []|].
      injection E as <- E. intros [H|H]; [congruence|]. exact (H2 a b E Hb H).
Qed.

Lemma indent_one_line p : one_line p -> forall nl,
  indent_from nl p = (if nl then lit "    " else []) ++ p.
Proof.
  induction p as [|x p IH]; intros [H1 H2] nl; [congruence|]. cbn [indent_from]. f_equal. f_equal.
  destruct p as [|y p]; [reflexivity|].
  assert (Hx : x <> 10).
  { intros ->. apply (H2 [10] (y :: p) eq_refl); [discriminate | left; reflexivity]. }
  apply N.eqb_neq in Hx. rewrite Hx.
  assert (Hp : one_line (y :: p)).
  { split; [discriminate|]. intros a b E Hb Hin.
    apply (H2 (x :: a) b); [cbn [app]; rewrite E; reflexivity | exact Hb | right; exact Hin]. }
  rewrite (IH Hp false). reflexivity.
Qed.

Lemma pad_pieces_bytes l : Forall one_line l -> forall nl,
  calls_bytes (fst (pad_pieces nl l)) = indent_from nl (concat l) /\
  (l <> [] -> snd (pad_pieces nl l) = ends_with_newline (concat l)) /\
  (l = [] -> snd (pad_pieces nl l) = nl).
Proof.
  induction l as [|p l IH]; intros Hl nl.
  - cbn. split; [reflexivity | split; [congruence | reflexivity]].
  - inversion Hl as [|? ? Hp Hl']; subst. destruct (IH Hl' (ends_with_newline p)) as (B & N1 & N2).
    cbn [pad_pieces concat]. destruct (pad_pieces (ends_with_newline p) l) as [r nl']. cbn [fst snd] in *.
    split; [|split; [|congruence]].
    + rewrite indent_app by (apply Hp). rewrite (indent_one_line p Hp nl), <- B.
      unfold calls_bytes. rewrite map_app, concat_app. cbn [map concat call_bytes].
      destruct nl; reflexivity.
    + intros _. destruct l as [|q l].
      * cbn [concat]. rewrite app_nil_r. apply N2. reflexivity.
      * rewrite N1 by discriminate. unfold ends_with_newline. rewrite rev_app_distr.
        destruct (rev (concat (q :: l))) as [|z zs] eqn:E; [|reflexivity].
        exfalso. inversion Hl' as [|? ? [Hq _] _]; subst.
        apply (f_equal (@rev N)) in E. rewrite rev_involutive in E. cbn [concat rev] in E.
        apply app_eq_nil in E. apply Hq, E.
Qed.

Lemma enc1_nonempty ch : enc1 ch <> [].
Proof.
  intros E. pose proof (enc1_len ch) as H. rewrite E in H. pose proof (clen_range ch).
  unfold lenN in H. cbn [length] in H. lia.
Qed.

Lemma enc1_line ch : one_line (enc1 ch) /\ ends_with_newline (enc1 ch) = (code ch =? 10).
Proof.
  split.
  - split; [apply enc1_nonempty|]. intros a b E Hb Hin.
    assert (Hall : forall x, In x (enc1 ch) -> x = 10 -> lenN (enc1 ch) = 1).
    { unfold enc1. intros x Hx ->. destruct (code ch <? 0x80); [reflexivity|].
      destruct (code ch <? 0x800); [|destruct (code ch <? 0x10000)];
        cbn [In] in Hx; exfalso; lia. }
    assert (L : lenN (enc1 ch) = 1) by (apply (Hall 10); [rewrite E; apply in_or_app; left; exact Hin | reflexivity]).
    rewrite E in L. rewrite lenN_app in L. destruct a as [|y a]; [exact Hin|]. destruct b as [|z b]; [congruence|].
    unfold lenN in L. cbn [length] in L. lia.
  - unfold enc1, ends_with_newline. destruct (N.ltb_spec (code ch) 0x80) as [L|L]; [reflexivity|].
    destruct (code ch <? 0x800); [|destruct (code ch <? 0x10000)]; cbn [rev app]; lia.
Qed.

Lemma pad_calls_bytes l : forall nl, calls_bytes (fst (pad_calls nl l)) = indent_from nl (calls_bytes l).
Proof.
  induction l as [|[bs|ch] l IH]; intros nl; cbn [pad_calls].
  - reflexivity.
  - destruct (pad_pieces_bytes (split_inclusive bs) (split_inclusive_lines bs) nl) as (B & N1 & N2).
    rewrite split_inclusive_concat in *.
    destruct (pad_pieces nl (split_inclusive bs)) as [r1 nl1]. cbn [fst snd] in *.
    specialize (IH nl1). destruct (pad_calls nl1 l) as [r2 nl2]. cbn [fst snd] in *.
    unfold calls_bytes in *. rewrite map_app, concat_app, B, IH. cbn [map concat call_bytes].
    destruct bs as [|b bs].
    + cbn [app indent_from]. rewrite (N2 eq_refl). reflexivity.
    + rewrite indent_app by discriminate. rewrite N1; [reflexivity|].
      cbn [split_inclusive]. destruct (b =? 10); [discriminate|]. destruct (split_inclusive bs); discriminate.
  - specialize (IH (code ch =? 10)). destruct (pad_calls (code ch =? 10) l) as [r nl']. cbn [fst snd] in *.
    destruct (enc1_line ch) as [L1 L2].
    unfold calls_bytes in *. rewrite map_app, concat_app. cbn [map concat call_bytes]. rewrite IH.
    rewrite indent_app by (apply L1). rewrite (indent_one_line _ L1), L2, app_assoc.
    destruct nl; reflexivity.
Qed.
