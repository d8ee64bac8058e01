(** C63: JSON documents, as serde_json writes and reads them. *)
From Coq Require Import String ZArith ZifyBool ZifyN ZifyNat Lia.
From Verif Require Import Base Char Spec RustStd RustFmt ModelError Model ModelImpl ModelCache ModelIntegration
  RustJson SpecJson ListFacts Utf8Facts CoreFacts Obs ObsCache ClaimsCache.

(** ** Bytes and characters *)
Definition plain_byte (b : N) : Prop := 32 <= b /\ b <> 34 /\ b <> 92.

Lemma enc1_low x : code x < 128 -> enc1 x = [code x].
Proof. intros H. unfold enc1. destruct (N.ltb_spec (code x) 0x80); [reflexivity | lia]. Qed.

Lemma enc1_high x : 128 <= code x -> Forall (fun b => 128 <= b) (enc1 x).
Proof.
  intros H. unfold enc1. destruct (N.ltb_spec (code x) 0x80); [lia|].
  destruct (code x <? 0x800); [|destruct (code x <? 0x10000)]; repeat constructor; lia.
Qed.

Lemma special_dec x : json_special x \/ ~ json_special x.
Proof.
  unfold json_special. destruct (N.ltb_spec (code x) 32); [left; auto|].
  destruct (N.eqb_spec (code x) 34); [left; auto|]. destruct (N.eqb_spec (code x) 92); [left; auto|].
  right. lia.
Qed.

Lemma special_low x : json_special x -> code x < 128.
Proof. unfold json_special. lia. Qed.

Lemma plain_dec t : json_plain t \/ ~ json_plain t.
Proof.
  induction t as [|x t [IH|IH]].
  - left. constructor.
  - destruct (special_dec x) as [S|S].
    + right. intros H. inversion H. contradiction.
    + left. constructor; assumption.
  - right. intros H. inversion H. contradiction.
Qed.

Lemma plain_enc1 x : ~ json_special x -> Forall plain_byte (enc1 x).
Proof.
  intros S. destruct (N.ltb_spec (code x) 128) as [L|L].
  - rewrite (enc1_low x L). constructor; [|constructor]. unfold json_special in S. unfold plain_byte. lia.
  - apply (Forall_impl plain_byte) with (2 := enc1_high x L). intros b Hb. unfold plain_byte. lia.
Qed.

Lemma plain_enc t : json_plain t -> Forall plain_byte (enc t).
Proof.
  induction t as [|x t IH]; intros H; [constructor|]. inversion H; subst. rewrite enc_cons.
  apply Forall_app. split; [apply plain_enc1; assumption | apply IH; assumption].
Qed.

Lemma enc_plain t : Forall plain_byte (enc t) -> json_plain t.
Proof.
  induction t as [|x t IH]; intros H; [constructor|]. rewrite enc_cons in H. apply Forall_app in H. destruct H as [H1 H2].
  constructor; [|apply IH; exact H2]. intros S. rewrite (enc1_low x (special_low x S)) in H1.
  inversion H1 as [|b l Hb]; subst. unfold plain_byte in Hb. unfold json_special in S. lia.
Qed.

(** Cutting the bytes of a text at an ASCII byte cuts between characters. *)
Lemma enc_ascii_split : forall d a x b, enc d = a ++ x :: b -> x < 128 ->
  exists d1 ch d2, d = d1 ++ ch :: d2 /\ enc d1 = a /\ code ch = x /\ enc d2 = b.
Proof.
  induction d as [|y d IH]; intros a x b E L; [destruct a; discriminate E|].
  rewrite enc_cons in E. destruct (N.ltb_spec (code y) 128) as [Ly|Ly].
  - rewrite (enc1_low y Ly) in E. destruct a as [|a0 a]; cbn [app] in E; injection E as E0 E.
    + exists [], y, d. repeat split; [exact E0 | exact E].
    + destruct (IH a x b E L) as (d1 & ch & d2 & -> & E1 & E2 & E3). exists (y :: d1), ch, d2.
      split; [reflexivity|]. split; [rewrite enc_cons, (enc1_low y Ly), E1, E0; reflexivity | split; assumption].
  - pose proof (enc1_high y Ly) as H. destruct (N.leb_spec (lenN (enc1 y)) (lenN a)) as [L1|L1].
    + destruct (prefix_split (enc1 y) (enc d) a (x :: b) E L1) as (m & -> & Em).
      destruct (IH m x b Em L) as (d1 & ch & d2 & -> & E1 & E2 & E3). exists (y :: d1), ch, d2.
      split; [reflexivity|]. split; [rewrite enc_cons, E1; reflexivity | split; assumption].
    + symmetry in E. destruct (prefix_split a (x :: b) (enc1 y) (enc d) E) as (m & Em & E'); [lia|].
      destruct m as [|m0 m]; [rewrite app_nil_r in Em; rewrite Em in L1; lia|].
      cbn [app] in E'. injection E' as -> _. rewrite Em in H. apply Forall_app in H. destruct H as [_ H].
      inversion H; subst. lia.
Qed.

(** ** Writing *)
Lemma escape_high b : 128 <= b -> json_escape b = [b].
Proof.
  intros H. unfold json_escape.
  repeat match goal with |- context[b =? ?n] => destruct (N.eqb_spec b n); [lia|] end.
  destruct (N.ltb_spec b 0x20); [lia | reflexivity].
Qed.

Lemma escape_highs l : Forall (fun b => 128 <= b) l -> flat_map json_escape l = l.
Proof.
  induction l as [|b l IH]; intros H; [reflexivity|]. inversion H; subst. cbn [flat_map].
  rewrite escape_high by assumption. rewrite IH by assumption. reflexivity.
Qed.

Definition json_code (n : N) : list N :=
  match find (fun p => fst p =? n) json_short with
  | Some p => snd p
  | None => if n <? 16 then lit "\u000" ++ [json_hex n]
            else if n <? 32 then lit "\u001" ++ [json_hex (n - 16)]
            else [n]
  end.

Fixpoint all_below (k : nat) (P : N -> bool) : bool :=
  match k with O => true | S k => P (N.of_nat k) && all_below k P end.
Lemma all_below_ok k P : all_below k P = true -> forall n, n < N.of_nat k -> P n = true.
Proof.
  induction k as [|k IH]; intros H n Hn; [lia|]. cbn [all_below] in H. apply Bool.andb_true_iff in H. destruct H as [H1 H2].
  destruct (N.eq_dec n (N.of_nat k)) as [->|]; [exact H1 | apply IH; [exact H2 | lia]].
Qed.

Lemma escape_low n : n < 128 -> json_escape n = json_code n.
Proof.
  intros H. assert (E : (if list_eq_dec N.eq_dec (json_escape n) (json_code n) then true else false) = true).
  { apply (all_below_ok 128 (fun n => if list_eq_dec N.eq_dec (json_escape n) (json_code n) then true else false));
      [vm_compute; reflexivity | exact H]. }
  destruct (list_eq_dec N.eq_dec (json_escape n) (json_code n)) as [e|]; [exact e | discriminate E].
Qed.

Lemma json_char_low x : code x < 128 -> json_char x = json_code (code x).
Proof.
  intros H. unfold json_char, json_code. rewrite (enc1_low x H). reflexivity.
Qed.
Lemma json_char_high x : 128 <= code x -> json_char x = enc1 x.
Proof.
  intros H. unfold json_char, json_short. cbn [find fst].
  repeat match goal with |- context[?n =? code x] => destruct (N.eqb_spec n (code x)); [lia|] end.
  destruct (N.ltb_spec (code x) 16); [lia|]. destruct (N.ltb_spec (code x) 32); [lia | reflexivity].
Qed.

Lemma escape_enc1 x : flat_map json_escape (enc1 x) = json_char x.
Proof.
  destruct (N.ltb_spec (code x) 128) as [L|L].
  - rewrite (enc1_low x L), (json_char_low x L). cbn [flat_map]. rewrite app_nil_r. apply escape_low, L.
  - rewrite (json_char_high x L). apply escape_highs, enc1_high, L.
Qed.

Lemma escape_enc t : flat_map json_escape (enc t) = flat_map json_char t.
Proof.
  induction t as [|x t IH]; [reflexivity|]. rewrite enc_cons, flat_map_app, escape_enc1, IH. reflexivity.
Qed.

Lemma c63_to_string c s t : shows c s t ->
  serialize c json_str s = Ret ([34] ++ flat_map json_char t ++ [34]).
Proof. intros H. rewrite (c40_serialize c s t _ json_str H). unfold json_str. rewrite escape_enc. reflexivity. Qed.

(** ** Reading *)
Definition ref_of (scratch slice : list N) : reference :=
  match scratch with [] => Borrowed slice | _ => Copied (scratch ++ slice) end.

Lemma parse_step fuel sc sl b r : plain_byte b -> parse_str (S fuel) sc sl (b :: r) = parse_str fuel sc (sl ++ [b]) r.
Proof.
  intros (H1 & H2 & H3). cbn [parse_str]. destruct (N.eqb_spec b 0x22); [lia|]. destruct (N.eqb_spec b 0x5C); [lia|].
  destruct (N.ltb_spec b 0x20); [lia | reflexivity].
Qed.

Lemma parse_skip p : Forall plain_byte p -> forall fuel sc sl r, (length p <= fuel)%nat ->
  parse_str fuel sc sl (p ++ r) = parse_str (fuel - length p) sc (sl ++ p) r.
Proof.
  induction p as [|b p IH]; intros H fuel sc sl r L.
  - rewrite app_nil_r, Nat.sub_0_r. reflexivity.
  - inversion H; subst. cbn [length] in L. destruct fuel as [|fuel]; [lia|]. cbn [app].
    rewrite parse_step by assumption. rewrite IH by (assumption || lia). rewrite <- app_assoc. reflexivity.
Qed.

Lemma parse_quote fuel sc sl r : parse_str (S fuel) sc sl (34 :: r) = Some (ref_of sc sl, r).
Proof. cbn [parse_str]. unfold ref_of. destruct sc; reflexivity. Qed.

(** Every escape that is written is read as the character. *)
Lemma escape_back n q : n < 32 \/ n = 34 \/ n = 92 ->
  exists e, json_code n = 92 :: e /\ parse_escape (e ++ q) = Some ([n], q).
Proof.
  intros H.
  assert (D : n = 0 \/ n = 1 \/ n = 2 \/ n = 3 \/ n = 4 \/ n = 5 \/ n = 6 \/ n = 7 \/ n = 8 \/ n = 9 \/ n = 10 \/ n = 11
    \/ n = 12 \/ n = 13 \/ n = 14 \/ n = 15 \/ n = 16 \/ n = 17 \/ n = 18 \/ n = 19 \/ n = 20 \/ n = 21 \/ n = 22 \/ n = 23
    \/ n = 24 \/ n = 25 \/ n = 26 \/ n = 27 \/ n = 28 \/ n = 29 \/ n = 30 \/ n = 31 \/ n = 34 \/ n = 92) by lia.
  clear H.
  repeat match type of D with _ \/ _ => destruct D as [->|D]; [eexists; split; [vm_compute; reflexivity | vm_compute; reflexivity]|] end.
  subst n. eexists; split; [vm_compute; reflexivity | vm_compute; reflexivity].
Qed.

Lemma parse_special x fuel sc sl q : json_special x ->
  parse_str (S fuel) sc sl (json_char x ++ q) = parse_str fuel (sc ++ sl ++ enc1 x) [] q.
Proof.
  intros S. rewrite (enc1_low x (special_low x S)), (json_char_low x (special_low x S)).
  destruct (escape_back (code x) q S) as (e & -> & E). cbn [app parse_str].
  change (92 =? 0x22) with false. change (92 =? 0x5C) with true. cbn [app] in *. rewrite E. reflexivity.
Qed.

Lemma plain_char x : ~ json_special x -> json_char x = enc1 x.
Proof.
  intros S. destruct (N.ltb_spec (code x) 128) as [L|L]; [|apply json_char_high; exact L].
  unfold json_char. unfold json_special in S. unfold json_short. cbn [find fst].
  repeat match goal with |- context[?n =? code x] => destruct (N.eqb_spec n (code x)); [lia|] end.
  destruct (N.ltb_spec (code x) 16); [lia|]. destruct (N.ltb_spec (code x) 32); [lia | reflexivity].
Qed.

Lemma parse_chars : forall t fuel sc sl r, (length (flat_map json_char t) < fuel)%nat ->
  exists sc' sl', parse_str fuel sc sl (flat_map json_char t ++ 34 :: r) = Some (ref_of sc' sl', r) /\
    sc' ++ sl' = sc ++ sl ++ enc t /\ (sc' = [] <-> sc = [] /\ json_plain t).
Proof.
  induction t as [|x t IH]; intros fuel sc sl r L.
  - destruct fuel as [|fuel]; [cbn in L; lia|]. cbn [flat_map app]. rewrite parse_quote. exists sc, sl.
    split; [reflexivity|]. split; [rewrite app_nil_r; reflexivity|]. split; [intros H; split; [exact H | constructor] | intros [H _]; exact H].
  - cbn [flat_map] in L |- *. rewrite app_length in L. rewrite <- app_assoc. rewrite enc_cons.
    destruct (special_dec x) as [S|S].
    + assert (Lx : (1 <= length (json_char x))%nat).
      { rewrite (json_char_low x (special_low x S)). destruct (escape_back (code x) [] S) as (e & -> & _). cbn. lia. }
      destruct fuel as [|fuel]; [lia|]. rewrite (parse_special x fuel sc sl _ S).
      destruct (IH fuel (sc ++ sl ++ enc1 x) [] r) as (sc' & sl' & E & E1 & E2); [lia|].
      exists sc', sl'. split; [exact E|]. split; [rewrite E1; rewrite !app_nil_l, <- !app_assoc; reflexivity|].
      rewrite E2. rewrite (enc1_low x (special_low x S)). split.
      * intros [H _]. destruct sc; [destruct sl|]; discriminate H.
      * intros [_ H]. inversion H. contradiction.
    + rewrite (plain_char x S) in *. rewrite (parse_skip _ (plain_enc1 x S)) by lia.
      destruct (IH (fuel - length (enc1 x))%nat sc (sl ++ enc1 x) r) as (sc' & sl' & E & E1 & E2); [lia|].
      exists sc', sl'. split; [exact E|]. split; [rewrite E1, <- !app_assoc; reflexivity|].
      rewrite E2. split.
      * intros [H H']. split; [exact H | constructor; assumption].
      * intros [H H']. inversion H'. split; assumption.
Qed.

Lemma skip_ws_all l r : Forall (fun b => json_ws b = true) l -> skip_json_ws (l ++ r) = skip_json_ws r.
Proof. induction l as [|b l IH]; intros H; [reflexivity|]. inversion H; subst. cbn [app skip_json_ws]. rewrite H2. apply IH. assumption. Qed.

Lemma skip_ws_split bs : exists l, bs = l ++ skip_json_ws bs /\ Forall (fun b => json_ws b = true) l.
Proof.
  induction bs as [|b bs (l & E & H)]; [exists []; split; [reflexivity | constructor]|].
  cbn [skip_json_ws]. destruct (json_ws b) eqn:W.
  - exists (b :: l). split; [cbn [app]; rewrite <- E; reflexivity | constructor; assumption].
  - exists []. split; [reflexivity | constructor].
Qed.

Lemma ws_iff b : json_ws b = true <-> b = 32 \/ b = 9 \/ b = 10 \/ b = 13.
Proof. unfold json_ws. lia. Qed.

Lemma space_enc l : Forall json_space l -> Forall (fun b => json_ws b = true) (enc l).
Proof.
  induction l as [|x l IH]; intros H; [constructor|]. inversion H as [|y l' Hx Hl]; subst. rewrite enc_cons.
  assert (L : code x < 128) by (unfold json_space in Hx; lia).
  rewrite (enc1_low x L). constructor; [apply ws_iff; exact Hx | apply IH; exact Hl].
Qed.

Lemma enc_space l : Forall (fun b => json_ws b = true) (enc l) -> Forall json_space l.
Proof.
  induction l as [|x l IH]; intros H; [constructor|]. rewrite enc_cons in H. apply Forall_app in H. destruct H as [H1 H2].
  constructor; [|apply IH; exact H2]. destruct (N.ltb_spec (code x) 128) as [L|L].
  - rewrite (enc1_low x L) in H1. inversion H1; subst. apply ws_iff. assumption.
  - pose proof (enc1_high x L) as H3. destruct (enc1_shape x) as (b & r & E & _). rewrite E in *.
    inversion H1; subst. inversion H3; subst. apply ws_iff in H4. lia.
Qed.

(** A document without escapes is handed over as a borrowed string. *)
Lemma visit_doc d t : json_doc d t -> exists r, json_visit (enc d) = (VBorrowedStr (enc t), r) /\ skip_json_ws r = [].
Proof.
  intros (P & l & r & -> & Hl & Hr). exists (enc r). rewrite !enc_app, !enc_single. change (enc1 json_quote) with [34].
  unfold json_visit. rewrite (skip_ws_all _ _ (space_enc l Hl)). cbn [app skip_json_ws].
  change (json_ws 34) with false. change (34 =? 0x22) with true. cbv iota.
  rewrite (parse_skip _ (plain_enc t P)) by (rewrite app_length; lia).
  rewrite app_length. cbn [length app]. replace (length (enc t) + S (length (enc r)) - length (enc t))%nat with (S (length (enc r))) by lia.
  rewrite parse_quote. split; [reflexivity|]. rewrite <- (app_nil_r (enc r)), (skip_ws_all _ _ (space_enc r Hr)). reflexivity.
Qed.

(** Borrowed data contain no escape. *)
Lemma parse_borrowed : forall fuel sc sl bs s r, parse_str fuel sc sl bs = Some (Borrowed s, r) ->
  sc = [] /\ exists p, s = sl ++ p /\ bs = p ++ 34 :: r /\ Forall plain_byte p.
Proof.
  induction fuel as [|fuel IH]; intros sc sl bs s r E; [discriminate E|].
  destruct bs as [|b bs]; [discriminate E|]. cbn [parse_str] in E.
  destruct (N.eqb_spec b 0x22) as [->|N1].
  - destruct sc; [|discriminate E]. injection E as <- <-. split; [reflexivity|]. exists [].
    rewrite app_nil_r. repeat split. constructor.
  - destruct (N.eqb_spec b 0x5C) as [->|N2].
    + destruct (parse_escape bs) as [[pushed r']|] eqn:Ep; [|discriminate E].
      apply IH in E. destruct E as [E _]. exfalso.
      assert (Hp : pushed <> []).
      { unfold parse_escape in Ep. destruct bs as [|e bs]; [discriminate Ep|].
        repeat match type of Ep with (if ?b then _ else _) = _ => destruct b; [try (injection Ep as <- _; discriminate)|] end;
          [|discriminate Ep].
        assert (Hc : forall n q p q', push_code n q = Some (p, q') -> p <> []).
        { intros n q p q' H. unfold push_code in H. destruct (char_of_N n) as [x|]; [|discriminate H].
          rewrite encode_utf8_4 in H. injection H as <- _. destruct (enc1_shape x) as (b0 & r0 & -> & _). discriminate. }
        unfold unicode_escape in Ep. destruct (hex4 bs) as [[n q]|]; [|discriminate Ep].
        destruct (in_range 0xDC00 0xDFFF n); [discriminate Ep|].
        destruct (negb (in_range 0xD800 0xDBFF n)); [exact (Hc _ _ _ _ Ep)|].
        destruct q as [|b1 [|u q]]; [discriminate Ep | discriminate Ep |].
        destruct ((b1 =? 0x5C) && (u =? 117)); [|discriminate Ep].
        destruct (hex4 q) as [[n2 q2]|]; [|discriminate Ep].
        destruct (in_range 0xDC00 0xDFFF n2); [exact (Hc _ _ _ _ Ep) | discriminate Ep]. }
      destruct sc; [destruct sl; [destruct pushed; [apply Hp; reflexivity|]|]|]; discriminate E.
    + destruct (N.ltb_spec b 0x20); [discriminate E|]. apply IH in E. destruct E as (E & p & -> & -> & Hp).
      split; [exact E|]. exists (b :: p). rewrite <- app_assoc. repeat split. constructor; [|exact Hp].
      unfold plain_byte. lia.
Qed.

Lemma visit_inv d s r : json_visit (enc d) = (VBorrowedStr s, r) -> skip_json_ws r = [] ->
  exists t, json_doc d t /\ s = enc t.
Proof.
  intros E W. unfold json_visit in E. destruct (skip_ws_split (enc d)) as (l & El & Hl).
  destruct (skip_json_ws (enc d)) as [|b q]; [discriminate E|].
  destruct (N.eqb_spec b 0x22) as [->|]; [|discriminate E].
  destruct (parse_str (length q) [] [] q) as [[[v|v] r']|] eqn:P; [|discriminate E | discriminate E].
  injection E as <- <-. apply parse_borrowed in P. destruct P as (_ & p & Ev & Eq & Hp). cbn [app] in Ev. subst v q.
  destruct (enc_ascii_split d l 34 (p ++ 34 :: r') El) as (d1 & c1 & d2 & -> & E1 & C1 & E2); [lia|].
  destruct (enc_ascii_split d2 p 34 r' E2) as (t & c2 & d3 & -> & E3 & C2 & E4); [lia|].
  exists t. split; [|symmetry; exact E3]. split; [apply enc_plain; rewrite E3; exact Hp|].
  exists d1, d3. split; [|split].
  - assert (Q : forall x, code x = 34 -> x = json_quote) by (intros x Hx; apply char_eq; exact Hx).
    rewrite (Q c1 C1), (Q c2 C2). reflexivity.
  - apply enc_space. rewrite E1. exact Hl.
  - apply enc_space. rewrite E4. destruct (skip_ws_split r') as (l' & El' & Hl'). rewrite W, app_nil_r in El'. rewrite El'. exact Hl'.
Qed.

Lemma c63_from_str c d : valid_cfg c ->
  (forall t, json_doc d t -> exists p, longest_fit (cap c) t p /\ makes_ok c (json_from_str (deserialize c) (enc d)) p) /\
  ((forall t, ~ json_doc d t) -> exists e, json_from_str (deserialize c) (enc d) = Ret (Err e)).
Proof.
  intros Hc. destruct (c40_deserialize c json_error Hc) as (D1 & _ & D2 & _ & D3). split.
  - intros t H. destruct (visit_doc d t H) as (r & Ev & Er). destruct (D1 t) as (p & Hp & (a & Ea & Sa) & _).
    exists p. split; [exact Hp|]. exists a. split; [|exact Sa].
    unfold json_from_str. rewrite Ev, Ea. cbn [obind]. rewrite Er. reflexivity.
  - intros H. unfold json_from_str. destruct (json_visit (enc d)) as [v r] eqn:Ev.
    assert (K : (exists s, v = VBorrowedStr s) \/ (exists s, v = VStr s) \/ exists e, v = DeErr e).
    { unfold json_visit in Ev. destruct (skip_json_ws (enc d)) as [|b q]; [injection Ev as <- <-; eauto|].
      destruct (b =? 0x22); [|injection Ev as <- <-; eauto].
      destruct (parse_str (length q) [] [] q) as [[[s|s] r']|]; injection Ev as <- <-; eauto. }
    destruct K as [[s ->]|[[s ->]|[e ->]]].
    + destruct (skip_json_ws r) as [|b q] eqn:W.
      { exfalso. destruct (visit_inv d s r Ev W) as (t & Ht & _). exact (H t Ht). }
      destruct (deserialize c (VBorrowedStr s)) as [[a|e]| | |] eqn:Ed; cbn [obind]; eauto;
        exfalso; unfold json_visit in Ev;
        destruct (skip_ws_split (enc d)) as (l & El & Hl);
        destruct (skip_json_ws (enc d)) as [|b' q']; try discriminate Ev;
        destruct (N.eqb_spec b' 0x22) as [->|]; try discriminate Ev;
        destruct (parse_str (length q') [] [] q') as [[[v|v] r']|] eqn:P; try discriminate Ev;
        injection Ev as <- <-; apply parse_borrowed in P; destruct P as (_ & p & Ep & Eq & _); cbn [app] in Ep; subst v q';
        destruct (enc_ascii_split d l 34 (p ++ 34 :: r') El) as (d1 & c1 & d2 & -> & E1 & C1 & E2); try lia;
        destruct (enc_ascii_split d2 p 34 r' E2) as (t & c2 & d3 & -> & E3 & C2 & E4); try lia;
        rewrite <- E3 in Ed; destruct (D1 t) as (p' & _ & (a & Ea & _) & _); rewrite Ea in Ed; discriminate Ed.
    + destruct (D2 s) as [-> _]. cbn [obind]. eauto.
    + rewrite D3. cbn [obind]. eauto.
Qed.

Lemma json_text t : exists sc sl, json_visit (json_str (enc t)) = (match ref_of sc sl with Borrowed s => VBorrowedStr s | Copied s => VStr s end, [])
  /\ sc ++ sl = enc t /\ (sc = [] <-> json_plain t).
Proof.
  unfold json_str. rewrite escape_enc. unfold json_visit. cbn [app skip_json_ws]. change (json_ws 34) with false.
  change (34 =? 0x22) with true. cbv iota. destruct (parse_chars t (length (flat_map json_char t ++ [34])) [] [] []) as (sc & sl & E & E1 & E2).
  { rewrite app_length. cbn [length]. lia. }
  exists sc, sl. rewrite E. split; [destruct (ref_of sc sl); reflexivity|]. split; [exact E1|].
  rewrite E2. split; [intros [_ H]; exact H | intros H; split; [reflexivity | exact H]].
Qed.

Lemma c63_round_trip c s t : valid_cfg c -> shows c s t ->
  exists d, serialize c json_str s = Ret d /\
    (json_plain t -> makes_ok c (json_from_str (deserialize c) d) t) /\
    (~ json_plain t -> json_from_str (deserialize c) d = Ret (Err InvalidType)).
Proof.
  intros Hc Hs. exists (json_str (enc t)). split; [exact (c40_serialize c s t _ json_str Hs)|].
  destruct (json_text t) as (sc & sl & E & E1 & E2). split.
  - intros P. apply E2 in P. subst sc. cbn [ref_of app] in E, E1. subst sl.
    destruct (c40_round_trip c json_error s t Hc Hs) as (v & Ev & a & Ea & Sa).
    assert (Hv : v = VBorrowedStr (enc t)).
    { rewrite (c40_serialize c s t _ (fun b => VBorrowedStr (E := json_error) b) Hs) in Ev. injection Ev as <-. reflexivity. }
    subst v. exists a. split; [|exact Sa]. unfold json_from_str. rewrite E, Ea. reflexivity.
  - intros P. unfold json_from_str. rewrite E. unfold ref_of. destruct sc as [|b sc]; [exfalso; apply P, E2; reflexivity|].
    destruct (proj1 (proj2 (proj2 (c40_deserialize c json_error Hc))) ((b :: sc) ++ sl)) as [Es _]. rewrite Es. reflexivity.
Qed.

(** ... while a [String] always comes back. *)
Lemma c63_string t : json_from_str (fun v => Ret (deserialize_string v)) (json_str (enc t)) = Ret (Ok (enc t)).
Proof.
  destruct (json_text t) as (sc & sl & E & E1 & E2). unfold json_from_str. rewrite E. unfold ref_of.
  destruct sc as [|b sc]; cbn [deserialize_string obind skip_json_ws]; rewrite <- E1; reflexivity.
Qed.

Lemma c63_cache c0 s t : valid_cfg c0 -> cache_shows c0 s t ->
  cache_serialize c0 json_str s = Ret ([34] ++ flat_map json_char t ++ [34]) /\
  (json_plain t -> exists a, json_from_str (cache_deserialize c0) ([34] ++ flat_map json_char t ++ [34]) = Ret (Ok a) /\ cache_shows c0 a t) /\
  (~ json_plain t -> json_from_str (cache_deserialize c0) ([34] ++ flat_map json_char t ++ [34]) = Ret (Err InvalidType)).
Proof.
  intros Hc Hs. apply valid_c63 in Hc. destruct (c63_round_trip (c63 c0) (inner s) t Hc Hs) as (d & Ed & R1 & R2).
  pose proof (c63_to_string (c63 c0) (inner s) t Hs) as Et. rewrite Ed in Et.
  assert (Hd : d = [34] ++ flat_map json_char t ++ [34]) by (injection Et as Et; exact Et). rewrite <- Hd. clear Et Hd.
  split; [exact Ed|]. unfold cache_deserialize. change (mkcfg (usize_max c0) (debug c0) CACHE_STRING_SIZE) with (c63 c0). revert R1 R2. unfold json_from_str.
  destruct (json_visit d) as [v r]. intros R1 R2. split.
  - intros P. destruct (R1 P) as (a & Ea & Sa). exists (mkCache a). split; [|exact Sa]. revert Ea.
    destruct (deserialize (c63 c0) v) as [[x|e]| | |]; cbn [obind map_ok]; try (intros Ea; discriminate Ea).
    destruct (skip_json_ws r); intros Ea; [injection Ea as ->; reflexivity | discriminate Ea].
  - intros P. specialize (R2 P). revert R2.
    destruct (deserialize (c63 c0) v) as [[x|e]| | |]; cbn [obind map_ok]; try (intros R2; discriminate R2).
    + destruct (skip_json_ws r); intros R2; discriminate R2.
    + intros R2. injection R2 as ->. reflexivity.
Qed.

(** ** Documents with escapes *)

Lemma enc_head d x r : enc d = x :: r -> x < 128 -> exists ch d', d = ch :: d' /\ code ch = x /\ enc d' = r.
Proof.
  intros E L. destruct (enc_ascii_split d [] x r E L) as (d1 & ch & d2 & -> & E1 & E2 & E3).
  destruct d1 as [|y d1].
  - exists ch, d2. auto.
  - rewrite enc_cons in E1. destruct (enc1_shape y) as (b & q & Eb & _). rewrite Eb in E1. discriminate.
Qed.

Lemma hex_val_digit x v : hex_val (code x) = Some v <-> json_digit x v.
Proof.
  split.
  - unfold hex_val, in_range, json_digit. intros H.
    assert (D : v < 16 /\ ((code x = 48 + v /\ v < 10) \/ (code x = 55 + v /\ 10 <= v) \/ (code x = 87 + v /\ 10 <= v))).
    { repeat match type of H with (if ?b then _ else _) = _ => destruct b eqn:?; [injection H as <-; lia|] end. discriminate. }
    destruct D as [Lv D]. split; [exact Lv|].
    assert (V : v = 0 \/ v = 1 \/ v = 2 \/ v = 3 \/ v = 4 \/ v = 5 \/ v = 6 \/ v = 7 \/ v = 8 \/ v = 9 \/ v = 10 \/ v = 11
      \/ v = 12 \/ v = 13 \/ v = 14 \/ v = 15) by lia. clear H Lv. revert D. generalize (code x). intros k D.
    repeat match type of V with _ \/ _ => destruct V as [->|V]; [vm_compute nth; lia|] end. subst v. vm_compute nth; lia.
  - intros [Lv D].
    assert (V : v = 0 \/ v = 1 \/ v = 2 \/ v = 3 \/ v = 4 \/ v = 5 \/ v = 6 \/ v = 7 \/ v = 8 \/ v = 9 \/ v = 10 \/ v = 11
      \/ v = 12 \/ v = 13 \/ v = 14 \/ v = 15) by lia. clear Lv. revert D. generalize (code x). intros k D.
    repeat match type of V with _ \/ _ => destruct V as [->|V]; [destruct D as [D|D]; vm_compute in D; rewrite <- D; reflexivity|] end.
    subst v. destruct D as [D|D]; vm_compute in D; rewrite <- D; reflexivity.
Qed.

Lemma hex_val_low b v : hex_val b = Some v -> b < 128.
Proof. unfold hex_val, in_range. intros H. repeat match type of H with (if ?b then _ else _) = _ => destruct b eqn:?; [lia|] end. discriminate. Qed.

Lemma digit_low x v : json_digit x v -> code x < 128.
Proof. intros H. apply hex_val_digit in H. exact (hex_val_low _ _ H). Qed.

Lemma number_bound ds n : json_number ds n -> n < 65536.
Proof. intros (a & b & c & d & va & vb & vc & vd & _ & [? _] & [? _] & [? _] & [? _] & ->). lia. Qed.

Lemma hex4_number ds n r : json_number ds n -> hex4 (enc ds ++ r) = Some (n, r).
Proof.
  intros (a & b & c & d & va & vb & vc & vd & -> & Ha & Hb & Hc & Hd & ->).
  rewrite !enc_cons, !enc1_low by (eapply digit_low; eassumption). cbn [app hex4].
  rewrite (proj2 (hex_val_digit a va) Ha), (proj2 (hex_val_digit b vb) Hb), (proj2 (hex_val_digit c vc) Hc),
    (proj2 (hex_val_digit d vd) Hd). cbn [enc flat_map app]. do 2 f_equal. lia.
Qed.

Lemma hex4_inv d n r : hex4 (enc d) = Some (n, r) -> exists ds d', d = ds ++ d' /\ json_number ds n /\ enc d' = r.
Proof.
  intros H. unfold hex4 in H.
  destruct (enc d) as [|b1 [|b2 [|b3 [|b4 q]]]] eqn:E; try discriminate.
  destruct (hex_val b1) as [v1|] eqn:V1; [|discriminate]. destruct (hex_val b2) as [v2|] eqn:V2; [|discriminate].
  destruct (hex_val b3) as [v3|] eqn:V3; [|discriminate]. destruct (hex_val b4) as [v4|] eqn:V4; [|discriminate].
  injection H as <- <-.
  destruct (enc_head _ _ _ E (hex_val_low _ _ V1)) as (x1 & d1 & -> & C1 & E1).
  destruct (enc_head _ _ _ E1 (hex_val_low _ _ V2)) as (x2 & d2 & -> & C2 & E2).
  destruct (enc_head _ _ _ E2 (hex_val_low _ _ V3)) as (x3 & d3 & -> & C3 & E3).
  destruct (enc_head _ _ _ E3 (hex_val_low _ _ V4)) as (x4 & d4 & -> & C4 & E4).
  subst b1 b2 b3 b4. exists [x1; x2; x3; x4], d4. split; [reflexivity|]. split; [|exact E4].
  exists x1, x2, x3, x4, v1, v2, v3, v4. split; [reflexivity|]. rewrite <- !hex_val_digit.
  repeat (split; [assumption|]). lia.
Qed.

Lemma push_code_char x r : push_code (code x) r = Some (enc1 x, r).
Proof. unfold push_code. rewrite char_of_N_code, encode_utf8_4. reflexivity. Qed.

Lemma push_code_inv n r p q : push_code n r = Some (p, q) -> exists x, code x = n /\ p = enc1 x /\ q = r.
Proof.
  unfold push_code. destruct (char_of_N n) as [x|] eqn:E; [|discriminate]. rewrite encode_utf8_4. intros H.
  injection H as <- <-. exists x. split; [exact (char_of_N_Some n x E)|auto].
Qed.

Lemma scalar_bounds x : code x < 0xD800 \/ 0xE000 <= code x < 0x110000.
Proof. pose proof (code_ok x) as H. unfold is_scalar in H. lia. Qed.

(** Every way to write a character with an escape is read ... *)
Lemma piece_escape p x r : json_piece p x true -> exists q, p = mkchar 92 eq_refl :: q /\
  parse_escape (enc q ++ r) = Some (enc1 x, r).
Proof.
  intros H. inversion H as [|l y HI|ds y Hn|hs ls y hi lo Hh Hl B1 B2 Ec]; subst.
  - exists [l]. split; [reflexivity|].
    assert (L : code l < 128 /\ code x < 128).
    { cbn in HI. repeat (destruct HI as [HI|HI]; [injection HI as <- <-; lia|]). destruct HI. }
    rewrite enc_single, !enc1_low by apply L. cbn [app]. clear H L.
    cbn in HI. repeat (destruct HI as [HI|HI]; [injection HI as <- <-; reflexivity|]). destruct HI.
  - exists (mkchar 117 eq_refl :: ds). split; [reflexivity|]. rewrite enc_cons. change (enc1 (mkchar 117 eq_refl)) with [117].
    cbn [app]. change (parse_escape (117 :: enc ds ++ r)) with (unicode_escape (enc ds ++ r)).
    unfold unicode_escape. rewrite (hex4_number ds _ r Hn). pose proof (scalar_bounds x) as B.
    unfold in_range. replace ((0xDC00 <=? code x) && (code x <=? 0xDFFF)) with false by lia.
    replace ((0xD800 <=? code x) && (code x <=? 0xDBFF)) with false by lia. apply push_code_char.
  - exists (mkchar 117 eq_refl :: hs ++ json_u ls). split; [reflexivity|]. rewrite enc_cons.
    change (enc1 (mkchar 117 eq_refl)) with [117]. cbn [app].
    change (parse_escape (117 :: enc (hs ++ json_u ls) ++ r)) with (unicode_escape (enc (hs ++ json_u ls) ++ r)).
    rewrite enc_app. unfold json_u. rewrite !enc_cons, <- !app_assoc.
    change (enc1 (mkchar 92 eq_refl)) with [92]. change (enc1 (mkchar 117 eq_refl)) with [117]. cbn [app].
    unfold unicode_escape. rewrite (hex4_number hs _ _ Hh). unfold in_range.
    replace ((0xDC00 <=? hi) && (hi <=? 0xDFFF)) with false by lia.
    replace ((0xD800 <=? hi) && (hi <=? 0xDBFF)) with true by lia.
    change ((92 =? 0x5C) && (117 =? 117)) with true. cbn [negb]. cbv iota. rewrite (hex4_number ls _ _ Hl).
    replace ((0xDC00 <=? lo) && (lo <=? 0xDFFF)) with true by lia.
    replace ((hi - 0xD800) * 0x400 + (lo - 0xDC00) + 0x10000) with (code x) by lia. apply push_code_char.
Qed.

(** ... and nothing else is. *)
Lemma escape_piece d s r : parse_escape (enc d) = Some (s, r) ->
  exists q x d', d = q ++ d' /\ json_piece (mkchar 92 eq_refl :: q) x true /\ s = enc1 x /\ enc d' = r.
Proof.
  intros H. unfold parse_escape in H. destruct (enc d) as [|b q] eqn:E; [discriminate|].
  destruct (b =? 117) eqn:B117.
  - apply N.eqb_eq in B117. subst b. change (unicode_escape q = Some (s, r)) in H.
    destruct (enc_head d 117 q E) as (u & d1 & -> & Eu & Ed); [lia|].
    replace u with (mkchar 117 eq_refl) in * by (apply char_eq; symmetry; exact Eu). clear Eu.
    rewrite <- Ed in H. unfold unicode_escape in H. destruct (hex4 (enc d1)) as [[n q1]|] eqn:E4; [|discriminate].
    destruct (hex4_inv d1 n q1 E4) as (ds & d2 & -> & Hn & <-). pose proof (number_bound ds n Hn) as Bn.
    destruct (in_range 0xDC00 0xDFFF n) eqn:R1; [discriminate|].
    destruct (in_range 0xD800 0xDBFF n) eqn:R2; cbn [negb] in H.
    + destruct (enc d2) as [|b1 [|b2 q2]] eqn:E2; try discriminate.
      destruct ((b1 =? 0x5C) && (b2 =? 117)) eqn:B; [|discriminate].
      assert (b1 = 92 /\ b2 = 117) as [-> ->] by lia.
      destruct (enc_head d2 92 _ E2) as (x1 & d3 & -> & C1 & E3); [lia|].
      destruct (enc_head d3 117 _ E3) as (x2 & d4 & -> & C2 & <-); [lia|].
      replace x1 with (mkchar 92 eq_refl) in * by (apply char_eq; symmetry; exact C1).
      replace x2 with (mkchar 117 eq_refl) in * by (apply char_eq; symmetry; exact C2). clear C1 C2.
      destruct (hex4 (enc d4)) as [[n2 q3]|] eqn:E5; [|discriminate].
      destruct (hex4_inv d4 n2 q3 E5) as (ls & d5 & -> & Hl & <-).
      destruct (in_range 0xDC00 0xDFFF n2) eqn:R3; [|discriminate].
      destruct (push_code_inv _ _ _ _ H) as (x & Ex & -> & ->). unfold in_range in *.
      exists (mkchar 117 eq_refl :: ds ++ json_u ls), x, d5. split; [|split; [|split; reflexivity]].
      * unfold json_u. cbn [app]. rewrite <- app_assoc. reflexivity.
      * apply (piece_pair ds ls x n n2); [assumption..| | |]; lia.
    + destruct (push_code_inv _ _ _ _ H) as (x & Ex & -> & ->).
      exists (mkchar 117 eq_refl :: ds), x, d2. split; [reflexivity|]. split; [|split; reflexivity].
      apply piece_number. rewrite Ex. exact Hn.
  - assert (X : exists v, In (b, v) json_letters /\ s = [v] /\ r = q /\ b < 128 /\ v < 128).
    { clear E. repeat match type of H with
        | (if ?x then _ else _) = _ => destruct x eqn:?
        end; try discriminate H; injection H as <- <-.
      - exists b. cbn. assert (b = 34 \/ b = 92 \/ b = 47) as [->|[->| ->]] by lia; (split; [tauto|]; split; [reflexivity|]; split; [reflexivity|]; lia).
      - exists 8. replace b with 98 by lia. cbn. split; [tauto|]; split; [reflexivity|]; split; [reflexivity|]; lia.
      - exists 12. replace b with 102 by lia. cbn. split; [tauto|]; split; [reflexivity|]; split; [reflexivity|]; lia.
      - exists 10. replace b with 110 by lia. cbn. split; [tauto|]; split; [reflexivity|]; split; [reflexivity|]; lia.
      - exists 13. replace b with 114 by lia. cbn. split; [tauto|]; split; [reflexivity|]; split; [reflexivity|]; lia.
      - exists 9. replace b with 116 by lia. cbn. split; [tauto|]; split; [reflexivity|]; split; [reflexivity|]; lia. }
    destruct X as (v & HI & -> & -> & Lb & Lv).
    destruct (enc_head d b q E Lb) as (l & d' & -> & El & Ed).
    assert (exists x, code x = v) as (x & Ex).
    { assert (Sv : is_scalar v = true) by (unfold is_scalar; lia). exists (mkchar v Sv). reflexivity. }
    exists [l], x, d'. split; [reflexivity|]. split; [|split; [rewrite enc1_low; rewrite Ex; [reflexivity|exact Lv]|exact Ed]].
    apply piece_letter. rewrite El, Ex. exact HI.
Qed.

Lemma enc1_cons x : exists b r, enc1 x = b :: r.
Proof. destruct (enc1_shape x) as (b & r & E & _). exists b, r. exact E. Qed.

Lemma parse_body : forall b t e, json_body b t e -> forall fuel sc sl r, (length (enc b) < fuel)%nat ->
  exists sc' sl', parse_str fuel sc sl (enc b ++ 34 :: r) = Some (ref_of sc' sl', r) /\
    sc' ++ sl' = sc ++ sl ++ enc t /\ (sc' = [] <-> sc = [] /\ e = false).
Proof.
  intros b t e H. induction H as [|p x e b t e' Hp Hb IH]; intros fuel sc sl r L.
  - destruct fuel as [|fuel]; [cbn in L; lia|]. change (enc [] ++ 34 :: r) with (34 :: r). rewrite parse_quote. exists sc, sl.
    split; [reflexivity|]. split; [change (enc []) with (@nil N); rewrite app_nil_r; reflexivity|tauto].
  - rewrite enc_app in *. rewrite app_length in L. rewrite <- app_assoc, enc_cons. destruct e.
    + destruct (piece_escape p x (enc b ++ 34 :: r) Hp) as (q & -> & E). rewrite enc_cons in *.
      change (enc1 (mkchar 92 eq_refl)) with [92] in *. cbn [app length] in *.
      destruct fuel as [|fuel]; [lia|]. cbn [parse_str]. change (92 =? 0x22) with false. change (92 =? 0x5C) with true.
      cbv iota. rewrite E.
      destruct (IH fuel (sc ++ sl ++ enc1 x) [] r) as (sc' & sl' & E0 & E1 & E2); [lia|].
      exists sc', sl'. split; [exact E0|]. split; [rewrite E1; rewrite !app_nil_l, <- !app_assoc; reflexivity|].
      rewrite E2. cbn [orb]. destruct (enc1_cons x) as (b0 & r0 & ->). split; [|intros [_ X]; discriminate X].
      intros [X _]. destruct sc; [destruct sl|]; discriminate X.
    + inversion Hp as [y Hx| | |]; subst. rewrite enc_single in *. rewrite (parse_skip _ (plain_enc1 x Hx)) by lia.
      destruct (IH (fuel - length (enc1 x))%nat sc (sl ++ enc1 x) r) as (sc' & sl' & E & E1 & E2); [lia|].
      exists sc', sl'. split; [exact E|]. split; [rewrite E1, <- !app_assoc; reflexivity|]. exact E2.
Qed.

Lemma plain_prefix bs : exists p q, bs = p ++ q /\ Forall plain_byte p /\
  (q = [] \/ exists b r, q = b :: r /\ ~ plain_byte b).
Proof.
  induction bs as [|b bs (p & q & -> & F & H)]; [exists [], []; repeat split; auto|].
  destruct (N.ltb_spec b 32) as [L|L].
  { exists [], (b :: p ++ q). split; [reflexivity|]. split; [constructor|]. right. exists b, (p ++ q). unfold plain_byte. split; [reflexivity|lia]. }
  destruct (N.eq_dec b 34) as [->|N1].
  { exists [], (34 :: p ++ q). split; [reflexivity|]. split; [constructor|]. right. exists 34, (p ++ q). unfold plain_byte. split; [reflexivity|lia]. }
  destruct (N.eq_dec b 92) as [->|N2].
  { exists [], (92 :: p ++ q). split; [reflexivity|]. split; [constructor|]. right. exists 92, (p ++ q). unfold plain_byte. split; [reflexivity|lia]. }
  exists (b :: p), q. split; [reflexivity|]. split; [constructor; [unfold plain_byte; lia|exact F]|exact H].
Qed.

Lemma body_plain p b t e : json_plain p -> json_body b t e -> json_body (p ++ b) (p ++ t) e.
Proof.
  induction p as [|x p IH]; intros H Hb; [exact Hb|]. inversion H; subst. cbn [app].
  exact (body_piece [x] x false (p ++ b) (p ++ t) e (piece_plain x H2) (IH H3 Hb)).
Qed.

(** What was read was a string. *)
Lemma parse_inv : forall fuel sc sl d ref r, parse_str fuel sc sl (enc d) = Some (ref, r) ->
  exists b t e d', d = b ++ json_quote :: d' /\ json_body b t e /\ enc d' = r.
Proof.
  intros fuel. induction fuel as [fuel IH] using lt_wf_ind. intros sc sl d ref r H.
  destruct (plain_prefix (enc d)) as (p & q & E & F & Q).
  destruct (Nat.leb_spec (length p) fuel) as [L|L].
  2:{ exfalso. rewrite E in H. clear -H F L. revert p sc sl L F H. induction fuel as [|fuel IH]; intros p sc sl L F H; [discriminate H|].
      destruct p as [|b p]; [cbn in L; lia|]. inversion F; subst. cbn [app] in H. rewrite parse_step in H by assumption.
      apply (IH p sc (sl ++ [b])); [cbn in L; lia|assumption|exact H]. }
  rewrite E, (parse_skip p F fuel sc sl q L) in H.
  destruct Q as [->|(b & q' & -> & Nb)]; [destruct (fuel - length p)%nat; discriminate H|].
  destruct (fuel - length p)%nat as [|fuel'] eqn:Ef; [discriminate H|].
  assert (B : b = 34 \/ b = 92 \/ b < 32) by (unfold plain_byte in Nb; lia).
  assert (Lb : b < 128) by lia.
  destruct (enc_ascii_split d p b q' E Lb) as (d1 & ch & d2 & -> & E1 & Ec & E2).
  assert (P1 : json_plain d1) by (apply enc_plain; rewrite E1; exact F).
  destruct B as [->|[->|B]].
  - rewrite parse_quote in H. injection H as _ <-. exists d1, d1, false, d2.
    split; [f_equal; f_equal; apply char_eq; exact Ec|]. split; [|exact E2].
    pose proof (body_plain d1 [] [] false P1 body_end) as X. rewrite app_nil_r in X. exact X.
  - cbn [parse_str] in H. change (92 =? 0x22) with false in H. change (92 =? 0x5C) with true in H. cbv iota in H.
    rewrite <- E2 in H. destruct (parse_escape (enc d2)) as [[s rest]|] eqn:Ee; [|discriminate].
    destruct (escape_piece d2 s rest Ee) as (src & x & d3 & -> & Hp & -> & <-).
    destruct (IH fuel' ltac:(lia) _ _ d3 ref r H) as (b3 & t3 & e3 & d4 & -> & Hb & E4).
    exists (d1 ++ (mkchar 92 eq_refl :: src) ++ b3), (d1 ++ x :: t3), true, d4.
    split; [|split; [|exact E4]].
    + replace ch with (mkchar 92 eq_refl) by (apply char_eq; symmetry; exact Ec). rewrite <- !app_assoc. reflexivity.
    + apply body_plain; [exact P1|]. exact (body_piece _ x true b3 t3 e3 Hp Hb).
  - cbn [parse_str] in H. replace (b =? 0x22) with false in H by lia. replace (b =? 0x5C) with false in H by lia.
    replace (b <? 0x20) with true in H by lia. discriminate.
Qed.

Lemma visit_string d t e : json_string d t e -> exists r, skip_json_ws r = [] /\
  json_visit (enc d) = (if e then VStr (enc t) else VBorrowedStr (enc t), r).
Proof.
  intros (l & b & r & -> & Hl & Hr & Hb). exists (enc r). rewrite !enc_app, !enc_single. change (enc1 json_quote) with [34].
  split; [rewrite <- (app_nil_r (enc r)), (skip_ws_all _ _ (space_enc r Hr)); reflexivity|].
  unfold json_visit. rewrite (skip_ws_all _ _ (space_enc l Hl)). cbn [app skip_json_ws].
  change (json_ws 34) with false. change (34 =? 0x22) with true. cbv iota.
  destruct (parse_body b t e Hb (length (enc b ++ 34 :: enc r)) [] [] (enc r)) as (sc & sl & E & E1 & E2);
    [rewrite app_length; cbn; lia|].
  rewrite E. cbn [app] in E1. unfold ref_of. destruct e.
  - destruct sc as [|y sc]; [destruct (proj1 E2 eq_refl) as [_ X]; discriminate X|]. rewrite E1. reflexivity.
  - rewrite (proj2 E2 (conj eq_refl eq_refl)) in *. cbn [app] in E1. rewrite E1. reflexivity.
Qed.

Lemma visit_string_inv d : 
  (exists s r, (json_visit (enc d) = (VStr s, r) \/ json_visit (enc d) = (VBorrowedStr s, r)) /\
    (skip_json_ws r = [] -> exists t e, json_string d t e)) \/
  (exists x r, json_visit (enc d) = (DeErr x, r)).
Proof.
  unfold json_visit. destruct (skip_ws_split (enc d)) as (l & E & Fl). destruct (skip_json_ws (enc d)) as [|b r] eqn:Es.
  { right. exists Syntax, []. reflexivity. }
  destruct (N.eqb_spec b 0x22) as [->|]; [|right; exists NotAString, r; reflexivity].
  destruct (enc_ascii_split d l 34 r E) as (d1 & ch & d2 & -> & E1 & Ec & E2); [lia|].
  destruct (parse_str (length r) [] [] r) as [[ref q]|] eqn:Ep; [|right; exists Syntax, []; reflexivity].
  left. rewrite <- E2 in Ep. destruct (parse_inv _ _ _ d2 ref q Ep) as (body & t & e & d3 & -> & Hb & <-).
  assert (X : skip_json_ws (enc d3) = [] -> exists t e, json_string (d1 ++ ch :: body ++ json_quote :: d3) t e).
  { intros W. exists t, e, d1, body, d3. split; [|split; [apply enc_space; rewrite E1; exact Fl|split; [|exact Hb]]].
    - cbn [app]. f_equal. f_equal. apply char_eq. exact Ec.
    - apply enc_space. destruct (skip_ws_split (enc d3)) as (l' & E' & F'). rewrite W, app_nil_r in E'. rewrite E'. exact F'. }
  destruct ref as [s|s]; exists s, (enc d3); auto.
Qed.

Lemma c63_documents c d : valid_cfg c ->
  (forall t e, json_string d t e ->
    json_from_str (fun v => Ret (deserialize_string v)) (enc d) = Ret (Ok (enc t)) /\
    (e = true -> json_from_str (deserialize c) (enc d) = Ret (Err InvalidType)) /\
    (e = false -> exists p, longest_fit (cap c) t p /\ makes_ok c (json_from_str (deserialize c) (enc d)) p)) /\
  ((forall t e, ~ json_string d t e) ->
    (exists x, json_from_str (fun v => Ret (deserialize_string v)) (enc d) = Ret (Err (FromFormat x))) /\
    (exists y, json_from_str (deserialize c) (enc d) = Ret (Err y))).
Proof.
  intros Hc. destruct (c40_deserialize c json_error Hc) as (D1 & _). split.
  - intros t e H. destruct (visit_string d t e H) as (r & Er & E). unfold json_from_str. rewrite E.
    destruct e.
    + cbn [deserialize_string obind]. rewrite Er. split; [reflexivity|]. split; [intros _; reflexivity|discriminate].
    + cbn [deserialize_string obind]. rewrite Er. split; [reflexivity|]. split; [discriminate|intros _].
      destruct (D1 t) as (p & Hp & (a & Ea & Sa) & _). exists p. split; [exact Hp|]. exists a. split; [|exact Sa].
      rewrite Ea. reflexivity.
  - intros H. split.
    + unfold json_from_str. destruct (visit_string_inv d) as [(s & r & Ev & X)|(x & r & ->)].
      * assert (W : skip_json_ws r <> []) by (intros W; destruct (X W) as (t & e & Hs); exact (H t e Hs)).
        destruct (skip_json_ws r) as [|w ws] eqn:Es; [destruct (W eq_refl)|].
        destruct Ev as [-> | ->]; cbn [deserialize_string obind]; rewrite Es; eexists; reflexivity.
      * cbn. eexists; reflexivity.
    + apply (proj2 (c63_from_str c d Hc)). intros t (Pt & l & r & E & Hl & Hr). apply (H t false). exists l, t, r.
      repeat (split; [assumption|]). pose proof (body_plain t [] [] false Pt body_end) as X. rewrite !app_nil_r in X. exact X.
Qed.
