(** Facts on UTF-8: core's bit-level encoder, decoder and validator against the
    table in Spec.v. *)
From Coq Require Import ZArith ZifyBool ZifyN ZifyNat.
From Verif Require Import Base Char Spec RustStd ListFacts.
Ltac Zify.zify_post_hook ::= Z.div_mod_to_equations.
Arguments N.add : simpl never.
Arguments N.mul : simpl never.
Arguments N.sub : simpl never.
Arguments N.div : simpl never.
Arguments N.modulo : simpl never.
Arguments N.leb : simpl never.
Arguments N.ltb : simpl never.
Arguments N.eqb : simpl never.
Arguments N.land : simpl never.
Arguments N.lor : simpl never.
Arguments N.shiftl : simpl never.
Arguments N.shiftr : simpl never.

(** ** Bit operations as arithmetic *)

Lemma fin_check (n : nat) (P : N -> bool) :
  forallb P (map N.of_nat (seq 0 n)) = true -> forall x, x < N.of_nat n -> P x = true.
Proof.
  intros H x Hx. rewrite forallb_forall in H. apply H.
  apply in_map_iff. exists (N.to_nat x). split; [lia|]. apply in_seq. lia.
Qed.

Lemma lor_80 x : x < 64 -> N.lor x 0x80 = 128 + x.
Proof.
  intros H. apply N.eqb_eq.
  apply (fin_check 64 (fun x => N.lor x 0x80 =? 128 + x)); [vm_compute; reflexivity|exact H].
Qed.
Lemma lor_C0 x : x < 32 -> N.lor x 0xC0 = 192 + x.
Proof.
  intros H. apply N.eqb_eq.
  apply (fin_check 32 (fun x => N.lor x 0xC0 =? 192 + x)); [vm_compute; reflexivity|exact H].
Qed.
Lemma lor_E0 x : x < 16 -> N.lor x 0xE0 = 224 + x.
Proof.
  intros H. apply N.eqb_eq.
  apply (fin_check 16 (fun x => N.lor x 0xE0 =? 224 + x)); [vm_compute; reflexivity|exact H].
Qed.
Lemma lor_F0 x : x < 8 -> N.lor x 0xF0 = 240 + x.
Proof.
  intros H. apply N.eqb_eq.
  apply (fin_check 8 (fun x => N.lor x 0xF0 =? 240 + x)); [vm_compute; reflexivity|exact H].
Qed.

Lemma lor_shiftl_add a b k : b < 2 ^ k -> N.lor (N.shiftl a k) b = a * 2 ^ k + b.
Proof.
  intros H.
  assert (D : N.land (N.shiftl a k) b = 0).
  { apply N.bits_inj. intros n. rewrite N.land_spec, N.bits_0.
    destruct (N.lt_ge_cases n k) as [L|L].
    - rewrite N.shiftl_spec_low by exact L. reflexivity.
    - rewrite <- (N.mod_small b (2 ^ k)) by exact H.
      rewrite N.mod_pow2_bits_high by exact L. apply andb_false_r. }
  rewrite <- (N.shiftl_mul_pow2 a k), N.add_nocarry_lxor by exact D.
  symmetry. apply N.lxor_lor. exact D.
Qed.

Lemma land_63 x : N.land x 0x3F = x mod 64.
Proof. exact (N.land_ones x 6). Qed.
Lemma land_31 x : N.land x 0x1F = x mod 32.
Proof. exact (N.land_ones x 5). Qed.
Lemma land_15 x : N.land x 0x0F = x mod 16.
Proof. exact (N.land_ones x 4). Qed.
Lemma land_7 x : N.land x 7 = x mod 8.
Proof. exact (N.land_ones x 3). Qed.
Lemma land_3ff x : N.land x 0x3ff = x mod 1024.
Proof. exact (N.land_ones x 10). Qed.

Lemma shiftr_6 x : N.shiftr x 6 = x / 64.
Proof. exact (N.shiftr_div_pow2 x 6). Qed.
Lemma shiftr_12 x : N.shiftr x 12 = x / 4096.
Proof. exact (N.shiftr_div_pow2 x 12). Qed.
Lemma shiftr_18 x : N.shiftr x 18 = x / 262144.
Proof. exact (N.shiftr_div_pow2 x 18). Qed.
Lemma shiftr_8 x : N.shiftr x 8 = x / 256.
Proof. exact (N.shiftr_div_pow2 x 8). Qed.

Lemma acc_cont ch b : utf8_acc_cont_byte ch b = ch * 64 + b mod 64.
Proof.
  unfold utf8_acc_cont_byte. rewrite land_63.
  apply (lor_shiftl_add ch (b mod 64) 6). change (2 ^ 6) with 64. lia.
Qed.

Lemma first_byte_2 b : utf8_first_byte b 2 = b mod 32.
Proof. exact (land_31 b). Qed.
Lemma first_byte_3 b : utf8_first_byte b 3 = b mod 16.
Proof. exact (land_15 b). Qed.
Lemma first_byte_4 b : utf8_first_byte b 4 = b mod 8.
Proof. exact (land_7 b). Qed.

(** Equality of lists of numbers, entry by entry. *)
Ltac list_lia :=
  match goal with
  | |- Ret _ = Ret _ => apply f_equal; list_lia
  | |- _ :: _ = _ :: _ => apply f_equal2; [lia | list_lia]
  | _ => reflexivity
  end.

(** ** Characters *)

Lemma code_lt (c : char) : code c < 0x110000.
Proof. destruct c as [n H]. cbn. unfold is_scalar in H. lia. Qed.

Lemma code_not_surrogate (c : char) : code c < 0xD800 \/ 0xE000 <= code c.
Proof. destruct c as [n H]. cbn. unfold is_scalar in H. lia. Qed.

Lemma scalar_char n : is_scalar n = true -> exists c, char_of_N n = Some c /\ code c = n.
Proof.
  intros H. destruct (char_of_N n) as [c|] eqn:E.
  - exists c. split; [reflexivity|]. apply char_of_N_Some, E.
  - apply char_of_N_None in E. congruence.
Qed.

Lemma from_u32_code (c : char) n : n = code c -> from_u32_unchecked n = Ret c.
Proof. intros ->. unfold from_u32_unchecked. rewrite char_of_N_code. reflexivity. Qed.

Lemma len_utf8_clen c : len_utf8 c = clen c.
Proof. reflexivity. Qed.

Lemma clen_range c : 1 <= clen c <= 4.
Proof.
  unfold clen. destruct (code c <? 0x80); [lia|].
  destruct (code c <? 0x800); [lia|]. destruct (code c <? 0x10000); lia.
Qed.

Lemma enc1_len c : lenN (enc1 c) = clen c.
Proof.
  unfold enc1, clen. destruct (code c <? 0x80); [reflexivity|].
  destruct (code c <? 0x800); [reflexivity|]. destruct (code c <? 0x10000); reflexivity.
Qed.

Lemma enc_app a b : enc (a ++ b) = enc a ++ enc b.
Proof. unfold enc. apply flat_map_app. Qed.

Lemma enc_cons c t : enc (c :: t) = enc1 c ++ enc t.
Proof. reflexivity. Qed.

Lemma enc_single c : enc [c] = enc1 c.
Proof. cbn. apply app_nil_r. Qed.

Lemma enc_len t : lenN (enc t) = blen t.
Proof.
  induction t as [|c t IH]; [reflexivity|].
  rewrite enc_cons, lenN_app, enc1_len, IH. reflexivity.
Qed.

Lemma blen_cons c t : blen (c :: t) = clen c + blen t.
Proof. reflexivity. Qed.

Lemma blen_app a b : blen (a ++ b) = blen a + blen b.
Proof. induction a as [|c a IH]; cbn; [lia|]. rewrite IH. lia. Qed.

Lemma blen_0 t : blen t = 0 -> t = [].
Proof. destruct t as [|c t]; [reflexivity|]. cbn. pose proof (clen_range c). lia. Qed.

Lemma blen_rev t : blen (rev t) = blen t.
Proof. induction t as [|c t IH]; cbn; [reflexivity|]. rewrite blen_app. cbn. lia. Qed.

Lemma enc_nil_iff t : lenN (enc t) = 0 <-> t = [].
Proof. rewrite enc_len. split; [apply blen_0|intros ->; reflexivity]. Qed.

Lemma length_le_blen (t : text) : lenN t <= blen t.
Proof.
  induction t as [|c t IH]; [reflexivity|]. rewrite lenN_cons. cbn.
  pose proof (clen_range c). lia.
Qed.

Lemma enc1_bytes c : Forall (fun b => b < 256) (enc1 c).
Proof.
  pose proof (code_lt c). unfold enc1.
  destruct (N.ltb_spec (code c) 0x80); [repeat constructor; lia|].
  destruct (N.ltb_spec (code c) 0x800); [repeat constructor; lia|].
  destruct (N.ltb_spec (code c) 0x10000); repeat constructor; lia.
Qed.

Lemma enc_bytes t : Forall (fun b => b < 256) (enc t).
Proof.
  induction t as [|c t IH]; [constructor|]. rewrite enc_cons. apply Forall_app.
  split; [apply enc1_bytes|exact IH].
Qed.

(** Shape: a leading byte, then continuation bytes. *)
Lemma enc1_shape c : exists b r, enc1 c = b :: r /\ is_utf8_char_boundary b = true /\
  Forall (fun b => is_utf8_char_boundary b = false) r.
Proof.
  pose proof (code_lt c). unfold enc1, is_utf8_char_boundary.
  destruct (N.ltb_spec (code c) 0x80);
    [|destruct (N.ltb_spec (code c) 0x800); [|destruct (N.ltb_spec (code c) 0x10000)]];
    eexists; eexists; (split; [reflexivity|]); split; repeat constructor; lia.
Qed.

(** ** Encoder *)
Lemma encode_utf8_4 c : encode_utf8 c 4 = Ret (enc1 c).
Proof.
  pose proof (code_lt c) as H. unfold encode_utf8.
  destruct (N.ltb_spec 4 (len_utf8 c)) as [L|_].
  { rewrite len_utf8_clen in L. pose proof (clen_range c). lia. }
  unfold len_utf8, enc1.
  destruct (N.ltb_spec (code c) 0x80).
  { unfold as_u8. rewrite N.mod_small by lia. reflexivity. }
  unfold as_u8. rewrite ?land_63, ?land_31, ?land_15, ?land_7, ?shiftr_6, ?shiftr_12, ?shiftr_18.
  destruct (N.ltb_spec (code c) 0x800).
  { rewrite lor_C0, lor_80 by lia. list_lia. }
  destruct (N.ltb_spec (code c) 0x10000).
  { rewrite lor_E0, !lor_80 by lia. list_lia. }
  rewrite lor_F0, !lor_80 by lia. list_lia.
Qed.

(** ** Decoder, forwards *)
Lemma chars_next_enc1 c r : chars_next (enc1 c ++ r) = Ret (Some (c, r)).
Proof.
  pose proof (code_lt c) as H. unfold enc1.
  destruct (N.ltb_spec (code c) 0x80) as [L1|L1].
  { cbn [app chars_next]. rewrite (proj2 (N.ltb_lt _ _)) by lia.
    rewrite (from_u32_code c) by reflexivity. reflexivity. }
  destruct (N.ltb_spec (code c) 0x800) as [L2|L2].
  { cbn [app chars_next]. rewrite (proj2 (N.ltb_ge _ _)) by lia.
    rewrite (proj2 (N.ltb_lt _ 0xE0)) by lia.
    rewrite acc_cont, first_byte_2.
    rewrite (from_u32_code c) by lia. reflexivity. }
  destruct (N.ltb_spec (code c) 0x10000) as [L3|L3].
  { cbn [app chars_next]. rewrite (proj2 (N.ltb_ge _ 128)) by lia.
    rewrite (proj2 (N.ltb_ge _ 0xE0)) by lia.
    rewrite (proj2 (N.ltb_lt _ 0xF0)) by lia.
    rewrite acc_cont, first_byte_2, land_63.
    rewrite (lor_shiftl_add _ _ 12) by (change (2 ^ 12) with 4096; lia).
    change (2 ^ 12) with 4096.
    rewrite (from_u32_code c) by lia. reflexivity. }
  cbn [app chars_next]. rewrite (proj2 (N.ltb_ge _ 128)) by lia.
  rewrite (proj2 (N.ltb_ge _ 0xE0)) by lia.
  rewrite (proj2 (N.ltb_ge _ 0xF0)) by lia.
  rewrite !acc_cont, first_byte_2, land_63, land_7.
  rewrite (lor_shiftl_add _ _ 18) by (change (2 ^ 18) with 262144; lia).
  change (2 ^ 18) with 262144.
  rewrite (from_u32_code c) by lia. reflexivity.
Qed.

Lemma chars_next_enc c t : chars_next (enc (c :: t)) = Ret (Some (c, enc t)).
Proof. apply chars_next_enc1. Qed.

(** ** Decoder, backwards *)
Lemma chars_next_back_rev_enc1 c r : chars_next_back_rev (rev (enc1 c) ++ r) = Ret (Some (c, r)).
Proof.
  pose proof (code_lt c) as H. unfold enc1.
  destruct (N.ltb_spec (code c) 0x80) as [L1|L1].
  { cbn [rev app chars_next_back_rev]. rewrite (proj2 (N.ltb_lt _ _)) by lia.
    rewrite (from_u32_code c) by reflexivity. reflexivity. }
  unfold chars_next_back_rev, utf8_is_cont_byte.
  destruct (N.ltb_spec (code c) 0x800) as [L2|L2].
  { cbn [rev app]. rewrite (proj2 (N.ltb_ge _ 128)) by lia.
    replace (negb _) with true by lia.
    rewrite acc_cont, first_byte_2.
    rewrite (from_u32_code c) by lia. reflexivity. }
  destruct (N.ltb_spec (code c) 0x10000) as [L3|L3].
  { cbn [rev app]. rewrite (proj2 (N.ltb_ge _ 128)) by lia.
    replace (negb _) with false by lia.
    replace (negb _) with true by lia.
    rewrite !acc_cont, first_byte_3.
    rewrite (from_u32_code c) by lia. reflexivity. }
  cbn [rev app]. rewrite (proj2 (N.ltb_ge _ 128)) by lia.
  replace (negb _) with false by lia.
  replace (negb _) with false by lia.
  rewrite !acc_cont, first_byte_4.
  rewrite (from_u32_code c) by lia. reflexivity.
Qed.

Lemma chars_next_back_enc c t : chars_next_back (enc (t ++ [c])) = Ret (Some (c, enc t)).
Proof.
  unfold chars_next_back. rewrite enc_app, enc_single, rev_app_distr, chars_next_back_rev_enc1.
  cbn. rewrite rev_involutive. reflexivity.
Qed.

Lemma chars_next_back_nil : chars_next_back [] = Ret None.
Proof. reflexivity. Qed.

(** Induction/case analysis from the right. *)
Lemma snoc_cases {A} (l : list A) : l = [] \/ exists l' x, l = l' ++ [x].
Proof.
  destruct l as [|a l] using rev_ind; [left; reflexivity|right; eauto].
Qed.

(** ** Injectivity of the encoding *)
Lemma enc_inj a b : enc a = enc b -> a = b.
Proof.
  revert b. induction a as [|c a IH]; intros b H.
  - symmetry in H. apply (f_equal lenN) in H. rewrite enc_len in H. symmetry. apply blen_0.
    rewrite H. reflexivity.
  - destruct b as [|d b].
    + apply (f_equal lenN) in H. rewrite enc_len in H. apply blen_0 in H. discriminate.
    + pose proof (chars_next_enc c a) as P. rewrite H, chars_next_enc in P.
      injection P as <- P. f_equal. apply IH. symmetry. exact P.
Qed.

(** ** Boundaries *)

Lemma nth_app_l (l r : list N) i : (N.to_nat i < length l)%nat ->
  nth (N.to_nat i) (l ++ r) 0 = nth (N.to_nat i) l 0.
Proof. intros H. apply app_nth1. exact H. Qed.

Lemma str_boundary_0 bs : str_is_char_boundary bs 0 = true.
Proof. reflexivity. Qed.

Lemma str_boundary_len bs : str_is_char_boundary bs (lenN bs) = true.
Proof.
  unfold str_is_char_boundary. destruct (N.eqb_spec (lenN bs) 0); [reflexivity|].
  rewrite N.leb_refl, N.eqb_refl. reflexivity.
Qed.

(** Moving past one character. *)
Lemma str_boundary_cons c t i : clen c <= i ->
  str_is_char_boundary (enc (c :: t)) i = str_is_char_boundary (enc t) (i - clen c).
Proof.
  intros Hi. pose proof (clen_range c) as Hc. rewrite enc_cons.
  unfold str_is_char_boundary. rewrite lenN_app, enc1_len.
  destruct (N.eqb_spec i 0); [lia|].
  destruct (N.eqb_spec (i - clen c) 0) as [E|E].
  - (* exactly at the end of the first character *)
    destruct (N.leb_spec (clen c + lenN (enc t)) i) as [L|L].
    { apply N.eqb_eq. lia. }
    destruct t as [|d t]; [cbn in L; lia|].
    rewrite enc_cons. destruct (enc1_shape d) as (b & r & -> & Hb & _).
    pose proof (enc1_len c) as K. unfold lenN in K.
    rewrite app_nth2 by lia.
    replace (N.to_nat i - length (enc1 c))%nat with O; [exact Hb|]. lia.
  - replace (clen c + lenN (enc t) <=? i) with (lenN (enc t) <=? i - clen c) by lia.
    destruct (N.leb_spec (lenN (enc t)) (i - clen c)).
    { apply Bool.eq_iff_eq_true. rewrite !N.eqb_eq. lia. }
    pose proof (enc1_len c) as K. unfold lenN in K.
    rewrite app_nth2 by lia. f_equal. f_equal. lia.
Qed.

(** Inside one character. *)
Lemma str_boundary_inside c t i : 0 < i -> i < clen c ->
  str_is_char_boundary (enc (c :: t)) i = false.
Proof.
  intros H0 Hi. pose proof (enc1_len c) as K. rewrite enc_cons.
  unfold str_is_char_boundary. rewrite lenN_app, enc1_len.
  destruct (N.eqb_spec i 0); [lia|].
  destruct (N.leb_spec (clen c + lenN (enc t)) i); [lia|].
  unfold lenN in K. rewrite app_nth1 by lia.
  destruct (enc1_shape c) as (b & r & E & _ & Hr). rewrite E in *. cbn [length] in K.
  destruct (N.to_nat i) as [|k] eqn:Ek; [lia|]. cbn [nth].
  rewrite Forall_forall in Hr. apply Hr. apply nth_In. lia.
Qed.

Lemma split_at_Some t i pre post : split_at i t = Some (pre, post) <-> splits t i pre post.
Proof.
  unfold splits. revert i pre post. induction t as [|c t IH]; intros i pre post; cbn.
  - destruct (N.eqb_spec i 0) as [->|Hi].
    + split; [intros H; injection H as <- <-; auto|].
      intros [H1 H2]. symmetry in H1. apply app_eq_nil in H1 as [-> ->]. reflexivity.
    + split; [discriminate|]. intros [H1 H2]. symmetry in H1. apply app_eq_nil in H1 as [-> ->].
      cbn in H2. congruence.
  - destruct (N.eqb_spec i 0) as [->|Hi].
    + split; [intros H; injection H as <- <-; auto|].
      intros [H1 H2]. apply blen_0 in H2 as ->. cbn in H1. rewrite H1. reflexivity.
    + destruct (N.leb_spec (clen c) i) as [L|L].
      * split.
        -- destruct (split_at (i - clen c) t) as [[p q]|] eqn:E; [|discriminate].
           intros H. injection H as <- <-. apply IH in E as [-> E]. cbn. split; [reflexivity|lia].
        -- intros [H1 H2]. destruct pre as [|d pre]; [cbn in H2; lia|].
           cbn in H1. injection H1 as <- H1. cbn in H2.
           assert (E : split_at (i - clen c) t = Some (pre, post)) by (apply IH; split; [exact H1|lia]).
           rewrite E. reflexivity.
      * split; [discriminate|]. intros [H1 H2].
        destruct pre as [|d pre]; [cbn in H2; lia|].
        cbn in H1. injection H1 as <- H1. cbn in H2. lia.
Qed.

Lemma str_boundary_split t i :
  str_is_char_boundary (enc t) i = match split_at i t with Some _ => true | None => false end.
Proof.
  revert i. induction t as [|c t IH]; intros i; cbn [split_at].
  - unfold str_is_char_boundary. destruct (N.eqb_spec i 0) as [->|Hi]; [reflexivity|].
    cbn [enc flat_map]. rewrite lenN_nil. replace (0 <=? i) with true by lia. apply N.eqb_neq. exact Hi.
  - destruct (N.eqb_spec i 0) as [->|Hi]; [reflexivity|].
    destruct (N.leb_spec (clen c) i) as [L|L].
    + rewrite str_boundary_cons by exact L. rewrite IH.
      destruct (split_at (i - clen c) t) as [[p q]|]; reflexivity.
    + apply str_boundary_inside; lia.
Qed.

Lemma str_boundary_iff t i : str_is_char_boundary (enc t) i = true <-> boundary t i.
Proof.
  rewrite str_boundary_split. unfold boundary. split.
  - destruct (split_at i t) as [[p q]|] eqn:E; [|discriminate].
    intros _. exists p, q. apply split_at_Some. exact E.
  - intros (p & q & H). apply split_at_Some in H. rewrite H. reflexivity.
Qed.

Lemma split_at_app a b : split_at (blen a) (a ++ b) = Some (a, b).
Proof. apply split_at_Some. split; reflexivity. Qed.

Lemma str_boundary_app a b : str_is_char_boundary (enc (a ++ b)) (blen a) = true.
Proof. apply str_boundary_iff. exists a, b. split; reflexivity. Qed.

Lemma splits_le t i a b : splits t i a b -> i <= blen t.
Proof. intros [-> <-]. rewrite blen_app. lia. Qed.

Lemma splits_fun t i a b a' b' : splits t i a b -> splits t i a' b' -> a = a' /\ b = b'.
Proof.
  intros H1 H2. apply split_at_Some in H1, H2. rewrite H1 in H2. injection H2 as -> ->. auto.
Qed.

(** Two boundaries in order cut the text in three. *)
Lemma splits_three t i j a b a' b' : splits t i a b -> splits t j a' b' -> i <= j ->
  exists m, a' = a ++ m /\ b = m ++ b' /\ t = a ++ m ++ b' /\ blen m = j - i.
Proof.
  intros [-> Hi] [H Hj] L. revert a' H Hj.
  assert (G : forall a a' : text, a ++ b = a' ++ b' -> blen a <= blen a' ->
              exists m, a' = a ++ m /\ b = m ++ b').
  { clear. induction a as [|c a IH]; intros a' H L.
    - exists a'. auto.
    - destruct a' as [|d a']; [cbn in L; pose proof (clen_range c); lia|].
      cbn in H, L. injection H as <- H.
      destruct (IH a' H) as (m & -> & ->); [lia|]. exists m. auto. }
  intros a' H Hj. destruct (G a a' H) as (m & -> & ->); [lia|].
  exists m. rewrite blen_app in Hj. repeat split; auto. lia.
Qed.

(** ** Slicing an encoded text *)
Lemma takeN_enc a b : takeN (blen a) (enc (a ++ b)) = enc a.
Proof. rewrite enc_app, <- enc_len. apply takeN_app_exact. Qed.
Lemma dropN_enc a b : dropN (blen a) (enc (a ++ b)) = enc b.
Proof. rewrite enc_app, <- enc_len. apply dropN_app_exact. Qed.

Lemma str_get_enc a m b :
  str_get (enc (a ++ m ++ b)) (blen a) (blen a + blen m) = Some (enc m).
Proof.
  unfold str_get. rewrite str_boundary_app.
  rewrite app_assoc, <- blen_app, str_boundary_app, blen_app, <- app_assoc.
  replace (blen a <=? blen a + blen m) with true by lia. cbn [andb].
  rewrite dropN_enc. replace (blen a + blen m - blen a) with (blen m) by lia.
  rewrite takeN_enc. reflexivity.
Qed.

Lemma str_get_Some t i j r : str_get (enc t) i j = Some r <->
  exists a m b, t = a ++ m ++ b /\ blen a = i /\ blen a + blen m = j /\ r = enc m.
Proof.
  split.
  - unfold str_get. destruct (N.leb_spec i j) as [L|L]; [|discriminate]. cbn [andb].
    destruct (str_is_char_boundary (enc t) i) eqn:Bi; [|discriminate].
    destruct (str_is_char_boundary (enc t) j) eqn:Bj; [|discriminate].
    cbn [andb]. intros H. injection H as <-.
    apply str_boundary_iff in Bi as (a & b & Hi). apply str_boundary_iff in Bj as (a' & b' & Hj).
    destruct (splits_three _ _ _ _ _ _ _ Hi Hj L) as (m & -> & -> & -> & Hm).
    destruct Hi as [_ <-]. exists a, m, b'. repeat split; [lia|].
    rewrite dropN_enc, <- Hm, takeN_enc. reflexivity.
  - intros (a & m & b & -> & <- & <- & ->). apply str_get_enc.
Qed.

(** ** Validation *)
Lemma from_utf8_fuel_enc t fuel : (length (enc t) <= fuel)%nat -> from_utf8_ok_fuel fuel (enc t) = true.
Proof.
  revert fuel. induction t as [|c t IH]; intros fuel Hf.
  - destruct fuel; reflexivity.
  - rewrite enc_cons in *. rewrite app_length in Hf.
    pose proof (code_lt c) as H. pose proof (code_not_surrogate c) as Hs.
    assert (G : forall k, from_utf8_ok_fuel (length (enc t) + k) (enc t) = true) by (intros; apply IH; lia).
    destruct fuel as [|fuel].
    { exfalso. pose proof (enc1_len c) as K. pose proof (clen_range c). unfold lenN in K. lia. }
    assert (F : (length (enc t) <= fuel)%nat).
    { pose proof (enc1_len c) as K. pose proof (clen_range c). unfold lenN in K. lia. }
    specialize (IH fuel F). clear G Hf F. unfold enc1.
    destruct (N.ltb_spec (code c) 0x80) as [L1|L1].
    { cbn [app from_utf8_ok_fuel]. unfold utf8_char_width. rewrite (proj2 (N.ltb_lt _ _)) by lia. exact IH. }
    destruct (N.ltb_spec (code c) 0x800) as [L2|L2].
    { cbn [app from_utf8_ok_fuel]. unfold utf8_char_width, is_cont, in_range.
      rewrite (proj2 (N.ltb_ge _ _)) by lia. replace (_ && (_ <=? 0xDF)) with true by lia.
      rewrite IH. lia. }
    destruct (N.ltb_spec (code c) 0x10000) as [L3|L3].
    { cbn [app from_utf8_ok_fuel]. unfold utf8_char_width, second_of_3, is_cont, in_range.
      rewrite (proj2 (N.ltb_ge _ _)) by lia. replace (_ && (_ <=? 0xDF)) with false by lia.
      replace (_ && (_ <=? 0xEF)) with true by lia.
      rewrite IH. lia. }
    cbn [app from_utf8_ok_fuel]. unfold utf8_char_width, second_of_4, is_cont, in_range.
    rewrite (proj2 (N.ltb_ge _ _)) by lia. replace (_ && (_ <=? 0xDF)) with false by lia.
    replace (_ && (_ <=? 0xEF)) with false by lia.
    replace (_ && (_ <=? 0xF4)) with true by lia.
    rewrite IH. lia.
Qed.

Lemma from_utf8_ok_enc t : from_utf8_ok (enc t) = true.
Proof. apply from_utf8_fuel_enc. apply le_n. Qed.

Lemma enc1_of n b : is_scalar n = true ->
  b = (if n <? 0x80 then [n]
       else if n <? 0x800 then [192 + n / 64; 128 + n mod 64]
       else if n <? 0x10000 then [224 + n / 4096; 128 + (n / 64) mod 64; 128 + n mod 64]
       else [240 + n / 262144; 128 + (n / 4096) mod 64; 128 + (n / 64) mod 64; 128 + n mod 64]) ->
  exists c, enc1 c = b.
Proof.
  intros H ->. destruct (scalar_char n H) as (c & _ & <-). exists c. reflexivity.
Qed.

Lemma from_utf8_fuel_sound fuel bs : from_utf8_ok_fuel fuel bs = true -> exists t, bs = enc t.
Proof.
  revert bs. induction fuel as [|fuel IH]; intros bs H.
  - destruct bs; [exists []; reflexivity|discriminate].
  - destruct bs as [|b r]; [exists []; reflexivity|].
    cbn [from_utf8_ok_fuel] in H. unfold utf8_char_width in H.
    destruct (N.ltb_spec b 0x80) as [L1|L1].
    { apply IH in H as (t & ->). destruct (enc1_of b [b]) as (c & Hc).
      - unfold is_scalar. lia.
      - rewrite (proj2 (N.ltb_lt _ _)) by lia. reflexivity.
      - exists (c :: t). rewrite enc_cons, Hc. reflexivity. }
    destruct (in_range 0xC2 0xDF b) eqn:R2.
    { destruct r as [|y r]; [discriminate|]. apply andb_true_iff in H as [Hy H].
      apply IH in H as (t & ->). unfold is_cont, in_range in *.
      destruct (enc1_of ((b - 192) * 64 + (y - 128)) [b; y]) as (c & Hc).
      - unfold is_scalar. lia.
      - rewrite (proj2 (N.ltb_ge _ _)) by lia. rewrite (proj2 (N.ltb_lt _ _)) by lia.
        list_lia.
      - exists (c :: t). rewrite enc_cons, Hc. reflexivity. }
    destruct (in_range 0xE0 0xEF b) eqn:R3.
    { destruct r as [|y [|z r]]; try discriminate. apply andb_true_iff in H as [Hy H].
      apply andb_true_iff in Hy as [Hy Hz].
      apply IH in H as (t & ->). unfold second_of_3, is_cont, in_range in *.
      destruct (enc1_of ((b - 224) * 4096 + (y - 128) * 64 + (z - 128)) [b; y; z]) as (c & Hc).
      - unfold is_scalar. lia.
      - rewrite (proj2 (N.ltb_ge _ 0x80)) by lia. rewrite (proj2 (N.ltb_ge _ 0x800)) by lia.
        rewrite (proj2 (N.ltb_lt _ _)) by lia.
        list_lia.
      - exists (c :: t). rewrite enc_cons, Hc. reflexivity. }
    destruct (in_range 0xF0 0xF4 b) eqn:R4; [|discriminate].
    destruct r as [|y [|z [|w r]]]; try discriminate. apply andb_true_iff in H as [Hy H].
    apply andb_true_iff in Hy as [Hy Hw]. apply andb_true_iff in Hy as [Hy Hz].
    apply IH in H as (t & ->). unfold second_of_4, is_cont, in_range in *.
    destruct (enc1_of ((b - 240) * 262144 + (y - 128) * 4096 + (z - 128) * 64 + (w - 128)) [b; y; z; w])
      as (c & Hc).
    + unfold is_scalar. lia.
    + rewrite (proj2 (N.ltb_ge _ 0x80)) by lia. rewrite (proj2 (N.ltb_ge _ 0x800)) by lia.
      rewrite (proj2 (N.ltb_ge _ 0x10000)) by lia.
      list_lia.
    + exists (c :: t). rewrite enc_cons, Hc. reflexivity.
Qed.

(** The validator accepts exactly the encodings of texts: every Rust [str] is
    [enc t] for one [t]. *)
Lemma from_utf8_ok_iff bs : from_utf8_ok bs = true <-> exists t, bs = enc t.
Proof.
  split; [apply from_utf8_fuel_sound|]. intros (t & ->). apply from_utf8_ok_enc.
Qed.

(** ** Whitespace *)
Lemma is_whitespace_spec c : is_whitespace c = white_space c.
Proof.
  pose proof (code_lt c) as H. unfold is_whitespace, white_space.
  rewrite shiftr_8. generalize dependent (code c). intros n H.
  destruct ((n =? 0x20) || ((0x09 <=? n) && (n <=? 0x0d))) eqn:E1; [lia|].
  destruct (N.leb_spec n 0x7f) as [L|L]; [lia|].
  assert (C : n / 256 = 0 \/ n / 256 = 22 \/ n / 256 = 32 \/ n / 256 = 48 \/
              (n / 256 <> 0 /\ n / 256 <> 22 /\ n / 256 <> 32 /\ n / 256 <> 48)) by lia.
  destruct C as [C|[C|[C|[C|C]]]]; [rewrite C; cbv beta iota; lia..|].
  assert (F : forall (h : N) (a0 a16 a20 a30 : bool), h <> 0 -> h <> 22 -> h <> 32 -> h <> 48 ->
    match h with 0 => a0 | 0x16 => a16 | 0x20 => a20 | 0x30 => a30 | _ => false end = false).
  { clear. intros h a0 a16 a20 a30 H0 H1 H2 H3. destruct h as [|p]; [congruence|].
    repeat (destruct p as [p|p|]; try reflexivity; try congruence). }
  rewrite F by tauto. lia.
Qed.

(** ** Decoding a whole text *)
Lemma chars_iter_enc c t : chars_iter (enc (c :: t)) = (Ret (Some c), enc t).
Proof. unfold chars_iter. rewrite chars_next_enc. reflexivity. Qed.

Lemma chars_iter_nil : chars_iter (enc []) = (Ret None, enc []).
Proof. reflexivity. Qed.

Lemma chars_last_enc t : chars_last (enc t) = Ret (last (map Some t) None).
Proof.
  unfold chars_last. destruct (snoc_cases t) as [->|(t' & c & ->)]; [reflexivity|].
  rewrite chars_next_back_enc. cbn [obind]. rewrite map_app. cbn [map]. rewrite last_last. reflexivity.
Qed.
