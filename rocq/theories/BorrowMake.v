(** The borrows made by constructors, [Drain] and [CacheString] (ModelBorrowMake.v) are accepted. *)
From Coq Require Import ZArith ZifyBool ZifyN ZifyNat Arith Lia.
From Verif Require Import Base Char Spec RustStd ModelError Model RustFmt ModelImpl ModelDrain ModelOps
  TextOps ListFacts Utf8Facts CoreFacts MethodFacts OpsFacts
  Borrows ModelBorrows BorrowFacts BorrowRuns ModelBorrowOps BorrowOps ModelBorrowMake.

Ltac cells :=
  intros; unfold over in *;
  repeat match goal with |- context [within ?a ?n ?l] =>
    let W := fresh "W" in destruct (within a n l) eqn:W;
    [apply within_iff in W | assert (~ (a <= l < a + n)) by (rewrite <- within_iff, W; discriminate); clear W]
  end; try (exfalso; lia).

Section Make.
Variable c : cfg.
Hypothesis Hc : valid_cfg c.

(** ** Loops *)
Lemma loop_track S A R F P (Q : A -> Prop) (next : iter S A) (body : A -> ST mem (flow R)) body' :
  (forall it a it', next it = (Ret (Some a), it') -> Q a) ->
  (forall a s x, Q a -> rep c s x -> track c F P (body a) (body' a) s) ->
  (forall a s x r s', Q a -> rep c s x -> body' a s = (Ret r, s') -> exists x', rep c s' x') ->
  forall fuel it s x o it' s', rep c s x -> for_loop fuel next body' it s = (o, it', s') -> settled o ->
  forall b, fam (cap c) F b -> prot b = P ->
  exists b', for_loop fuel next body it (s, b) = (o, it', (s', b')) /\ fam (cap c) F b' /\ prot b' = P.
Proof.
  intros HQ HT HK fuel. induction fuel as [|fuel IH]; intros it s x o it' s' X E HS b Hb HP; cbn [for_loop] in *.
  { injection E as <- <- <-. destruct HS. }
  destruct (next it) as [[[a|]| | |] it1] eqn:En.
  2-5: injection E as <- <- <-; exists b; split; [reflexivity|]; split; assumption.
  destruct (body' a s) as [ob s1] eqn:Eb.
  assert (HSb : settled ob) by (destruct ob; [exact I|exact I|injection E as <- <- <-; exact HS..]).
  destruct (HT a s x (HQ _ _ _ En) X ob s1 Eb HSb b Hb HP) as (b1 & E1 & F1 & P1). rewrite E1.
  destruct ob as [[| |r]| | |].
  - destruct (HK a s x Continue s1 (HQ _ _ _ En) X Eb) as (x1 & X1).
    exact (IH it1 s1 x1 o it' s' X1 E HS b1 F1 P1).
  - injection E as <- <- <-. exists b1. split; [reflexivity|]. split; assumption.
  - injection E as <- <- <-. exists b1. split; [reflexivity|]. split; assumption.
  - injection E as <- <- <-. exists b1. split; [reflexivity|]. split; assumption.
  - destruct HSb.
  - destruct HSb.
Qed.

Lemma move_track Bl own P s : track c (owner Bl own) P (b_move c own) (sread Ret) s.
Proof.
  unfold b_move. eapply track_extra; [apply quiet_access; [lia|]; intros l Hl; apply reads_here; reflexivity|].
  apply track_val.
Qed.

Definition loop_st {S A R} (l : astring -> outcome (option R) * S * astring) (ret : astring -> A)
    (early : R -> A) : ST astring A := fun s =>
  match l s with
  | (Ret None, _, s') => (Ret (ret s'), s')
  | (Ret (Some r), _, s') => (Ret (early r), s')
  | (Panic, _, s') => (Panic, s')
  | (UB, _, s') => (UB, s')
  | (Diverge, _, s') => (Diverge, s')
  end.

Lemma from_loop_st S A R (l : astring -> outcome (option R) * S * astring) (ret : astring -> A) early s :
  fst (loop_st l ret early s) = fst (from_loop (l s) ret early).
Proof. unfold loop_st, from_loop. destruct (l s) as [[[[r|]| | |] it] s']; reflexivity. Qed.

Lemma from_loop_track S A R X Bl own P (Q : X -> Prop) fuel (next : iter S X)
    (body : X -> ST mem (flow R)) body' (ret : astring -> A) early it s x :
  (forall it a it', next it = (Ret (Some a), it') -> Q a) ->
  (forall a s x, Q a -> rep c s x -> track c (owner Bl own) P (body a) (body' a) s) ->
  (forall a s x r s', Q a -> rep c s x -> body' a s = (Ret r, s') -> exists x', rep c s' x') ->
  rep c s x ->
  track c (owner Bl own) P (fun m => b_from_loop c own (for_loop fuel next body it m) ret early)
    (loop_st (for_loop fuel next body' it) ret early) s.
Proof.
  intros HQ HT HK Hx o s' E HS b Hb HP. unfold loop_st in E.
  destruct (for_loop fuel next body' it s) as [[ol it'] s1] eqn:El.
  assert (HSl : settled ol) by (destruct ol as [[r|]| | |]; [exact I|exact I|exact I|injection E as <- <-; exact HS..]).
  destruct (loop_track _ _ _ (owner Bl own) P Q next body body' HQ HT HK fuel it s x ol it' s1 Hx El HSl b Hb HP)
    as (b1 & E1 & F1 & P1). rewrite E1. unfold b_from_loop.
  destruct ol as [[r|]| | |]; injection E as <- <-; try (exists b1; split; [reflexivity|split; assumption]).
  destruct (move_track Bl own P s1 (Ret s1) s1 eq_refl I b1 F1 P1) as (b2 & E2 & F2 & P2).
  exists b2. unfold sbind. rewrite E2. split; [reflexivity|]. split; assumption.
Qed.

(** ** A new variable *)
Definition none (l : N) : stack := [].

Lemma in_new_ok A (f : N -> ST mem A) f' b o :
  (forall own P, track c (owner none own) P (f own) f' (new c)) ->
  Forall (fun u => u < fresh b) (prot b) -> fst (f' (new c)) = o -> settled o ->
  exists b', in_new c f b = (o, b') /\ stacks b' = stacks b /\ prot b' = prot b /\ fresh b < fresh b'.
Proof.
  intros HT HP E HS. destruct (f' (new c)) as [o' s'] eqn:E'. cbn [fst] in E. subst o'.
  destruct (HT (fresh b) (prot b) o s' E' HS (mkborrows (fun l => if l <=? cap c then [(Unique, fresh b)] else [])
      (fresh b + 1) (prot b)))
    as (b1 & E1 & F1 & P1).
  - split; cbn [prot fresh stacks].
    + eapply Forall_impl; [|exact HP]. cbn. intros; lia.
    + intros l Hl. replace (l <=? cap c) with true by (symmetry; apply N.leb_le; exact Hl).
      cbn [owner none shape snd]. exists [], []. split; [reflexivity|]. split; [constructor|].
      split; [intros []|]. split; [lia|exact I].
  - reflexivity.
  - unfold in_new. rewrite E1. eexists. split; [reflexivity|]. split; [reflexivity|]. split; [exact P1|].
    cbn [fresh]. destruct F1 as [_ F1]. specialize (F1 0 ltac:(lia)). cbn [owner none shape snd] in F1.
    destruct F1 as (? & ? & _ & _ & _ & Hf & _). exact Hf.
Qed.

Lemma try_push_keeps ch s x r s' : rep c s x -> try_push c ch s = (Ret r, s') -> exists x', rep c s' x'.
Proof.
  intros X E. destruct (try_push_runs c Hc ch s x X) as (s1 & E1 & X1 & _).
  rewrite E in E1. injection E1 as _ <-. eexists. exact X1.
Qed.
Lemma push_str_truncate_keeps w s x r s' : rep c s x -> push_str_truncate c (enc w) s = (r, s') -> exists x', rep c s' x'.
Proof.
  intros X E. destruct (push_str_truncate_runs c Hc w s x X) as (s1 & E1 & X1).
  rewrite E in E1. injection E1 as _ <-. eexists. exact X1.
Qed.

Definition same {A B} (f : A -> B) (o : outcome A) (m : ST borrows B) (b : borrows) : Prop :=
  exists b', m b = (omap f o, b') /\ stacks b' = stacks b /\ prot b' = prot b /\ fresh b <= fresh b'.

Lemma made_same A (m : ST borrows A) f (o : outcome A) b :
  same (fun a => a) o m b -> same f o (b_made f m) b.
Proof.
  intros (b' & E & H). exists b'. split; [|exact H]. unfold b_made, sbind. rewrite E. destruct o; reflexivity.
Qed.
Lemma new_same A (f : N -> ST mem A) f' o b :
  (forall own P, track c (owner none own) P (f own) f' (new c)) ->
  Forall (fun u => u < fresh b) (prot b) -> fst (f' (new c)) = o -> settled o ->
  same (fun a => a) o (in_new c f) b.
Proof.
  intros HT HP E HS. destruct (in_new_ok _ f f' b o HT HP E HS) as (b' & E1 & H1 & H2 & H3).
  exists b'. split; [rewrite E1; destruct o; reflexivity|]. split; [exact H1|]. split; [exact H2|]. lia.
Qed.

Lemma try_from_str_same w b : Forall (fun u => u < fresh b) (prot b) -> settled (try_from_str c w) ->
  same (fun a => a) (try_from_str c w) (b_try_from_str c w) b.
Proof.
  intros HP HS. apply new_same with (f' := fun s =>
    (r <~ try_push_str c w ;;
     match r with Ok _ => s <~ sread Ret ;; sret (Ok s) | Err e => sret (Err e) end) s); [|exact HP| |exact HS].
  - intros own P. apply track_bind; [eapply try_push_str_track; apply new_rep|].
    intros [u|e] s1 _; [|apply track_ret]. apply track_bind; [apply move_track|]. intros a s2 _. apply track_ret.
  - unfold try_from_str, run_local, sbind. destruct (try_push_str c w (new c)) as [[[u|e]| | |] s1]; reflexivity.
Qed.
Lemma from_str_truncate_same w b : Forall (fun u => u < fresh b) (prot b) -> settled (from_str_truncate c w) ->
  same (fun a => a) (from_str_truncate c w) (b_from_str_truncate c w) b.
Proof.
  intros HP HS. apply new_same with (f' := fun s => (_ <~ push_str_truncate c w ;; sread Ret) s); [|exact HP| |exact HS].
  - intros own P. apply track_bind; [eapply push_str_truncate_track; apply new_rep|].
    intros u s1 _. apply move_track.
  - unfold from_str_truncate, run_local, sbind. destruct (push_str_truncate c w (new c)) as [[u| | |] s1]; reflexivity.
Qed.

Lemma or_return_track E F Bl own P (conv : E -> F) m m' s :
  track c (owner Bl own) P m m' s -> track c (owner Bl own) P (b_or_return conv m) (push_or_return conv m') s.
Proof. intros H. apply track_bind; [exact H|]. intros r s1 _. apply track_ret. Qed.
Lemma or_break_track E R Bl own P (m : ST mem (result unit E)) m' s :
  track c (owner Bl own) P m m' s -> track c (owner Bl own) P (b_or_break (R := R) m) (push_or_break m') s.
Proof. intros H. apply track_bind; [exact H|]. intros r s1 _. apply track_ret. Qed.
Lemma bind_ret_keeps A B (m : ST astring A) (k : A -> B) s r s' :
  (sbind m (fun a => sret (k a))) s = (Ret r, s') -> exists a, m s = (Ret a, s').
Proof. unfold sbind, sret. destruct (m s) as [[a| | |] s1]; intros E; try discriminate. injection E as _ <-. exists a. reflexivity. Qed.

Definition is_enc (a : as_ref_item) : Prop := exists v w, a = item_of_pair (v, w).
Lemma next_enc IT (next : iter IT (text * text)) it a it' :
  map_iter item_of_pair next it = (Ret (Some a), it') -> is_enc a.
Proof.
  unfold map_iter. destruct (next it) as [[[[v w]|]| | |] it1]; intros E; try discriminate.
  injection E as <- _. exists v, w. reflexivity.
Qed.

Lemma try_from_iterator_same IT fuel (next : iter IT (text * text)) it b :
  Forall (fun u => u < fresh b) (prot b) ->
  let o := fst (try_from_iterator c fuel (map_iter item_of_pair next) it) in
  settled o -> same (fun a => a) o (b_try_from_iterator c fuel (map_iter item_of_pair next) it) b.
Proof.
  intros HP o HS. eapply new_same; [|exact HP| |exact HS].
  - intros own P. apply from_loop_track with (Q := is_enc)
      (body' := fun x => push_or_return (fun e => e) (try_push_str c (ref1 x))) (x := []); [apply next_enc|..|apply new_rep].
    + intros a s x _ X. apply or_return_track. eapply try_push_str_track; exact X.
    + intros a s x r s' (v & w & ->) X E. apply bind_ret_keeps in E. destruct E as (r' & E).
      eapply try_push_str_keeps; [exact Hc|exact X|exact E].
  - apply from_loop_st.
Qed.
Lemma from_iterator_truncate_same IT fuel (next : iter IT (text * text)) it b :
  Forall (fun u => u < fresh b) (prot b) ->
  let o := fst (from_iterator_truncate c fuel (map_iter item_of_pair next) it) in
  settled o -> same (fun a => a) o (b_from_iterator_truncate c fuel (map_iter item_of_pair next) it) b.
Proof.
  intros HP o HS. eapply new_same; [|exact HP| |exact HS].
  - intros own P. apply from_loop_track with (Q := is_enc)
      (body' := fun x => r <~ try_push_str c (ref1 x) ;;
                 match r with
                 | Ok _ => sret Continue
                 | Err _ => _ <~ push_str_truncate c (ref2 x) ;; sret Break
                 end) (x := []); [apply next_enc|..|apply new_rep].
    + intros a s x (v & w & ->) X. apply track_bind; [eapply try_push_str_track; exact X|].
      intros [u|e] s1 E1; [apply track_ret|]. destruct (try_push_str_keeps c Hc _ _ _ _ _ X E1) as (x1 & X1).
      apply track_bind; [eapply push_str_truncate_track; exact X1|]. intros u s2 _. apply track_ret.
    + intros a s x r s' (v & w & ->) X E. unfold sbind in E.
      destruct (try_push_str c (ref1 (item_of_pair (v, w))) s) as [[[u|e]| | |] s1] eqn:E1; try discriminate E;
        destruct (try_push_str_keeps c Hc _ _ _ _ _ X E1) as (x1 & X1).
      * injection E as _ <-. exists x1. exact X1.
      * destruct (push_str_truncate c (ref2 (item_of_pair (v, w))) s1) as [[u| | |] s2] eqn:E2; try discriminate E.
        injection E as _ <-. eapply push_str_truncate_keeps; [exact X1|exact E2].
  - apply from_loop_st.
Qed.
Lemma try_from_chars_same IT fuel (next : iter IT char) it b :
  Forall (fun u => u < fresh b) (prot b) ->
  let o := fst (try_from_chars c fuel next it) in
  settled o -> same (fun a => a) o (b_try_from_chars c fuel next it) b.
Proof.
  intros HP o HS. eapply new_same; [|exact HP| |exact HS].
  - intros own P. apply from_loop_track with (Q := fun _ => True)
      (body' := fun ch => push_or_return (fun e => e) (try_push c ch)) (x := []); [intros; exact I|..|apply new_rep].
    + intros a s x _ X. apply or_return_track. eapply try_push_track; exact X.
    + intros a s x r s' _ X E. apply bind_ret_keeps in E. destruct E as (r' & E). eapply try_push_keeps; [exact X|exact E].
  - apply from_loop_st.
Qed.
Lemma from_chars_truncate_same IT fuel (next : iter IT char) it b :
  Forall (fun u => u < fresh b) (prot b) ->
  let o := fst (from_chars_truncate c fuel next it) in
  settled o -> same (fun a => a) o (b_from_chars_truncate c fuel next it) b.
Proof.
  intros HP o HS. eapply new_same; [|exact HP| |exact HS].
  - intros own P. apply from_loop_track with (Q := fun _ => True)
      (body' := fun ch => push_or_break (try_push c ch)) (x := []); [intros; exact I|..|apply new_rep].
    + intros a s x _ X. apply or_break_track. eapply try_push_track; exact X.
    + intros a s x r s' _ X E. apply bind_ret_keeps in E. destruct E as (r' & E). eapply try_push_keeps; [exact X|exact E].
  - apply from_loop_st.
Qed.
Lemma try_from_utf16_same us b : Forall (fun u => u < fresh b) (prot b) -> settled (try_from_utf16 c us) ->
  same (fun a => a) (try_from_utf16 c us) (b_try_from_utf16 c us) b.
Proof.
  intros HP HS. eapply new_same; [|exact HP| |exact HS].
  - intros own P. apply from_loop_track with (Q := fun _ => True)
      (body' := fun ch => match ch with
                  | None => sret (Return (error_from_decode_utf16 tt))
                  | Some ch => push_or_return from_oob (try_push c ch)
                  end) (x := []); [intros; exact I|..|apply new_rep].
    + intros [a|] s x _ X; [|apply track_ret]. apply or_return_track. eapply try_push_track; exact X.
    + intros [a|] s x r s' _ X E; [|injection E as _ <-; exists x; exact X].
      apply bind_ret_keeps in E. destruct E as (r' & E). eapply try_push_keeps; [exact X|exact E].
  - apply from_loop_st.
Qed.
Lemma from_utf16_truncate_same us b : Forall (fun u => u < fresh b) (prot b) -> settled (from_utf16_truncate c us) ->
  same (fun a => a) (from_utf16_truncate c us) (b_from_utf16_truncate c us) b.
Proof.
  intros HP HS. eapply new_same; [|exact HP| |exact HS].
  - intros own P. apply from_loop_track with (Q := fun _ => True)
      (body' := fun ch => match ch with
                  | None => sret (Return (utf16_from_decode_utf16 tt))
                  | Some ch => push_or_break (try_push c ch)
                  end) (x := []); [intros; exact I|..|apply new_rep].
    + intros [a|] s x _ X; [|apply track_ret]. apply or_break_track. eapply try_push_track; exact X.
    + intros [a|] s x r s' _ X E; [|injection E as _ <-; exists x; exact X].
      apply bind_ret_keeps in E. destruct E as (r' & E). eapply try_push_keeps; [exact X|exact E].
  - apply from_loop_st.
Qed.
Lemma from_utf16_lossy_same us b : Forall (fun u => u < fresh b) (prot b) -> settled (from_utf16_lossy_truncate c us) ->
  same (fun a => a) (from_utf16_lossy_truncate c us) (b_from_utf16_lossy_truncate c us) b.
Proof.
  intros HP HS. eapply new_same; [|exact HP| |exact HS].
  - intros own P. apply from_loop_track with (Q := fun _ => True)
      (body' := fun ch => push_or_break (try_push c (match ch with Some ch => ch | None => replacement_char end)))
      (x := []); [intros; exact I|..|apply new_rep].
    + intros a s x _ X. apply or_break_track. eapply try_push_track; exact X.
    + intros a s x r s' _ X E. apply bind_ret_keeps in E. destruct E as (r' & E). eapply try_push_keeps; [exact X|exact E].
  - apply from_loop_st.
Qed.

Lemma settled_omap A B (f : A -> B) o : settled (omap f o) -> settled o.
Proof. destruct o; intros H; exact H. Qed.

Lemma build_same k b : Forall (fun u => u < fresh b) (prot b) -> settled (build c k) ->
  same (fun a => a) (build c k) (b_build c k) b.
Proof.
  intros HP HS.
  assert (L : forall A (f : A -> result astring Error) o m, build c k = omap f o -> b_build c k = b_made f m ->
    (settled o -> same (fun a => a) o m b) -> same (fun a => a) (build c k) (b_build c k) b).
  { intros A f o m E1 E2 H. rewrite E1, E2. rewrite E1 in HS. apply settled_omap in HS.
    destruct (made_same A m f o b (H HS)) as (b' & E & H'). exists b'. split; [|exact H'].
    rewrite E. destruct o; reflexivity. }
  destruct k.
  - exists b. split; [reflexivity|]. split; [reflexivity|]. split; [reflexivity|lia].
  - exists b. split; [reflexivity|]. split; [reflexivity|]. split; [reflexivity|lia].
  - eapply L; [reflexivity|reflexivity|]. apply try_from_str_same. exact HP.
  - eapply L; [reflexivity|reflexivity|]. apply try_from_str_same. exact HP.
  - eapply L; [reflexivity|reflexivity|]. apply from_str_truncate_same. exact HP.
  - eapply L; [reflexivity|reflexivity|]. apply from_str_truncate_same. exact HP.
  - eapply L; [reflexivity|reflexivity|]. apply try_from_iterator_same. exact HP.
  - eapply L; [reflexivity|reflexivity|]. apply from_iterator_truncate_same. exact HP.
  - eapply L; [reflexivity|reflexivity|]. apply try_from_chars_same. exact HP.
  - eapply L; [reflexivity|reflexivity|]. apply from_chars_truncate_same. exact HP.
  - eapply L; [reflexivity|reflexivity|].
    apply from_iterator_truncate_same. exact HP.
  - eapply L; [reflexivity|reflexivity|]. apply from_chars_truncate_same. exact HP.
  - apply try_from_utf16_same; [exact HP|exact HS].
  - eapply L; [reflexivity|reflexivity|]. apply from_utf16_truncate_same. exact HP.
  - eapply L; [reflexivity|reflexivity|]. apply from_utf16_lossy_same. exact HP.
Qed.

(** ** [Drain] *)
Section Owner.
Variable Bl : N -> stack.
Variable own : N.
Notation F := (owner Bl own).

Lemma shared_hands A (f : N -> ST mem A) s lo n g :
  (forall self F', readable c F' self -> hands c SharedRO F' (f self) s lo n g) ->
  hands c SharedRO F (call_self c SharedRO own f) s lo n g.
Proof.
  intros H. apply hands_calls with (q := SharedRO); [apply usable_owner; lia|]. intros r. apply H. apply readable_pushed.
Qed.

Lemma drain_next_track P s x : rep c s x ->
  track c F P (b_drain_next c own) (r <~ remove c 0 ;; sret (ok r)) s.
Proof.
  intros X. unfold b_drain_next. apply track_self. intros self.
  apply track_bind; [eapply remove_track; exact X|]. intros r s1 _. apply track_ret.
Qed.
Lemma drain_next_back_track P s x : rep c s x -> track c F P (b_drain_next_back c own) (pop c) s.
Proof. intros X. unfold b_drain_next_back. apply track_self. intros self. eapply pop_track; exact X. Qed.

Lemma drain_read_quiet A s x (k : ST mem A) P m' : rep c s x -> track c F P k m' s ->
  track c F P (p <~ b_drain_as_str c own ;; _ <~ b_read (fst p) (lenN (snd p)) ;; k) m' s.
Proof.
  intros X H. pose proof (rep_cap c s x X) as K.
  assert (Q : quiet c F (p <~ b_drain_as_str c own ;; b_read (fst p) (lenN (snd p))) s (Ret tt)).
  { eapply quiet_hands.
    - apply shared_hands. intros self F' R. apply hands_lend. exact (lend_as_str c F' s self x X R).
    - intros v. cbn [fst snd]. rewrite enc_len. apply quiet_use_read. apply usable_top; [lia|reflexivity]. }
  intros o s' E HS b Hb HP. destruct (track_extra c _ _ _ _ _ (fun _ => k) m' s tt Q H o s' E HS b Hb HP) as (b' & E' & H').
  exists b'. split; [|exact H']. rewrite <- E'. unfold sbind.
  destruct (b_drain_as_str c own (s, b)) as [[q| | |] m1]; reflexivity.
Qed.

(** ** [CacheString] *)
Lemma deref_hands s : hands c SharedRO F (b_cache_deref c own) s 0 (cap c + 1) (fun v => v).
Proof.
  unfold b_cache_deref. apply shared_hands. intros self F' R. apply hands_reborrow.
  apply readable_usable; [exact R|lia].
Qed.
Lemma deref_mut_hands s : hands c Unique F (b_cache_deref_mut c own) s 0 (cap c + 1) (fun v => v).
Proof.
  unfold b_cache_deref_mut. apply hands_self. intros self. apply hands_reborrow. apply usable_owner. lia.
Qed.

Lemma deref_mut_track A P (f : N -> ST mem A) m' s :
  (forall v, track c (owner F v) P (f v) m' s) ->
  track c F P (v <~ b_cache_deref_mut c own ;; f v) m' s.
Proof.
  intros H. eapply track_hands; [apply deref_mut_hands|]. intros v. cbv beta.
  intros o s' E HS b Hb HP.
  destruct (H v o s' E HS b) as (b' & E' & F' & P'); [|exact HP|].
  - eapply fam_ext; [|exact Hb]. intros l Hl. apply over_all. exact Hl.
  - exists b'. split; [exact E'|]. split; [|exact P']. eapply fam_ext; [|exact F'].
    intros l Hl. symmetry. apply over_all. exact Hl.
Qed.

Lemma cache_write_str_track P s x w : rep c s x -> track c F P (b_cache_write_str c own w) (write_str c w) s.
Proof. intros X. unfold b_cache_write_str. apply track_self. intros self. eapply write_str_track; exact X. Qed.
End Owner.

Lemma write_str_keeps w s x r s1 : rep c s x -> write_str c (enc w) s = (Ret r, s1) -> exists x', rep c s1 x'.
Proof.
  intros X E. unfold write_str in E. apply bind_ret_keeps in E. destruct E as (a & E).
  eapply try_push_str_keeps; [exact Hc|exact X|exact E].
Qed.
Lemma cache_write_fmt_track Bl own P p : forall s x, rep c s x ->
  track c (owner Bl own) P (run_fprog (b_cache_write_str c own) (formatting_prog p)) (write_fmt c (formatting_prog p)) s.
Proof.
  unfold write_fmt. induction p as [b| |w next IH]; intros s x X; cbn [formatting_prog run_fprog].
  - apply track_ret.
  - apply track_lift.
  - apply track_bind; [eapply cache_write_str_track; exact X|]. intros r s1 E1.
    destruct (write_str_keeps _ _ _ _ _ X E1) as (x' & X'). exact (IH (is_ok r) s1 x' X').
Qed.

(** Indexing through any reference that may read. *)
Lemma index_hands F t s x r a e : rep c s x -> readable c F t ->
  str_index_pos (usize_max c) (enc x) (to_usize_range r) = Ret (a, e) ->
  hands c SharedRO F (b_index c t r) s a (e - a) (fun v => (v, a, takeN (e - a) (dropN a (enc x)))).
Proof.
  intros X R E. pose proof (rep_cap c s x X) as K. pose proof (index_pos_le _ _ _ _ _ E) as L. rewrite enc_len in L.
  unfold b_index. apply hands_calls with (q := SharedRO); [apply readable_usable; [exact R|lia]|]. intros self.
  eapply hands_hands; [apply hands_lend; apply (lend_as_str c _ s self x X); apply readable_pushed|].
  intros v. cbn [fst snd].
  eapply hands_bind; [rewrite E; apply quiet_slift|]. cbv beta iota.
  apply (hands_map c _ _ _ _ _ _ (fun v => (v, a, takeN (e - a) (dropN a (enc x)))) a (e - a) (fun v => v)).
  rewrite enc_len. apply hands_calls with (q := SharedRO); [apply usable_top; [lia|reflexivity]|]. intros u.
  apply hands_reborrow. split; [lia|]. cbn [may_write]. intros _. cells. apply reads_here. reflexivity.
Qed.
Lemma index_panic F t s x r : rep c s x -> readable c F t ->
  str_index_pos (usize_max c) (enc x) (to_usize_range r) = Panic -> quiet c F (b_index c t r) s Panic.
Proof.
  intros X R E. unfold b_index. apply quiet_calls; [apply readable_usable; [exact R|lia]|]. intros self.
  eapply quiet_hands; [apply hands_lend; apply (lend_as_str c _ s self x X); apply readable_pushed|].
  intros v. cbn [fst snd]. rewrite E.
  apply (quiet_step c _ _ _ _ _ _ Panic (fun _ => Panic)); [apply quiet_slift|]. discriminate.
Qed.

Lemma cache_index_quiet Bl own s x r : rep c s x ->
  quiet c (owner Bl own)
    (p <~ call_self c SharedRO own (fun self => b_index c self r) ;;
     let '(v, a, bs) := p in
     _ <~ on_tags (access false v a (lenN bs)) ;; sret (RBytes bs)) s
    (omap RBytes (index c s r)).
Proof.
  intros X. pose proof (rep_cap c s x X) as K. unfold index. rewrite (as_str_rep c s x X). cbn [obind].
  pose proof (index_pos_calm (usize_max c) (enc x) (to_usize_range r)) as C. unfold str_index_range.
  destruct (str_index_pos (usize_max c) (enc x) (to_usize_range r)) as [[a e]| | |] eqn:E; try contradiction;
    cbn [obind omap].
  - pose proof (index_pos_le _ _ _ _ _ E) as L. rewrite enc_len in L.
    eapply quiet_hands.
    + apply shared_hands. intros self F' R. apply index_hands; [exact X|exact R|exact E].
    + intros v. cbv beta iota. rewrite lenN_takeN, lenN_dropN, enc_len.
      eapply quiet_bind; [|apply quiet_ret]. apply quiet_access; [lia|]. cells. apply reads_here. reflexivity.
  - apply (quiet_step c _ _ _ _ _ _ Panic (fun _ => Panic)); [|discriminate].
    apply quiet_shared. intros self F' R. apply (index_panic _ _ s x); assumption.
Qed.

Lemma cache_overwrite_track Bl own P s x r w : rep c s x ->
  track c (owner Bl own) P
    (p <~ call_self c Unique own (fun self => b_index_mut c self r) ;;
     let '(v, a, bs) := p in if lenN w =? lenN bs then b_write v a w else sret tt)
    (overwrite_st c r w) s.
Proof.
  intros X. pose proof (rep_cap c s x X) as K.
  pose proof (index_pos_calm (usize_max c) (enc x) (to_usize_range r)) as C.
  destruct (str_index_pos (usize_max c) (enc x) (to_usize_range r)) as [[a e]| | |] eqn:E; try contradiction.
  - pose proof (index_pos_le _ _ _ _ _ E) as L. rewrite enc_len in L.
    eapply track_eta.
    { unfold overwrite_st. eapply sbind_ret. unfold index_mut, as_mut_str.
      erewrite sbind_ret by exact (as_mut_rep c s x X). rewrite E. reflexivity. }
    cbn [fst snd].
    eapply track_hands; [apply hands_self; intros self; apply (index_mut_hands c _ _ s x r a e X E)|].
    intros v. cbv beta iota.
    destruct (N.eqb_spec (lenN w) (lenN (takeN (e - a) (dropN a (enc x))))) as [Q|Q]; [|apply track_ret].
    rewrite lenN_takeN, lenN_dropN, enc_len in Q. apply write_on; lia.
  - intros o s' Eo HS b Hb HP.
    destruct (quiet_self c Bl own _ (fun self => b_index_mut c self r) s Panic
      ltac:(intros self; apply (index_mut_quiet c _ _ s x r X E)) b Hb) as (b1 & E1 & F1 & P1 & _).
    exists b1. unfold sbind. rewrite E1.
    unfold overwrite_st, index_mut, as_mut_str in Eo.
    unfold sbind in Eo. rewrite (as_mut_rep c s x X), E in Eo. injection Eo as <- <-.
    split; [reflexivity|]. split; [exact F1|congruence].
Qed.

Lemma cache_op_track Bl own P s x o : rep c s x ->
  track c (owner Bl own) P (b_cache_op c own o) (run_op c o) s.
Proof.
  intros X.
  assert (D : track c (owner Bl own) P (v <~ b_cache_deref_mut c own ;; b_run_op c v o) (run_op c o) s).
  { apply deref_mut_track. intros v. eapply run_op_track; [exact Hc|exact X]. }
  assert (M : track c (owner Bl own) P (call_self c Unique own (fun self => b_run_op c self o)) (run_op c o) s).
  { apply track_self. intros self. eapply run_op_track; [exact Hc|exact X]. }
  assert (R : forall q, (forall F' t, readable c F' t -> quiet c F' (b_run_op c t o) s q) -> run_op c o s = (q, s) ->
    track c (owner Bl own) P (v <~ b_cache_deref c own ;; b_run_op c v o) (run_op c o) s).
  { intros q H E. apply (track_eta c _ _ _ _ _ (sread (fun _ => q)) s); [exact E|].
    apply (track_quiet c _ _ _ _ (fun _ => q)). eapply quiet_hands; [apply deref_hands|].
    intros v. apply H. apply readable_pushed. }
  destruct o; cbn [b_cache_op]; try exact D; try exact M.
  - exact (run_op_track c Hc Bl own P s x (OAdd w) X).
  - exact (track_out c _ _ _ _ _ _ _ _ (cache_write_str_track Bl own P s x _ X)).
  - apply (track_out c). apply track_self. intros self. unfold write_char.
    apply track_bind; [apply track_lift|]. intros b s1 E1. injection E1 as E1 <-.
    eapply cache_write_str_track; exact X.
  - apply (track_out c). apply track_self. intros self. eapply cache_write_fmt_track; exact X.
  - exact (track_out c _ _ _ _ _ _ _ _ (cache_overwrite_track Bl own P s x _ _ X)).
  - apply (R (Ret (RNum (len s)))); [|reflexivity]. intros F' t Rt. cbn [b_run_op]. unfold b_out.
    eapply quiet_bind; [apply quiet_len; exact Rt|apply quiet_ret].
  - apply (R (Ret (RBool (lenN (enc x) =? 0)))).
    + intros F' t Rt. cbn [b_run_op]. unfold b_out. eapply quiet_bind; [apply (quiet_str c _ _ _ _ X Rt)|apply quiet_ret].
    + cbn [run_op]. unfold is_empty. rewrite (as_str_rep c s x X : as_ref_str c s = _). reflexivity.
  - apply track_ret.
  - apply (R (Ret (RBytes (enc x)))).
    + intros F' t Rt. cbn [b_run_op]. unfold b_out. eapply quiet_bind; [apply (quiet_str c _ _ _ _ X Rt)|apply quiet_ret].
    + cbn [run_op]. rewrite (as_str_rep c s x X). reflexivity.
  - apply (track_eta c _ _ _ _ _ (sread (fun _ => Ret (RBool (str_eq (enc x) (enc w))))) s).
    + cbn [run_op]. unfold eq_str. rewrite (as_str_rep c s x X). reflexivity.
    + apply (track_quiet c _ _ _ _ (fun _ => Ret (RBool (str_eq (enc x) (enc w))))).
      apply quiet_shared. intros self F' Rt. cbn [b_run_op]. unfold b_out.
      eapply quiet_bind; [|apply quiet_ret].
      apply quiet_calls; [apply readable_usable; [exact Rt|lia]|]. intros r. apply (quiet_str c _ _ _ _ X). apply readable_pushed.
  - set (shown := match write_one_str buffer (enc x) [] with
         | (Ret _, w) => Ret (RBytes w) | (Panic, _) => Panic | (UB, _) => UB | (Diverge, _) => Diverge end).
    apply (track_eta c _ _ _ _ _ (sread (fun _ => shown)) s).
    + cbn [run_op]. unfold display, sbind, slift. rewrite (as_str_rep c s x X). unfold sread, shown.
      destruct (write_one_str buffer (enc x) []) as [[u| | |] w]; reflexivity.
    + apply (track_quiet c _ _ _ _ (fun _ => shown)). apply quiet_shared. intros self F' Rt. cbn [b_run_op].
      apply quiet_calls; [apply readable_usable; [exact Rt|lia]|]. intros r.
      eapply quiet_bind; [apply (quiet_str c _ _ _ _ X); apply readable_pushed|]. apply quiet_slift.
  - eapply track_eta; [|apply (track_quiet c _ _ _ _ (fun s => omap RBytes (index c s r))); eapply cache_index_quiet; exact X].
    reflexivity.
Qed.
End Make.
