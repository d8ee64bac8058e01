(** Which checks each call logs, towards ClaimsLogWhy.v. *)
From Coq Require Import ZArith ZifyBool ZifyN ZifyNat Arith.
From Verif Require Import Base Char Spec RustStd ModelError Model ModelImpl ModelDrain IterSpec ListFacts Utf8Facts CoreFacts
  MethodFacts IterFacts Utf16Facts ImplFacts DrainFacts Obs ObsLogs ObsLogLines ObsLogWhy OpsFacts ClaimsOps ClaimsArgs ClaimsLogs
  LogLines.

Lemma explained_front t x m1 m2 : Forall passed m1 -> explained t x m2 -> explained t x (m1 ++ m2).
Proof.
  intros H. destruct x as [x|]; cbn [explained].
  - intros (b & e & a & -> & R & B & A). exists (m1 ++ b), e, a. rewrite <- app_assoc. repeat split; auto. apply Forall_app; auto.
  - intros K. apply Forall_app. auto.
Qed.
Lemma explained_back t x m1 m2 : explained t x m1 -> Forall passed m2 -> explained t x (m1 ++ m2).
Proof.
  intros H K. destruct x as [x|]; cbn [explained] in *.
  - destruct H as (b & e & a & -> & R & B & A). exists b, e, (a ++ m2). rewrite <- app_assoc. cbn [app].
    repeat split; auto. apply Forall_app; auto.
  - apply Forall_app. auto.
Qed.
Lemma explained_other t u m : explained t (Some EOutOfBounds) m -> explained u (Some EOutOfBounds) m.
Proof.
  intros (b & e & a & -> & R & B & A). inversion R; subst. exists b, (EvInside n limit), a.
  repeat split; auto. constructor. assumption.
Qed.

(** No error; the error of a fallible step. *)
Definition fine {A} (o : outcome A) : option Error := None.
Definition err {A E} (k : E -> Error) (o : outcome (result A E)) : option Error :=
  match o with Ret (Err e) => Some (k e) | _ => None end.
Definition oob {E} (_ : E) : Error := EOutOfBounds.
Definition utf8 {E} (_ : E) : Error := EUtf8.
Definition itself (e : Error) : Error := e.

(** The messages that [g] adds to the log explain its outcome. *)
Definition J {X A} (log : X -> list event) (t : text) (f : outcome A -> option Error) (g : ST X A) (p : X) : Prop :=
  exists m, log (snd (g p)) = log p ++ m /\ explained t (f (fst (g p))) m.

Section Rules.
Context {X : Type}.
Variable log : X -> list event.
Variable t : text.
Notation J f g p := (J log t f g p).

Lemma J_fine {A} (f : outcome A -> option Error) g p : f (fst (g p)) = None -> J fine g p -> J f g p.
Proof. intros E (m & H1 & H2). exists m. rewrite E. auto. Qed.
Lemma J_fine_of {A} (f : outcome A -> option Error) g p : f (fst (g p)) = None -> J f g p -> J fine g p.
Proof. intros E (m & H1 & H2). exists m. rewrite E in H2. auto. Qed.
Lemma J_nop {A} (f : outcome A -> option Error) (g : ST X A) p : snd (g p) = p -> f (fst (g p)) = None -> J f g p.
Proof. intros E F. exists []. rewrite E, F, app_nil_r. split; [reflexivity|constructor]. Qed.

Lemma J_bind {A B} (f : outcome B -> option Error) (g : ST X A) (k : A -> ST X B) p : f Panic = None -> f UB = None -> f Diverge = None ->
  J fine g p -> (forall a p1, g p = (Ret a, p1) -> J f (k a) p1) -> J f (sbind g k) p.
Proof.
  intros F1 F2 F3 (m & H1 & H2) K. unfold sbind, LogWhy.J. destruct (g p) as [[a| | |] p1]; cbn [fst snd] in *.
  - destruct (K a p1 eq_refl) as (m' & H3 & H4). exists (m ++ m'). rewrite H3, H1, app_assoc. split; [reflexivity|].
    apply explained_front; [exact H2|exact H4].
  - exists m. rewrite F1. auto.
  - exists m. rewrite F2. auto.
  - exists m. rewrite F3. auto.
Qed.
Lemma J_fine_bind {A B} (g : ST X A) (k : A -> ST X B) p :
  J fine g p -> (forall a p1, g p = (Ret a, p1) -> J fine (k a) p1) -> J fine (sbind g k) p.
Proof. apply J_bind; reflexivity. Qed.
Lemma J_err_bind {A B E} (h : E -> Error) (g : ST X A) (k : A -> ST X (result B E)) p :
  J fine g p -> (forall a p1, g p = (Ret a, p1) -> J (err h) (k a) p1) -> J (err h) (sbind g k) p.
Proof. apply J_bind; reflexivity. Qed.

(** Changing the result. *)
Lemma J_map {A B} (f : outcome A -> option Error) (f' : outcome B -> option Error) (h : A -> B) (g : ST X A) p :
  (f (fst (g p)) = f' (omap h (fst (g p)))) -> J f g p -> J f' (sbind g (fun a => sret (h a))) p.
Proof.
  intros E (m & H1 & H2). exists m. rewrite E in H2. unfold sbind. destruct (g p) as [[a| | |] p1]; cbn [fst snd omap sret] in *; auto.
Qed.

Lemma J_stry {A B E F} (h : E -> Error) (h' : F -> Error) (conv : E -> F) (g : ST X (result A E)) (k : A -> ST X (result B F)) p :
  (forall e, h e = h' (conv e)) -> J (err h) g p -> (forall a p1, g p = (Ret (Ok a), p1) -> J (err h') (k a) p1) ->
  J (err h') (stry conv g k) p.
Proof.
  intros Eh (m & H1 & H2) K. unfold stry, sbind, LogWhy.J. destruct (g p) as [[[a|e]| | |] p1]; cbn [fst snd err sret] in *.
  - destruct (K a p1 eq_refl) as (m' & H3 & H4). exists (m ++ m'). rewrite H3, H1, app_assoc. split; [reflexivity|].
    apply explained_front; [exact H2|exact H4].
  - exists m. rewrite <- Eh. auto.
  - exists m. auto.
  - exists m. auto.
  - exists m. auto.
Qed.
End Rules.

Notation lg := (fun w : list event => w).
Notation Jw := (J lg).
Notation Js := (J (@snd astring (list event))).

Ltac passes := let H := fresh in intros ? ? H; inversion H.

Section Steps.
Variable c : cfg.
Variable db : bool.
Variable t : text.

Lemma J_arg {A} f (a : ST (list event) A) p : Jw t f a (snd p) -> Js t f (on_arg a) p.
Proof. intros (m & H1 & H2). exists m. unfold on_arg. destruct (a (snd p)). auto. Qed.
Lemma J_seen {A} f (g : astring -> ST (list event) A) p : Jw t f (g (fst p)) (snd p) -> Js t f (seen g) p.
Proof. exact (J_arg f (g (fst p)) p). Qed.
Lemma J_self {A} (m : ST astring A) p : Js t fine (on_self m) p.
Proof. exists []. unfold on_self. destruct (m (fst p)). cbn. rewrite app_nil_r. split; [reflexivity|constructor]. Qed.
Lemma J_sret {X A} (log : X -> list event) (a : A) p : J log t fine (sret a) p.
Proof. apply J_nop; reflexivity. Qed.
Lemma J_slift {X A} (log : X -> list event) (o : outcome A) p : J log t fine (slift o) p.
Proof. apply J_nop; reflexivity. Qed.
Lemma J_ok {X A E} (log : X -> list event) (h : E -> Error) (a : A) p : J log t (err h) (sret (Ok a)) p.
Proof. apply J_nop; reflexivity. Qed.

Lemma J_record e w : passed e -> Jw t fine (record e) w.
Proof. intros P. exists [e]. split; [reflexivity|]. repeat constructor. exact P. Qed.
Lemma J_trace e w : passed e -> Jw t fine (trace true record e) w.
Proof. exact (J_record e w). Qed.
Lemma J_dbg e w : passed e -> Jw t fine (dbg db record e) w.
Proof. intros P. unfold dbg. destruct db; [apply J_record; exact P|apply J_sret]. Qed.
Lemma J_log_with {A} on (arg : ST (list event) A) e w : Jw t fine arg w -> (forall a, passed (e a)) ->
  Jw t fine (log_with on record arg e) w.
Proof.
  intros H P. unfold log_with. destruct on; [|apply J_sret]. apply J_fine_bind; [exact H|]. intros. apply J_record, P.
Qed.

Lemma J_len s w : Jw t fine (l_len true record s) w.
Proof. apply J_fine_bind; [apply J_trace; passes|]. intros. apply J_sret. Qed.
Lemma J_assert m w : Jw t fine m w -> Jw t fine (l_assert c m) w.
Proof.
  intros H. unfold l_assert. destruct (debug c); [|apply J_sret]. apply J_fine_bind; [exact H|]. intros. apply J_slift.
Qed.
Lemma J_as_ref_bytes s w : Jw t fine (l_as_ref_bytes c true record s) w.
Proof.
  apply J_fine_bind; [apply J_assert, J_fine_bind; [apply J_len|intros; apply J_sret]|]. intros _ w1 _.
  apply J_fine_bind; [apply J_len|]. intros. apply J_slift.
Qed.
Lemma J_as_ref_str s w : Jw t fine (l_as_ref_str c true record s) w.
Proof.
  apply J_fine_bind; [apply J_assert, J_fine_bind; [apply J_as_ref_bytes|intros; apply J_sret]|]. intros _ w1 _.
  apply J_fine_bind; [apply J_as_ref_bytes|]. intros. apply J_slift.
Qed.
Lemma J_as_str s w : Jw t fine (l_as_str c true record s) w.
Proof. apply J_fine_bind; [apply J_trace; passes|]. intros. apply J_as_ref_str. Qed.
Lemma J_as_mut s w : Jw t fine (l_as_mut c true record s) w.
Proof.
  apply J_fine_bind; [apply J_len|]. intros n w1 _. apply J_fine_bind; [apply J_slift|]. intros _ w2 _.
  apply J_fine_bind; [apply J_slift|]. intros b w3 _. apply J_fine_bind; [apply J_slift|]. intros. apply J_slift.
Qed.
Lemma J_as_mut_str s w : Jw t fine (l_as_mut_str c true record s) w.
Proof. apply J_fine_bind; [apply J_trace; passes|]. intros. apply J_as_mut. Qed.
Lemma J_truncate_str b n w : Jw t fine (l_truncate_str c true record b n) w.
Proof. apply J_fine_bind; [apply J_trace; passes|]. intros. apply J_slift. Qed.
Lemma J_end_of hi s w : Jw t fine (l_end_of c true record hi s) w.
Proof. destruct hi; [apply J_sret..|apply J_len]. Qed.
Lemma J_new_len n a b s w : Jw t fine (l_new_len c true record n a b s) w.
Proof. apply J_fine_bind; [apply J_len|]. intros. apply J_slift. Qed.
Lemma J_room b s w : Jw t fine (l_room_for c true record (sret b) s) w.
Proof.
  apply J_fine_bind; [apply J_sret|]. intros b1 w1 _. apply J_fine_bind; [apply J_len|]. intros l w2 _.
  apply J_fine_bind; [apply J_slift|]. intros. apply J_truncate_str.
Qed.
Lemma J_next_boundary fuel s e w : Jw t fine (l_next_boundary c true record fuel s e) w.
Proof.
  revert e w. induction fuel as [|fuel IH]; intros e w; cbn [l_next_boundary]; [apply J_slift|].
  apply J_fine_bind; [apply J_as_str|]. intros b w1 _. destruct (str_is_char_boundary b e); [apply J_sret|].
  apply J_fine_bind; [apply J_slift|]. intros. apply IH.
Qed.

(** ** The two checks *)
Lemma J_inside n limit w : Jw t (err oob) (l_is_inside_boundary true record n limit) w.
Proof.
  exists [EvInside n limit]. split; [reflexivity|]. cbn. unfold is_inside_boundary. destruct (N.leb_spec n limit) as [L|L]; cbn.
  - constructor; [|constructor]. intros u x H. inversion H. lia.
  - exists [], (EvInside n limit), []. repeat split; constructor. exact L.
Qed.

Lemma boundary_split u i : boundary u i <-> split_at i u <> None.
Proof.
  unfold boundary. split.
  - intros (p & q & H). apply split_at_Some in H. rewrite H. discriminate.
  - destruct (split_at i u) as [[p q]|] eqn:E; [|congruence]. intros _. exists p, q. apply split_at_Some. exact E.
Qed.

Lemma J_boundary s i w : rep c s t -> Jw t (err utf8) (l_is_char_boundary c true record s i) w.
Proof.
  intros R. unfold l_is_char_boundary, log_with.
  destruct (says_as_str c true db s w) as (w1 & E1 & _). rewrite (as_str_rep c s t R) in E1.
  destruct (J_as_str s w) as (m1 & M1 & P1). rewrite E1 in M1. cbn [snd] in M1.
  destruct (says_as_str c true db s (w1 ++ [EvBoundary (enc t) i])) as (w2 & E2 & _). rewrite (as_str_rep c s t R) in E2.
  destruct (J_as_str s (w1 ++ [EvBoundary (enc t) i])) as (m2 & M2 & P2). rewrite E2 in M2. cbn [snd] in M2.
  exists (m1 ++ EvBoundary (enc t) i :: m2).
  erewrite bind_eq by (erewrite bind_eq by exact E1; reflexivity). erewrite bind_eq by exact E2. cbn [snd fst sret err].
  split; [rewrite M2, M1, <- !app_assoc; reflexivity|]. rewrite str_boundary_split.
  destruct (split_at i t) eqn:Es; cbn [err utf8].
  - apply Forall_app. split; [exact P1|]. constructor; [|exact P2]. intros u x H. inversion H; subst.
    match goal with K : enc _ = enc _ |- _ => apply enc_inj in K; subst end.
    match goal with K : ~ boundary _ _ |- _ => apply K end. apply boundary_split. congruence.
  - exists m1, (EvBoundary (enc t) i), m2. repeat split; [|exact P1|exact P2]. constructor. rewrite boundary_split. congruence.
Qed.

(** [?] with a message about the conversion. *)
Lemma J_try {A B E F} ev (h : E -> Error) (h' : F -> Error) (conv : E -> F) (g : ST (astring * list event) (result A E))
    (k : A -> ST (astring * list event) (result B F)) p :
  passed ev -> (forall e, h e = h' (conv e)) -> Js t (err h) g p ->
  (forall a p1, g p = (Ret (Ok a), p1) -> Js t (err h') (k a) p1) -> Js t (err h') (l_try true record ev conv g k) p.
Proof.
  intros P Eh (m & H1 & H2) K. unfold l_try, sbind, J. destruct (g p) as [[[a|e]| | |] [s1 w1]]; cbn [fst snd err] in *.
  - destruct (K a (s1, w1) eq_refl) as (m' & H3 & H4). exists (m ++ m'). split; [rewrite H3; cbn [snd]; rewrite H1, app_assoc; reflexivity|].
    apply explained_front; [exact H2|exact H4].
  - exists (m ++ [ev]). cbn. rewrite H1, app_assoc. split; [reflexivity|]. rewrite <- Eh.
    apply (explained_back t (Some (h e))); [exact H2|]. repeat constructor. exact P.
  - exists m. auto.
  - exists m. auto.
  - exists m. auto.
Qed.
Lemma J_try_oob {A B} (g : ST (astring * list event) (result A OutOfBounds)) (k : A -> ST (astring * list event) (result B Error)) p :
  Js t (err oob) g p -> (forall a p1, g p = (Ret (Ok a), p1) -> Js t (err itself) (k a) p1) ->
  Js t (err itself) (l_try_oob true record g k) p.
Proof. apply J_try; [passes|reflexivity]. Qed.
Lemma J_try_utf8 {A B} (g : ST (astring * list event) (result A Utf8)) (k : A -> ST (astring * list event) (result B Error)) p :
  Js t (err utf8) g p -> (forall a p1, g p = (Ret (Ok a), p1) -> Js t (err itself) (k a) p1) ->
  Js t (err itself) (l_try_utf8 true record g k) p.
Proof. apply J_try; [passes|reflexivity]. Qed.

(** Reading leaves the string alone. *)
Lemma arg_keeps {A} (a : ST (list event) A) p o p1 : on_arg a p = (o, p1) -> fst p1 = fst p.
Proof. unfold on_arg. destruct (a (snd p)). intros H. injection H as <- <-. reflexivity. Qed.
Lemma seen_keeps {A} (g : astring -> ST (list event) A) p o p1 : seen g p = (o, p1) -> fst p1 = fst p.
Proof. apply arg_keeps. Qed.

Lemma J_len_inside n p : Js t (err oob) (seen (fun s => l <~ l_len true record s ;; l_is_inside_boundary true record n l)) p.
Proof. apply J_seen, J_err_bind; [apply J_len|]. intros. apply J_inside. Qed.

Lemma J_replace_range lo hi b s w : rep c s t -> Js t (err itself) (l_replace_range c true db record lo hi (sret b)) (s, w).
Proof.
  intros R. unfold l_replace_range.
  apply J_err_bind; [apply J_arg, J_sret|]. intros str p1 E1. apply arg_keeps in E1. cbn [fst] in E1.
  apply J_err_bind; [apply J_seen, J_end_of|]. intros end_ p2 E2. apply seen_keeps in E2. rewrite E1 in E2. clear E1 p1.
  apply J_err_bind.
  { apply J_seen, J_log_with; [|intros [[? ?] ?]; passes].
    apply J_fine_bind; [apply J_len|]. intros n w1 _. apply J_fine_bind; [apply J_sret|]. intros x w3 _.
    apply J_fine_bind; [apply J_sret|]. intros. apply J_sret. }
  intros ? p3 E3. apply seen_keeps in E3. rewrite E2 in E3. clear E2 p2.
  destruct (_ && _); [apply J_ok|].
  apply J_try_oob; [apply J_arg, J_inside|]. intros ? p4 E4. apply arg_keeps in E4. rewrite E3 in E4. clear E3 p3.
  apply J_try_oob; [apply J_len_inside|]. intros ? p5 E5. apply seen_keeps in E5. rewrite E4 in E5. clear E4 p4.
  apply J_try_oob; [apply J_arg, J_inside|]. intros ? p6 E6. apply arg_keeps in E6. rewrite E5 in E6. clear E5 p5.
  apply J_try_utf8; [apply J_seen, J_boundary; rewrite E6; exact R|]. intros ? p7 E7. apply seen_keeps in E7. rewrite E6 in E7. clear E6 p6.
  apply J_try_utf8; [apply J_seen, J_boundary; rewrite E7; exact R|]. intros _ p8 _.
  apply J_try_oob; [apply J_seen, J_err_bind; [apply J_new_len|intros; apply J_inside]|]. intros _ p9 _.
  apply J_err_bind; [apply J_slift|]. intros cs q1 _. apply J_err_bind; [apply J_slift|]. intros ce q2 _.
  apply J_err_bind; [apply J_slift|]. intros se q3 _.
  apply J_err_bind.
  { destruct (negb _); [|apply J_sret]. apply J_fine_bind; [|intros; apply J_self].
    apply J_seen, J_fine_bind; [apply J_len|]. intros. apply J_slift. }
  intros _ q4 _. apply J_err_bind.
  { destruct (negb _); [|apply J_sret]. apply J_fine_bind; [|intros; apply J_self]. apply J_seen, J_slift. }
  intros _ q5 _. apply J_err_bind; [apply J_seen, J_new_len|]. intros n q6 _.
  apply J_err_bind; [apply J_self|]. intros. apply J_ok.
Qed.

End Steps.

(** ** The calls *)
Section Calls.
Variable c : cfg.
Hypothesis Hc : valid_cfg c.
Variable db : bool.

Lemma J_any {A E} t u (g : ST (astring * list event) (result A E)) p : Js t (err oob) g p -> Js u (err oob) g p.
Proof.
  intros (m & H1 & H2). exists m. split; [exact H1|]. destruct (fst (g p)) as [[a|e]| | |]; try exact H2.
  exact (explained_other t u m H2).
Qed.

Lemma stry_err {A D E F S} (conv : E -> F) (m : ST S (result A E)) (k : A -> ST S (result D F)) s e s' :
  stry conv m k s = (Ret (Err e), s') ->
  (exists x s1, m s = (Ret (Err x), s1) /\ e = conv x) \/ (exists a s1, m s = (Ret (Ok a), s1) /\ k a s1 = (Ret (Err e), s')).
Proof.
  unfold stry, sbind. destruct (m s) as [[[a|x]| | |] s1]; try discriminate; intros H; [right; exists a, s1; auto|].
  left. exists x, s1. injection H as <- _. auto.
Qed.

(** An error of a push is never about a boundary. *)
Lemma push_range_oob b s t e s' : rep c s t ->
  replace_range c (Included (len s)) (Excluded (len s)) b s = (Ret (Err e), s') -> e = EOutOfBounds.
Proof.
  intros R. rewrite (rep_len c s t R). unfold replace_range. cbn [start_of end_of].
  assert (B : is_char_boundary c s (blen t) = Ret (Ok tt)) by (rewrite (is_char_boundary_rep c s t _ R), split_at_end; reflexivity).
  destruct (_ && _); [discriminate|].
  intros H. apply stry_err in H as [([] & s1 & _ & ->)|([] & s1 & E & H)]; [reflexivity|].
  assert (s1 = s) as -> by (injection E; congruence). clear E.
  apply stry_err in H as [([] & s1 & _ & ->)|([] & s1 & E & H)]; [reflexivity|]. apply read_ret in E as ->.
  apply stry_err in H as [([] & s1 & _ & ->)|([] & s1 & E & H)]; [reflexivity|].
  assert (s1 = s) as -> by (injection E; congruence). clear E.
  apply stry_err in H as [([] & s1 & E & ->)|([] & s1 & E & H)]; [unfold sread in E; rewrite B in E; discriminate|]. apply read_ret in E as ->.
  apply stry_err in H as [([] & s1 & E & ->)|([] & s1 & E & H)]; [unfold sread in E; rewrite B in E; discriminate|]. apply read_ret in E as ->.
  apply sbind_inv in H as (n & s1 & _ & H).
  apply stry_err in H as [([] & s2 & _ & ->)|([] & s2 & _ & H)]; [reflexivity|].
  do 7 (let a := fresh in let q := fresh in apply sbind_inv in H as (a & q & _ & H)). discriminate.
Qed.

Lemma len_seen s w n p : seen (l_len true record) (s, w) = (Ret n, p) -> n = len s /\ fst p = s.
Proof. cbn. intros H. injection H as <- <-. auto. Qed.

Lemma J_push_str b s t u w : rep c s t -> Js u (err oob) (l_try_push_str c true db record (sret b)) (s, w).
Proof.
  intros R. apply (J_any t). unfold l_try_push_str.
  apply J_err_bind; [apply J_arg, J_log_with; [apply J_sret|intros; passes]|].
  intros ? [s1 w1] E1. apply arg_keeps in E1. cbn [fst] in E1. subst s1.
  apply J_err_bind; [apply J_seen, J_len|]. intros n [s1 w2] E2. apply len_seen in E2 as [-> E2]. cbn [fst] in E2. subst s1.
  refine (J_map _ t (err itself) (err oob) (map_err (fun _ => mkOutOfBounds)) _ _ _ (J_replace_range c db t _ _ b s w2 R)).
  destruct (replace_tells c true db (Included (len s)) (Excluded (len s)) (sret b) b s (says_sret true db b) w2) as (w3 & E & _).
  rewrite E. cbn [fst].
  destruct (replace_range c (Included (len s)) (Excluded (len s)) b s) as [[[[]|e]| | |] s'] eqn:X; try reflexivity.
  apply (push_range_oob b s t e s' R) in X as ->. reflexivity.
Qed.

Lemma J_push x s t u w : rep c s t -> Js u (err oob) (l_try_push c true db record x) (s, w).
Proof.
  intros R. apply J_err_bind; [apply J_arg, J_trace; passes|]. intros ? [s1 w1] E1. apply arg_keeps in E1. cbn [fst] in E1. subst s1.
  rewrite encode_utf8_4. apply J_err_bind; [apply J_slift|]. intros b p E. injection E as <- <-. exact (J_push_str _ s t u w1 R).
Qed.

Lemma push_str_fine w s t u l : rep c s t -> blen t + blen w <= cap c ->
  Js u fine (l_try_push_str c true db record (sret (enc w))) (s, l).
Proof.
  intros R L. apply (J_fine_of _ u (err oob)); [|exact (J_push_str _ s t u l R)].
  destruct (push_str_tells c true db (sret (enc w)) (enc w) s (says_sret true db _) l) as (l1 & E & _). rewrite E.
  destruct (push_fits c Hc w s t R L) as (s1 & X & _). rewrite X. reflexivity.
Qed.
Lemma push_fine x s t u l : rep c s t -> blen t + clen x <= cap c -> Js u fine (l_try_push c true db record x) (s, l).
Proof.
  intros R L. apply (J_fine_of _ u (err oob)); [|exact (J_push _ s t u l R)].
  destruct (push_tells c true db x (enc [x]) s) with (w := l) as (l1 & E & _); [rewrite enc_single; apply encode_utf8_4|]. rewrite E.
  destruct (push1_fits c Hc x s t R L) as (s1 & X & _). rewrite X. reflexivity.
Qed.

Lemma room_seen w s t b l p : rep c s t -> seen (l_room_for c true record (sret (enc w))) (s, l) = (Ret b, p) ->
  b = enc (fit (cap c - blen t) w) /\ fst p = s.
Proof.
  intros R E. split; [|exact (seen_keeps _ _ _ _ E)].
  destruct (room_says c true db (sret (enc w)) w s t R (says_sret true db _) l) as (l1 & X & _).
  unfold seen, on_arg in E. cbn [fst snd] in E. rewrite X in E. congruence.
Qed.

Lemma J_push_str_truncate w s t u l : rep c s t -> Js u fine (l_push_str_truncate c true db record (sret (enc w))) (s, l).
Proof.
  intros R. apply J_fine_bind; [apply J_arg, J_log_with; [apply J_sret|intros; passes]|].
  intros ? [s1 l1] E1. apply arg_keeps in E1. cbn [fst] in E1. subst s1.
  apply J_fine_bind; [apply J_seen, J_room|]. intros b [s1 l2] E2. apply (room_seen w s t _ _ _ R) in E2 as [-> E2]. cbn [fst] in E2. subst s1.
  apply J_fine_bind; [|intros; apply J_sret]. apply (push_str_fine _ s t); [exact R|].
  pose proof (fit_le (cap c - blen t) w). pose proof (rep_cap c s t R). lia.
Qed.

Lemma J_local {A B E} u (h : E -> Error) (g : ST (astring * list event) (result A E)) (k : astring -> B) w :
  Js u (err h) g (new c, w) -> Jw u (err h) (g_local c g (fun r s => map_ok (fun _ => k s) r)) w.
Proof.
  intros (m & H1 & H2). exists m. unfold g_local. destruct (g (new c, w)) as [[[a|e]| | |] [s w1]]; cbn [fst snd omap map_ok err] in *; auto.
Qed.

Lemma J_try_from_str b u w : Jw u (err oob) (l_try_from_str c true db record (sret b)) w.
Proof.
  apply J_err_bind; [apply J_log_with; [apply J_sret|intros; passes]|]. intros ? w1 _.
  apply J_local, (J_push_str b _ []), new_rep.
Qed.

Lemma J_from_str_truncate w u l : Jw u fine (l_from_str_truncate c true db record (sret (enc w))) l.
Proof.
  apply J_fine_bind; [apply J_log_with; [apply J_sret|intros; passes]|]. intros ? l1 _.
  destruct (J_push_str_truncate w (new c) [] u l1 (new_rep c)) as (m & H1 & H2). exists m.
  unfold g_local. destruct (l_push_str_truncate c true db record (sret (enc w)) (new c, l1)) as [o [s l2]]. auto.
Qed.

Lemma J_truncate n s t w : rep c s t -> Js t (err utf8) (l_truncate c true db record n) (s, w).
Proof.
  intros R. apply J_err_bind; [apply J_arg, J_dbg; passes|]. intros ? [s1 w1] E1. apply arg_keeps in E1. cbn [fst] in E1. subst s1.
  apply J_err_bind; [apply J_seen, J_len|]. intros l [s1 w2] E2. apply seen_keeps in E2. cbn [fst] in E2. subst s1.
  destruct (J_seen t (err utf8) (fun s => l_is_char_boundary c true record s (N.min l n)) (s, w2)
    (J_boundary c db t s (N.min l n) w2 R)) as (m & H1 & H2).
  cbv zeta. unfold J. unfold sbind at 1 3.
  destruct (seen (fun s => l_is_char_boundary c true record s (N.min l n)) (s, w2)) as [[[x|e]| | |] [s1 w3]];
    cbn [fst snd err] in *; exists m; auto.
Qed.

Lemma J_pop u p : Js u fine (l_pop c true db record) p.
Proof.
  apply J_fine_bind; [apply J_arg, J_dbg; passes|]. intros ? p1 _.
  apply J_fine_bind; [apply J_seen, J_fine_bind; [apply J_as_str|intros; apply J_slift]|].
  intros [ch|] p2 _; [|apply J_sret]. apply J_fine_bind; [apply J_seen, J_slift|]. intros n p3 _.
  apply J_fine_bind; [apply J_self|]. intros. apply J_sret.
Qed.

Lemma J_clear u p : Js u fine (l_clear true record) p.
Proof. apply J_fine_bind; [apply J_arg, J_trace; passes|]. intros. apply J_self. Qed.

Lemma J_insert_str i b s t w : rep c s t -> Js t (err itself) (l_try_insert_str c true db record i (sret b)) (s, w).
Proof.
  intros R. apply J_err_bind; [apply J_seen, J_log_with; [apply J_sret|intros; passes]|].
  intros ? [s1 w1] E1. apply seen_keeps in E1. cbn [fst] in E1. subst s1.
  apply J_try_oob; [apply J_len_inside|]. intros ? [s1 w2] E2. apply seen_keeps in E2. cbn [fst] in E2. subst s1.
  apply J_replace_range, R.
Qed.
Lemma J_insert i x s t w : rep c s t -> Js t (err itself) (l_try_insert c true db record i x) (s, w).
Proof.
  intros R. unfold l_try_insert. rewrite encode_utf8_4.
  apply J_err_bind; [apply J_slift|]. intros b p E. injection E as <- <-. apply J_insert_str, R.
Qed.
Lemma J_insert_str_truncate i b s t w : rep c s t -> Js t (err itself) (l_insert_str_truncate c true db record i (sret b)) (s, w).
Proof.
  intros R. apply J_err_bind; [apply J_seen, J_log_with; [apply J_sret|intros; passes]|].
  intros ? [s1 w1] E1. apply seen_keeps in E1. cbn [fst] in E1. subst s1.
  apply J_err_bind; [apply J_seen, J_room|]. intros b1 [s1 w2] E2. apply seen_keeps in E2. cbn [fst] in E2. subst s1.
  apply (J_stry _ t itself); [reflexivity|apply J_insert_str, R|]. intros. apply J_ok.
Qed.

Lemma J_drain lo hi s t w : rep c s t -> Js t (err itself) (l_drain c true db record lo hi) (s, w).
Proof.
  intros R. unfold l_drain.
  apply J_err_bind; [apply J_seen, J_end_of|]. intros e [s1 w1] E. apply seen_keeps in E. cbn [fst] in E. subst s1.
  apply J_err_bind; [apply J_seen, J_log_with; [apply J_len|intros; passes]|]. intros ? [s1 w2] E. apply seen_keeps in E. cbn [fst] in E. subst s1.
  apply J_try_oob; [apply J_arg, J_inside|]. intros ? [s1 w3] E. apply arg_keeps in E. cbn [fst] in E. subst s1.
  apply J_try_oob; [apply J_len_inside|]. intros ? [s1 w4] E. apply seen_keeps in E. cbn [fst] in E. subst s1.
  apply J_try_utf8; [apply J_seen, (J_boundary c db), R|]. intros ? [s1 w5] E. apply seen_keeps in E. cbn [fst] in E. subst s1.
  apply J_try_utf8; [apply J_seen, (J_boundary c db), R|]. intros ? [s1 w6] E. apply seen_keeps in E. cbn [fst] in E. subst s1.
  apply J_err_bind.
  { apply J_seen, J_assert. destruct (_ <=? _); [|apply J_sret]. apply J_fine_bind; [apply J_len|intros; apply J_sret]. }
  intros ? [s1 w7] E. apply seen_keeps in E. cbn [fst] in E. subst s1.
  apply J_err_bind; [apply J_seen, J_assert, J_fine_bind; [apply J_as_str|intros; apply J_sret]|].
  intros ? [s1 w8] E. apply seen_keeps in E. cbn [fst] in E. subst s1.
  apply J_err_bind; [apply J_seen, J_assert, J_fine_bind; [apply J_as_str|intros; apply J_sret]|].
  intros ? [s1 w9] E. apply seen_keeps in E. cbn [fst] in E. subst s1.
  apply J_err_bind; [apply J_seen, J_fine_bind; [apply J_as_str|intros; apply J_slift]|].
  intros b [s1 w10] E. apply seen_keeps in E. cbn [fst] in E. subst s1.
  apply J_try_oob; [apply J_arg, J_try_from_str|]. intros d [s1 w11] E. apply arg_keeps in E. cbn [fst] in E. subst s1.
  apply (J_stry _ t itself); [reflexivity|apply J_replace_range, R|]. intros. apply J_ok.
Qed.
Lemma J_split_off i s t w : rep c s t -> Js t (err itself) (l_split_off c true db record i) (s, w).
Proof.
  intros R. apply J_err_bind; [apply J_arg, J_dbg; passes|]. intros ? [s1 w1] E. apply arg_keeps in E. cbn [fst] in E. subst s1.
  apply (J_stry _ t itself); [reflexivity|apply J_drain, R|]. intros. apply J_ok.
Qed.

(** A program that succeeds ran each of its steps. *)
Lemma J_bind_ran {A B} t (g : ST (astring * list event) A) (k : A -> ST (astring * list event) B) p d p' :
  sbind g k p = (Ret d, p') -> Js t fine g p ->
  (forall a p1, g p = (Ret a, p1) -> k a p1 = (Ret d, p') -> Js t fine (k a) p1) -> Js t fine (sbind g k) p.
Proof.
  intros H G K. apply J_fine_bind; [exact G|]. intros a p1 E. apply (K a p1 E). rewrite (bind_eq _ _ _ _ _ E) in H. exact H.
Qed.
Lemma J_stry_ran {A B E F} t (h : E -> Error) (conv : E -> F) (g : ST (astring * list event) (result A E))
    (k : A -> ST (astring * list event) (result B F)) p d p' :
  stry conv g k p = (Ret (Ok d), p') -> Js t fine g p \/ Js t (err h) g p ->
  (forall a p1, g p = (Ret (Ok a), p1) -> k a p1 = (Ret (Ok d), p') -> Js t fine (k a) p1) -> Js t fine (stry conv g k) p.
Proof.
  intros H G K. destruct (stry_inv _ _ _ _ _ _ H) as (a & p1 & E1 & E2).
  assert (G' : Js t fine g p) by (destruct G as [G|G]; [exact G|apply (J_fine_of _ t (err h)); [rewrite E1; reflexivity|exact G]]).
  unfold stry. apply J_fine_bind; [exact G'|]. intros r p2 X. rewrite E1 in X. injection X as <- <-. exact (K a p1 E1 E2).
Qed.
Lemma J_try_ran {A B E F} t ev (h : E -> Error) (conv : E -> F) (g : ST (astring * list event) (result A E))
    (k : A -> ST (astring * list event) (result B F)) p d p' :
  l_try true record ev conv g k p = (Ret (Ok d), p') -> Js t (err h) g p ->
  (forall a p1, g p = (Ret (Ok a), p1) -> k a p1 = (Ret (Ok d), p') -> Js t fine (k a) p1) ->
  Js t fine (l_try true record ev conv g k) p.
Proof.
  intros H G K. unfold l_try in *. destruct (sbind_inv _ _ _ _ _ H) as ([a|e] & p1 & E1 & E2).
  2:{ apply sbind_inv in E2 as (? & ? & _ & E2). discriminate. }
  apply (J_fine_of _ t (err h)) in G; [|rewrite E1; reflexivity].
  apply J_fine_bind; [exact G|]. intros r p2 X. rewrite E1 in X. injection X as <- <-. exact (K a p1 E1 E2).
Qed.

(** [remove]: past the checks nothing fails. *)
Lemma J_remove i s t w : rep c s t -> Js t (err itself) (l_remove c true db record i) (s, w).
Proof.
  intros R. pose proof (remove_runs c Hc i s t R) as (s' & H1 & H2 & _).
  destruct (remove_lines c Hc true db i s t R w) as (w' & E & _). rewrite H1 in E. cbn [fst snd] in E. clear H1.
  destruct (fst (t_remove i t)) as [x|e] eqn:Er.
  - apply J_fine; [rewrite E; reflexivity|]. unfold l_remove in *.
    refine (J_bind_ran t _ _ _ _ _ E (J_arg t fine _ (s, w) (J_dbg db t _ w _)) _); [passes|]. clear E.
    intros ? [s1 w1] E1 E. apply arg_keeps in E1. cbn [fst] in E1. subst s1.
    refine (J_try_ran t _ oob _ _ _ _ _ _ E (J_len_inside t _ (s, w1)) _). clear E.
    intros ? [s1 w2] E1 E. apply seen_keeps in E1. cbn [fst] in E1. subst s1.
    refine (J_try_ran t _ utf8 _ _ _ _ _ _ E (J_seen t _ _ (s, w2) (J_boundary c db t s i w2 R)) _). clear E.
    intros ? [s1 w3] E1 E. apply seen_keeps in E1. cbn [fst] in E1. subst s1.
    refine (J_bind_ran t _ _ _ _ _ E _ _).
    { apply J_seen, J_fine_bind; [apply J_len|]. intros l v _. apply J_fine_bind; [apply J_slift|]. intros. apply J_next_boundary. }
    clear E. intros end_ [s1 w4] E1 E. apply seen_keeps in E1. cbn [fst] in E1. subst s1.
    refine (J_stry_ran t itself _ _ _ _ _ _ E (or_introl _) _).
    { apply J_seen, J_fine_bind; [apply J_as_str|]. intros. apply J_sret. }
    clear E. intros sub [s1 w5] E1 E. apply seen_keeps in E1. cbn [fst] in E1. subst s1.
    refine (J_stry_ran t itself _ _ _ _ _ _ E (or_introl (J_slift t _ _ _)) _). clear E.
    intros ch p6 E1 E. unfold slift in E1. assert (p6 = (s, w5)) as -> by congruence. clear E1.
    refine (J_bind_ran t _ _ _ _ _ E (J_slift t _ _ _) _). clear E.
    intros n p7 E1 E. unfold slift in E1. assert (p7 = (s, w5)) as -> by congruence. clear E1.
    refine (J_stry_ran t itself _ _ _ _ _ _ E (or_intror (J_replace_range c db t _ _ _ s w5 R)) _).
    intros. apply J_sret.
  - unfold l_remove. apply J_err_bind; [apply J_arg, J_dbg; passes|].
    intros ? [s1 w1] E1. apply arg_keeps in E1. cbn [fst] in E1. subst s1.
    apply J_try_oob; [apply J_len_inside|]. intros ? [s1 w2] E1. pose proof (seen_keeps _ _ _ _ E1) as X. cbn [fst] in X. subst s1.
    apply J_try_utf8; [apply J_seen, (J_boundary c db), R|]. intros ? [s1 w3] E2. exfalso.
    destruct (says_boundary c true db s i w2) as (w4 & E3 & _). unfold seen, on_arg in E2. cbn [fst snd] in E2. rewrite E3 in E2.
    rewrite (is_char_boundary_rep c s t _ R) in E2.
    assert (L : i + 1 <= blen t).
    { cbn in E1. unfold is_inside_boundary in E1. rewrite (rep_len c s t R) in E1.
      pose proof (rep_cap255 c Hc s t R) as (K & K1 & K2). unfold sat_add in E1.
      destruct (N.leb_spec (N.min (i + 1) (usize_max c)) (blen t)); [lia|discriminate]. }
    unfold t_remove in Er. destruct (N.leb_spec (blen t) i); [lia|].
    destruct (split_at i t) as [[pre [|x post]]|] eqn:Es; [|discriminate|discriminate].
    apply split_at_Some in Es as [-> <-]. rewrite app_nil_r in L. lia.
Qed.

(** [trim] cuts at boundaries. *)
Lemma range_fine lo hi b s t u l s' : rep c s t -> replace_range c lo hi b s = (Ret (Ok tt), s') ->
  Js u fine (l_replace_range c true db record lo hi (sret b)) (s, l) /\
  fst (snd (l_replace_range c true db record lo hi (sret b) (s, l))) = s'.
Proof.
  intros R X. destruct (replace_tells c true db lo hi (sret b) b s (says_sret true db b) l) as (l1 & E & _). rewrite X in E. split.
  - destruct (J_replace_range c db t lo hi b s l R) as (m & H1 & H2). exists m. rewrite E in *. auto.
  - rewrite E. reflexivity.
Qed.

Lemma known_seen {A} (f : astring -> ST (list event) A) a s l b p : says true db (f s) (Ret a) [] ->
  seen f (s, l) = (Ret b, p) -> b = a /\ fst p = s.
Proof.
  intros H E. split; [|exact (seen_keeps _ _ _ _ E)]. destruct (H l) as (l1 & X & _).
  unfold seen, on_arg in E. cbn [fst snd] in E. rewrite X in E. congruence.
Qed.

Lemma two_cuts lo hi lo' hi' s t s1 t1 s2 u l : rep c s t -> replace_range c lo hi [] s = (Ret (Ok tt), s1) -> rep c s1 t1 ->
  replace_range c lo' hi' [] s1 = (Ret (Ok tt), s2) ->
  Js u fine (_ <~ l_replace_range c true db record lo hi (sret []) ;; _ <~ l_replace_range c true db record lo' hi' (sret []) ;; sret tt)
    (s, l).
Proof.
  intros R X R1 Y. destruct (range_fine lo hi [] s t u l s1 R X) as [H1 H2].
  apply J_fine_bind; [exact H1|]. intros ? [s1' l1] E. rewrite E in H2. cbn in H2. subst s1'.
  apply J_fine_bind; [exact (proj1 (range_fine lo' hi' [] s1 t1 u l1 s2 R1 Y))|]. intros. apply J_sret.
Qed.

Lemma J_trim s t u l : rep c s t -> Js u fine (l_trim c true db record) (s, l).
Proof.
  intros R. pose proof (rep_cap255 c Hc s t R) as (K & K1 & K2). pose proof (length_le_enc t) as Le.
  unfold l_trim. apply J_fine_bind; [apply J_seen, J_trace; passes|]. intros v [s1 l1] E. apply seen_keeps in E. cbn [fst] in E. subst s1.
  assert (Scan : forall f l, Jw u fine (n <~ l_len true record s ;; b <~ l_as_str c true record s ;; slift (f n b : outcome N)) l).
  { intros f l0. apply J_fine_bind; [apply J_len|]. intros n l2 _. apply J_fine_bind; [apply J_as_str|]. intros. apply J_slift. }
  assert (Scan' : forall f l, Jw u fine (n <~ l_len true record s ;; b <~ l_as_str c true record s ;; slift (f n b : outcome (option N))) l).
  { intros f l0. apply J_fine_bind; [apply J_len|]. intros n l2 _. apply J_fine_bind; [apply J_as_str|]. intros. apply J_slift. }
  apply J_fine_bind; [apply (J_seen u fine _ (s, l1)), (Scan (fun n b => trim_start_loop (S (length b)) (0, b) n))|].
  intros start [s1 l2] E.
  apply (known_seen _ (match skip_ws t with [] => blen t | _ => 0 + blen t - blen (skip_ws t) end)) in E.
  2:{ pose proof (trim_scan_start c true db s) as Y. rewrite (as_str_rep c s t R) in Y. cbn [obind] in Y.
      rewrite trim_start_loop_spec in Y by lia. rewrite (rep_len c s t R) in Y. exact Y. }
  destruct E as [-> E]. cbn [fst] in E. subst s1.
  apply J_fine_bind; [apply (J_seen u fine _ (s, l2)), (Scan' (fun n b => trim_end_loop (S (length b)) (0, b) _ n))|].
  intros e [s1 l3] E. pose proof (seen_keeps _ _ _ _ E) as X. cbn [fst] in X. subst s1.
  pose proof (trim_scan_end c true db (match skip_ws t with [] => blen t | _ => 0 + blen t - blen (skip_ws t) end) s) as Y.
  rewrite (as_str_rep c s t R), (rep_len c s t R) in Y. cbn [obind] in Y.
  destruct (trim_cases t) as [(F & En & _)|(a & r & m & En & Es & _ & Fl & Fm & (x & r1 & Ex & Wx) & (y & r2 & Ey & Wy))].
  - rewrite En in *. destruct (snoc_cases t) as [->|(t' & x & ->)].
    + cbn in Y. destruct (known_seen _ (Some 0) _ _ _ _ Y E) as [-> _]. cbn [blen].
      destruct (replace_range_runs c Hc (Included 0) Unbounded [] s [] R) as (s1 & P1 & P2 & _). cbn in P1, P2.
      destruct (replace_range_runs c Hc Unbounded (Excluded 0) [] s1 [] P2) as (s2 & Q1 & Q2 & _). cbn in Q1, Q2.
      exact (two_cuts _ _ _ _ s [] s1 [] s2 u l3 R P1 P2 Q1).
    + assert (Z : trim_end_loop (S (length (enc (t' ++ [x])))) (0, enc (t' ++ [x])) (blen (t' ++ [x])) (blen (t' ++ [x])) = Ret None).
      { cbn [trim_end_loop char_indices_next_back]. rewrite chars_next_back_enc. cbn [obind].
        rewrite enc_len, blen_app. cbn [blen]. pose proof (clen_range x).
        replace (0 + blen t' <? blen t' + (clen x + 0)) with true by lia. reflexivity. }
      rewrite Z in Y. destruct (known_seen _ None _ _ _ _ Y E) as [-> _]. apply J_self.
  - assert (St : match skip_ws t with [] => blen t | _ => 0 + blen t - blen (skip_ws t) end = blen a).
    { assert (St : 0 + blen t - blen (skip_ws t) = blen a) by (rewrite Es, En, (blen_app a); lia).
      rewrite St, Es, Ex. reflexivity. }
    rewrite St in *. clear St.
    assert (Lr : (length m < S (length (enc t)))%nat).
    { rewrite En in Le. rewrite !app_length in Le. rewrite En. lia. }
    assert (Z : trim_end_loop (S (length (enc t))) (0, enc t) (blen a) (blen t) = Ret (Some (blen (a ++ r)))).
    { rewrite En at 2 3. rewrite Ey. rewrite <- (app_assoc r2), !(app_assoc a).
      apply trim_end_loop_spec; auto. rewrite blen_app. lia. }
    rewrite Z in Y. destruct (known_seen _ (Some (blen (a ++ r))) _ _ _ _ Y E) as [-> _].
    destruct (replace_range_ok c Hc (Included (blen (a ++ r))) Unbounded [] s (a ++ r) m []) as (s1 & P1 & P2).
    + rewrite app_nil_r, <- app_assoc, <- En. exact R.
    + reflexivity.
    + cbn [range_to]. rewrite app_nil_r, (blen_app _ m). lia.
    + rewrite En in K. rewrite !blen_app in *. cbn. lia.
    + change (enc []) with (@nil N) in P1. cbn [app] in P2. rewrite app_nil_r in P2.
      destruct (replace_range_ok c Hc Unbounded (Excluded (blen a)) [] s1 [] a r) as (s2 & Q1 & Q2).
      * exact P2.
      * reflexivity.
      * cbn. lia.
      * rewrite En in K. rewrite !blen_app in *. cbn. lia.
      * exact (two_cuts _ _ _ _ s t s1 (a ++ r) s2 u l3 R P1 P2 Q1).
Qed.

(** ** Loops that stop at the first item that does not fit *)
Definition flow_err {R} (h : R -> option Error) (o : outcome (flow R)) : option Error :=
  match o with Ret (Return r) => h r | _ => None end.
Definition loop_err {IT R} (h : R -> option Error) (o : outcome (option R) * IT * (astring * list event)) : option Error :=
  match o with (Ret (Some r), _, _) => h r | _ => None end.

Lemma loop_explained {IT A Q} u (h : Q -> option Error) fuel (next : iter IT A) (body : A -> ST (astring * list event) (flow Q)) :
  (forall a s t w, rep c s t -> Js u (flow_err h) (body a) (s, w)) ->
  (forall a s t w s' w', rep c s t -> body a (s, w) = (Ret Continue, (s', w')) -> exists t', rep c s' t') ->
  forall it s t w, rep c s t -> exists m, snd (snd (for_loop fuel next body it (s, w))) = w ++ m /\
    explained u (loop_err h (for_loop fuel next body it (s, w))) m.
Proof.
  intros H P. induction fuel as [|fuel IH]; intros it s t w R; cbn [for_loop].
  { exists []. rewrite app_nil_r. split; [reflexivity|constructor]. }
  destruct (next it) as [[[a|]| | |] it1]; try (exists []; rewrite app_nil_r; split; [reflexivity|constructor]).
  destruct (H a s t w R) as (m & H1 & H2). specialize (P a s t w).
  destruct (body a (s, w)) as [[[| |r]| | |] [s1 w1]] eqn:E; cbn [fst snd flow_err loop_err] in *; try (exists m; auto; fail).
  destruct (P s1 w1 R eq_refl) as (t1 & R1). destruct (IH it1 s1 t1 w1 R1) as (m' & H3 & H4).
  exists (m ++ m'). rewrite H3, H1, app_assoc. split; [reflexivity|]. rewrite <- H1. apply explained_front; [exact H2|exact H4].
Qed.

Lemma or_return_explained {E F} u (h : F -> option Error) (conv : E -> ST (list event) F) (g : ST (astring * list event) (result unit E)) p :
  (forall e w, exists m f, conv e w = (Ret f, w ++ m) /\ Forall passed m /\ h f = Some EOutOfBounds) ->
  Js u (err oob) g p -> Js u (flow_err h) (l_or_return conv g) p.
Proof.
  intros C (m & H1 & H2). unfold l_or_return, sbind, J. destruct (g p) as [[[[]|e]| | |] [s1 w1]]; cbn [fst snd err] in *;
    try (exists m; auto; fail).
  destruct (C e w1) as (m' & f & E1 & P & Hf). unfold on_arg. cbn [snd fst]. rewrite E1. exists (m ++ m'). cbn.
  split; [rewrite H1, app_assoc; reflexivity|]. rewrite Hf. apply (explained_back u (Some EOutOfBounds)); assumption.
Qed.

Lemma or_return_continues {X F} (conv : X -> ST (list event) F) (g : ST (astring * list event) (result unit X)) m s L w s' w' t :
  tells true db g m s L -> (exists p, runs_f c s (m s) (p, t)) ->
  l_or_return conv g (s, w) = (Ret Continue, (s', w')) -> rep c s' t.
Proof.
  intros T (p & s1 & E1 & R1 & _) H. destruct (T w) as (w1 & E & _). unfold l_or_return, sbind in H. rewrite E, E1 in H.
  cbn [fst snd] in *. destruct p as [[]|e]; cbn in H; [injection H as <- _; exact R1|].
  unfold on_arg in H. cbn in H. destruct (conv e w1) as [[f| | |] w2]; discriminate.
Qed.

Lemma from_loop_explained {IT A Q B} u (h : Q -> option Error) (f : outcome B -> option Error) e fuel (next : iter IT A)
    (body : A -> ST (astring * list event) (flow Q)) it ret early w :
  Jw u fine e w ->
  (forall a s t w, rep c s t -> Js u (flow_err h) (body a) (s, w)) ->
  (forall a s t w s' w', rep c s t -> body a (s, w) = (Ret Continue, (s', w')) -> exists t', rep c s' t') ->
  (forall r, f (Ret (early r)) = h r) -> (forall s, f (Ret (ret s)) = None) -> f Panic = None -> f UB = None -> f Diverge = None ->
  Jw u f (l_drop (l_from_loop e it (fun w => for_loop fuel next body it (new c, w)) ret early)) w.
Proof.
  intros (m1 & H1 & P1) Hb Hk F1 F2 F3 F4 F5. unfold l_drop, l_from_loop, J.
  destruct (e w) as [[[]| | |] w1]; cbn [fst snd] in *; [|exists m1; rewrite ?F3, ?F4, ?F5; auto..].
  destruct (loop_explained u h fuel next body Hb Hk it (new c) [] w1 (new_rep c)) as (m & H2 & P2).
  exists (m1 ++ m). destruct (for_loop fuel next body it (new c, w1)) as [[[[r|]| | |] it1] [s2 w2]]; cbn [fst snd loop_err] in *;
    rewrite ?F1, ?F2, ?F3, ?F4, ?F5; (split; [rewrite H2, H1, app_assoc; reflexivity|apply explained_front; assumption]).
Qed.

Lemma silent_conv {E} (h : E -> option Error) : (forall e, h e = Some EOutOfBounds) ->
  forall e w, exists m f, sret (S := list event) e w = (Ret f, w ++ m) /\ Forall passed m /\ h f = Some EOutOfBounds.
Proof. intros H e w. exists [], e. rewrite app_nil_r. repeat split; [constructor|apply H]. Qed.

Lemma push_keeps {F} (conv : OutOfBounds -> ST (list event) F) x s t w s' w' : rep c s t ->
  l_or_return conv (l_try_push c true db record x) (s, w) = (Ret Continue, (s', w')) -> exists t', rep c s' t'.
Proof.
  intros R H. exists (snd (t_try_push_str (cap c) [x] t)). refine (or_return_continues _ _ _ s _ w s' w' _ (push_lines c true db x s t R) _ H).
  pose proof (try_push_runs c Hc x s t R) as X. destruct (t_try_push_str (cap c) [x] t) as [p t'] eqn:Ep. exists p. exact X.
Qed.

Lemma J_try_from_chars {IT} u fuel (next : iter IT char) it w :
  Jw u (err oob) (l_drop (l_try_from_chars c true db record fuel next it)) w.
Proof.
  apply (from_loop_explained u (fun _ => Some EOutOfBounds) (err oob)); try reflexivity.
  - apply J_trace. passes.
  - intros a s t w0 R. apply or_return_explained; [apply silent_conv; reflexivity|]. exact (J_push a s t u w0 R).
  - intros a s t w0 s' w' R H. exact (push_keeps _ a s t w0 s' w' R H).
Qed.

Lemma J_try_from_iterator {IT} u fuel (next : iter IT (text * text)) it w :
  Jw u (err oob) (l_drop (l_try_from_iterator c true db record fuel (map_iter item_of_pair next) it)) w.
Proof.
  assert (X : l_drop (l_try_from_iterator c true db record fuel (map_iter item_of_pair next) it) w =
    l_drop (l_from_loop (trace true record EvTryFromIterator) it
      (fun w => for_loop fuel next (fun a => l_or_return sret (l_try_push_str c true db record (sret (enc (fst a))))) it (new c, w)) Ok Err) w).
  { unfold l_drop, l_try_from_iterator, l_from_loop. cbn. rewrite for_loop_map.
    reflexivity. }
  unfold J. rewrite X. clear X.
  apply (from_loop_explained u (fun _ => Some EOutOfBounds) (err oob)); try reflexivity.
  - apply J_trace. passes.
  - intros a s t w0 R. apply or_return_explained; [apply silent_conv; reflexivity|]. exact (J_push_str _ s t u w0 R).
  - intros a s t w0 s' w' R H. exists (snd (t_try_push_str (cap c) (fst a) t)).
    refine (or_return_continues _ _ _ s _ w0 s' w' _ (push_str_lines c true db _ (fst a) s t R (says_sret true db _)) _ H).
    pose proof (try_push_str_runs c Hc (fst a) s t R) as X. destruct (t_try_push_str (cap c) (fst a) t) as [p t'] eqn:Ep. exists p. exact X.
Qed.

Definition oob_only (e : Error) : option Error := match e with EOutOfBounds => Some EOutOfBounds | _ => None end.
Definition err_oob {A} (o : outcome (result A Error)) : option Error := match o with Ret (Err e) => oob_only e | _ => None end.

Lemma J_try_from_utf16 u us w : Jw u err_oob (l_try_from_utf16 c true db record us) w.
Proof.
  apply (from_loop_explained u oob_only err_oob); try reflexivity.
  - apply J_dbg. passes.
  - intros [a|] s t w0 R; [|apply J_nop; reflexivity]. apply or_return_explained; [|exact (J_push a s t u w0 R)].
    intros [] w1. exists [EvFromOutOfBounds], EOutOfBounds. repeat split. constructor; [passes|constructor].
  - intros [a|] s t w0 s' w' R H; [exact (push_keeps _ a s t w0 s' w' R H)|discriminate].
Qed.

(** [retain] keeps no more than there was. *)
Lemma retain_loop {F} (f : char -> ST F bool) n2 u t : forall x n1 s v l, (length t < n1)%nat -> (length t < n2)%nat ->
  rep c s v -> blen v + blen t <= cap c ->
  exists m, snd (snd (for_loop (R := Empty_set) n1 (filter_next n2 chars_iter f) (fun ch => l_or_break (l_try_push c true db record ch)) (enc t, x) (s, l)))
    = l ++ m /\ explained u None m.
Proof.
  induction t as [|a t IH]; intros x n1 s v l L1 L2 R Lv; (destruct n1 as [|n1]; [lia|]); cbn [for_loop];
    rewrite filter_next_step by exact L2; cbn [filter_step].
  { exists []. rewrite app_nil_r. split; [reflexivity|constructor]. }
  cbn [length blen] in *.
  destruct (f a x) as [[[|]| | |] x1]; try (exists []; rewrite app_nil_r; split; [reflexivity|constructor]; fail).
  - destruct (push_fine a s v u l R) as (m & H1 & H2); [lia|].
    destruct (push_lines c true db a s v R l) as (l1 & E & _). destruct (push1_fits c Hc a s v R) as (s1 & X & R1 & _); [lia|].
    rewrite X in E. cbn [fst snd] in *. rewrite E in H1. cbn [snd] in H1.
    assert (Eb : l_or_break (R := Empty_set) (l_try_push c true db record a) (s, l) = (Ret Continue, (s1, l1)))
      by (unfold l_or_break; rewrite (bind_eq _ _ _ _ _ E); reflexivity).
    rewrite Eb.
    destruct (IH x1 n1 s1 (v ++ [a]) l1) as (m' & H3 & H4); [lia|lia|exact R1|rewrite blen_app; cbn [blen]; lia|].
    exists (m ++ m'). rewrite H3, H1, app_assoc. split; [reflexivity|]. apply Forall_app. auto.
  - destruct (IH x1 (S n1) s v l) as (m' & H3 & H4); [lia|lia|exact R|lia|].
    exists m'. split; [|exact H4]. rewrite <- H3. cbn [for_loop]. rewrite filter_next_step by lia. reflexivity.
Qed.

Lemma J_retain {F} (f : char -> ST F bool) x s t u l : rep c s t ->
  Js u error_of (l_run_op c true db record (ORetain F f x)) (s, l).
Proof.
  intros R. apply J_fine.
  { cbn [l_run_op fst snd]. destruct (l_retain c true db record f x s l) as [[[r s'] x'] w']. destruct r; reflexivity. }
  cbn [l_run_op]. unfold J, l_retain. cbn [fst snd].
  destruct (says_as_str c true db s (l ++ [EvRetain])) as (l1 & E & _). rewrite (as_str_rep c s t R) in E.
  destruct (J_as_str c u s (l ++ [EvRetain])) as (m1 & H1 & P1). rewrite E in H1. cbn [snd] in H1.
  erewrite bind_eq by reflexivity. rewrite E.
  pose proof (length_le_enc t) as Le.
  destruct (retain_loop f (S (length (enc t))) u t x (S (length (enc t))) (new c) [] (l1 ++ [EvFromCharsTruncate])) as (m & H2 & P2);
    [lia|lia|apply new_rep|cbn; pose proof (rep_cap c s t R); lia|].
  exists ([EvRetain] ++ m1 ++ [EvFromCharsTruncate] ++ m). split.
  - unfold l_from_chars_truncate, l_from_loop. cbn [trace record].
    destruct (for_loop (S (length (enc t))) (filter_next (S (length (enc t))) chars_iter f)
      (fun ch => l_or_break (l_try_push c true db record ch)) (enc t, x) (new c, l1 ++ [EvFromCharsTruncate])) as [[[[[]|]| | |] [b' x']] [s2 l2]];
      cbn [fst snd] in *; rewrite H2, H1, <- !app_assoc; reflexivity.
  - constructor; [passes|]. apply Forall_app. split; [exact P1|]. constructor; [passes|exact P2].
Qed.

(** ** All calls *)
Lemma J_out {A} u (k : outcome A -> option Error) (f : A -> out) (g : ST (astring * list event) A) p :
  (forall o, k o = error_of (omap f o)) -> Js u k g p -> Js u error_of (l_out f g) p.
Proof. intros H G. refine (J_map _ u k error_of f g p _ G). apply H. Qed.

Lemma J_part u (g : ST (astring * list event) (result astring Error)) p :
  Js u (err itself) g p -> Js u error_of (r <~ g ;; slift (part_out c r)) p.
Proof.
  intros (m & H1 & H2). exists m. unfold sbind, slift. destruct (g p) as [[[a|e]| | |] q]; cbn [fst snd err] in *; auto.
  split; [exact H1|]. unfold part_out. destruct (as_str c a); exact H2.
Qed.

Lemma J_write u b s t w : rep c s t ->
  Js u error_of (l_out (fun r => RFmt (is_ok r)) (l_write_str c true db record b)) (s, w).
Proof.
  intros R. apply (J_out u (err oob)); [intros [[]| | |]; reflexivity|].
  refine (J_map _ u (err oob) (err oob) (map_err (fun _ => mkFmtError)) _ _ _ (J_push_str b s t u w R)).
  destruct (fst _) as [[]| | |]; reflexivity.
Qed.

Lemma J_op o s t l : rep c s t -> ends_at_failure o = true -> Js t error_of (l_run_op c true db record o) (s, l).
Proof.
  intros R Ho.
  assert (Q : forall A (f : A -> out) (g : ST (astring * list event) A), (forall a, error_of (Ret (f a)) = None) -> Js t fine g (s, l) ->
    Js t error_of (l_out f g) (s, l)) by (intros A f g H; apply J_out; intros [a| | |]; [symmetry; apply H|reflexivity..]).
  destruct o; try discriminate; cbn [l_run_op].
  - apply (J_out t (err oob)); [intros [[]| | |]; reflexivity|]. exact (J_push_str _ s t t l R).
  - apply Q; [reflexivity|]. exact (J_push_str_truncate w s t t l R).
  - apply (J_out t (err oob)); [intros [[]| | |]; reflexivity|]. exact (J_push _ s t t l R).
  - apply (J_out t (err utf8)); [intros [[]| | |]; reflexivity|]. exact (J_truncate _ s t l R).
  - apply Q; [reflexivity|]. apply J_pop.
  - apply Q; [reflexivity|]. exact (J_trim s t t l R).
  - apply (J_out t (err itself)); [intros [[]| | |]; reflexivity|]. exact (J_remove _ s t l R).
  - exact (J_retain f x s t t l R).
  - apply (J_out t (err itself)); [intros [[]| | |]; reflexivity|]. exact (J_insert _ _ s t l R).
  - apply (J_out t (err itself)); [intros [[]| | |]; reflexivity|]. exact (J_insert_str _ _ s t l R).
  - apply (J_out t (err itself)); [intros [[]| | |]; reflexivity|]. exact (J_insert_str_truncate _ _ s t l R).
  - apply Q; [reflexivity|]. apply J_clear.
  - apply J_part, J_drain, R.
  - apply J_part, J_split_off, R.
  - apply (J_out t (err itself)); [intros [[]| | |]; reflexivity|]. exact (J_replace_range c db t _ _ _ s l R).
  - destruct (J_push_str_truncate w s t t l R) as (m & H1 & H2). exists m. unfold l_add. cbn [fst snd].
    destruct (l_push_str_truncate c true db record (sret (enc w)) (s, l)) as [[a| | |] [s1 l1]]; cbn [fst snd omap] in *; auto.
  - exact (J_write t _ s t l R).
  - rewrite encode_utf8_4. exact (J_write t _ s t l R).
  - apply Q; [reflexivity|]. apply J_fine_bind.
    + apply J_fine_bind; [apply J_seen, J_as_mut_str|]. intros b p1 _. apply J_fine_bind; [apply J_slift|].
      intros [a e] p2 _. apply J_sret.
    + intros p p1 _. destruct (_ =? _); [apply J_self|apply J_sret].
  - apply Q; [reflexivity|]. apply J_fine_bind; [apply J_seen, J_as_mut|]. intros. apply J_self.
  - apply Q; [reflexivity|]. apply J_fine_bind; [apply J_seen, J_as_mut|]. intros. apply J_self.
  - apply Q; [reflexivity|]. apply J_seen, J_len.
  - apply Q; [reflexivity|]. apply J_seen, J_fine_bind; [apply J_as_ref_str|]. intros. apply J_sret.
  - apply J_nop; reflexivity.
  - apply Q; [reflexivity|]. apply J_seen, J_as_str.
  - apply Q; [reflexivity|]. apply J_seen, J_fine_bind; [apply J_as_str|]. intros. apply J_sret.
  - apply J_seen. cbn [fst snd]. apply J_bind; try reflexivity; [apply J_as_str|]. intros b w1 _. apply J_nop; [reflexivity|].
    cbn [fst slift]. destruct (write_one_str buffer b []) as [[]]; reflexivity.
  - apply Q; [reflexivity|]. apply J_seen, J_fine_bind; [apply J_as_str|]. intros. apply J_slift.
Qed.

Lemma J_build k l : ends_at_failure_new k = true -> Jw [] err_oob (l_build c true db record k) l.
Proof.
  intros Hk. destruct k; try discriminate; cbn [l_build]; try (apply J_nop; reflexivity).
  all: try (refine (J_map lg [] (err oob) err_oob (map_err from_oob) _ l _ _);
    [destruct (fst _) as [[|[]]| | |]; reflexivity|first [apply J_try_from_str|apply J_try_from_iterator|apply J_try_from_chars]]; fail).
  - refine (J_map lg [] fine err_oob Ok _ l _ (J_from_str_truncate w [] l)). destruct (fst _); reflexivity.
  - refine (J_map lg [] fine err_oob Ok _ l _ (J_from_str_truncate w [] l)). destruct (fst _); reflexivity.
  - apply J_try_from_utf16.
Qed.
End Calls.
