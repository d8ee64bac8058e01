(** The log tells why a call failed (feature logs). Statements only: the proofs are the lemmas of ClaimsLogWhy.v. *)
From Verif Require Import Base Char Spec RustStd RustIter RustOrd ModelError Model ModelArgs RustFmt SpecFmt ModelImpl ModelDrain ModelCache
  ModelIntegration Layout TextOps SpecOps ModelOps ModelCacheOps StringSpec TestSuite IterSpec Obs ObsCache Cases ModelLogs ObsLogs CasesLogs ModelLogsRest ObsLogWhy
  ClaimsLogWhy.

(** With the level trace on and a logger that keeps the messages, a call that ends at the first failure answers as on texts, and the messages it adds to the log explain the answer: if it is an error, exactly one of the checks logged does not hold, and it stands for that error; otherwise all of them hold. *)
Theorem C76_call : forall (c : cfg) (db : bool) (o : op) (s : astring) (t : text) (l : list event),
  valid_cfg c -> shows c s t -> typed_op o -> ends_at_failure o = true ->
  exists s' m, l_run_op c true db record o (s, l) = (fst (t_op (usize_max c) (cap c) o t), (s', l ++ m)) /\
    shows c s' (snd (t_op (usize_max c) (cap c) o t)) /\
    explained t (error_of (fst (t_op (usize_max c) (cap c) o t))) m.
Proof. exact (@c76_call). Qed.
Print Assumptions C76_call.
Example C76_call_case :
  l_run_op c5r true true record (OTryPushStr [e_; e_]) (s_he, [EvClear]) =
    (Ret (ROob (Err mkOutOfBounds)), (s_he, [EvClear] ++ [EvPushStr [195; 169; 195; 169]; EvLen; EvLen;
       EvReplace 3 3 3 4 [195; 169; 195; 169]; EvInside 3 3; EvLen; EvInside 3 3; EvInside 4 5; EvAsStr; EvLen;
       EvBoundary [104; 195; 169] 3; EvAsStr; EvLen; EvAsStr; EvLen; EvBoundary [104; 195; 169] 3; EvAsStr; EvLen; EvLen;
       EvInside 7 5; EvFromOutOfBounds])) /\
  error_of (fst (t_op 65535 5 (OTryPushStr [e_; e_]) [h_; e_])) = Some EOutOfBounds /\
  refused [h_; e_] (EvInside 7 5) EOutOfBounds /\ passed (EvInside 3 3) /\ passed (EvBoundary [104; 195; 169] 3).
Proof.
  split; [vm_compute; reflexivity|]. split; [vm_compute; reflexivity|]. split; [constructor; reflexivity|]. split.
  - intros t x H. inversion H. discriminate.
  - intros t x H. inversion H; subst.
    match goal with K : enc _ = _ |- _ => change [104; 195; 169] with (enc [h_; e_]) in K; apply Utf8Facts.enc_inj in K; subst end.
    match goal with K : ~ boundary _ _ |- _ => apply K end. solve_case.
Qed.
Example C76_call_case2 :
  l_run_op c5r true false record (ODrain (Included 1) (Excluded 2)) (s_he, []) =
    (Ret (RPart (Err EUtf8)), (s_he, [EvInside 1 2; EvLen; EvInside 2 3; EvAsStr; EvLen; EvBoundary [104; 195; 169] 1;
       EvAsStr; EvLen; EvAsStr; EvLen] ++ EvBoundary [104; 195; 169] 2 :: [EvAsStr; EvLen; EvFromUtf8])) /\
  error_of (fst (t_op 65535 5 (ODrain (Included 1) (Excluded 2)) [h_; e_])) = Some EUtf8 /\
  refused [h_; e_] (EvBoundary [104; 195; 169] 2) EUtf8.
Proof.
  split; [vm_compute; reflexivity|]. split; [vm_compute; reflexivity|].
  change [104; 195; 169] with (enc [h_; e_]). constructor. solve_case.
Qed.
Example C76_call_case3 :
  ~ explained [h_] (Some EUtf8) [EvLen; EvInside 2 1] /\ ~ explained [h_] (Some EOutOfBounds) [EvInside 2 2; EvFromOutOfBounds] /\
  ~ explained [h_] None [EvInside 2 1] /\ ~ explained [h_] (Some EOutOfBounds) [EvInside 2 1; EvInside 5 4].
Proof.
  split; [|split; [|split]].
  - intros (b & e & a & E & R & _). inversion R; subst. destruct b as [|x [|y [|z b]]]; discriminate.
  - intros (b & e & a & E & R & _). inversion R; subst. destruct b as [|x [|y [|z b]]]; inversion E; subst; discriminate.
  - intros H. apply Forall_inv in H. apply (H [] EOutOfBounds). constructor. reflexivity.
  - intros (b & e & a & E & R & B & A). destruct b as [|x b].
    + injection E as <- <-. apply Forall_inv in A. apply (A [] EOutOfBounds). constructor. reflexivity.
    + injection E as <- _. apply Forall_inv in B. apply (B [] EOutOfBounds). constructor. reflexivity.
Qed.

(** So for every history of calls: the log is that of the calls one after the other, each explained as far as it ends at the first failure. *)
Theorem C76_history : forall (c : cfg) (db : bool) (h : list op) (s : astring) (t : text) (l : list event),
  valid_cfg c -> shows c s t -> Forall typed_op h ->
  exists s' m, l_run_ops c true db record h s l = (fst (t_ops (usize_max c) (cap c) h t), s', l ++ m) /\
    shows c s' (snd (t_ops (usize_max c) (cap c) h t)) /\
    history_explained (usize_max c) (cap c) h t m.
Proof. exact (@c76_history). Qed.
Print Assumptions C76_history.
Example C76_history_case :
  l_run_ops c5r true false record [OTruncate 2; OPop] s_he [] =
    ([Ret (RUtf8 (Err mkUtf8)); Ret (ROptChar (Some e_))], mkastring [104; 195; 169; 7; 9] 1,
     [EvLen; EvAsStr; EvLen; EvBoundary [104; 195; 169] 2; EvAsStr; EvLen] ++ [EvAsStr; EvLen]) /\
  history_explained 65535 5 [OTruncate 2; OPop] [h_; e_]
    [EvLen; EvAsStr; EvLen; EvBoundary [104; 195; 169] 2; EvAsStr; EvLen; EvAsStr; EvLen].
Proof.
  split; [vm_compute; reflexivity|].
  exists [EvLen; EvAsStr; EvLen; EvBoundary [104; 195; 169] 2; EvAsStr; EvLen], [EvAsStr; EvLen].
  split; [reflexivity|]. split.
  - intros _. exists [EvLen; EvAsStr; EvLen], (EvBoundary (enc [h_; e_]) 2), [EvAsStr; EvLen].
    split; [reflexivity|]. split; [constructor; solve_case|]. split; repeat constructor; intros ? ? H; inversion H.
  - exists [EvAsStr; EvLen], []. split; [reflexivity|]. split; [|reflexivity].
    intros _. repeat constructor; intros ? ? H; inversion H.
Qed.

(** And for every constructor that ends at the first failure; a lone surrogate is not a check and leaves no trace. *)
Theorem C76_build : forall (c : cfg) (db : bool) (k : ctor) (l : list event),
  valid_cfg c -> typed_ctor k -> ends_at_failure_new k = true ->
  exists m, l_build c true db record k l = (build c k, l ++ m) /\ explained [] (error_of_new (t_ctor (cap c) k)) m.
Proof. exact (@c76_build). Qed.
Print Assumptions C76_build.
Example C76_build_case :
  l_build c5r true false record (CTryFromStr [e_; e_; e_]) [] =
    (Ret (Err EOutOfBounds), [EvTryFromStr [195; 169; 195; 169; 195; 169]; EvPushStr [195; 169; 195; 169; 195; 169]; EvLen;
       EvInside 0 0; EvLen; EvInside 0 0] ++ EvInside 6 5 :: [EvFromOutOfBounds]) /\
  error_of_new (t_ctor 5 (CTryFromStr [e_; e_; e_])) = Some EOutOfBounds.
Proof. solve_case. Qed.
Example C76_build_case2 :
  t_ctor 5 (CTryFromUtf16 [104; 55296]) = Ret (Err EUtf16) /\ error_of_new (Ret (Err EUtf16)) = None /\
  snd (l_build c5r false true record (CTryFromUtf16 [104; 55296]) []) = [EvUtf16 false [104; 55296]; EvReplace 0 0 0 1 [104]].
Proof. solve_case. Qed.

(** The same for histories of calls on a [CacheString]. *)
Theorem C76_cache : forall (c0 : cfg) (db : bool) (h : list op) (s : CacheString) (t : text) (l : list event),
  valid_cfg c0 -> cache_shows c0 s t -> Forall typed_op h ->
  exists s' m, l_cache_run_ops c0 true db record h s l = (fst (t_ops (usize_max c0) 63 h t), s', l ++ m) /\
    cache_shows c0 s' (snd (t_ops (usize_max c0) 63 h t)) /\
    history_explained (usize_max c0) 63 h t m.
Proof. exact (@c76_cache). Qed.
Print Assumptions C76_cache.
Example C76_cache_case :
  l_cache_run_ops c5r true false record [OTruncate 2] k_he [] =
    ([Ret (RUtf8 (Err mkUtf8))], k_he, [EvLen; EvAsStr; EvLen; EvBoundary [104; 195; 169] 2; EvAsStr; EvLen]) /\
  refused [h_; e_] (EvBoundary [104; 195; 169] 2) EUtf8.
Proof. split; [vm_compute; reflexivity|]. change [104; 195; 169] with (enc [h_; e_]). constructor. solve_case. Qed.

(** And for its constructors. *)
Theorem C76_cache_build : forall (c0 : cfg) (db : bool) (k : ctor) (l : list event),
  valid_cfg c0 -> typed_ctor k -> ends_at_failure_new k = true ->
  exists m, l_cache_build c0 true db record k l = (cache_build c0 k, l ++ m) /\ explained [] (error_of_new (t_ctor 63 k)) m.
Proof. exact (@c76_cache_build). Qed.
Print Assumptions C76_cache_build.
Example C76_cache_build_case :
  error_of_new (t_ctor 63 (CTryFromStr (repeat e_ 32))) = Some EOutOfBounds /\
  filter (fun e => match e with EvInside _ _ => true | _ => false end)
    (snd (l_cache_build c5r true false record (CTryFromStr (repeat e_ 32)) [])) = [EvInside 0 0; EvInside 0 0; EvInside 64 63].
Proof. solve_case. Qed.
