(** Everything the calls tell the logger (feature logs). Statements only: the proofs are the lemmas of ClaimsLogStory.v. *)
From Verif Require Import Base Char Spec RustStd RustIter RustOrd ModelError Model ModelArgs RustFmt SpecFmt ModelImpl ModelDrain ModelCache
  ModelIntegration Layout TextOps SpecOps ModelOps ModelCacheOps StringSpec TestSuite IterSpec Obs ObsCache Cases ModelLogs ObsLogs CasesLogs ModelLogsRest ObsLogStory
  ClaimsLogStory.

(** With any levels on and a logger that keeps the messages, a call answers as on texts, and without "Len" and "As str" the messages it adds to the log are those of its story that have a level that is on: what the call is and what it was given, each edit, each check up to the first that fails, and the error that check turns into. *)
Theorem C77_call : forall (c : cfg) (tr db : bool) (o : op) (s : astring) (t : text) (l : list event),
  valid_cfg c -> shows c s t -> typed_op o ->
  exists s' l', l_run_op c tr db record o (s, l) = (fst (t_op (usize_max c) (cap c) o t), (s', l')) /\
    shows c s' (snd (t_op (usize_max c) (cap c) o t)) /\
    story_grew tr db l (story (cap c) (usize_max c) s o t) l'.
Proof. exact (@c77_call). Qed.
Print Assumptions C77_call.
Example C77_call_case :
  story 5 65535 s_he (ODrain (Included 1) (Excluded 3)) [h_; e_] =
    [EvDrain 3 1 3; EvInside 1 3; EvInside 3 3; EvBoundary [104; 195; 169] 1; EvBoundary [104; 195; 169] 3;
     EvTryFromStr [195; 169]; EvPushStr [195; 169]; EvReplace 0 0 0 2 [195; 169]; EvInside 0 0; EvInside 0 0; EvInside 2 5;
     EvBoundary [] 0; EvBoundary [] 0; EvInside 2 5;
     EvReplace 3 1 3 0 []; EvInside 1 3; EvInside 3 3; EvInside 0 5; EvBoundary [104; 195; 169] 1; EvBoundary [104; 195; 169] 3;
     EvInside 1 5] /\
  story 5 65535 s_he (ODrain (Included 1) (Excluded 2)) [h_; e_] =
    [EvDrain 3 1 2; EvInside 1 2; EvInside 2 3; EvBoundary [104; 195; 169] 1; EvBoundary [104; 195; 169] 2; EvFromUtf8] /\
  fst (l_run_op c5r true true record (ODrain (Included 1) (Excluded 2)) (s_he, [])) = Ret (RPart (Err EUtf8)).
Proof. solve_case. Qed.
Example C77_call_case2 :
  l_run_op c5r true true record (OTryPushStr [e_; e_]) (s_he, [EvClear]) =
    (Ret (ROob (Err mkOutOfBounds)), (s_he, [EvClear] ++ [EvPushStr [195; 169; 195; 169]; EvLen; EvLen;
       EvReplace 3 3 3 4 [195; 169; 195; 169]; EvInside 3 3; EvLen; EvInside 3 3; EvInside 4 5; EvAsStr; EvLen;
       EvBoundary [104; 195; 169] 3; EvAsStr; EvLen; EvAsStr; EvLen; EvBoundary [104; 195; 169] 3; EvAsStr; EvLen; EvLen;
       EvInside 7 5; EvFromOutOfBounds])) /\
  story_grew true true [EvClear] (story 5 65535 s_he (OTryPushStr [e_; e_]) [h_; e_])
    ([EvClear] ++ [EvPushStr [195; 169; 195; 169]; EvLen; EvLen;
       EvReplace 3 3 3 4 [195; 169; 195; 169]; EvInside 3 3; EvLen; EvInside 3 3; EvInside 4 5; EvAsStr; EvLen;
       EvBoundary [104; 195; 169] 3; EvAsStr; EvLen; EvAsStr; EvLen; EvBoundary [104; 195; 169] 3; EvAsStr; EvLen; EvLen;
       EvInside 7 5; EvFromOutOfBounds]).
Proof.
  split; [vm_compute; reflexivity|]. eexists. split; [reflexivity|]. split; [repeat constructor|vm_compute; reflexivity].
Qed.
Example C77_call_case3 :
  ~ story_grew true true [] (story 5 65535 s_he OClear [h_; e_]) [] /\ ~ story_grew false true [] [EvClear] [EvClear] /\
  ~ story_grew true true [] [EvPop; EvClear] [EvClear; EvPop] /\ story_grew false true [EvPop] [EvClear] [EvPop].
Proof.
  split; [|split; [|split]].
  - intros (m & E & _ & H). cbn in E. subst m. discriminate.
  - intros (m & E & H & _). cbn in E. subst m. inversion H. discriminate.
  - intros (m & E & _ & H). cbn in E. subst m. discriminate.
  - exists []. repeat split. constructor.
Qed.

(** So for every history of calls: the log is that of the calls one after the other, each with its story. *)
Theorem C77_history : forall (c : cfg) (tr db : bool) (h : list op) (s : astring) (t : text) (l : list event),
  valid_cfg c -> shows c s t -> Forall typed_op h ->
  exists s' m, l_run_ops c tr db record h s l = (fst (t_ops (usize_max c) (cap c) h t), s', l ++ m) /\
    shows c s' (snd (t_ops (usize_max c) (cap c) h t)) /\
    history_told c tr db h t m.
Proof. exact (@c77_history). Qed.
Print Assumptions C77_history.
Example C77_history_case :
  l_run_ops c5r true true record [OTruncate 2; OPop] s_he [EvClear] =
    ([Ret (RUtf8 (Err mkUtf8)); Ret (ROptChar (Some e_))], mkastring [104; 195; 169; 7; 9] 1,
     [EvClear] ++ [EvTruncate 2; EvLen; EvAsStr; EvLen; EvBoundary [104; 195; 169] 2; EvAsStr; EvLen] ++ [EvPop; EvAsStr; EvLen]) /\
  story 5 65535 s_he (OTruncate 2) [h_; e_] = [EvTruncate 2; EvBoundary [104; 195; 169] 2] /\
  story 5 65535 s_he OPop [h_; e_] = [EvPop].
Proof. solve_case. Qed.

(** And for every constructor. *)
Theorem C77_build : forall (c : cfg) (tr db : bool) (k : ctor) (l : list event),
  valid_cfg c -> typed_ctor k ->
  exists l', l_build c tr db record k l = (build c k, l') /\ story_grew tr db l (build_story (cap c) k) l'.
Proof. exact (@c77_build). Qed.
Print Assumptions C77_build.
Example C77_build_case :
  build_story 5 (CTryFromUtf16 [233; 233; 233; 104]) =
    [EvUtf16 false [233; 233; 233; 104]; EvPush e_; EvPushStr [195; 169]; EvReplace 0 0 0 2 [195; 169];
     EvInside 0 0; EvInside 0 0; EvInside 2 5; EvBoundary [] 0; EvBoundary [] 0; EvInside 2 5; EvPush e_;
     EvPushStr [195; 169]; EvReplace 2 2 2 2 [195; 169]; EvInside 2 2; EvInside 2 2; EvInside 2 5; EvBoundary [195; 169] 2;
     EvBoundary [195; 169] 2; EvInside 4 5; EvPush e_; EvPushStr [195; 169]; EvReplace 4 4 4 2 [195; 169];
     EvInside 4 4; EvInside 4 4; EvInside 2 5; EvBoundary [195; 169; 195; 169] 4; EvBoundary [195; 169; 195; 169] 4; EvInside 6 5;
     EvFromOutOfBounds; EvFromOutOfBounds] /\
  fst (l_build c5 true true record (CTryFromUtf16 [233; 233; 233; 104]) []) = Ret (Err EOutOfBounds) /\
  build_story 5 (CFrom [e_; e_; e_]) =
    [EvFromStrTruncate [195; 169; 195; 169; 195; 169]; EvPushStrTruncate [195; 169; 195; 169; 195; 169];
     EvTruncateStr [195; 169; 195; 169; 195; 169] 5; EvPushStr [195; 169; 195; 169]; EvReplace 0 0 0 4 [195; 169; 195; 169];
     EvInside 0 0; EvInside 0 0; EvInside 4 5; EvBoundary [] 0; EvBoundary [] 0; EvInside 4 5].
Proof. solve_case. Qed.

(** The log without "Len" and "As str" does not depend on the debug assertions. *)
Theorem C77_builds : forall (c1 c2 : cfg) (tr db : bool) (o : op) (s : astring) (t : text) (l : list event),
  valid_cfg c1 -> usize_max c1 = usize_max c2 -> cap c1 = cap c2 -> shows c1 s t -> typed_op o ->
  exists r s1 s2 m1 m2, l_run_op c1 tr db record o (s, l) = (r, (s1, l ++ m1)) /\
    l_run_op c2 tr db record o (s, l) = (r, (s2, l ++ m2)) /\ filter speaks m1 = filter speaks m2.
Proof. exact (@c77_builds). Qed.
Print Assumptions C77_builds.
Example C77_builds_case :
  usize_max c5 = usize_max c5r /\ cap c5 = cap c5r /\ debug c5 <> debug c5r /\
  snd (snd (l_run_op c5 true true record (OTruncate 2) (s_he, []))) =
    [EvTruncate 2; EvLen; EvAsStr; EvLen; EvLen; EvLen; EvLen; EvBoundary [104; 195; 169] 2; EvAsStr; EvLen; EvLen; EvLen; EvLen] /\
  snd (snd (l_run_op c5r true true record (OTruncate 2) (s_he, []))) =
    [EvTruncate 2; EvLen; EvAsStr; EvLen; EvBoundary [104; 195; 169] 2; EvAsStr; EvLen].
Proof. split; [reflexivity|]. split; [reflexivity|]. split; [discriminate|]. split; vm_compute; reflexivity. Qed.

(** The same for histories of calls on a [CacheString]. *)
Theorem C77_cache : forall (c0 : cfg) (tr db : bool) (h : list op) (s : CacheString) (t : text) (l : list event),
  valid_cfg c0 -> cache_shows c0 s t -> Forall typed_op h ->
  exists s' m, l_cache_run_ops c0 tr db record h s l = (fst (t_ops (usize_max c0) 63 h t), s', l ++ m) /\
    cache_shows c0 s' (snd (t_ops (usize_max c0) 63 h t)) /\
    history_told (c63 c0) tr db h t m.
Proof. exact (@c77_cache). Qed.
Print Assumptions C77_cache.
Example C77_cache_case :
  filter speaks (snd (l_cache_run_ops c5r true false record [OTryPush e_] k_he [])) =
    [EvPush e_; EvPushStr [195; 169]; EvInside 3 3; EvInside 3 3; EvInside 2 63; EvBoundary [104; 195; 169] 3;
     EvBoundary [104; 195; 169] 3; EvInside 5 63] /\
  filter (level_on true false) (story 63 65535 s_he (OTryPush e_) [h_; e_]) =
    filter speaks (snd (l_cache_run_ops c5r true false record [OTryPush e_] k_he [])).
Proof. solve_case. Qed.

(** And for its constructors. *)
Theorem C77_cache_build : forall (c0 : cfg) (tr db : bool) (k : ctor) (l : list event),
  valid_cfg c0 -> typed_ctor k ->
  exists l', l_cache_build c0 tr db record k l = (cache_build c0 k, l') /\ story_grew tr db l (build_story 63 k) l'.
Proof. exact (@c77_cache_build). Qed.
Print Assumptions C77_cache_build.
Example C77_cache_build_case :
  filter speaks (snd (l_cache_build c5r true false record (CTryFromStr [h_]) [])) =
    [EvTryFromStr [104]; EvPushStr [104]; EvInside 0 0; EvInside 0 0; EvInside 1 63; EvBoundary [] 0; EvBoundary [] 0; EvInside 1 63] /\
  filter (level_on true false) (build_story 63 (CTryFromStr [h_])) =
    filter speaks (snd (l_cache_build c5r true false record (CTryFromStr [h_]) [])).
Proof. solve_case. Qed.
