(** The whole log of a program with several strings (feature logs). Statements only: the proofs are the lemmas of ClaimsLogProgLines.v, ClaimsLogProgStory.v, ClaimsLogProgState.v. *)
From Verif Require Import Base Char Spec RustStd RustIter RustOrd ModelError Model ModelArgs RustFmt SpecFmt ModelImpl ModelDrain ModelCache
  ModelIntegration Layout TextOps SpecOps ModelOps ModelCacheOps StringSpec TestSuite IterSpec Obs ObsCache Cases SpecProg ModelProg ObsProg ModelLogs ObsLogs ObsLogProg CasesLogs ObsLogProgLines
  ClaimsLogProgLines ClaimsLogProgStory ClaimsLogProgState.

(** The debug messages of a program are those of its commands in turn, each computed from the texts the variables then have. While an iterator is read, one "remove" and one edit of the iterator and one edit of the new string come in turn for each character, until none is left or one has no room; the collected text is then pushed at once. *)
Theorem C79_log : forall (c : cfg) (tr db : bool) (l : list cmd) (v : list var) (u : list tvar)
    (w : list event),
  65535 <= usize_max c -> Forall typed_cmd l -> world_shows c v u ->
  exists v' w', l_run_cmds c tr db record l v w = (fst (t_cmds (usize_max c) l u), v', w') /\
    world_shows c v' (snd (t_cmds (usize_max c) l u)) /\
    log_grew tr db w (program_lines (usize_max c) l u) w'.
Proof. exact (@c79_log). Qed.
Print Assumptions C79_log.
Example C79_log_case :
  snd (l_run_cmds c5 false true record
    [PMake 5 (CFrom [h_; e_]); PDrain 0 (Included 0) Unbounded; PMake 2 CNew; PExtend 2 1; PNext 1 true; PFrom 4 2; PWith 0 APushTruncate 2] [] []) =
    [EvReplace 0 0 0 3 [104; 195; 169];
     EvDrain 3 0 3; EvReplace 0 0 0 3 [104; 195; 169]; EvReplace 3 0 3 0 [];
     EvRemove 0; EvReplace 3 0 1 0 []; EvReplace 0 0 0 1 [104];
     EvRemove 0; EvReplace 2 0 2 0 []; EvReplace 1 1 1 2 [195; 169]; EvReplace 0 0 0 1 [104];
     EvRemove 0; EvReplace 0 0 0 1 [104]; EvReplace 0 0 0 1 [104]] /\
  program_lines 65535
    [PMake 5 (CFrom [h_; e_]); PDrain 0 (Included 0) Unbounded; PMake 2 CNew; PExtend 2 1; PNext 1 true; PFrom 4 2; PWith 0 APushTruncate 2] [] =
    [EvReplace 0 0 0 3 [104; 195; 169];
     EvDrain 3 0 3; EvReplace 0 0 0 3 [104; 195; 169]; EvReplace 3 0 3 0 [];
     EvRemove 0; EvReplace 3 0 1 0 []; EvReplace 0 0 0 1 [104];
     EvRemove 0; EvReplace 2 0 2 0 []; EvReplace 1 1 1 2 [195; 169]; EvReplace 0 0 0 1 [104];
     EvRemove 0; EvReplace 0 0 0 1 [104]; EvReplace 0 0 0 1 [104]].
Proof. split; vm_compute; reflexivity. Qed.
Example C79_log_case2 :
  ~ log_grew true true [] [EvPop] [EvPop; EvPop] /\ ~ log_grew true true [] [EvPop] [EvLen] /\ log_grew true true [] [EvPop] [EvLen; EvPop; EvLen] /\
  ~ log_grew false true [] [EvPop] [EvLen; EvPop].
Proof.
  split; [intros (m & E & H & _); cbn in E; subst m; discriminate H|]. split; [intros (m & E & H & _); cbn in E; subst m; discriminate H|].
  split; [exists [EvLen; EvPop; EvLen]; repeat split; discriminate|intros (m & E & _ & H); cbn in E; subst m; discriminate (H eq_refl)].
Qed.

(** If only level debug is on, the whole log of a program that starts without variables is known, and it is the same in debug and in release builds. *)
Theorem C79_builds : forall (c1 c2 : cfg) (l : list cmd),
  65535 <= usize_max c1 -> usize_max c1 = usize_max c2 -> Forall typed_cmd l ->
  snd (l_run_cmds c1 false true record l [] []) = program_lines (usize_max c1) l [] /\
  snd (l_run_cmds c2 false true record l [] []) = program_lines (usize_max c1) l [].
Proof. exact (@c79_builds). Qed.
Print Assumptions C79_builds.
Example C79_builds_case :
  snd (l_run_cmds c5 false true record [PMake 3 (CFrom [h_; e_]); PSplit 0 1; PSplit 0 9; PCopy 1; PEq 1 2; PSwap 0 1] [] []) =
    snd (l_run_cmds c5r false true record [PMake 3 (CFrom [h_; e_]); PSplit 0 1; PSplit 0 9; PCopy 1; PEq 1 2; PSwap 0 1] [] []) /\
  program_lines 65535 [PMake 3 (CFrom [h_; e_]); PSplit 0 1; PSplit 0 9; PCopy 1; PEq 1 2; PSwap 0 1] [] =
    [EvReplace 0 0 0 3 [104; 195; 169];
     EvSplitOff; EvDrain 3 1 3; EvReplace 0 0 0 2 [195; 169]; EvReplace 3 1 3 0 [];
     EvSplitOff; EvDrain 1 9 1] /\
  snd (l_run_cmds c5 true true record [PMake 3 (CFrom [h_])] [] []) <> snd (l_run_cmds c5r true true record [PMake 3 (CFrom [h_])] [] []).
Proof. split; [vm_compute; reflexivity|]. split; [vm_compute; reflexivity|]. vm_compute. discriminate. Qed.

(** All messages of a command but "Len" and "As str" are known, at both levels, in order and with the arguments, also the checks behind each character taken from an iterator and the failed check that ends it. *)
Theorem C79_command : forall (c : cfg) (tr db : bool) (p : cmd) (v : list var) (u : list tvar) (w : list event),
  65535 <= usize_max c -> typed_cmd p -> world_shows c v u ->
  exists v' w', l_run_cmd c tr db record p v w = (fst (t_cmd (usize_max c) p u), v', w') /\
    world_shows c v' (snd (t_cmd (usize_max c) p u)) /\
    story_grew tr db w (cmd_story (usize_max c) p v u) w'.
Proof. exact (@c79_command). Qed.
Print Assumptions C79_command.
Example C79_command_case :
  world_shows c5 [VStr 5 s_he; VDrain 5 (mkDrain s_full)] [mktvar false 5 [h_; e_]; mktvar true 5 [euro; e_]] /\
  filter speaks (snd (l_run_cmd c5 true true record (PExtend 0 1) [VStr 5 s_he; VDrain 5 (mkDrain s_full)] [])) =
    cmd_story 65535 (PExtend 0 1) [VStr 5 s_he; VDrain 5 (mkDrain s_full)] [mktvar false 5 [h_; e_]; mktvar true 5 [euro; e_]] /\
  List.firstn 13 (cmd_story 65535 (PExtend 0 1) [VStr 5 s_he; VDrain 5 (mkDrain s_full)] [mktvar false 5 [h_; e_]; mktvar true 5 [euro; e_]]) =
    [EvFromCharsTruncate; EvRemove 0; EvInside 1 5; EvBoundary [226; 130; 172; 195; 169] 0; EvReplace 5 0 3 0 [];
     EvInside 0 3; EvInside 3 5; EvInside 0 5; EvBoundary [226; 130; 172; 195; 169] 0; EvBoundary [226; 130; 172; 195; 169] 3;
     EvInside 2 5; EvPush euro; EvPushStr [226; 130; 172]].
Proof.
  split; [|split; vm_compute; reflexivity].
  repeat (constructor; [split; [split; discriminate | cbn; split; [reflexivity | split; [reflexivity | solve_case]]]|]); constructor.
Qed.
Example C79_command_case2 :
  snd (l_run_cmd c5 true false record (PNext 0 true) [VDrain 5 (mkDrain (mkastring [7; 7; 7; 7; 7] 0))] [EvPop]) =
    [EvPop; EvLen; EvInside 1 0; EvFromOutOfBounds] /\
  story_grew true false [EvPop] (cmd_story 65535 (PNext 0 true) [VDrain 5 (mkDrain (mkastring [7; 7; 7; 7; 7] 0))] [mktvar true 5 []])
    [EvPop; EvLen; EvInside 1 0; EvFromOutOfBounds].
Proof.
  split; [vm_compute; reflexivity|]. exists [EvLen; EvInside 1 0; EvFromOutOfBounds]. repeat split; repeat constructor.
Qed.

(** So the log of every program is that of its commands one after the other, each on variables that show the texts at that time. *)
Theorem C79_story : forall (c : cfg) (tr db : bool) (l : list cmd) (v : list var) (u : list tvar)
    (w : list event),
  65535 <= usize_max c -> Forall typed_cmd l -> world_shows c v u ->
  exists v' m, l_run_cmds c tr db record l v w = (fst (t_cmds (usize_max c) l u), v', w ++ m) /\
    world_shows c v' (snd (t_cmds (usize_max c) l u)) /\
    program_told c tr db l u m.
Proof. exact (@c79_story). Qed.
Print Assumptions C79_story.
Example C79_story_case :
  List.filter speaks (snd (l_run_cmds c5 true true record [PMake 2 (CFrom [h_]); PCall 0 (OTryInsert 1 h_); PDrain 0 (Included 0) (Excluded 1); PNext 1 false] [] [])) =
    build_story 2 (CFrom [h_]) ++
    (EvTryInsertStr 1 [104] (mkastring [104; 0] 1) :: EvInside 1 1 :: edit_story 2 [h_] 1 1 [h_]) ++
    (EvDrain 2 0 1 :: EvInside 0 1 :: EvInside 1 2 :: EvBoundary [104; 104] 0 :: EvBoundary [104; 104] 1 ::
     EvTryFromStr [104] :: push_story 2 [] [h_] ++ edit_story 2 [h_; h_] 0 1 []) ++ [EvPop].
Proof. vm_compute. reflexivity. Qed.

(** A logger that returns from every enabled message gets, whatever it keeps, the very messages that the recording logger keeps: a program ends in the logger's state that these messages lead to, with the same answers and variables. Here the logger counts. *)
Theorem C79_state : forall (c : cfg) (tr db : bool) (W : Type) (log : event -> ST W unit) (f : event -> W -> W)
    (p : list cmd) (v : list var) (l : list event) (w : W),
  Forall typed_cmd p ->
  (forall e w, level_on tr db e = true -> log e w = (Ret tt, f e w)) ->
  exists rs v' m, l_run_cmds c tr db record p v l = (rs, v', l ++ m) /\
    l_run_cmds c tr db log p v w = (rs, v', fold_left (fun w e => f e w) m w) /\
    Forall (fun e => level_on tr db e = true) m.
Proof. exact (@c79_state). Qed.
Print Assumptions C79_state.
Example C79_state_case :
  l_run_cmds c5 false true (fun e w => (Ret tt, w + 1)) [PMake 3 (CFrom [h_; e_]); PSplit 0 1; PFrom 2 0] [] 7 =
    (fst (l_run_cmds c5 false true record [PMake 3 (CFrom [h_; e_]); PSplit 0 1; PFrom 2 0] [] []), 13) /\
  length (snd (l_run_cmds c5 false true record [PMake 3 (CFrom [h_; e_]); PSplit 0 1; PFrom 2 0] [] [])) = 6%nat.
Proof. split; vm_compute; reflexivity. Qed.

(** Two loggers that treat the enabled messages alike, also by panicking or never returning, make no difference to a program. *)
Theorem C79_agree : forall (c : cfg) (tr db : bool) (W : Type) (log log' : event -> ST W unit) (p : list cmd)
    (v : list var) (w : W),
  Forall typed_cmd p ->
  (forall e w, level_on tr db e = true -> log e w = log' e w) ->
  l_run_cmds c tr db log p v w = l_run_cmds c tr db log' p v w.
Proof. exact (@c79_agree). Qed.
Print Assumptions C79_agree.
Example C79_agree_case :
  l_run_cmds c5 false true (fun e w => match e with EvDrain _ _ _ => (Panic, e :: w) | _ => (Ret tt, e :: w) end)
    [PMake 3 (CFrom [h_; e_]); PSplit 0 1; PCopy 0] [] [] =
    l_run_cmds c5 false true (fun e w => match e with EvDrain _ _ _ => (Panic, e :: w) | EvLen => (Diverge, w) | _ => (Ret tt, e :: w) end)
    [PMake 3 (CFrom [h_; e_]); PSplit 0 1; PCopy 0] [] [] /\
  l_run_cmds c5 false true (fun e w => match e with EvDrain _ _ _ => (Panic, e :: w) | _ => (Ret tt, e :: w) end)
    [PMake 3 (CFrom [h_; e_]); PSplit 0 1; PCopy 0] [] [] =
    ([Some (Ret (PMade (Ok tt))); Some Panic; Some (Ret PDone)],
     [VStr 3 (mkastring [104; 195; 169] 3); VStr 3 (mkastring [104; 195; 169] 3)],
     [EvDrain 3 1 3; EvSplitOff; EvReplace 0 0 0 3 [104; 195; 169]]).
Proof. split; vm_compute; reflexivity. Qed.
