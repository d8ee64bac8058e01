(** Programs with several strings and a logger (feature logs). Statements only: the proofs are the lemmas of ClaimsLogProg.v. *)
From Verif Require Import Base Char Spec RustStd RustIter RustOrd ModelError Model ModelArgs RustFmt SpecFmt ModelImpl ModelDrain ModelCache
  ModelIntegration Layout TextOps SpecOps ModelOps ModelCacheOps StringSpec TestSuite IterSpec Obs ObsCache Cases SpecProg ModelProg ObsProg ModelLogs ObsLogs ObsLogProg CasesLogs
  ClaimsLogProg.

(** A logger that returns from every message whose level is enabled changes no answer and no byte of any variable of a program, although all strings and draining iterators talk to the same logger, also while a loop takes characters from one and puts them into another. *)
Theorem C78_quiet : forall (c : cfg) (tr db : bool) (W : Type) (log : event -> ST W unit) (l : list cmd)
    (v : list var) (w : W),
  65535 <= usize_max c -> quiet tr db log ->
  exists w', l_run_cmds c tr db log l v w = (fst (run_cmds c l v), snd (run_cmds c l v), w').
Proof. exact (@c78_quiet). Qed.
Print Assumptions C78_quiet.
Example C78_quiet_case :
  quiet false true recorder /\
  l_run_cmds c5r false true recorder
    [PMake 5 (CFrom [h_; e_]); PDrain 0 (Included 0) Unbounded; PMake 4 CNew; PExtend 2 1; PWith 0 APush 2] [] [] =
    (fst (run_cmds c5r [PMake 5 (CFrom [h_; e_]); PDrain 0 (Included 0) Unbounded; PMake 4 CNew; PExtend 2 1; PWith 0 APush 2] []),
     [VStr 5 (mkastring [104; 195; 169; 0; 0] 3); VDrain 5 (mkDrain (mkastring [195; 169; 169; 0; 0] 0));
      VStr 4 (mkastring [104; 195; 169; 0] 3)],
     [EvReplace 0 0 0 3 [104; 195; 169]; EvDrain 3 0 3; EvReplace 0 0 0 3 [104; 195; 169]; EvReplace 3 0 3 0 [];
      EvRemove 0; EvReplace 3 0 1 0 []; EvReplace 0 0 0 1 [104];
      EvRemove 0; EvReplace 2 0 2 0 []; EvReplace 1 1 1 2 [195; 169];
      EvRemove 0; EvReplace 0 0 0 3 [104; 195; 169]; EvReplace 0 0 0 3 [104; 195; 169]]).
Proof. split; [intros e w _; reflexivity|vm_compute; reflexivity]. Qed.
Example C78_quiet_case2 :
  quiet true false recorder /\
  l_run_cmd c5r true false recorder (PWriteTo 0 1 default_spec) [VStr 5 s_he; VStr 3 (mkastring [104; 105; 0] 1)] [] =
    (Some (Ret (PRet (RFmt true))), [VStr 5 (mkastring [104; 195; 169; 104; 9] 4); VStr 3 (mkastring [104; 105; 0] 1)],
     [EvAsStr; EvLen; EvPushStr [104]; EvLen; EvInside 3 3; EvLen; EvInside 3 3; EvInside 1 5; EvAsStr; EvLen;
      EvBoundary [104; 195; 169] 3; EvAsStr; EvLen; EvAsStr; EvLen; EvBoundary [104; 195; 169] 3; EvAsStr; EvLen; EvLen;
      EvInside 4 5; EvLen; EvLen]).
Proof. split; [intros e w _; reflexivity|vm_compute; reflexivity]. Qed.

(** So with such a logger a program answers what the same program on texts answers, and its variables show those texts. *)
Theorem C78_texts : forall (c : cfg) (tr db : bool) (W : Type) (log : event -> ST W unit) (l : list cmd)
    (v : list var) (u : list tvar) (w : W),
  65535 <= usize_max c -> quiet tr db log ->
  Forall typed_cmd l -> world_shows c v u ->
  exists v' w', l_run_cmds c tr db log l v w = (fst (t_cmds (usize_max c) l u), v', w') /\
    world_shows c v' (snd (t_cmds (usize_max c) l u)).
Proof. exact (@c78_texts). Qed.
Print Assumptions C78_texts.
Example C78_texts_case :
  world_shows c5 [VStr 5 s_he; VDrain 5 (mkDrain s_full)] [mktvar false 5 [h_; e_]; mktvar true 5 [euro; e_]] /\
  quiet true true recorder /\
  fst (l_run_cmds c5 true true recorder [PNext 1 false; PExtend 0 1; PCollect 9 1; PEq 0 2] [VStr 5 s_he; VDrain 5 (mkDrain s_full)] []) =
    ([Some (Ret (PRet (ROptChar (Some e_)))); Some (Ret PDone); Some (Ret (PMade (Ok tt))); Some (Ret (PRet (RBool false)))],
     [VStr 5 s_he; VDrain 5 (mkDrain (mkastring [226; 130; 172; 195; 169] 0)); VStr 9 (mkastring [0; 0; 0; 0; 0; 0; 0; 0; 0] 0)]) /\
  t_cmds 65535 [PNext 1 false; PExtend 0 1; PCollect 9 1; PEq 0 2] [mktvar false 5 [h_; e_]; mktvar true 5 [euro; e_]] =
    ([Some (Ret (PRet (ROptChar (Some e_)))); Some (Ret PDone); Some (Ret (PMade (Ok tt))); Some (Ret (PRet (RBool false)))],
     [mktvar false 5 [h_; e_]; mktvar true 5 []; mktvar false 9 []]).
Proof.
  split; [|split; [intros e w _; reflexivity|split; vm_compute; reflexivity]].
  repeat (constructor; [split; [split; discriminate | cbn; split; [reflexivity | split; [reflexivity | solve_case]]]|]); constructor.
Qed.

(** With a logger that may panic, but not on "Len", a command does what it does without, or it panics. A command that makes one change has then made none. An iterator whose characters were being collected shows what is left of its text, the string that was to get them is as before; trim and write! leave what C71 says; the other variables are untouched. *)
Theorem C78_panic : forall (c : cfg) (tr db : bool) (W : Type) (log : event -> ST W unit) (p : cmd)
    (v : list var) (u : list tvar) (w : W),
  65535 <= usize_max c -> a_logger tr db log ->
  ~ panics_on tr db log EvLen -> typed_cmd p -> harmless_cmd p -> world_shows c v u ->
  (exists v' w', l_run_cmd c tr db log p v w = (fst (t_cmd (usize_max c) p u), v', w') /\
     world_shows c v' (snd (t_cmd (usize_max c) p u))) \/
  (can_panic tr db log /\ exists v' w' u', l_run_cmd c tr db log p v w = (Some Panic, v', w') /\
     world_shows c v' u' /\ broke_off p v v' u u').
Proof. exact (@c78_panic). Qed.
Print Assumptions C78_panic.
Example C78_panic_case :
  a_logger true true remove_logger /\ ~ panics_on true true remove_logger EvLen /\
  l_run_cmd c5 true true remove_logger (PExtend 0 1) [VStr 5 s_he; VDrain 5 (mkDrain s_full)] 1 =
    (Some Panic, [VStr 5 s_he; VDrain 5 (mkDrain (mkastring [195; 169; 172; 195; 169] 2))], 0) /\
  broke_off (PExtend 0 1) [VStr 5 s_he; VDrain 5 (mkDrain s_full)]
    [VStr 5 s_he; VDrain 5 (mkDrain (mkastring [195; 169; 172; 195; 169] 2))]
    [mktvar false 5 [h_; e_]; mktvar true 5 [euro; e_]] [mktvar false 5 [h_; e_]; mktvar true 5 [e_]].
Proof.
  split; [intros e _ w; destruct e; try (split; discriminate); unfold remove_logger; destruct (w =? 0); split; discriminate|].
  split; [intros [_ [w H]]; discriminate H|]. split; [vm_compute; reflexivity|].
  split; [discriminate|]. split; [reflexivity|].
  intros [|[|[|k]]] x' H; cbn in H; try discriminate H; injection H as <-; [left; reflexivity|right].
  exists (mktvar true 5 [euro; e_]). repeat split. exists 1%nat. reflexivity.
Qed.
Example C78_panic_case2 :
  l_run_cmd c5 true true pop_logger (PNext 1 false) [VStr 5 s_he; VDrain 5 (mkDrain s_full)] 7 =
    (Some Panic, [VStr 5 s_he; VDrain 5 (mkDrain s_full)], 7) /\
  ~ broke_off (PNext 1 false) [VStr 5 s_he] [VStr 5 (mkastring [104; 0; 0; 0; 0] 1)] [mktvar false 5 [h_; e_]] [mktvar false 5 [h_]] /\
  ~ broke_off (PCollect 5 0) [VDrain 5 (mkDrain s_he)] [VDrain 5 (mkDrain (mkastring [104; 0; 0; 0; 0] 1))] [mktvar true 5 [h_; e_]] [mktvar true 5 [h_]].
Proof.
  split; [vm_compute; reflexivity|]. split; [intros (H & _); destruct (H eq_refl); discriminate|].
  intros (_ & _ & H). destruct (H 0%nat _ eq_refl) as [X|(x & [= <-] & _ & _ & _ & m & X)]; [discriminate X|].
  destruct m as [|[|m]]; cbn in X; [discriminate..|destruct m; discriminate X].
Qed.

(** So however often a program catches such a panic, its commands return or panic and every variable still shows a text. *)
Theorem C78_safe : forall (c : cfg) (tr db : bool) (W : Type) (log : event -> ST W unit) (l : list cmd)
    (v : list var) (u : list tvar) (w : W),
  65535 <= usize_max c -> a_logger tr db log ->
  ~ panics_on tr db log EvLen -> Forall typed_cmd l -> Forall harmless_cmd l -> world_shows c v u ->
  exists rs v' w' u', l_run_cmds c tr db log l v w = (rs, v', w') /\ world_shows c v' u' /\
    forall o, In (Some o) rs -> o = Panic \/ exists r, o = Ret r.
Proof. exact (@c78_safe). Qed.
Print Assumptions C78_safe.
Example C78_safe_case :
  l_run_cmds c5 true true remove_logger
    [PMake 5 (CFrom [h_; e_]); PDrain 0 (Included 0) Unbounded; PMake 4 CNew; PExtend 2 1; PExtend 2 1; PWith 0 APush 1; PNext 1 false] [] 1 =
    ([Some (Ret (PMade (Ok tt))); Some (Ret (PMade (Ok tt))); Some (Ret (PMade (Ok tt))); Some Panic; Some Panic;
      Some (Ret (PRet (ROob (Ok tt)))); Some (Ret (PRet (ROptChar (Some e_))))],
     [VStr 5 (mkastring [195; 169; 169; 0; 0] 2); VDrain 5 (mkDrain (mkastring [195; 169; 169; 0; 0] 0));
      VStr 4 (mkastring [0; 0; 0; 0] 0)], 0) /\
  a_logger true true remove_logger /\ ~ panics_on true true remove_logger EvLen /\
  Forall harmless_cmd
    [PMake 5 (CFrom [h_; e_]); PDrain 0 (Included 0) Unbounded; PMake 4 CNew; PExtend 2 1; PExtend 2 1; PWith 0 APush 1; PNext 1 false].
Proof.
  split; [vm_compute; reflexivity|].
  split; [intros e _ w; destruct e; try (split; discriminate); unfold remove_logger; destruct (w =? 0); split; discriminate|].
  split; [intros [_ [w H]]; discriminate H|repeat constructor].
Qed.

(** Whatever the logger does, also if it panics on "Len", a command leaves every byte of the variables it does not name unchanged. *)
Theorem C78_frame : forall (c : cfg) (tr db : bool) (W : Type) (log : event -> ST W unit) (p : cmd)
    (v : list var) (w : W) (r : option (outcome pout)) (v' : list var) (w' : W) (k : nat),
  l_run_cmd c tr db log p v w = (r, v', w') -> (k < length v)%nat -> ~ changes p k ->
  nth_error v' k = nth_error v k.
Proof. exact (@c78_frame). Qed.
Print Assumptions C78_frame.
Example C78_frame_case :
  l_run_cmd c5r true true len_logger (PNext 1 true) [VStr 5 s_he; VDrain 5 (mkDrain s_full); VStr 5 s_he] 16 =
    (Some Panic, [VStr 5 s_he; VDrain 5 (mkDrain (mkastring [195; 169; 172; 195; 169] 5)); VStr 5 s_he], 0) /\
  ~ changes (PNext 1 true) 0 /\ ~ changes (PNext 1 true) 2.
Proof. split; [vm_compute; reflexivity|split; discriminate]. Qed.
