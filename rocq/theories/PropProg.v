(** Programs with several strings and draining iterators (C70). Statements only: the proofs are the lemmas of ClaimsProg.v. *)
From Verif Require Import Base Char Spec RustStd RustIter RustOrd ModelError Model ModelArgs RustFmt SpecFmt ModelImpl ModelDrain ModelCache
  ModelIntegration Layout TextOps SpecOps ModelOps ModelCacheOps StringSpec TestSuite IterSpec Obs ObsCache Cases SpecProg ModelProg ObsProg
  ClaimsProg.

(** Any program over variables that show texts answers what the same program on texts answers (None: rejected by the compiler), and its variables then show those texts. *)
Theorem C70_lock_step : forall (c : cfg) (l : list cmd) (w : list var) (u : list tvar),
  65535 <= usize_max c -> Forall typed_cmd l -> world_shows c w u ->
  exists w', run_cmds c l w = (fst (t_cmds (usize_max c) l u), w') /\
    world_shows c w' (snd (t_cmds (usize_max c) l u)).
Proof. exact (@c70_lock_step). Qed.
Print Assumptions C70_lock_step.
Example C70_lock_step_case :
  Forall typed_cmd
    [PMake 5 (CFrom [h_; e_]); PMake 4 CNew; PDrain 0 (Included 1) Unbounded; PExtend 1 2; PNext 2 true;
      PWith 1 AAdd 0; PWith 1 APush 1; PCmp 0 1; PFrom 2 1; PCopy 1; PCmp 1 3; PSplit 3 2; PSwap 1 4] /\
  run_cmds c5
    [PMake 5 (CFrom [h_; e_]); PMake 4 CNew; PDrain 0 (Included 1) Unbounded; PExtend 1 2; PNext 2 true;
      PWith 1 AAdd 0; PWith 1 APush 1; PCmp 0 1; PFrom 2 1; PCopy 1; PCmp 1 3; PSplit 3 2; PSwap 1 4] [] =
    ([Some (Ret (PMade (Ok tt))); Some (Ret (PMade (Ok tt))); Some (Ret (PMade (Ok tt))); Some (Ret PDone);
       Some (Ret (PRet (ROptChar None))); Some (Ret (PRet RUnit)); None; None; Some (Ret (PMade (Err EOutOfBounds)));
       Some (Ret PDone); Some (Ret (POrd Eq)); Some (Ret (PMade (Ok tt))); Some (Ret PDone)],
      [VStr 5 (mkastring [104; 195; 169; 0; 0] 1); VStr 4 (mkastring [104; 0; 0; 0] 1);
       VDrain 5 (mkDrain (mkastring [195; 169; 0; 0; 0] 0)); VStr 4 (mkastring [195; 169; 104; 0] 2);
       VStr 4 (mkastring [195; 169; 104; 0] 3)]).
Proof. split; [repeat constructor; discriminate | vm_compute; reflexivity]. Qed.
Example C70_lock_step_case2 :
  world_shows c5 [VStr 5 s_he; VDrain 5 (mkDrain s_full)] [mktvar false 5 [h_; e_]; mktvar true 5 [euro; e_]] /\
  run_cmds c5 [PNext 1 false; PExtend 0 1; PWriteTo 0 1 default_spec] [VStr 5 s_he; VDrain 5 (mkDrain s_full)] =
    ([Some (Ret (PRet (ROptChar (Some e_)))); Some (Ret PDone); None],
     [VStr 5 s_he; VDrain 5 (mkDrain (mkastring [226; 130; 172; 195; 169] 0))]).
Proof.
  split; [|vm_compute; reflexivity].
  repeat (constructor; [split; [split; discriminate | cbn; split; [reflexivity | split; [reflexivity | solve_case]]]|]); constructor.
Qed.

(** From no variables at all: every variable shows a text; commands return, or panic if their arguments or ranges make them. *)
Theorem C70_safe : forall c l rs w,
  65535 <= usize_max c -> Forall typed_cmd l -> run_cmds c l [] = (rs, w) ->
  (exists u, world_shows c w u) /\
  (Forall harmless_cmd l -> forall o, In (Some o) rs -> (exists r, o = Ret r) \/ o = Panic) /\
  (Forall benign_cmd l -> forall o, In (Some o) rs -> exists r, o = Ret r).
Proof. exact (@c70_safe). Qed.
Print Assumptions C70_safe.
Example C70_safe_case :
  Forall typed_cmd [PMake 5 (CFrom [h_; e_]); PCall 0 (OIndex (RFrom 2)); PDrain 0 (Included 2) Unbounded; PMake 3 (CTryFromStr [smile]);
      PNext 0 true] /\
  Forall harmless_cmd [PMake 5 (CFrom [h_; e_]); PCall 0 (OIndex (RFrom 2)); PDrain 0 (Included 2) Unbounded; PMake 3 (CTryFromStr [smile]);
      PNext 0 true] /\
  run_cmds c5 [PMake 5 (CFrom [h_; e_]); PCall 0 (OIndex (RFrom 2)); PDrain 0 (Included 2) Unbounded; PMake 3 (CTryFromStr [smile]);
      PNext 0 true] [] =
    ([Some (Ret (PMade (Ok tt))); Some Panic; Some (Ret (PMade (Err EUtf8))); Some (Ret (PMade (Err EOutOfBounds))); None],
     [VStr 5 (mkastring [104; 195; 169; 0; 0] 3)]).
Proof. split; [repeat constructor; discriminate | split; [repeat constructor | vm_compute; reflexivity]]. Qed.

(** Debug and release builds answer alike. *)
Theorem C70_builds : forall (c1 c2 : cfg) (l : list cmd),
  65535 <= usize_max c1 -> usize_max c1 = usize_max c2 -> Forall typed_cmd l ->
  exists rs w1 w2 u, run_cmds c1 l [] = (rs, w1) /\ run_cmds c2 l [] = (rs, w2) /\
    world_shows c1 w1 u /\ world_shows c2 w2 u.
Proof. exact (@c70_builds). Qed.
Print Assumptions C70_builds.
Example C70_builds_case :
  usize_max c5 = usize_max c5r /\ debug c5 <> debug c5r /\
  fst (run_cmds c5 [PMake 5 (CFrom [h_; e_]); PCall 0 (OIndex (RFrom 2)); PDrain 0 (Included 2) Unbounded; PMake 3 (CTryFromStr [smile]);
      PNext 0 true] []) =
  fst (run_cmds c5r [PMake 5 (CFrom [h_; e_]); PCall 0 (OIndex (RFrom 2)); PDrain 0 (Included 2) Unbounded; PMake 3 (CTryFromStr [smile]);
      PNext 0 true] []).
Proof. split; [reflexivity | split; [discriminate | vm_compute; reflexivity]]. Qed.

(** A command leaves the bytes of all other variables alone. *)
Theorem C70_frame : forall (c : cfg) (p : cmd) (w : list var) (r : option (outcome pout)) (w' : list var)
    (k : nat),
  run_cmd c p w = (r, w') -> (k < length w)%nat -> ~ changes p k ->
  nth_error w' k = nth_error w k.
Proof. exact (@c70_frame). Qed.
Print Assumptions C70_frame.
Example C70_frame_case :
  ~ changes (PExtend 0 1) 2 /\
  run_cmd c5 (PExtend 0 1) [VStr 5 s_he; VDrain 5 (mkDrain s_full); VStr 5 s_he'] =
    (Some (Ret PDone), [VStr 5 s_he; VDrain 5 (mkDrain (mkastring [195; 169; 172; 195; 169] 0)); VStr 5 s_he']).
Proof. split; [intros [H|H]; discriminate | vm_compute; reflexivity]. Qed.
