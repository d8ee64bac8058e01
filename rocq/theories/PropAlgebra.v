(** The comparison operators, laws about calls made one after the other, and histories at two capacities (C58-C60). Statements only: the proofs are the lemmas of ClaimsOrd.v, ClaimsAlgebra.v. *)
From Verif Require Import Base Char Spec RustStd RustIter RustOrd ModelError Model ModelArgs RustFmt SpecFmt ModelImpl ModelDrain ModelCache
  ModelIntegration Layout TextOps SpecOps ModelOps ModelCacheOps StringSpec TestSuite IterSpec Obs ObsCache Cases
  ClaimsOrd ClaimsAlgebra.

(** [!=], [<], [<=], [>] and [>=] compare the texts. *)
Theorem C58_operators : forall (c : cfg) (s s' : astring) (t t' : text),
  shows c s t -> shows c s' t' ->
  (exists r, op_ne (partial_eq c) s s' = Ret r /\ (r = true <-> t <> t')) /\
  (exists r, op_lt (partial_cmp c) s s' = Ret r /\ (r = true <-> text_lt t t')) /\
  (exists r, op_le (partial_cmp c) s s' = Ret r /\ (r = true <-> text_lt t t' \/ t = t')) /\
  (exists r, op_gt (partial_cmp c) s s' = Ret r /\ (r = true <-> text_lt t' t)) /\
  (exists r, op_ge (partial_cmp c) s s' = Ret r /\ (r = true <-> text_lt t' t \/ t = t')).
Proof. exact (@c58_operators). Qed.
Print Assumptions C58_operators.
Example C58_operators_case :
  shows c5 s_he [h_; e_] /\ shows c5 s_full [euro; e_] /\ op_ne (partial_eq c5) s_he s_he' = Ret false /\
  op_ne (partial_eq c5) s_he s_full = Ret true /\ op_lt (partial_cmp c5) s_he s_full = Ret true /\
  op_lt (partial_cmp c5) s_he s_he' = Ret false /\ op_le (partial_cmp c5) s_he s_he' = Ret true /\
  op_le (partial_cmp c5) s_full s_he = Ret false /\ op_gt (partial_cmp c5) s_full s_he = Ret true /\
  op_ge (partial_cmp c5) s_he s_he' = Ret true /\ op_ge (partial_cmp c5) s_he s_full = Ret false.
Proof. solve_case. Qed.

(** [max] and [min]; of two equal values [max] is the second and [min] the first. *)
Theorem C58_max_min : forall (c : cfg) (s s' : astring) (t t' : text),
  shows c s t -> shows c s' t' ->
  (text_lt t' t -> ord_max (ord_cmp c) s s' = Ret s /\ ord_min (ord_cmp c) s s' = Ret s') /\
  (~ text_lt t' t -> ord_max (ord_cmp c) s s' = Ret s' /\ ord_min (ord_cmp c) s s' = Ret s).
Proof. exact (@c58_max_min). Qed.
Print Assumptions C58_max_min.
Example C58_max_min_case :
  ord_max (ord_cmp c5) s_he s_full = Ret s_full /\ ord_max (ord_cmp c5) s_full s_he = Ret s_full /\
  ord_max (ord_cmp c5) s_he s_he' = Ret s_he' /\ ord_min (ord_cmp c5) s_he s_he' = Ret s_he /\
  ord_min (ord_cmp c5) s_full s_he = Ret s_he.
Proof. solve_case. Qed.

(** [clamp] panics when the bounds are the wrong way round. *)
Theorem C58_clamp : forall (c : cfg) (s lo hi : astring) (t l h : text),
  shows c s t -> shows c lo l -> shows c hi h ->
  (text_lt h l -> ord_clamp (partial_cmp c) s lo hi = Panic) /\
  (~ text_lt h l -> text_lt t l -> ord_clamp (partial_cmp c) s lo hi = Ret lo) /\
  (~ text_lt h l -> text_lt h t -> ord_clamp (partial_cmp c) s lo hi = Ret hi) /\
  (~ text_lt t l -> ~ text_lt h t -> ord_clamp (partial_cmp c) s lo hi = Ret s).
Proof. exact (@c58_clamp). Qed.
Print Assumptions C58_clamp.
Example C58_clamp_case :
  ord_clamp (partial_cmp c5) s_he s_empty s_full = Ret s_he /\ ord_clamp (partial_cmp c5) s_empty s_he s_full = Ret s_he /\
  ord_clamp (partial_cmp c5) s_full s_empty s_he = Ret s_he /\ ord_clamp (partial_cmp c5) s_he s_full s_empty = Panic /\
  ord_clamp (partial_cmp c5) s_he s_he' s_he' = Ret s_he.
Proof. solve_case. Qed.

(** The same for [Drain], by the text left in it. *)
Theorem C58_drain : forall (c : cfg) (d e f : Drain) (t u v : text),
  shows c (drained d) t -> shows c (drained e) u -> shows c (drained f) v ->
  (exists r, op_ne (drain_eq c) d e = Ret r /\ (r = true <-> t <> u)) /\
  (exists r, op_lt (drain_partial_cmp c) d e = Ret r /\ (r = true <-> text_lt t u)) /\
  (exists r, op_le (drain_partial_cmp c) d e = Ret r /\ (r = true <-> text_lt t u \/ t = u)) /\
  (exists r, op_gt (drain_partial_cmp c) d e = Ret r /\ (r = true <-> text_lt u t)) /\
  (exists r, op_ge (drain_partial_cmp c) d e = Ret r /\ (r = true <-> text_lt u t \/ t = u)) /\
  (text_lt u t -> ord_max (drain_cmp c) d e = Ret d /\ ord_min (drain_cmp c) d e = Ret e) /\
  (~ text_lt u t -> ord_max (drain_cmp c) d e = Ret e /\ ord_min (drain_cmp c) d e = Ret d) /\
  (text_lt v u -> ord_clamp (drain_partial_cmp c) d e f = Panic) /\
  (~ text_lt v u -> text_lt t u -> ord_clamp (drain_partial_cmp c) d e f = Ret e) /\
  (~ text_lt v u -> text_lt v t -> ord_clamp (drain_partial_cmp c) d e f = Ret f) /\
  (~ text_lt t u -> ~ text_lt v t -> ord_clamp (drain_partial_cmp c) d e f = Ret d).
Proof. exact (@c58_drain). Qed.
Print Assumptions C58_drain.
Example C58_drain_case :
  op_lt (drain_partial_cmp c5) (mkDrain s_he) (mkDrain s_full) = Ret true /\
  op_ne (drain_eq c5) (mkDrain s_he) (mkDrain s_he') = Ret false /\
  op_le (drain_partial_cmp c5) (mkDrain s_full) (mkDrain s_he) = Ret false /\
  op_gt (drain_partial_cmp c5) (mkDrain s_full) (mkDrain s_he) = Ret true /\
  op_ge (drain_partial_cmp c5) (mkDrain s_he) (mkDrain s_he') = Ret true /\
  ord_max (drain_cmp c5) (mkDrain s_he) (mkDrain s_he') = Ret (mkDrain s_he') /\
  ord_min (drain_cmp c5) (mkDrain s_full) (mkDrain s_he') = Ret (mkDrain s_he') /\
  ord_clamp (drain_partial_cmp c5) (mkDrain s_full) (mkDrain s_empty) (mkDrain s_he) = Ret (mkDrain s_he).
Proof. solve_case. Qed.

(** And for [CacheString]. *)
Theorem C58_cache : forall (c0 : cfg) (s s' s'' : CacheString) (t u v : text),
  cache_shows c0 s t -> cache_shows c0 s' u -> cache_shows c0 s'' v ->
  (exists r, op_ne (cache_eq c0) s s' = Ret r /\ (r = true <-> t <> u)) /\
  (exists r, op_lt (cache_partial_cmp c0) s s' = Ret r /\ (r = true <-> text_lt t u)) /\
  (exists r, op_le (cache_partial_cmp c0) s s' = Ret r /\ (r = true <-> text_lt t u \/ t = u)) /\
  (exists r, op_gt (cache_partial_cmp c0) s s' = Ret r /\ (r = true <-> text_lt u t)) /\
  (exists r, op_ge (cache_partial_cmp c0) s s' = Ret r /\ (r = true <-> text_lt u t \/ t = u)) /\
  (text_lt u t -> ord_max (cache_cmp c0) s s' = Ret s /\ ord_min (cache_cmp c0) s s' = Ret s') /\
  (~ text_lt u t -> ord_max (cache_cmp c0) s s' = Ret s' /\ ord_min (cache_cmp c0) s s' = Ret s) /\
  (text_lt v u -> ord_clamp (cache_partial_cmp c0) s s' s'' = Panic) /\
  (~ text_lt v u -> text_lt t u -> ord_clamp (cache_partial_cmp c0) s s' s'' = Ret s') /\
  (~ text_lt v u -> text_lt v t -> ord_clamp (cache_partial_cmp c0) s s' s'' = Ret s'') /\
  (~ text_lt t u -> ~ text_lt v t -> ord_clamp (cache_partial_cmp c0) s s' s'' = Ret s).
Proof. exact (@c58_cache). Qed.
Print Assumptions C58_cache.
Example C58_cache_case :
  op_lt (cache_partial_cmp c5) k_he k_he' = Ret false /\ op_ne (cache_eq c5) k_he k_he' = Ret false /\
  op_le (cache_partial_cmp c5) k_he k_he' = Ret true /\ op_ge (cache_partial_cmp c5) k_he k_he' = Ret true /\
  op_gt (cache_partial_cmp c5) k_he (mkCache (mkastring (repeat 7 63) 0)) = Ret true /\
  ord_max (cache_cmp c5) k_he k_he' = Ret k_he' /\ ord_min (cache_cmp c5) k_he k_he' = Ret k_he /\
  ord_clamp (cache_partial_cmp c5) k_he k_he' (mkCache (mkastring (repeat 7 63) 0)) = Panic.
Proof. solve_case. Qed.

(** Appending moves a value up in the order... *)
Theorem C58_push : forall (c : cfg) (s : astring) (t : text) (w : list char) (s1 : astring),
  valid_cfg c -> shows c s t -> w <> [] ->
  try_push_str c (enc w) s = (Ret (Ok tt), s1) -> ord_cmp c s s1 = Ret Lt.
Proof. exact (@c58_push). Qed.
Print Assumptions C58_push.
Example C58_push_case :
  try_push_str c5 (enc [i_]) s_he = (Ret (Ok tt), mkastring [104; 195; 169; 105; 9] 4) /\
  ord_cmp c5 s_he (mkastring [104; 195; 169; 105; 9] 4) = Ret Lt.
Proof. solve_case. Qed.

(** ... and cutting moves it down. *)
Theorem C58_cut : forall (c : cfg) (s : astring) (t : text) (n : N),
  valid_cfg c -> shows c s t ->
  (exists r s1, truncate c n s = (Ret r, s1) /\ op_le (partial_cmp c) s1 s = Ret true) /\
  (exists r s1, split_off c n s = (Ret r, s1) /\ op_le (partial_cmp c) s1 s = Ret true) /\
  (exists x s1, pop c s = (Ret x, s1) /\ op_le (partial_cmp c) s1 s = Ret true /\
     (x <> None -> op_lt (partial_cmp c) s1 s = Ret true)).
Proof. exact (@c58_cut). Qed.
Print Assumptions C58_cut.
Example C58_cut_case :
  truncate c5 1 s_he = (Ret (Ok tt), mkastring [104; 195; 169; 7; 9] 1) /\
  op_le (partial_cmp c5) (mkastring [104; 195; 169; 7; 9] 1) s_he = Ret true /\
  truncate c5 2 s_he = (Ret (Err mkUtf8), s_he) /\ op_le (partial_cmp c5) s_he s_he = Ret true /\
  pop c5 s_he = (Ret (Some e_), mkastring [104; 195; 169; 7; 9] 1) /\
  op_lt (partial_cmp c5) (mkastring [104; 195; 169; 7; 9] 1) s_he = Ret true.
Proof. solve_case. Qed.

(** Keeping what [p] accepts and then what [q] accepts is keeping what both accept. *)
Theorem C59_retain_twice : forall (c : cfg) (p q : char -> bool) (s : astring) (t : text),
  valid_cfg c -> shows c s t ->
  exists s1 s2 s3 u, retain c (fun a u => (Ret (p a), u)) tt s = (Ret tt, s1, tt) /\
    retain c (fun a u => (Ret (q a), u)) tt s1 = (Ret tt, s2, tt) /\
    retain c (fun a u => (Ret (p a && q a), u)) tt s = (Ret tt, s3, tt) /\ shows c s2 u /\ shows c s3 u.
Proof. exact (@c59_retain_twice). Qed.
Print Assumptions C59_retain_twice.
Example C59_retain_twice_case :
  let p := fun a => negb (code a =? 32) in let q := fun a => negb (code a =? 105) in
  retain c5 (fun a u => (Ret (p a), u)) tt s_sp = (Ret tt, mkastring [104; 105; 0; 0; 0] 2, tt) /\
  retain c5 (fun a u => (Ret (q a), u)) tt (mkastring [104; 105; 0; 0; 0] 2) =
    (Ret tt, mkastring [104; 0; 0; 0; 0] 1, tt) /\
  retain c5 (fun a u => (Ret (p a && q a), u)) tt s_sp = (Ret tt, mkastring [104; 0; 0; 0; 0] 1, tt).
Proof. cbv zeta. solve_case. Qed.

(** Filtering distributes over appending. *)
Theorem C59_retain_push : forall (c : cfg) (p : char -> bool) (s : astring) (t w : text) (s1 : astring),
  valid_cfg c -> shows c s t ->
  try_push_str c (enc w) s = (Ret (Ok tt), s1) ->
  exists s2 s3 s4 u, retain c (fun a u => (Ret (p a), u)) tt s1 = (Ret tt, s2, tt) /\
    retain c (fun a u => (Ret (p a), u)) tt s = (Ret tt, s3, tt) /\
    try_push_str c (enc (filter p w)) s3 = (Ret (Ok tt), s4) /\ shows c s2 u /\ shows c s4 u.
Proof. exact (@c59_retain_push). Qed.
Print Assumptions C59_retain_push.
Example C59_retain_push_case :
  let p := fun a => negb (code a =? 104) in
  try_push_str c5 (enc [h_; i_]) s_he = (Ret (Ok tt), mkastring [104; 195; 169; 104; 105] 5) /\
  retain c5 (fun a u => (Ret (p a), u)) tt (mkastring [104; 195; 169; 104; 105] 5) =
    (Ret tt, mkastring [195; 169; 105; 0; 0] 3, tt) /\
  retain c5 (fun a u => (Ret (p a), u)) tt s_he = (Ret tt, mkastring [195; 169; 0; 0; 0] 2, tt) /\
  try_push_str c5 (enc [i_]) (mkastring [195; 169; 0; 0; 0] 2) = (Ret (Ok tt), mkastring [195; 169; 105; 0; 0] 3).
Proof. cbv zeta. solve_case. Qed.

(** Keeping everything changes nothing, keeping nothing empties. *)
Theorem C59_retain_all : forall (c : cfg) (p : char -> bool) (s : astring) (t : text),
  valid_cfg c -> shows c s t ->
  (Forall (fun a => p a = true) t ->
     exists s1, retain c (fun a u => (Ret (p a), u)) tt s = (Ret tt, s1, tt) /\ shows c s1 t) /\
  (Forall (fun a => p a = false) t ->
     exists s1, retain c (fun a u => (Ret (p a), u)) tt s = (Ret tt, s1, tt) /\ shows c s1 []).
Proof. exact (@c59_retain_all). Qed.
Print Assumptions C59_retain_all.
Example C59_retain_all_case :
  fst (retain c5 (fun a u => (Ret true, u)) tt s_he) = (Ret tt, mkastring [104; 195; 169; 0; 0] 3) /\
  fst (retain c5 (fun a u => (Ret false, u)) tt s_he) = (Ret tt, mkastring [0; 0; 0; 0; 0] 0).
Proof. solve_case. Qed.

(** White space around a text makes no difference to [trim]. *)
Theorem C59_trim_padding : forall (c : cfg) (s s' : astring) (t l r : list char),
  valid_cfg c -> shows c s (l ++ t ++ r) -> shows c s' t ->
  Forall (fun a => white_space a = true) l -> Forall (fun a => white_space a = true) r ->
  exists u, returns c (trim c s) tt u /\ returns c (trim c s') tt u.
Proof. exact (@c59_trim_padding). Qed.
Print Assumptions C59_trim_padding.
Example C59_trim_padding_case :
  shows c5 s_sp ([sp_] ++ [h_; sp_; i_] ++ [sp_]) /\ returns c5 (trim c5 s_sp) tt [h_; sp_; i_] /\
  returns c5 (trim c5 (mkastring [104; 32; 105; 7; 7] 3)) tt [h_; sp_; i_].
Proof. solve_case. Qed.

(** The last change of case counts. *)
Theorem C59_case_twice : forall (c : cfg) (s : astring) (t : text),
  valid_cfg c -> shows c s t ->
  exists s1 s2 u l, make_ascii_uppercase c s = (Ret tt, s1) /\ make_ascii_lowercase c s = (Ret tt, s2) /\
    shows c s1 u /\ shows c s2 l /\
    returns c (make_ascii_uppercase c s1) tt u /\ returns c (make_ascii_uppercase c s2) tt u /\
    returns c (make_ascii_lowercase c s1) tt l /\ returns c (make_ascii_lowercase c s2) tt l.
Proof. exact (@c59_case_twice). Qed.
Print Assumptions C59_case_twice.
Example C59_case_twice_case :
  make_ascii_uppercase c5 s_he = (Ret tt, mkastring [72; 195; 169; 7; 9] 3) /\
  make_ascii_lowercase c5 s_he = (Ret tt, s_he) /\
  make_ascii_lowercase c5 (mkastring [72; 195; 169; 7; 9] 3) = (Ret tt, s_he) /\
  make_ascii_uppercase c5 (mkastring [72; 195; 169; 7; 9] 3) = (Ret tt, mkastring [72; 195; 169; 7; 9] 3).
Proof. solve_case. Qed.

(** Replacing a range and then the replacement: only the last text counts. *)
Theorem C59_replace_twice : forall (c : cfg) (s : astring) (t : text) (a b : N) (w v : text) (s1 : astring),
  valid_cfg c -> shows c s t ->
  replace_range c (Included a) (Excluded b) (enc w) s = (Ret (Ok tt), s1) ->
  exists r u u', returns c (replace_range c (Included a) (Excluded (a + blen w)) (enc v) s1) r u' /\
    returns c (replace_range c (Included a) (Excluded b) (enc v) s) r u /\ (r = Ok tt -> u' = u).
Proof. exact (@c59_replace_twice). Qed.
Print Assumptions C59_replace_twice.
Example C59_replace_twice_case :
  replace_range c5 (Included 0) (Excluded 1) (enc [i_; i_]) s_he = (Ret (Ok tt), mkastring [105; 105; 195; 169; 9] 4) /\
  returns c5 (replace_range c5 (Included 0) (Excluded 2) (enc [e_]) (mkastring [105; 105; 195; 169; 9] 4)) (Ok tt) [e_; e_] /\
  returns c5 (replace_range c5 (Included 0) (Excluded 1) (enc [e_]) s_he) (Ok tt) [e_; e_] /\
  returns c5 (replace_range c5 (Included 0) (Excluded 2) (enc [smile]) (mkastring [105; 105; 195; 169; 9] 4))
    (Err EOutOfBounds) [i_; i_; e_] /\
  returns c5 (replace_range c5 (Included 0) (Excluded 1) (enc [smile]) s_he) (Err EOutOfBounds) [h_; e_].
Proof. solve_case. Qed.

(** Insertions at different places can be made in either order. *)
Theorem C59_insert_order : forall (c : cfg) (s : astring) (pre mid post : list char) (w v : text),
  valid_cfg c -> shows c s (pre ++ mid ++ post) ->
  blen (pre ++ mid ++ post) + blen w + blen v <= cap c ->
  exists s1 s2 u, try_insert_str c (blen pre) (enc w) s = (Ret (Ok tt), s1) /\
    try_insert_str c (blen (pre ++ mid)) (enc v) s = (Ret (Ok tt), s2) /\
    returns c (try_insert_str c (blen (pre ++ mid) + blen w) (enc v) s1) (Ok tt) u /\
    returns c (try_insert_str c (blen pre) (enc w) s2) (Ok tt) u.
Proof. exact (@c59_insert_order). Qed.
Print Assumptions C59_insert_order.
Example C59_insert_order_case :
  try_insert_str c5 0 (enc [i_]) s_he = (Ret (Ok tt), mkastring [105; 104; 195; 169; 9] 4) /\
  try_insert_str c5 1 (enc [sp_]) s_he = (Ret (Ok tt), mkastring [104; 32; 195; 169; 9] 4) /\
  returns c5 (try_insert_str c5 2 (enc [sp_]) (mkastring [105; 104; 195; 169; 9] 4)) (Ok tt) [i_; h_; sp_; e_] /\
  returns c5 (try_insert_str c5 0 (enc [i_]) (mkastring [104; 32; 195; 169; 9] 4)) (Ok tt) [i_; h_; sp_; e_].
Proof. solve_case. Qed.

(** A history whose texts fit the smaller capacity runs the same at the larger. Which error a rejected call reports can differ. *)
Theorem C60_larger_capacity : forall (c : cfg) (n : N) (l : list sop),
  valid_cfg c -> cap c <= n <= 255 -> forall s s' t,
  shows c s t -> shows (with_cap c n) s' t -> stays_within (usize_max c) (cap c) l t ->
  exists rs rs' s1 s1' u, run_ops c (map to_op l) s = (map Ret rs, s1) /\
    run_ops (with_cap c n) (map to_op l) s' = (map Ret rs', s1') /\
    shows c s1 u /\ shows (with_cap c n) s1' u /\
    Forall2 (fun r r' => r = r' \/ (is_error r = true /\ is_error r' = true)) rs rs'.
Proof. exact (@c60_larger_capacity). Qed.
Print Assumptions C60_larger_capacity.
Example C60_larger_capacity_case :
  let l := [SPop; SInsertStr false 1 [e_]; SInsertStr false 2 [euro; euro]; SInsertStr true 0 [i_]] in
  let s9 := mkastring [104; 195; 169; 0; 0; 0; 0; 0; 0] 3 in
  stays_within 65535 5 l [h_; e_] /\ shows (with_cap c5 9) s9 [h_; e_] /\
  fst (run_ops c5 (map to_op l) s_he) =
    [Ret (ROptChar (Some e_)); Ret (RErr (Ok tt)); Ret (RErr (Err EOutOfBounds)); Ret (RErr (Ok tt))] /\
  fst (run_ops (with_cap c5 9) (map to_op l) s9) =
    [Ret (ROptChar (Some e_)); Ret (RErr (Ok tt)); Ret (RErr (Err EUtf8)); Ret (RErr (Ok tt))] /\
  shows c5 (snd (run_ops c5 (map to_op l) s_he)) [i_; h_; e_] /\
  shows (with_cap c5 9) (snd (run_ops (with_cap c5 9) (map to_op l) s9)) [i_; h_; e_].
Proof.
  cbv zeta. split; [|solve_case].
  split; [solve_case | split; [intros [] |]].
  split; [solve_case | split; [intros (_ & E & _); discriminate E |]].
  split; [solve_case | split; [intros (_ & E & _); discriminate E |]].
  split; [solve_case | split; [intros (_ & E & _); vm_compute in E; discriminate E | exact Logic.I]].
Qed.
