(** The inherent editing methods (C05-C09, C18-C21, C23-C26, C28, C29). Statements only: the proofs are the lemmas of ClaimsEdit.v. *)
From Verif Require Import Base Char Spec RustStd RustIter RustOrd ModelError Model ModelArgs RustFmt SpecFmt ModelImpl ModelDrain ModelCache
  ModelIntegration Layout TextOps SpecOps ModelOps ModelCacheOps StringSpec TestSuite IterSpec Obs ObsCache Cases
  ClaimsEdit.

(** Appends exactly [w] when it fits; otherwise an error and the value is untouched. *)
Theorem C05_try_push_str : forall (c : cfg) (s : astring) (t w : text),
  valid_cfg c -> shows c s t ->
  (blen t + blen w <= cap c -> returns c (try_push_str c (enc w) s) (Ok tt) (t ++ w)) /\
  (cap c < blen t + blen w -> try_push_str c (enc w) s = (Ret (Err mkOutOfBounds), s)).
Proof. exact (@c05_try_push_str). Qed.
Print Assumptions C05_try_push_str.
Example C05_try_push_str_case :
  valid_cfg c5 /\ shows c5 s_he [h_; e_] /\
  blen [h_; e_] + blen [e_] <= cap c5 /\
  returns c5 (try_push_str c5 (enc [e_]) s_he) (Ok tt) [h_; e_; e_] /\
  cap c5 < blen [h_; e_] + blen [euro] /\
  try_push_str c5 (enc [euro]) s_he = (Ret (Err mkOutOfBounds), s_he).
Proof. solve_case. Qed.

(** Appends the longest prefix of [w] that fits, cut between characters. *)
Theorem C06_push_str_truncate : forall (c : cfg) (s : astring) (t w : text),
  valid_cfg c -> shows c s t ->
  exists p, longest_fit (cap c - blen t) w p /\ returns c (push_str_truncate c (enc w) s) tt (t ++ p).
Proof. exact (@c06_push_str_truncate). Qed.
Print Assumptions C06_push_str_truncate.
Example C06_push_str_truncate_case :
  valid_cfg c5 /\ shows c5 s_he [h_; e_] /\ longest_fit (cap c5 - blen [h_; e_]) [i_; euro; i_] [i_] /\
  returns c5 (push_str_truncate c5 (enc [i_; euro; i_]) s_he) tt [h_; e_; i_].
Proof. solve_case. Qed.
Example C06_push_str_truncate_case2 :
  returns c5 (push_str_truncate c5 (enc [smile]) (mkastring [104; 105; 7; 7; 7] 2)) tt [h_; i_] /\
  returns c5 (push_str_truncate c5 (enc [smile]) s_he) tt [h_; e_] /\
  returns c5 (push_str_truncate c5 (enc [euro]) s_he) tt [h_; e_] /\
  returns c5 (push_str_truncate c5 (enc [smile; h_]) (mkastring [104; 105; 7; 7; 7] 1)) tt [h_; smile].
Proof. solve_case. Qed.

(** All of [w] when it fits. *)
Theorem C06_whole : forall (c : cfg) (s : astring) (t w : text),
  valid_cfg c -> shows c s t -> blen t + blen w <= cap c ->
  returns c (push_str_truncate c (enc w) s) tt (t ++ w).
Proof. exact (@c06_whole). Qed.
Print Assumptions C06_whole.
Example C06_whole_case :
  valid_cfg c5 /\ shows c5 s_he [h_; e_] /\ blen [h_; e_] + blen [e_] <= cap c5 /\
  returns c5 (push_str_truncate c5 (enc [e_]) s_he) tt [h_; e_; e_].
Proof. solve_case. Qed.

(** One character, appended whole or not at all. *)
Theorem C07_try_push : forall (c : cfg) (s : astring) (t : text) (x : char),
  valid_cfg c -> shows c s t ->
  (blen t + clen x <= cap c -> returns c (try_push c x s) (Ok tt) (t ++ [x])) /\
  (cap c < blen t + clen x -> try_push c x s = (Ret (Err mkOutOfBounds), s)).
Proof. exact (@c07_try_push). Qed.
Print Assumptions C07_try_push.
Example C07_try_push_case :
  valid_cfg c5 /\ shows c5 s_he [h_; e_] /\
  returns c5 (try_push c5 e_ s_he) (Ok tt) [h_; e_; e_] /\
  cap c5 < blen [h_; e_] + clen euro /\ try_push c5 euro s_he = (Ret (Err mkOutOfBounds), s_he).
Proof. solve_case. Qed.

(** [try_from_str] and [FromStr]: the whole text or an error. *)
Theorem C08_try_from_str : forall (c : cfg) (w : text),
  valid_cfg c ->
  (blen w <= cap c -> makes_ok c (try_from_str c (enc w)) w /\ makes_ok c (from_str c (enc w)) w) /\
  (cap c < blen w -> try_from_str c (enc w) = Ret (Err mkOutOfBounds) /\
                     from_str c (enc w) = Ret (Err mkOutOfBounds)).
Proof. exact (@c08_try_from_str). Qed.
Print Assumptions C08_try_from_str.
Example C08_try_from_str_case :
  valid_cfg c5 /\ blen [euro; e_] <= cap c5 /\ makes_ok c5 (try_from_str c5 (enc [euro; e_])) [euro; e_] /\
  cap c5 < blen [euro; euro] /\ from_str c5 (enc [euro; euro]) = Ret (Err mkOutOfBounds).
Proof. solve_case. Qed.

(** [from_str_truncate] and [From<&str>]: the longest prefix that fits. *)
Theorem C09_from_str_truncate : forall (c : cfg) (w : text),
  valid_cfg c ->
  exists p, longest_fit (cap c) w p /\ makes c (from_str_truncate c (enc w)) p /\
    makes c (from_ref_str c (enc w)) p.
Proof. exact (@c09_from_str_truncate). Qed.
Print Assumptions C09_from_str_truncate.
Example C09_from_str_truncate_case :
  valid_cfg c5 /\ longest_fit (cap c5) [euro; h_; e_] [euro; h_] /\
  makes c5 (from_str_truncate c5 (enc [euro; h_; e_])) [euro; h_] /\
  makes c5 (from_ref_str c5 (enc [euro; h_; e_])) [euro; h_].
Proof. solve_case. Qed.

(** All of it when it fits. *)
Theorem C09_whole : forall (c : cfg) (w : text),
  valid_cfg c -> blen w <= cap c -> makes c (from_str_truncate c (enc w)) w.
Proof. exact (@c09_whole). Qed.
Print Assumptions C09_whole.
Example C09_whole_case :
  valid_cfg c5 /\ blen [euro; e_] <= cap c5 /\ makes c5 (from_str_truncate c5 (enc [euro; e_])) [euro; e_].
Proof. solve_case. Qed.

(** Beyond the end nothing happens; at a boundary the rest goes; inside a character it is an error. *)
Theorem C18_truncate : forall (c : cfg) (s : astring) (t : text) (n : N),
  valid_cfg c -> shows c s t ->
  (blen t <= n -> truncate c n s = (Ret (Ok tt), s)) /\
  (forall pre post, splits t n pre post -> returns c (truncate c n s) (Ok tt) pre) /\
  (n < blen t -> ~ boundary t n -> truncate c n s = (Ret (Err mkUtf8), s)).
Proof. exact (@c18_truncate). Qed.
Print Assumptions C18_truncate.
Example C18_truncate_case :
  valid_cfg c5 /\ shows c5 s_he [h_; e_] /\
  returns c5 (truncate c5 300 s_he) (Ok tt) [h_; e_] /\
  splits [h_; e_] 1 [h_] [e_] /\ returns c5 (truncate c5 1 s_he) (Ok tt) [h_] /\
  2 < blen [h_; e_] /\ ~ boundary [h_; e_] 2 /\ truncate c5 2 s_he = (Ret (Err mkUtf8), s_he).
Proof. solve_case. Qed.

(** Takes the last character off. *)
Theorem C19_pop : forall (c : cfg) (s : astring),
  valid_cfg c ->
  (shows c s [] -> returns c (pop c s) None []) /\
  (forall t x, shows c s (t ++ [x]) -> returns c (pop c s) (Some x) t).
Proof. exact (@c19_pop). Qed.
Print Assumptions C19_pop.
Example C19_pop_case :
  valid_cfg c5 /\ shows c5 s_empty [] /\ returns c5 (pop c5 s_empty) None [] /\
  shows c5 s_he ([h_] ++ [e_]) /\ returns c5 (pop c5 s_he) (Some e_) [h_].
Proof. solve_case. Qed.

(** Removes white space at both ends and nothing else. *)
Theorem C20_trim : forall (c : cfg) (s : astring) (t : text),
  valid_cfg c -> shows c s t ->
  exists r, trimmed t r /\ returns c (trim c s) tt r.
Proof. exact (@c20_trim). Qed.
Print Assumptions C20_trim.
Example C20_trim_case :
  valid_cfg c5 /\ shows c5 s_sp [sp_; h_; sp_; i_; sp_] /\ trimmed [sp_; h_; sp_; i_; sp_] [h_; sp_; i_] /\
  returns c5 (trim c5 s_sp) tt [h_; sp_; i_].
Proof. solve_case. Qed.
Example C20_trim_case2 :
  returns c5 (trim c5 (mkastring [32; 104; 7; 7; 7] 2)) tt [h_] /\
  returns c5 (trim c5 (mkastring [104; 32; 7; 7; 7] 2)) tt [h_] /\
  returns c5 (trim c5 (mkastring [104; 7; 7; 7; 7] 1)) tt [h_] /\
  returns c5 (trim c5 (mkastring [32; 227; 128; 128; 7] 4)) tt [] /\ returns c5 (trim c5 s_empty) tt [].
Proof. solve_case. Qed.

(** The text [trim] must leave is determined. *)
Theorem C20_trimmed_unique : forall t r r' : text,
  trimmed t r -> trimmed t r' -> r = r'.
Proof. exact (@c20_trimmed_unique). Qed.
Print Assumptions C20_trimmed_unique.
Example C20_trimmed_unique_case :
  trimmed [ideo_sp; h_; sp_] [h_] /\ trim_text [ideo_sp; h_; sp_] = [h_].
Proof. solve_case. Qed.

(** Takes out the character at a byte position. *)
Theorem C21_remove : forall (c : cfg) (s : astring) (t : text) (i : N),
  valid_cfg c -> shows c s t ->
  (blen t <= i -> remove c i s = (Ret (Err EOutOfBounds), s)) /\
  (i < blen t -> ~ boundary t i -> remove c i s = (Ret (Err EUtf8), s)) /\
  (forall pre x post, splits t i pre (x :: post) -> returns c (remove c i s) (Ok x) (pre ++ post)).
Proof. exact (@c21_remove). Qed.
Print Assumptions C21_remove.
Example C21_remove_case :
  valid_cfg c5 /\ shows c5 s_he [h_; e_] /\
  remove c5 3 s_he = (Ret (Err EOutOfBounds), s_he) /\
  ~ boundary [h_; e_] 2 /\ remove c5 2 s_he = (Ret (Err EUtf8), s_he) /\
  splits [h_; e_] 0 [] [h_; e_] /\ returns c5 (remove c5 0 s_he) (Ok h_) [e_].
Proof. solve_case. Qed.
Example C21_remove_case2 :
  remove c5 65535 s_he = (Ret (Err EOutOfBounds), s_he) /\ returns c5 (remove c5 1 s_he) (Ok e_) [h_] /\
  returns c5 (remove c5 0 s_full) (Ok euro) [e_].
Proof. solve_case. Qed.

(** Inserts all of [w] at a boundary, or reports an error and changes nothing; which error is said too. *)
Theorem C23_try_insert_str : forall (c : cfg) (s : astring) (t : text) (i : N) (w : text),
  valid_cfg c -> shows c s t ->
  (blen t < i -> try_insert_str c i (enc w) s = (Ret (Err EOutOfBounds), s)) /\
  (i <= blen t -> w = [] -> try_insert_str c i (enc w) s = (Ret (Ok tt), s)) /\
  (i <= blen t -> cap c < blen w -> try_insert_str c i (enc w) s = (Ret (Err EOutOfBounds), s)) /\
  (i <= blen t -> w <> [] -> blen w <= cap c -> ~ boundary t i ->
     try_insert_str c i (enc w) s = (Ret (Err EUtf8), s)) /\
  (boundary t i -> cap c < blen t + blen w -> w <> [] ->
     try_insert_str c i (enc w) s = (Ret (Err EOutOfBounds), s)) /\
  (forall pre post, splits t i pre post -> blen t + blen w <= cap c ->
     returns c (try_insert_str c i (enc w) s) (Ok tt) (pre ++ w ++ post)).
Proof. exact (@c23_try_insert_str). Qed.
Print Assumptions C23_try_insert_str.
Example C23_try_insert_str_case :
  valid_cfg c5 /\ shows c5 s_he [h_; e_] /\
  try_insert_str c5 4 (enc [h_]) s_he = (Ret (Err EOutOfBounds), s_he) /\
  try_insert_str c5 1 (enc [euro; euro]) s_he = (Ret (Err EOutOfBounds), s_he) /\
  ~ boundary [h_; e_] 2 /\ try_insert_str c5 2 (enc [h_]) s_he = (Ret (Err EUtf8), s_he) /\
  boundary [h_; e_] 1 /\ try_insert_str c5 1 (enc [euro]) s_he = (Ret (Err EOutOfBounds), s_he) /\
  splits [h_; e_] 1 [h_] [e_] /\
  returns c5 (try_insert_str c5 1 (enc [e_]) s_he) (Ok tt) ([h_] ++ [e_] ++ [e_]).
Proof. solve_case. Qed.
Example C23_try_insert_str_case2 :
  try_insert_str c5 4 (enc []) s_he = (Ret (Err EOutOfBounds), s_he) /\
  returns c5 (try_insert_str c5 2 (enc []) s_he) (Ok tt) [h_; e_] /\
  try_insert_str c5 2 (enc [euro; euro]) s_he = (Ret (Err EOutOfBounds), s_he) /\
  try_insert_str c5 2 (enc [smile]) s_he = (Ret (Err EUtf8), s_he).
Proof. solve_case. Qed.

(** The same for one character. *)
Theorem C23_try_insert : forall (c : cfg) (s : astring) (t : text) (i : N) (x : char),
  valid_cfg c -> shows c s t ->
  (blen t < i -> try_insert c i x s = (Ret (Err EOutOfBounds), s)) /\
  (i <= blen t -> cap c < clen x -> try_insert c i x s = (Ret (Err EOutOfBounds), s)) /\
  (i <= blen t -> clen x <= cap c -> ~ boundary t i -> try_insert c i x s = (Ret (Err EUtf8), s)) /\
  (boundary t i -> cap c < blen t + clen x -> try_insert c i x s = (Ret (Err EOutOfBounds), s)) /\
  (forall pre post, splits t i pre post -> blen t + clen x <= cap c ->
     returns c (try_insert c i x s) (Ok tt) (pre ++ x :: post)).
Proof. exact (@c23_try_insert). Qed.
Print Assumptions C23_try_insert.
Example C23_try_insert_case :
  valid_cfg c5 /\ shows c5 s_he [h_; e_] /\
  try_insert c5 4 h_ s_he = (Ret (Err EOutOfBounds), s_he) /\
  try_insert c5 2 h_ s_he = (Ret (Err EUtf8), s_he) /\
  try_insert c5 1 euro s_he = (Ret (Err EOutOfBounds), s_he) /\
  try_insert c1 0 euro (new c1) = (Ret (Err EOutOfBounds), new c1) /\
  splits [h_; e_] 1 [h_] [e_] /\ returns c5 (try_insert c5 1 e_ s_he) (Ok tt) ([h_] ++ e_ :: [e_]) /\
  returns c5 (try_insert c5 0 smile s_empty) (Ok tt) [smile].
Proof. solve_case. Qed.

(** Inserts the longest prefix of [w] for which there is room. *)
Theorem C24_insert_str_truncate : forall (c : cfg) (s : astring) (t : text) (i : N) (w : text),
  valid_cfg c -> shows c s t ->
  exists p, longest_fit (cap c - blen t) w p /\
  (blen t < i -> insert_str_truncate c i (enc w) s = (Ret (Err EOutOfBounds), s)) /\
  (i <= blen t -> ~ boundary t i -> p <> [] -> insert_str_truncate c i (enc w) s = (Ret (Err EUtf8), s)) /\
  (i <= blen t -> p = [] -> insert_str_truncate c i (enc w) s = (Ret (Ok tt), s)) /\
  (forall pre post, splits t i pre post ->
     returns c (insert_str_truncate c i (enc w) s) (Ok tt) (pre ++ p ++ post)).
Proof. exact (@c24_insert_str_truncate). Qed.
Print Assumptions C24_insert_str_truncate.
Example C24_insert_str_truncate_case :
  valid_cfg c5 /\ shows c5 s_he [h_; e_] /\ longest_fit (cap c5 - blen [h_; e_]) [i_; e_] [i_] /\
  insert_str_truncate c5 4 (enc [i_; e_]) s_he = (Ret (Err EOutOfBounds), s_he) /\
  insert_str_truncate c5 2 (enc [i_; e_]) s_he = (Ret (Err EUtf8), s_he) /\
  splits [h_; e_] 1 [h_] [e_] /\
  returns c5 (insert_str_truncate c5 1 (enc [i_; e_]) s_he) (Ok tt) ([h_] ++ [i_] ++ [e_]).
Proof. solve_case. Qed.

(** Replaces the bytes of a range between two boundaries, or reports an error and changes nothing. *)
Theorem C25_replace_range : forall (c : cfg) (s : astring) (t : text) (lo hi : bound) (w : list char),
  valid_cfg c -> shows c s t ->
  let a := range_from (usize_max c) lo in
  let b := range_to (usize_max c) (blen t) hi in
  (forall pre mid post, t = pre ++ mid ++ post -> blen pre = a -> blen (pre ++ mid) = b ->
     blen (pre ++ w ++ post) <= cap c ->
     returns c (replace_range c lo hi (enc w) s) (Ok tt) (pre ++ w ++ post)) /\
  (a = b -> w = [] -> replace_range c lo hi (enc w) s = (Ret (Ok tt), s)) /\
  (b < a -> replace_range c lo hi (enc w) s = (Ret (Err EOutOfBounds), s)) /\
  (a <= b -> blen t < b -> ~ (a = b /\ w = []) ->
     replace_range c lo hi (enc w) s = (Ret (Err EOutOfBounds), s)) /\
  (a <= b -> b <= blen t -> cap c < blen w ->
     replace_range c lo hi (enc w) s = (Ret (Err EOutOfBounds), s)) /\
  (a <= b -> b <= blen t -> blen w <= cap c -> ~ (a = b /\ w = []) -> ~ (boundary t a /\ boundary t b) ->
     replace_range c lo hi (enc w) s = (Ret (Err EUtf8), s)) /\
  (forall pre mid post, t = pre ++ mid ++ post -> blen pre = a -> blen (pre ++ mid) = b ->
     cap c < blen (pre ++ w ++ post) ->
     replace_range c lo hi (enc w) s = (Ret (Err EOutOfBounds), s)).
Proof. exact (@c25_replace_range). Qed.
Print Assumptions C25_replace_range.
Example C25_replace_range_case :
  valid_cfg c5 /\ shows c5 s_full [euro; e_] /\
  range_from (usize_max c5) Unbounded = 0 /\ range_to (usize_max c5) 5 (Included 2) = 3 /\
  returns c5 (replace_range c5 Unbounded (Included 2) (enc [h_; i_]) s_full) (Ok tt) ([] ++ [h_; i_] ++ [e_]) /\
  replace_range c5 (Included 3) (Excluded 2) (enc []) s_full = (Ret (Err EOutOfBounds), s_full) /\
  replace_range c5 (Included 3) (Excluded 6) (enc []) s_full = (Ret (Err EOutOfBounds), s_full) /\
  replace_range c5 (Included 3) (Excluded 5) (enc [euro; euro]) s_full = (Ret (Err EOutOfBounds), s_full) /\
  ~ boundary [euro; e_] 4 /\
  replace_range c5 (Included 3) (Excluded 4) (enc [h_]) s_full = (Ret (Err EUtf8), s_full) /\
  replace_range c5 (Included 3) (Excluded 5) (enc [euro]) s_full = (Ret (Err EOutOfBounds), s_full) /\
  replace_range c5 (Excluded 65535) (Included 65535) (enc [h_]) s_full = (Ret (Err EOutOfBounds), s_full).
Proof. solve_case. Qed.
Example C25_replace_range_case2 :
  replace_range c5 Unbounded (Included 65535) (enc [h_]) s_full = (Ret (Err EOutOfBounds), s_full) /\
  replace_range c5 (Included 1) (Excluded 4) (enc [h_]) s_he = (Ret (Err EOutOfBounds), s_he) /\
  ~ boundary [h_; e_] 2 /\
  replace_range c5 (Included 2) (Excluded 3) (enc [i_]) s_he = (Ret (Err EUtf8), s_he) /\
  replace_range c5 (Included 2) (Excluded 3) (enc [smile]) s_he = (Ret (Err EUtf8), s_he) /\
  replace_range c5 (Included 2) (Excluded 3) (enc [euro; euro]) s_he = (Ret (Err EOutOfBounds), s_he) /\
  returns c5 (replace_range c5 (Included 2) (Excluded 2) (enc []) s_he) (Ok tt) [h_; e_] /\
  returns c5 (replace_range c5 (Excluded 0) Unbounded (enc [euro]) s_he) (Ok tt) [h_; euro].
Proof. solve_case. Qed.

(** Moves the characters of a range out of the string. *)
Theorem C26_drain : forall (c : cfg) (s : astring) (t : text) (lo hi : bound),
  valid_cfg c -> shows c s t ->
  let a := range_from (usize_max c) lo in
  let b := range_to (usize_max c) (blen t) hi in
  (forall pre mid post, t = pre ++ mid ++ post -> blen pre = a -> blen (pre ++ mid) = b ->
     exists d s', drain_iter c lo hi s = (Ret (Ok d), s') /\
       drain_as_str c d = Ret (enc mid) /\ shows c (drained d) mid /\ shows c s' (pre ++ post)) /\
  (b < a \/ blen t < b -> drain_iter c lo hi s = (Ret (Err EOutOfBounds), s)) /\
  (a <= b -> b <= blen t -> ~ (boundary t a /\ boundary t b) ->
     drain_iter c lo hi s = (Ret (Err EUtf8), s)).
Proof. exact (@c26_drain). Qed.
Print Assumptions C26_drain.
Example C26_drain_case :
  valid_cfg c5 /\ shows c5 s_full [euro; e_] /\
  drain_iter c5 Unbounded (Excluded 3) s_full =
    (Ret (Ok (mkDrain (mkastring [226; 130; 172; 0; 0] 3))), mkastring [195; 169; 172; 195; 169] 2) /\
  shows c5 (mkastring [226; 130; 172; 0; 0] 3) [euro] /\ shows c5 (mkastring [195; 169; 172; 195; 169] 2) [e_] /\
  drain_iter c5 (Included 4) (Included 2) s_full = (Ret (Err EOutOfBounds), s_full) /\
  drain_iter c5 (Included 3) (Included 5) s_full = (Ret (Err EOutOfBounds), s_full) /\
  drain_iter c5 (Included 3) (Included 3) s_full = (Ret (Err EUtf8), s_full).
Proof. solve_case. Qed.
Example C26_drain_case2 :
  drain_iter c5 (Included 1) (Excluded 1) s_he = (Ret (Ok (mkDrain (mkastring [0; 0; 0; 0; 0] 0))), s_he) /\
  drain_iter c5 Unbounded (Included 65535) s_he = (Ret (Err EOutOfBounds), s_he) /\
  drain_iter c5 (Included 1) (Excluded 4) s_he = (Ret (Err EOutOfBounds), s_he) /\
  drain_iter c5 (Included 2) (Excluded 3) s_he = (Ret (Err EUtf8), s_he).
Proof. solve_case. Qed.

(** Cuts the string in two at a boundary. *)
Theorem C28_split_off : forall (c : cfg) (s : astring) (t : text) (i : N),
  valid_cfg c -> shows c s t ->
  (blen t < i -> split_off c i s = (Ret (Err EOutOfBounds), s)) /\
  (i <= blen t -> ~ boundary t i -> split_off c i s = (Ret (Err EUtf8), s)) /\
  (forall pre post, splits t i pre post ->
     exists d s', split_off c i s = (Ret (Ok d), s') /\ shows c d post /\ shows c s' pre).
Proof. exact (@c28_split_off). Qed.
Print Assumptions C28_split_off.
Example C28_split_off_case :
  valid_cfg c5 /\ shows c5 s_full [euro; e_] /\
  split_off c5 6 s_full = (Ret (Err EOutOfBounds), s_full) /\
  ~ boundary [euro; e_] 4 /\ split_off c5 4 s_full = (Ret (Err EUtf8), s_full) /\
  splits [euro; e_] 3 [euro] [e_] /\
  split_off c5 3 s_full = (Ret (Ok (mkastring [195; 169; 0; 0; 0] 2)), mkastring [226; 130; 172; 195; 169] 3).
Proof. solve_case. Qed.

(** [new] and [default] are empty; [capacity] is the type's parameter. *)
Theorem C29_empty : forall c : cfg,
  shows c (new c) [] /\ shows c (default c) [] /\ capacity c = cap c.
Proof. exact (@c29_empty). Qed.
Print Assumptions C29_empty.
Example C29_empty_case :
  new c5 = mkastring [0; 0; 0; 0; 0] 0 /\ default c5 = new c5 /\ capacity c5 = 5.
Proof. solve_case. Qed.

(** [len], [is_empty], [as_ref] and [clear]. *)
Theorem C29_observers : forall (c : cfg) (s : astring) (t : text),
  valid_cfg c -> shows c s t ->
  len s = blen t /\ is_empty c s = Ret (match t with [] => true | _ => false end) /\
  as_ref_str c s = Ret (enc t) /\ as_ref_bytes c s = Ret (enc t) /\
  returns c (clear s) tt [].
Proof. exact (@c29_observers). Qed.
Print Assumptions C29_observers.
Example C29_observers_case :
  valid_cfg c5 /\ shows c5 s_he [h_; e_] /\ len s_he = 3 /\ is_empty c5 s_he = Ret false /\
  is_empty c5 s_empty = Ret true /\ returns c5 (clear s_he) tt [].
Proof. solve_case. Qed.
