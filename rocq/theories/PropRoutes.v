(** Different calls with the same effect, pieces, capacities and a Drain's provided methods (C53-C56). Statements only: the proofs are the lemmas of ClaimsRoutes.v, ClaimsDrainIter.v. *)
From Verif Require Import Base Char Spec RustStd RustIter RustOrd ModelError Model ModelArgs RustFmt SpecFmt ModelImpl ModelDrain ModelCache
  ModelIntegration Layout TextOps SpecOps ModelOps ModelCacheOps StringSpec TestSuite IterSpec Obs ObsCache Cases
  ClaimsRoutes ClaimsDrainIter.

(** Appending is inserting at the end. *)
Theorem C53_push_insert : forall (c : cfg) (s : astring) (t w : text),
  valid_cfg c -> shows c s t ->
  agree c (fun a b => b = map_err from_oob a) (try_push_str c (enc w) s) (try_insert_str c (len s) (enc w) s).
Proof. exact (@c53_push_insert). Qed.
Print Assumptions C53_push_insert.
Example C53_push_insert_case :
  valid_cfg c5 /\ shows c5 s_he [h_; e_] /\
  returns c5 (try_push_str c5 (enc [e_]) s_he) (Ok tt) [h_; e_; e_] /\
  returns c5 (try_insert_str c5 (len s_he) (enc [e_]) s_he) (Ok tt) [h_; e_; e_] /\
  try_push_str c5 (enc [euro]) s_he = (Ret (Err mkOutOfBounds), s_he) /\
  try_insert_str c5 (len s_he) (enc [euro]) s_he = (Ret (Err EOutOfBounds), s_he).
Proof. solve_case. Qed.

(** A character is a string of one character. *)
Theorem C53_chars : forall (c : cfg) (s : astring) (t : text) (x : char) (i : N),
  valid_cfg c -> shows c s t ->
  agree c (fun a b => a = b) (try_push c x s) (try_push_str c (enc [x]) s) /\
  agree c (fun a b => a = b) (try_insert c i x s) (try_insert_str c i (enc [x]) s).
Proof. exact (@c53_chars). Qed.
Print Assumptions C53_chars.
Example C53_chars_case :
  valid_cfg c5 /\ shows c5 s_he [h_; e_] /\ returns c5 (try_insert c5 1 i_ s_he) (Ok tt) [h_; i_; e_] /\
  returns c5 (try_insert_str c5 1 (enc [i_]) s_he) (Ok tt) [h_; i_; e_] /\
  try_insert c5 2 i_ s_he = (Ret (Err EUtf8), s_he) /\ try_insert_str c5 2 (enc [i_]) s_he = (Ret (Err EUtf8), s_he).
Proof. solve_case. Qed.

(** Popping is removing the character that starts where the rest ends. *)
Theorem C53_pop_remove : forall (c : cfg) (s : astring) (t : list char) (x : char),
  valid_cfg c -> shows c s (t ++ [x]) ->
  agree c (fun a b => a = ok b) (pop c s) (remove c (blen t) s).
Proof. exact (@c53_pop_remove). Qed.
Print Assumptions C53_pop_remove.
Example C53_pop_remove_case :
  valid_cfg c5 /\ shows c5 s_he ([h_] ++ [e_]) /\ returns c5 (pop c5 s_he) (Some e_) [h_] /\
  returns c5 (remove c5 1 s_he) (Ok e_) [h_].
Proof. solve_case. Qed.

(** [split_off(i)] and [drain(i..)] cut off the same part, or fail alike. *)
Theorem C53_split_drain : forall (c : cfg) (s : astring) (t : text) (i : N),
  valid_cfg c -> shows c s t ->
  agree c (same_part c) (split_off c i s) (drain_iter c (Included i) Unbounded s).
Proof. exact (@c53_split_drain). Qed.
Print Assumptions C53_split_drain.
Example C53_split_drain_case :
  valid_cfg c5 /\ shows c5 s_he [h_; e_] /\
  split_off c5 1 s_he = (Ret (Ok (mkastring [195; 169; 0; 0; 0] 2)), mkastring [104; 195; 169; 7; 9] 1) /\
  drain_iter c5 (Included 1) Unbounded s_he =
    (Ret (Ok (mkDrain (mkastring [195; 169; 0; 0; 0] 2))), mkastring [104; 195; 169; 7; 9] 1) /\
  split_off c5 2 s_he = (Ret (Err EUtf8), s_he) /\ drain_iter c5 (Included 2) Unbounded s_he = (Ret (Err EUtf8), s_he).
Proof. solve_case. Qed.

(** [truncate(i)] keeps what [split_off(i)] keeps. *)
Theorem C53_truncate_split : forall (c : cfg) (s : astring) (t : text) (i : N),
  valid_cfg c -> shows c s t -> i <= len s ->
  agree c (fun a b => a = map_ok (fun _ => tt) (map_err (fun _ => mkUtf8) b)) (truncate c i s) (split_off c i s).
Proof. exact (@c53_truncate_split). Qed.
Print Assumptions C53_truncate_split.
Example C53_truncate_split_case :
  valid_cfg c5 /\ shows c5 s_he [h_; e_] /\ 1 <= len s_he /\ returns c5 (truncate c5 1 s_he) (Ok tt) [h_] /\
  truncate c5 2 s_he = (Ret (Err mkUtf8), s_he) /\ split_off c5 2 s_he = (Ret (Err EUtf8), s_he).
Proof. solve_case. Qed.

(** Removing a character is draining its bytes. *)
Theorem C53_remove_drain : forall (c : cfg) (s : astring) (t : text) (i : N) (x : char) (s1 : astring),
  valid_cfg c -> shows c s t -> remove c i s = (Ret (Ok x), s1) ->
  exists d s2 u, drain_iter c (Included i) (Excluded (i + clen x)) s = (Ret (Ok d), s2) /\
    shows c (drained d) [x] /\ shows c s1 u /\ shows c s2 u.
Proof. exact (@c53_remove_drain). Qed.
Print Assumptions C53_remove_drain.
Example C53_remove_drain_case :
  valid_cfg c5 /\ shows c5 s_full [euro; e_] /\
  remove c5 0 s_full = (Ret (Ok euro), mkastring [195; 169; 172; 195; 169] 2) /\
  drain_iter c5 (Included 0) (Excluded (0 + clen euro)) s_full =
    (Ret (Ok (mkDrain (mkastring [226; 130; 172; 0; 0] 3))), mkastring [195; 169; 172; 195; 169] 2).
Proof. solve_case. Qed.

(** Four ways to empty a string. *)
Theorem C53_clear : forall (c : cfg) (s : astring) (t : text),
  valid_cfg c -> shows c s t ->
  agree c (fun _ b => b = Ok tt) (clear s) (truncate c 0 s) /\
  agree c (fun _ b => b = Ok tt) (clear s) (replace_range c Unbounded Unbounded [] s) /\
  agree c (fun _ b => exists d, b = Ok d /\ shows c (drained d) t) (clear s) (drain_iter c Unbounded Unbounded s).
Proof. exact (@c53_clear). Qed.
Print Assumptions C53_clear.
Example C53_clear_case :
  valid_cfg c5 /\ shows c5 s_full [euro; e_] /\ returns c5 (clear s_full) tt [] /\
  returns c5 (truncate c5 0 s_full) (Ok tt) [] /\ returns c5 (replace_range c5 Unbounded Unbounded [] s_full) (Ok tt) [] /\
  returns c5 (drain_iter c5 Unbounded Unbounded s_full) (Ok (mkDrain s_full)) [].
Proof. solve_case. Qed.

(** Replacing is draining, then inserting: with the same result, except that a replacement for which there is no room leaves the string as it was. *)
Theorem C53_replace : forall (c : cfg) (s : astring) (t : text) (lo hi : bound) (w : text) (d : Drain)
    (s1 : astring),
  valid_cfg c -> shows c s t ->
  drain_iter c lo hi s = (Ret (Ok d), s1) ->
  exists r s2 s3, try_insert_str c (range_from (usize_max c) lo) (enc w) s1 = (Ret r, s2) /\
    replace_range c lo hi (enc w) s = (Ret r, s3) /\
    ((r = Ok tt /\ exists u, shows c s2 u /\ shows c s3 u) \/ (r = Err EOutOfBounds /\ s2 = s1 /\ s3 = s)).
Proof. exact (@c53_replace). Qed.
Print Assumptions C53_replace.
Example C53_replace_case :
  valid_cfg c5 /\ shows c5 s_full [euro; e_] /\
  drain_iter c5 Unbounded (Excluded 3) s_full =
    (Ret (Ok (mkDrain (mkastring [226; 130; 172; 0; 0] 3))), mkastring [195; 169; 172; 195; 169] 2) /\
  try_insert_str c5 (range_from (usize_max c5) Unbounded) (enc [h_; i_]) (mkastring [195; 169; 172; 195; 169] 2) =
    (Ret (Ok tt), mkastring [104; 105; 195; 169; 169] 4) /\
  returns c5 (replace_range c5 Unbounded (Excluded 3) (enc [h_; i_]) s_full) (Ok tt) [h_; i_; e_].
Proof. solve_case. Qed.
Example C53_replace_case2 :
  try_insert_str c5 (range_from (usize_max c5) Unbounded) (enc [smile]) (mkastring [195; 169; 172; 195; 169] 2) =
    (Ret (Err EOutOfBounds), mkastring [195; 169; 172; 195; 169] 2) /\
  replace_range c5 Unbounded (Excluded 3) (enc [smile]) s_full = (Ret (Err EOutOfBounds), s_full).
Proof. solve_case. Qed.

(** A range that cannot be drained cannot be replaced either, with the same error. *)
Theorem C53_replace_fails : forall (c : cfg) (s : astring) (t : text) (lo hi : bound) (w : text) (e : Error)
    (s1 : astring),
  valid_cfg c -> shows c s t -> blen w <= cap c ->
  ~ (range_from (usize_max c) lo = range_to (usize_max c) (blen t) hi /\ w = []) ->
  drain_iter c lo hi s = (Ret (Err e), s1) ->
  replace_range c lo hi (enc w) s = (Ret (Err e), s) /\ s1 = s.
Proof. exact (@c53_replace_fails). Qed.
Print Assumptions C53_replace_fails.
Example C53_replace_fails_case :
  valid_cfg c5 /\ shows c5 s_he [h_; e_] /\ blen [i_] <= cap c5 /\
  drain_iter c5 (Included 2) Unbounded s_he = (Ret (Err EUtf8), s_he) /\
  replace_range c5 (Included 2) Unbounded (enc [i_]) s_he = (Ret (Err EUtf8), s_he) /\
  drain_iter c5 (Included 3) (Excluded 9) s_he = (Ret (Err EOutOfBounds), s_he) /\
  replace_range c5 (Included 3) (Excluded 9) (enc [i_]) s_he = (Ret (Err EOutOfBounds), s_he).
Proof. solve_case. Qed.

(** Four ways to append. *)
Theorem C53_append : forall (c : cfg) (s : astring) (t w : text),
  valid_cfg c -> shows c s t ->
  exists u s1 s2 it s3, push_str_truncate c (enc w) s = (Ret tt, s1) /\ shows c s1 u /\
    add c s (enc w) = Ret s2 /\ shows c s2 u /\
    extend_strs c 2 list_iter [item_of w] s = (Ret tt, it, s3) /\ shows c s3 u /\
    (forall s4, try_push_str c (enc w) s = (Ret (Ok tt), s4) -> shows c s4 u).
Proof. exact (@c53_append). Qed.
Print Assumptions C53_append.
Example C53_append_case :
  valid_cfg c5 /\ shows c5 s_he [h_; e_] /\ returns c5 (push_str_truncate c5 (enc [i_; euro]) s_he) tt [h_; e_; i_] /\
  makes c5 (add c5 s_he (enc [i_; euro])) [h_; e_; i_] /\
  extend_strs c5 2 list_iter [item_of [i_; euro]] s_he = (Ret tt, [], mkastring [104; 195; 169; 105; 9] 4) /\
  returns c5 (try_push_str c5 (enc [i_]) s_he) (Ok tt) [h_; e_; i_].
Proof. solve_case. Qed.

(** Truncating twice is truncating to the smaller size. *)
Theorem C53_truncate_twice : forall (c : cfg) (s : astring) (t : text) (m n : N) (s1 s2 : astring),
  valid_cfg c -> shows c s t ->
  truncate c m s = (Ret (Ok tt), s1) -> truncate c n s1 = (Ret (Ok tt), s2) ->
  exists u, shows c s2 u /\ returns c (truncate c (N.min m n) s) (Ok tt) u.
Proof. exact (@c53_truncate_twice). Qed.
Print Assumptions C53_truncate_twice.
Example C53_truncate_twice_case :
  valid_cfg c5 /\ shows c5 s_sp [sp_; h_; sp_; i_; sp_] /\
  truncate c5 4 s_sp = (Ret (Ok tt), mkastring [32; 104; 32; 105; 32] 4) /\
  truncate c5 2 (mkastring [32; 104; 32; 105; 32] 4) = (Ret (Ok tt), mkastring [32; 104; 32; 105; 32] 2) /\
  returns c5 (truncate c5 (N.min 4 2) s_sp) (Ok tt) [sp_; h_].
Proof. solve_case. Qed.

(** All or nothing: in one piece or in two. *)
Theorem C54_try_push : forall (c : cfg) (s : astring) (t : text) (a b : list char),
  valid_cfg c -> shows c s t ->
  (blen t + blen (a ++ b) <= cap c <->
     exists s1, try_push_str c (enc a) s = (Ret (Ok tt), s1) /\ exists s2, try_push_str c (enc b) s1 = (Ret (Ok tt), s2)) /\
  (forall s1 s2, try_push_str c (enc a) s = (Ret (Ok tt), s1) -> try_push_str c (enc b) s1 = (Ret (Ok tt), s2) ->
     exists u, shows c s2 u /\ returns c (try_push_str c (enc (a ++ b)) s) (Ok tt) u).
Proof. exact (@c54_try_push). Qed.
Print Assumptions C54_try_push.
Example C54_try_push_case :
  valid_cfg c5 /\ shows c5 s_he [h_; e_] /\ blen [h_; e_] + blen ([h_] ++ [i_]) <= cap c5 /\
  try_push_str c5 (enc [h_]) s_he = (Ret (Ok tt), mkastring [104; 195; 169; 104; 9] 4) /\
  try_push_str c5 (enc [i_]) (mkastring [104; 195; 169; 104; 9] 4) = (Ret (Ok tt), mkastring [104; 195; 169; 104; 105] 5) /\
  returns c5 (try_push_str c5 (enc ([h_] ++ [i_])) s_he) (Ok tt) [h_; e_; h_; i_].
Proof. solve_case. Qed.

(** Cutting: two pieces give at least what one piece gives, and the same when the first is not cut. They can give more: a short second piece may fit behind a cut first one. *)
Theorem C54_push_truncate : forall (c : cfg) (s : astring) (t a b : text),
  valid_cfg c -> shows c s t ->
  exists s1 s2 s3 u v,
    push_str_truncate c (enc a) s = (Ret tt, s1) /\ push_str_truncate c (enc b) s1 = (Ret tt, s2) /\
    push_str_truncate c (enc (a ++ b)) s = (Ret tt, s3) /\ shows c s2 u /\ shows c s3 v /\
    prefix_of v u /\ (blen t + blen a <= cap c -> u = v).
Proof. exact (@c54_push_truncate). Qed.
Print Assumptions C54_push_truncate.
Example C54_push_truncate_case :
  valid_cfg c5 /\ shows c5 s_he [h_; e_] /\
  push_str_truncate c5 (enc [h_; euro]) s_he = (Ret tt, mkastring [104; 195; 169; 104; 9] 4) /\
  push_str_truncate c5 (enc [i_]) (mkastring [104; 195; 169; 104; 9] 4) = (Ret tt, mkastring [104; 195; 169; 104; 105] 5) /\
  push_str_truncate c5 (enc ([h_; euro] ++ [i_])) s_he = (Ret tt, mkastring [104; 195; 169; 104; 9] 4) /\
  shows c5 (mkastring [104; 195; 169; 104; 105] 5) [h_; e_; h_; i_] /\ shows c5 (mkastring [104; 195; 169; 104; 9] 4) [h_; e_; h_].
Proof. solve_case. Qed.

(** From an [ArrayString<M>] to an [ArrayString<N>]. *)
Theorem C55_convert : forall (c : cfg) (n : N) (s : astring) (t : text),
  valid_cfg c -> 1 <= n <= 255 -> shows c s t ->
  exists b, as_str c s = Ret b /\
  (blen t <= n -> makes_ok (with_cap c n) (try_from_str (with_cap c n) b) t) /\
  (n < blen t -> try_from_str (with_cap c n) b = Ret (Err mkOutOfBounds)) /\
  (cap c <= n -> makes_ok (with_cap c n) (try_from_str (with_cap c n) b) t) /\
  (exists p, longest_fit n t p /\ makes (with_cap c n) (from_str_truncate (with_cap c n) b) p).
Proof. exact (@c55_convert). Qed.
Print Assumptions C55_convert.
Example C55_convert_case :
  valid_cfg c5 /\ shows c5 s_full [euro; e_] /\ as_str c5 s_full = Ret (enc [euro; e_]) /\
  makes_ok (with_cap c5 7) (try_from_str (with_cap c5 7) (enc [euro; e_])) [euro; e_] /\
  try_from_str (with_cap c5 4) (enc [euro; e_]) = Ret (Err mkOutOfBounds) /\
  longest_fit 4 [euro; e_] [euro] /\ makes (with_cap c5 4) (from_str_truncate (with_cap c5 4) (enc [euro; e_])) [euro].
Proof. solve_case. Qed.

(** Cutting to one capacity, then to another, is cutting to the smaller. *)
Theorem C55_compose : forall (c : cfg) (m n : N) (w : text),
  valid_cfg c -> 1 <= m <= 255 -> 1 <= n <= 255 ->
  exists s b u, from_str_truncate (with_cap c m) (enc w) = Ret s /\ as_str (with_cap c m) s = Ret b /\
    makes (with_cap c n) (from_str_truncate (with_cap c n) b) u /\
    makes (with_cap c (N.min m n)) (from_str_truncate (with_cap c (N.min m n)) (enc w)) u.
Proof. exact (@c55_compose). Qed.
Print Assumptions C55_compose.
Example C55_compose_case :
  valid_cfg c5 /\
  from_str_truncate (with_cap c5 4) (enc [euro; e_]) = Ret (mkastring [226; 130; 172; 0] 3) /\
  makes (with_cap c5 2) (from_str_truncate (with_cap c5 2) (enc [euro])) [] /\
  makes (with_cap c5 (N.min 4 2)) (from_str_truncate (with_cap c5 (N.min 4 2)) (enc [euro; e_])) [].
Proof. solve_case. Qed.

(** [nth] and [nth_back] of a [Drain]: the character that far in; everything up to it is gone. *)
Theorem C56_nth : forall (c : cfg) (d : Drain) (t : text) (n : nat),
  valid_cfg c -> shows c (drained d) t ->
  (exists d', iter_nth (drain_next c) n d = (Ret (nth_error t n), d') /\ shows c (drained d') (skipn (S n) t)) /\
  (exists d', iter_nth (drain_next_back c) n d = (Ret (nth_error (rev t) n), d') /\
     shows c (drained d') (rev (skipn (S n) (rev t)))).
Proof. exact (@c56_nth). Qed.
Print Assumptions C56_nth.
Example C56_nth_case :
  valid_cfg c5 /\ shows c5 (drained (mkDrain s_sp)) [sp_; h_; sp_; i_; sp_] /\
  iter_nth (drain_next c5) 1 (mkDrain s_sp) = (Ret (Some h_), mkDrain (mkastring [32; 105; 32; 32; 32] 3)) /\
  iter_nth (drain_next_back c5) 1 (mkDrain s_sp) = (Ret (Some i_), mkDrain (mkastring [32; 104; 32; 105; 32] 3)) /\
  fst (iter_nth (drain_next c5) 5 (mkDrain s_sp)) = Ret None.
Proof. solve_case. Qed.

(** [count], [last] and [collect]. *)
Theorem C56_folds : forall (c : cfg) (d : Drain) (t : text) (fuel : nat),
  valid_cfg c -> shows c (drained d) t -> (length t < fuel)%nat ->
  exists d', shows c (drained d') [] /\
    iter_count (drain_next c) fuel d = (Ret (lenN t), d') /\
    iter_last (drain_next c) fuel d = (Ret (hd_error (rev t)), d') /\
    iter_collect (drain_next c) fuel d = (Ret t, d').
Proof. exact (@c56_folds). Qed.
Print Assumptions C56_folds.
Example C56_folds_case :
  valid_cfg c5 /\ shows c5 (drained (mkDrain s_full)) [euro; e_] /\ (length [euro; e_] < 3)%nat /\
  fst (iter_count (drain_next c5) 3 (mkDrain s_full)) = Ret 2 /\
  fst (iter_last (drain_next c5) 3 (mkDrain s_full)) = Ret (Some e_) /\
  fst (iter_collect (drain_next c5) 3 (mkDrain s_full)) = Ret [euro; e_].
Proof. solve_case. Qed.

(** [for_each] (and [for]) with any closure: every character once, in order; if the closure panics, the drain holds exactly the characters not yet handed out. *)
Theorem C56_for_each : forall (c : cfg) (X : Type) (f : char -> ST X unit) (d : Drain) (x : X) (fuel : nat),
  valid_cfg c ->
  (forall t us x', shows c (drained d) t -> (length t < fuel)%nat -> visits f x t us x' ->
     exists d', iter_for_each (drain_next c) fuel f d x = (Ret tt, d', x') /\ shows c (drained d') []) /\
  (forall pre a post us x1 x2, shows c (drained d) (pre ++ a :: post) -> (length pre < fuel)%nat ->
     visits f x pre us x1 -> f a x1 = (Panic, x2) ->
     exists d', iter_for_each (drain_next c) fuel f d x = (Panic, d', x2) /\ shows c (drained d') post).
Proof. exact (@c56_for_each). Qed.
Print Assumptions C56_for_each.
Example C56_for_each_case :
  valid_cfg c5 /\ shows c5 (drained (mkDrain s_sp)) ([sp_; h_] ++ sp_ :: [i_; sp_]) /\
  visits (fun _ n => if n <? 2 then (Ret tt, n + 1) else (Panic, n + 7)) 0 [sp_; h_] [tt; tt] 2 /\
  iter_for_each (drain_next c5) 3 (fun _ n => if n <? 2 then (Ret tt, n + 1) else (Panic, n + 7)) (mkDrain s_sp) 0 =
    (Panic, mkDrain (mkastring [105; 32; 32; 32; 32] 2), 9).
Proof. solve_case. Qed.

(** [find]: the first character accepted; what follows it stays in the drain. *)
Theorem C56_find : forall (c : cfg) (X : Type) (p : char -> ST X bool) (d : Drain) (x : X) (fuel : nat)
    (pre : list char) (bs : list bool) (x1 : X) (t : list char),
  valid_cfg c ->
  shows c (drained d) (pre ++ t) -> (length pre < fuel)%nat -> visits p x pre bs x1 -> Forall (fun b => b = false) bs ->
  (t = [] -> exists d', iter_find (drain_next c) fuel p d x = (Ret None, d', x1) /\ shows c (drained d') []) /\
  (forall a post x2, t = a :: post -> p a x1 = (Ret true, x2) ->
     exists d', iter_find (drain_next c) fuel p d x = (Ret (Some a), d', x2) /\ shows c (drained d') post) /\
  (forall a post x2, t = a :: post -> p a x1 = (Panic, x2) ->
     exists d', iter_find (drain_next c) fuel p d x = (Panic, d', x2) /\ shows c (drained d') post).
Proof. exact (@c56_find). Qed.
Print Assumptions C56_find.
Example C56_find_case :
  valid_cfg c5 /\ shows c5 (drained (mkDrain s_sp)) ([sp_] ++ [h_; sp_; i_; sp_]) /\
  visits (fun a (n : N) => (Ret (33 <=? code a), n + 1)) 0 [sp_] [false] 1 /\
  iter_find (drain_next c5) 6 (fun a (n : N) => (Ret (33 <=? code a), n + 1)) (mkDrain s_sp) 0 =
    (Ret (Some h_), mkDrain (mkastring [32; 105; 32; 32; 32] 3), 2).
Proof. solve_case. Qed.

(** [rev()]: the text backwards, then [None]. *)
Theorem C56_rev : forall (c : cfg) (d : Drain) (t : text),
  valid_cfg c -> shows c (drained d) t ->
  exists d', ends (drain_next_back c) d (rev t) d' /\ shows c (drained d') [].
Proof. exact (@c56_rev). Qed.
Print Assumptions C56_rev.
Example C56_rev_case :
  valid_cfg c5 /\ shows c5 (drained (mkDrain s_full)) [euro; e_] /\
  fst (iter_collect (drain_next_back c5) 3 (mkDrain s_full)) = Ret [e_; euro].
Proof. solve_case. Qed.

(** A drain of any capacity extends a string by what fits. *)
Theorem C56_move : forall (c c' : cfg) (s : astring) (t : text) (d : Drain) (u : text),
  valid_cfg c -> valid_cfg c' -> shows c s t -> shows c' (drained d) u ->
  exists p s' d', longest_fit (cap c - blen t) u p /\
    extend_chars c (char_fuel c) (drain_iterator c') d s = (Ret tt, d', s') /\ shows c s' (t ++ p).
Proof. exact (@c56_move). Qed.
Print Assumptions C56_move.
Example C56_move_case :
  valid_cfg c5 /\ shows c5 (drained (mkDrain (mkastring [195; 169; 0; 0; 0] 2))) [e_] /\ shows c5 s_he [h_; e_] /\
  longest_fit (cap c5 - blen [h_; e_]) [e_] [e_] /\
  extend_chars c5 (char_fuel c5) (drain_iterator c5) (mkDrain (mkastring [195; 169; 0; 0; 0] 2)) s_he =
    (Ret tt, mkDrain (mkastring [195; 169; 0; 0; 0] 0), mkastring [104; 195; 169; 195; 169] 5).
Proof. solve_case. Qed.
