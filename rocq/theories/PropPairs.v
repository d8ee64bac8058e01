(** Fallible and truncating variants, ways out of a string and back in, the crate's unit tests (C67-C69). Statements only: the proofs are the lemmas of ClaimsPairs.v. *)
From Verif Require Import Base Char Spec RustStd RustIter RustOrd ModelError Model ModelArgs RustFmt SpecFmt ModelImpl ModelDrain ModelCache
  ModelIntegration Layout TextOps SpecOps ModelOps ModelCacheOps StringSpec TestSuite IterSpec Obs ObsCache Cases RustJson SpecJson
  ClaimsPairs.

(** [from_str_truncate] makes the whole text if [try_from_str] succeeds, else a shorter beginning of it. *)
Theorem C67_new : forall (c : cfg) (w : text),
  valid_cfg c ->
  exists p, makes c (from_str_truncate c (enc w)) p /\
  ((p = w /\ makes_ok c (try_from_str c (enc w)) w) \/
   (prefix_of p w /\ p <> w /\ try_from_str c (enc w) = Ret (Err mkOutOfBounds))).
Proof. exact (@c67_new). Qed.
Print Assumptions C67_new.
Example C67_new_case :
  makes c5 (from_str_truncate c5 (enc [euro; e_])) [euro; e_] /\ makes_ok c5 (try_from_str c5 (enc [euro; e_])) [euro; e_] /\
  makes c5 (from_str_truncate c5 (enc [euro; euro])) [euro] /\ try_from_str c5 (enc [euro; euro]) = Ret (Err mkOutOfBounds).
Proof. solve_case. Qed.

(** The same for [push_str_truncate] and [try_push_str]. *)
Theorem C67_push : forall (c : cfg) (s : astring) (t w : text),
  valid_cfg c -> shows c s t ->
  exists p, returns c (push_str_truncate c (enc w) s) tt (t ++ p) /\
  ((p = w /\ returns c (try_push_str c (enc w) s) (Ok tt) (t ++ w)) \/
   (prefix_of p w /\ p <> w /\ try_push_str c (enc w) s = (Ret (Err mkOutOfBounds), s))).
Proof. exact (@c67_push). Qed.
Print Assumptions C67_push.
Example C67_push_case :
  shows c5 s_he [h_; e_] /\ returns c5 (push_str_truncate c5 (enc [e_]) s_he) tt [h_; e_; e_] /\
  returns c5 (try_push_str c5 (enc [e_]) s_he) (Ok tt) [h_; e_; e_] /\
  returns c5 (push_str_truncate c5 (enc [i_; e_]) s_he) tt [h_; e_; i_] /\
  try_push_str c5 (enc [i_; e_]) s_he = (Ret (Err mkOutOfBounds), s_he).
Proof. solve_case. Qed.

(** The same for [insert_str_truncate] and [try_insert_str] at the start of a character or the end. *)
Theorem C67_insert : forall (c : cfg) (s : astring) (pre post : list char) (w : text),
  valid_cfg c -> shows c s (pre ++ post) ->
  exists p, returns c (insert_str_truncate c (blen pre) (enc w) s) (Ok tt) (pre ++ p ++ post) /\
  ((p = w /\ returns c (try_insert_str c (blen pre) (enc w) s) (Ok tt) (pre ++ w ++ post)) \/
   (prefix_of p w /\ p <> w /\ try_insert_str c (blen pre) (enc w) s = (Ret (Err EOutOfBounds), s))).
Proof. exact (@c67_insert). Qed.
Print Assumptions C67_insert.
Example C67_insert_case :
  shows c5 s_he ([h_] ++ [e_]) /\ returns c5 (insert_str_truncate c5 (blen [h_]) (enc [i_; i_]) s_he) (Ok tt) [h_; i_; i_; e_] /\
  returns c5 (try_insert_str c5 (blen [h_]) (enc [i_; i_]) s_he) (Ok tt) [h_; i_; i_; e_] /\
  returns c5 (insert_str_truncate c5 (blen [h_]) (enc [i_; e_]) s_he) (Ok tt) [h_; i_; e_] /\
  try_insert_str c5 (blen [h_]) (enc [i_; e_]) s_he = (Ret (Err EOutOfBounds), s_he).
Proof. solve_case. Qed.

(** At any index: what [insert_str_truncate] rejects [try_insert_str] rejects, and what [try_insert_str] does [insert_str_truncate] does. *)
Theorem C67_insert_index : forall (c : cfg) (s : astring) (t : text) (i : N) (w : text),
  valid_cfg c -> shows c s t ->
  (forall e, insert_str_truncate c i (enc w) s = (Ret (Err e), s) ->
     exists e', try_insert_str c i (enc w) s = (Ret (Err e'), s)) /\
  (forall s1, try_insert_str c i (enc w) s = (Ret (Ok tt), s1) ->
     exists u, shows c s1 u /\ returns c (insert_str_truncate c i (enc w) s) (Ok tt) u).
Proof. exact (@c67_insert_index). Qed.
Print Assumptions C67_insert_index.
Example C67_insert_index_case :
  shows c5 s_he [h_; e_] /\ insert_str_truncate c5 2 (enc [i_]) s_he = (Ret (Err EUtf8), s_he) /\
  try_insert_str c5 2 (enc [i_]) s_he = (Ret (Err EUtf8), s_he) /\
  insert_str_truncate c5 2 (enc [i_; smile; h_]) s_he = (Ret (Err EUtf8), s_he) /\
  try_insert_str c5 2 (enc [i_; smile; h_]) s_he = (Ret (Err EOutOfBounds), s_he) /\
  returns c5 (try_insert_str c5 2 [] s_he) (Ok tt) [h_; e_] /\ returns c5 (insert_str_truncate c5 2 [] s_he) (Ok tt) [h_; e_].
Proof. solve_case. Qed.

(** The same for characters from an iterator, of which both take the same number. *)
Theorem C67_chars : forall (c : cfg) (IT : Type) (next : iter IT char) (it : IT) (l : list char) (it' : IT),
  valid_cfg c -> ends next it l it' ->
  exists p s it1, from_chars_truncate c (char_fuel c) next it = (Ret s, it1) /\ shows c s p /\
  ((p = l /\ exists s', try_from_chars c (char_fuel c) next it = (Ret (Ok s'), it1) /\ shows c s' l) \/
   (prefix_of p l /\ p <> l /\ try_from_chars c (char_fuel c) next it = (Ret (Err mkOutOfBounds), it1))).
Proof. exact (@c67_chars). Qed.
Print Assumptions C67_chars.
Example C67_chars_case :
  from_chars_truncate c5 (char_fuel c5) list_iter [euro; h_; smile; h_] = (Ret (mkastring [226; 130; 172; 104; 0] 4), [h_]) /\
  try_from_chars c5 (char_fuel c5) list_iter [euro; h_; smile; h_] = (Ret (Err mkOutOfBounds), [h_]) /\
  from_chars_truncate c5 (char_fuel c5) list_iter [euro; e_] = (Ret (mkastring [226; 130; 172; 195; 169] 5), []) /\
  try_from_chars c5 (char_fuel c5) list_iter [euro; e_] = (Ret (Ok (mkastring [226; 130; 172; 195; 169] 5)), []).
Proof. solve_case. Qed.

(** The same for strings from an iterator. *)
Theorem C67_strs : forall (c : cfg) (IT : Type) (next : iter IT as_ref_item) (it : IT) (l : list text)
    (it' : IT) (fuel : nat),
  valid_cfg c -> ends next it (map item_of l) it' -> (length l < fuel)%nat ->
  exists p s it1, from_iterator_truncate c fuel next it = (Ret s, it1) /\ shows c s p /\
  ((p = concat l /\ exists s', try_from_iterator c fuel next it = (Ret (Ok s'), it1) /\ shows c s' (concat l)) \/
   (prefix_of p (concat l) /\ p <> concat l /\ try_from_iterator c fuel next it = (Ret (Err mkOutOfBounds), it1))).
Proof. exact (@c67_strs). Qed.
Print Assumptions C67_strs.
Example C67_strs_case :
  from_iterator_truncate c5 4 list_iter (map item_of [[h_; e_]; [i_; euro]; [i_]]) =
    (Ret (mkastring [104; 195; 169; 105; 0] 4), map item_of [[i_]]) /\
  try_from_iterator c5 4 list_iter (map item_of [[h_; e_]; [i_; euro]; [i_]]) = (Ret (Err mkOutOfBounds), map item_of [[i_]]) /\
  try_from_iterator c5 4 list_iter (map item_of [[h_; e_]; []; [i_]]) = (Ret (Ok (mkastring [104; 195; 169; 105; 0] 4)), []).
Proof. solve_case. Qed.

(** The three constructors from UTF-16: one text, or an error of both others for a lone surrogate, or the same cut text. *)
Theorem C67_utf16 : forall (c : cfg) (us : list N),
  valid_cfg c -> Forall (fun u => u < 65536) us ->
  (exists t, makes_ok c (try_from_utf16 c us) t /\ makes_ok c (from_utf16_truncate c us) t /\
     makes c (from_utf16_lossy_truncate c us) t) \/
  (try_from_utf16 c us = Ret (Err EUtf16) /\ from_utf16_truncate c us = Ret (Err mkUtf16) /\
     exists t, makes c (from_utf16_lossy_truncate c us) t) \/
  (try_from_utf16 c us = Ret (Err EOutOfBounds) /\
     exists t, makes_ok c (from_utf16_truncate c us) t /\ makes c (from_utf16_lossy_truncate c us) t).
Proof. exact (@c67_utf16). Qed.
Print Assumptions C67_utf16.
Example C67_utf16_case :
  makes_ok c5 (try_from_utf16 c5 [104; 8364]) [h_; euro] /\ makes_ok c5 (from_utf16_truncate c5 [104; 8364]) [h_; euro] /\
  makes c5 (from_utf16_lossy_truncate c5 [104; 8364]) [h_; euro] /\
  try_from_utf16 c5 [104; 55357] = Ret (Err EUtf16) /\ from_utf16_truncate c5 [104; 55357] = Ret (Err mkUtf16) /\
  makes c5 (from_utf16_lossy_truncate c5 [104; 55357]) [h_; replacement_char] /\
  try_from_utf16 c5 [8364; 8364; 55357] = Ret (Err EOutOfBounds) /\
  makes_ok c5 (from_utf16_truncate c5 [8364; 8364; 55357]) [euro] /\
  makes c5 (from_utf16_lossy_truncate c5 [8364; 8364; 55357]) [euro].
Proof. solve_case. Qed.

(** [chars()], then [try_from_chars], [collect] or [extend]. *)
Theorem C68_chars : forall (c c' : cfg) (s : astring) (t : text),
  valid_cfg c' -> shows c s t -> blen t <= cap c' ->
  exists b, as_ref_str c s = Ret b /\
    (exists a, try_from_chars c' (char_fuel c') chars_iter b = (Ret (Ok a), []) /\ shows c' a t) /\
    (exists a, from_iter_chars c' (char_fuel c') chars_iter b = (Ret a, []) /\ shows c' a t) /\
    (forall a u, shows c' a u -> blen u + blen t <= cap c' ->
       exists a', extend_chars c' (char_fuel c') chars_iter b a = (Ret tt, [], a') /\ shows c' a' (u ++ t)).
Proof. exact (@c68_chars). Qed.
Print Assumptions C68_chars.
Example C68_chars_case :
  shows c5 s_he [h_; e_] /\ as_ref_str c5 s_he = Ret [104; 195; 169] /\
  try_from_chars (with_cap c5 3) (char_fuel (with_cap c5 3)) chars_iter [104; 195; 169] = (Ret (Ok (mkastring [104; 195; 169] 3)), []) /\
  from_iter_chars (with_cap c5 4) (char_fuel (with_cap c5 4)) chars_iter [104; 195; 169] = (Ret (mkastring [104; 195; 169; 0] 3), []) /\
  extend_chars c5 (char_fuel c5) chars_iter [195; 169] s_he = (Ret tt, [], mkastring [104; 195; 169; 195; 169] 5).
Proof. solve_case. Qed.

(** [drain(..)], then [collect]. *)
Theorem C68_drain : forall (c c' : cfg) (s : astring) (t : text),
  valid_cfg c -> valid_cfg c' -> shows c s t -> blen t <= cap c' ->
  exists d s' a d', drain_iter c Unbounded Unbounded s = (Ret (Ok d), s') /\ shows c s' [] /\
    from_iter_chars c' (char_fuel c') (drain_iterator c) d = (Ret a, d') /\ shows c' a t /\ shows c (drained d') [].
Proof. exact (@c68_drain). Qed.
Print Assumptions C68_drain.
Example C68_drain_case :
  shows c5 s_he [h_; e_] /\ drain_iter c5 Unbounded Unbounded s_he = (Ret (Ok (mkDrain (mkastring [104; 195; 169; 0; 0] 3))), mkastring [104; 195; 169; 7; 9] 0) /\
  fst (from_iter_chars (with_cap c5 4) (char_fuel (with_cap c5 4)) (drain_iterator c5) (mkDrain (mkastring [104; 195; 169; 0; 0] 3))) =
    Ret (mkastring [104; 195; 169; 0] 3).
Proof. solve_case. Qed.

(** Strings of any capacities, joined by [try_from_iterator] or [collect]. *)
Theorem C68_join : forall (c' : cfg) (l : list (cfg * astring)) (ts : list text),
  valid_cfg c' ->
  Forall2 (fun p t => shows (fst p) (snd p) t) l ts ->
  exists bs, map (fun p => as_ref_str (fst p) (snd p)) l = map Ret bs /\
  (blen (concat ts) <= cap c' ->
     exists a, try_from_iterator c' (S (length l)) list_iter (map (fun b => mkitem b b) bs) = (Ret (Ok a), []) /\
       shows c' a (concat ts)) /\
  (exists p a it, longest_fit (cap c') (concat ts) p /\
     from_iter_strs c' (S (length l)) list_iter (map (fun b => mkitem b b) bs) = (Ret a, it) /\ shows c' a p).
Proof. exact (@c68_join). Qed.
Print Assumptions C68_join.
Example C68_join_case :
  Forall2 (fun p t => shows (fst p) (snd p) t) [(c5, s_he); (with_cap c5 1, mkastring [105] 1)] [[h_; e_]; [i_]] /\
  try_from_iterator (with_cap c5 4) 3 list_iter [mkitem [104; 195; 169] [104; 195; 169]; mkitem [105] [105]] =
    (Ret (Ok (mkastring [104; 195; 169; 105] 4)), []) /\
  from_iter_strs (with_cap c5 2) 3 list_iter [mkitem [104; 195; 169] [104; 195; 169]; mkitem [105] [105]] =
    (Ret (mkastring [104; 0] 1), [mkitem [105] [105]]).
Proof. split; [repeat constructor; solve_case | solve_case]. Qed.

(** [write!(a, "{}", s)] appends the text of [s] or fails and leaves [a] alone. *)
Theorem C68_write : forall (c c' : cfg) (s : astring) (t : text) (a : astring) (u : text) (sp : fmtspec),
  valid_cfg c' -> shows c s t -> shows c' a u ->
  (blen u + blen t <= cap c' ->
     returns c' (display c (mksink (write_str c') (write_char c')) sp s a) (Ok tt) (u ++ t)) /\
  (cap c' < blen u + blen t ->
     display c (mksink (write_str c') (write_char c')) sp s a = (Ret (Err mkFmtError), a)).
Proof. exact (@c68_write). Qed.
Print Assumptions C68_write.
Example C68_write_case :
  shows c5 s_he [h_; e_] /\ shows (with_cap c5 4) (mkastring [105; 0; 0; 0] 1) [i_] /\
  display c5 (mksink (write_str (with_cap c5 4)) (write_char (with_cap c5 4))) (mkspec space None (Some 9) None) s_he (mkastring [105; 0; 0; 0] 1) =
    (Ret (Ok tt), mkastring [105; 104; 195; 169] 4) /\
  display c5 (mksink (write_str (with_cap c5 4)) (write_char (with_cap c5 4))) (mkspec space None None None) s_he (mkastring [105; 105; 0; 0] 2) =
    (Ret (Err mkFmtError), mkastring [105; 105; 0; 0] 2).
Proof. solve_case. Qed.

(** The test [truncate] of src/utils.rs, for every text and every number of bytes. *)
Theorem C69_truncate_str : forall (c : cfg) (w : text) (n : N),
  exists p, longest_fit n w p /\ truncate_str c (enc w) n = Ret (enc p).
Proof. exact (@c69_truncate_str). Qed.
Print Assumptions C69_truncate_str.
Example C69_truncate_str_case :
  truncate_str c5 (enc [i_]) 10 = Ret (enc [i_]) /\ truncate_str c5 (enc [i_; i_; i_; i_; i_; i_]) 3 = Ret (enc [i_; i_; i_]) /\
  truncate_str c5 (enc [smile; smile; smile]) 5 = Ret (enc [smile]).
Proof. solve_case. Qed.

(** The tests [serde_json] and [serde_derive_json] of src/integration.rs, for every text and for two capacities (a tuple struct of one field is written as the field). *)
Theorem C69_json : forall (c c' : cfg) (s : astring) (t : text),
  valid_cfg c' -> shows c s t ->
  exists d, serialize c json_str s = Ret d /\
  (json_plain t -> exists p, longest_fit (cap c') t p /\ makes_ok c' (json_from_str (deserialize c') d) p) /\
  (~ json_plain t -> json_from_str (deserialize c') d = Ret (Err InvalidType)).
Proof. exact (@c69_json). Qed.
Print Assumptions C69_json.
Example C69_json_case :
  shows c5 s_he [h_; e_] /\ serialize c5 json_str s_he = Ret [34; 104; 195; 169; 34] /\
  makes_ok c5 (json_from_str (deserialize c5) [34; 104; 195; 169; 34]) [h_; e_] /\
  makes_ok (with_cap c5 2) (json_from_str (deserialize (with_cap c5 2)) [34; 104; 195; 169; 34]) [h_].
Proof. solve_case. Qed.

(** The test [serde_derive2_json], which writes a [CacheString] and reads an [ArrayString]. *)
Theorem C69_json_cache : forall (c0 c' : cfg) (s : CacheString) (t : text),
  valid_cfg c' -> cache_shows c0 s t ->
  exists d, cache_serialize c0 json_str s = Ret d /\
  (json_plain t -> exists p, longest_fit (cap c') t p /\ makes_ok c' (json_from_str (deserialize c') d) p) /\
  (~ json_plain t -> json_from_str (deserialize c') d = Ret (Err InvalidType)).
Proof. exact (@c69_json_cache). Qed.
Print Assumptions C69_json_cache.
Example C69_json_cache_case :
  cache_shows c5 k_he [h_; e_] /\ cache_serialize c5 json_str k_he = Ret [34; 104; 195; 169; 34] /\
  makes_ok c5 (json_from_str (deserialize c5) [34; 104; 195; 169; 34]) [h_; e_].
Proof. solve_case. Qed.

(** The test [diesel_derive_query_sqlite], for every text and any column that keeps texts. *)
Theorem C69_sql : forall (c c' : cfg) (s : astring) (t : text) (V X : Type) (g : V -> result str_ptr X)
    (column : list N -> V) (v0 : V),
  valid_cfg c' -> shows c s t ->
  (forall w, g (column (enc w)) = Ok (At (enc w))) ->
  exists v, to_sql c (fun b _ => (Ret tt, column b)) s v0 = (Ret tt, v) /\
  exists p, longest_fit (cap c') t p /\ makes_ok c' (from_sql c' g v) p.
Proof. exact (@c69_sql). Qed.
Print Assumptions C69_sql.
Example C69_sql_case :
  shows c5 s_he [h_; e_] /\ to_sql c5 (fun b _ => (Ret tt, 0 :: b)) s_he [] = (Ret tt, [0; 104; 195; 169]) /\
  makes_ok c5 (from_sql c5 (fun v => Ok (E := unit) (At (tl v))) [0; 104; 195; 169]) [h_; e_] /\
  makes_ok (with_cap c5 2) (from_sql (with_cap c5 2) (fun v => Ok (E := unit) (At (tl v))) [0; 104; 195; 169]) [h_].
Proof. solve_case. Qed.

(** The test [diesel_derive2_query_sqlite]. *)
Theorem C69_sql_cache : forall (c0 : cfg) (s : CacheString) (t : text) (V X : Type) (g : V -> result str_ptr X)
    (column : list N -> V) (v0 : V),
  valid_cfg c0 -> cache_shows c0 s t ->
  (forall w, g (column (enc w)) = Ok (At (enc w))) ->
  exists v, cache_to_sql c0 (fun b _ => (Ret tt, column b)) s v0 = (Ret tt, v) /\
  exists a, cache_from_sql c0 g v = Ret (Ok a) /\ cache_shows c0 a t.
Proof. exact (@c69_sql_cache). Qed.
Print Assumptions C69_sql_cache.
Example C69_sql_cache_case :
  cache_shows c5 k_he [h_; e_] /\ cache_to_sql c5 (fun b _ => (Ret tt, 0 :: b)) k_he [] = (Ret tt, [0; 104; 195; 169]) /\
  exists a, cache_from_sql c5 (fun v => Ok (E := unit) (At (tl v))) [0; 104; 195; 169] = Ret (Ok a) /\ cache_shows c5 a [h_; e_].
Proof.
  split; [solve_case | split; [solve_case |]]. eexists. split; [vm_compute; reflexivity | solve_case].
Qed.
