(** Constructors from iterators and UTF-16, retain, extend, hostile arguments (C10-C17, C22, C33, C44-C46, C57). Statements only: the proofs are the lemmas of ClaimsIter.v, ClaimsArgs.v. *)
From Verif Require Import Base Char Spec RustStd RustIter RustOrd ModelError Model ModelArgs RustFmt SpecFmt ModelImpl ModelDrain ModelCache
  ModelIntegration Layout TextOps SpecOps ModelOps ModelCacheOps StringSpec TestSuite IterSpec Obs ObsCache Cases
  ClaimsIter ClaimsArgs.

(** All items one after the other, or an error once an item does not fit; that item is the last one pulled. [fuel] bounds the number of turns of the loop. *)
Theorem C10_try_from_iterator : forall (c : cfg) (IT : Type) (next : iter IT as_ref_item) (it : IT) (l : list text)
    (it' : IT) (fuel : nat),
  valid_cfg c -> ends next it (map item_of l) it' -> (length l < fuel)%nat ->
  (blen (concat l) <= cap c ->
     exists s, try_from_iterator c fuel next it = (Ret (Ok s), it') /\ shows c s (concat l)) /\
  (cap c < blen (concat l) ->
     exists l1 x l2 it1, l = l1 ++ x :: l2 /\ blen (concat l1) <= cap c < blen (concat l1) + blen x /\
       yields next it (map item_of (l1 ++ [x])) it1 /\
       try_from_iterator c fuel next it = (Ret (Err mkOutOfBounds), it1)).
Proof. exact (@c10_try_from_iterator). Qed.
Print Assumptions C10_try_from_iterator.
Example C10_try_from_iterator_case :
  valid_cfg c5 /\ ends list_iter (map item_of [[h_]; []; [euro]]) (map item_of [[h_]; []; [euro]]) [] /\
  (length [[h_]; []; [euro]] < 4)%nat /\
  try_from_iterator c5 4 list_iter (map item_of [[h_]; []; [euro]]) =
    (Ret (Ok (mkastring [104; 226; 130; 172; 0] 4)), []) /\
  cap c5 < blen (concat [[h_; e_]; [euro]; [i_]]) /\
  try_from_iterator c5 4 list_iter (map item_of [[h_; e_]; [euro]; [i_]]) =
    (Ret (Err mkOutOfBounds), map item_of [[i_]]).
Proof. solve_case. Qed.

(** The longest prefix of the concatenation that fits; nothing is pulled after the item that did not fit. *)
Theorem C11_from_iterator_truncate : forall (c : cfg) (IT : Type) (next : iter IT as_ref_item) (it : IT) (l : list text)
    (it' : IT) (fuel : nat),
  valid_cfg c -> ends next it (map item_of l) it' -> (length l < fuel)%nat ->
  exists p, longest_fit (cap c) (concat l) p /\
  (blen (concat l) <= cap c -> exists s, from_iterator_truncate c fuel next it = (Ret s, it') /\ shows c s p) /\
  (cap c < blen (concat l) ->
     exists l1 x l2 it1 s, l = l1 ++ x :: l2 /\ blen (concat l1) <= cap c < blen (concat l1) + blen x /\
       yields next it (map item_of (l1 ++ [x])) it1 /\
       from_iterator_truncate c fuel next it = (Ret s, it1) /\ shows c s p).
Proof. exact (@c11_from_iterator_truncate). Qed.
Print Assumptions C11_from_iterator_truncate.
Example C11_from_iterator_truncate_case :
  valid_cfg c5 /\ cap c5 < blen (concat [[h_; e_]; [i_; euro]; [i_]]) /\
  longest_fit (cap c5) (concat [[h_; e_]; [i_; euro]; [i_]]) [h_; e_; i_] /\
  from_iterator_truncate c5 4 list_iter (map item_of [[h_; e_]; [i_; euro]; [i_]]) =
    (Ret (mkastring [104; 195; 169; 105; 0] 4), map item_of [[i_]]).
Proof. solve_case. Qed.

(** The same for [FromIterator<&str>]. *)
Theorem C11_collect : forall (c : cfg) (IT : Type) (next : iter IT as_ref_item) (it : IT) (l : list text)
    (it' : IT) (fuel : nat),
  valid_cfg c -> ends next it (map item_of l) it' -> (length l < fuel)%nat ->
  exists p, longest_fit (cap c) (concat l) p /\
  (blen (concat l) <= cap c -> exists s, from_iter_strs c fuel next it = (Ret s, it') /\ shows c s p) /\
  (cap c < blen (concat l) ->
     exists l1 x l2 it1 s, l = l1 ++ x :: l2 /\ blen (concat l1) <= cap c < blen (concat l1) + blen x /\
       yields next it (map item_of (l1 ++ [x])) it1 /\
       from_iter_strs c fuel next it = (Ret s, it1) /\ shows c s p).
Proof. exact (@c11_collect). Qed.
Print Assumptions C11_collect.
Example C11_collect_case :
  valid_cfg c5 /\ cap c5 < blen (concat [[h_; e_]; [i_; euro]; [i_]]) /\
  from_iter_strs c5 4 list_iter (map item_of [[h_; e_]; [i_; euro]; [i_]]) =
    (Ret (mkastring [104; 195; 169; 105; 0] 4), map item_of [[i_]]).
Proof. solve_case. Qed.

(** All characters or an error. *)
Theorem C12_try_from_chars : forall (c : cfg) (IT : Type) (next : iter IT char) (it : IT) (l : list char) (it' : IT),
  valid_cfg c -> ends next it l it' ->
  (blen l <= cap c -> exists s, try_from_chars c (char_fuel c) next it = (Ret (Ok s), it') /\ shows c s l) /\
  (cap c < blen l -> exists it1, try_from_chars c (char_fuel c) next it = (Ret (Err mkOutOfBounds), it1)).
Proof. exact (@c12_try_from_chars). Qed.
Print Assumptions C12_try_from_chars.
Example C12_try_from_chars_case :
  valid_cfg c5 /\ ends list_iter [e_; euro] [e_; euro] [] /\
  try_from_chars c5 (char_fuel c5) list_iter [e_; euro] = (Ret (Ok (mkastring [195; 169; 226; 130; 172] 5)), []) /\
  cap c5 < blen [euro; euro] /\
  try_from_chars c5 (char_fuel c5) list_iter [euro; euro] = (Ret (Err mkOutOfBounds), []).
Proof. solve_case. Qed.

(** The longest prefix of the characters that fits; the same for [FromIterator<char>]. *)
Theorem C13_from_chars_truncate : forall (c : cfg) (IT : Type) (next : iter IT char) (it : IT) (l : list char) (it' : IT),
  valid_cfg c -> ends next it l it' ->
  exists p s it1, longest_fit (cap c) l p /\
    from_chars_truncate c (char_fuel c) next it = (Ret s, it1) /\
    from_iter_chars c (char_fuel c) next it = (Ret s, it1) /\ shows c s p.
Proof. exact (@c13_from_chars_truncate). Qed.
Print Assumptions C13_from_chars_truncate.
Example C13_from_chars_truncate_case :
  valid_cfg c5 /\ ends list_iter [euro; h_; e_; h_] [euro; h_; e_; h_] [] /\
  longest_fit (cap c5) [euro; h_; e_; h_] [euro; h_] /\
  from_chars_truncate c5 (char_fuel c5) list_iter [euro; h_; e_; h_] =
    (Ret (mkastring [226; 130; 172; 104; 0] 4), [h_]).
Proof. solve_case. Qed.

(** Valid input that fits is taken over; otherwise the first trouble decides the error. *)
Theorem C14_try_from_utf16 : forall (c : cfg) (us : list N) (items : list (option char)),
  valid_cfg c -> utf16_items us items ->
  (forall t, items = map Some t -> blen t <= cap c -> makes_ok c (try_from_utf16 c us) t) /\
  (forall t rest, items = map Some t ++ None :: rest -> blen t <= cap c ->
     try_from_utf16 c us = Ret (Err EUtf16)) /\
  (forall t x rest, items = map Some t ++ Some x :: rest -> blen t <= cap c < blen t + clen x ->
     try_from_utf16 c us = Ret (Err EOutOfBounds)).
Proof. exact (@c14_try_from_utf16). Qed.
Print Assumptions C14_try_from_utf16.
Example C14_try_from_utf16_case :
  valid_cfg c5 /\ utf16_items [104; 55357; 56832] [Some h_; Some smile] /\
  makes_ok c5 (try_from_utf16 c5 [104; 55357; 56832]) [h_; smile] /\
  utf16_items [104; 56832; 105] (map Some [h_] ++ None :: [Some i_]) /\
  try_from_utf16 c5 [104; 56832; 105] = Ret (Err EUtf16) /\
  utf16_items [8364; 8364; 55357] (map Some [euro] ++ Some euro :: [None]) /\
  try_from_utf16 c5 [8364; 8364; 55357] = Ret (Err EOutOfBounds).
Proof. solve_case. Qed.

(** One of the three cases always applies, for every slice of 16 bit units. *)
Theorem C14_cases_exhaust : forall (c : cfg) (us : list N),
  Forall (fun u => u < 65536) us ->
  exists items, utf16_items us items /\
  ((exists t, items = map Some t /\ blen t <= cap c) \/
   (exists t rest, items = map Some t ++ None :: rest /\ blen t <= cap c) \/
   (exists t x rest, items = map Some t ++ Some x :: rest /\ blen t <= cap c < blen t + clen x)).
Proof. exact (@c14_cases_exhaust). Qed.
Print Assumptions C14_cases_exhaust.
Example C14_cases_exhaust_case :
  Forall (fun u => u < 65536) [104; 55357; 105] /\ utf16_items [104; 55357; 105] [Some h_; None; Some i_].
Proof. solve_case. Qed.

(** As far as the units are valid and fit. An unpaired surrogate behind the cut goes unnoticed (see [C15_late_surrogate_refuted]). *)
Theorem C15_from_utf16_truncate : forall (c : cfg) (us : list N) (items : list (option char)),
  valid_cfg c -> utf16_items us items ->
  (forall t, items = map Some t -> blen t <= cap c -> makes_ok c (from_utf16_truncate c us) t) /\
  (forall t rest, items = map Some t ++ None :: rest -> blen t <= cap c ->
     from_utf16_truncate c us = Ret (Err mkUtf16)) /\
  (forall t x rest, items = map Some t ++ Some x :: rest -> blen t <= cap c < blen t + clen x ->
     makes_ok c (from_utf16_truncate c us) t).
Proof. exact (@c15_from_utf16_truncate). Qed.
Print Assumptions C15_from_utf16_truncate.
Example C15_from_utf16_truncate_case :
  valid_cfg c5 /\ utf16_items [55357; 56832; 104] [Some smile; Some h_] /\
  makes_ok c5 (from_utf16_truncate c5 [55357; 56832; 104]) [smile; h_] /\
  from_utf16_truncate c5 [104; 55357] = Ret (Err mkUtf16) /\
  makes_ok c5 (from_utf16_truncate c5 [8364; 8364; 55357]) [euro].
Proof. solve_case. Qed.

(** Valid UTF-16: the longest prefix that fits. *)
Theorem C15_valid_input : forall (c : cfg) (us : list N) (t : list char),
  valid_cfg c -> utf16_items us (map Some t) ->
  exists p, longest_fit (cap c) t p /\ makes_ok c (from_utf16_truncate c us) p.
Proof. exact (@c15_valid_input). Qed.
Print Assumptions C15_valid_input.
Example C15_valid_input_case :
  valid_cfg c5 /\ utf16_items [8364; 105; 8364; 104] (map Some [euro; i_; euro; h_]) /\
  longest_fit (cap c5) [euro; i_; euro; h_] [euro; i_] /\
  makes_ok c5 (from_utf16_truncate c5 [8364; 105; 8364; 104]) [euro; i_].
Proof. solve_case. Qed.

(** Every unpaired surrogate becomes U+FFFD, then the longest prefix that fits. *)
Theorem C16_from_utf16_lossy_truncate : forall (c : cfg) (us : list N) (items : list (option char)),
  valid_cfg c -> utf16_items us items ->
  exists p, longest_fit (cap c) (lossy items) p /\ makes c (from_utf16_lossy_truncate c us) p.
Proof. exact (@c16_from_utf16_lossy_truncate). Qed.
Print Assumptions C16_from_utf16_lossy_truncate.
Example C16_from_utf16_lossy_truncate_case :
  valid_cfg c5 /\ utf16_items [55357; 104; 105; 8364] [None; Some h_; Some i_; Some euro] /\
  longest_fit (cap c5) [replacement_char; h_; i_; euro] [replacement_char; h_; i_] /\
  makes c5 (from_utf16_lossy_truncate c5 [55357; 104; 105; 8364]) [replacement_char; h_; i_].
Proof. solve_case. Qed.

(** A text encoded as UTF-16 is read back by all three constructors. *)
Theorem C17_round_trip : forall (c : cfg) (t : text),
  valid_cfg c -> blen t <= cap c ->
  makes_ok c (try_from_utf16 c (enc16 t)) t /\ makes_ok c (from_utf16_truncate c (enc16 t)) t /\
  makes c (from_utf16_lossy_truncate c (enc16 t)) t.
Proof. exact (@c17_round_trip). Qed.
Print Assumptions C17_round_trip.
Example C17_round_trip_case :
  valid_cfg c5 /\ blen [h_; smile] <= cap c5 /\ enc16 [h_; smile] = [104; 55357; 56832] /\
  makes_ok c5 (try_from_utf16 c5 (enc16 [h_; smile])) [h_; smile] /\
  makes_ok c5 (from_utf16_truncate c5 (enc16 [h_; smile])) [h_; smile] /\
  makes c5 (from_utf16_lossy_truncate c5 (enc16 [h_; smile])) [h_; smile].
Proof. solve_case. Qed.

(** Keeps exactly the characters for which the closure, run over the text in order, says [true]. *)
Theorem C22_retain : forall (c : cfg) (F : Type) (f : char -> ST F bool) (g : F -> char -> bool * F) (x : F)
    (s : astring) (t : text),
  valid_cfg c -> shows c s t -> (forall a y, f a y = (Ret (fst (g y a)), snd (g y a))) ->
  exists s', retain c f x s = (Ret tt, s', snd (filter_st g x t)) /\ shows c s' (fst (filter_st g x t)).
Proof. exact (@c22_retain). Qed.
Print Assumptions C22_retain.
Example C22_retain_case :
  valid_cfg c5 /\ shows c5 s_sp [sp_; h_; sp_; i_; sp_] /\
  filter_st (fun n a => (N.even n, n + 1)) 0 [sp_; h_; sp_; i_; sp_] = ([sp_; sp_; sp_], 5) /\
  retain c5 (fun a n => (Ret (N.even n), n + 1)) 0 s_sp = (Ret tt, mkastring [32; 32; 32; 0; 0] 3, 5).
Proof. solve_case. Qed.

(** A closure that writes down its arguments sees every character once, in order. *)
Theorem C22_calls : forall (c : cfg) (p : char -> bool) (s : astring) (t : text),
  valid_cfg c -> shows c s t ->
  exists s', retain c (fun a log => (Ret (p a), log ++ [a])) [] s = (Ret tt, s', t) /\ shows c s' (filter p t).
Proof. exact (@c22_calls). Qed.
Print Assumptions C22_calls.
Example C22_calls_case :
  valid_cfg c5 /\ shows c5 s_he [h_; e_] /\ filter (fun a => 128 <=? code a) [h_; e_] = [e_] /\
  retain c5 (fun a log => (Ret (128 <=? code a), log ++ [a])) [] s_he =
    (Ret tt, mkastring [195; 169; 0; 0; 0] 2, [h_; e_]).
Proof. solve_case. Qed.

(** [Extend<char>] and [Extend<&char>]: the longest prefix of the characters for which there is room. *)
Theorem C33_extend_chars : forall (c : cfg) (IT : Type) (next : iter IT char) (it : IT) (l : list char) (it' : IT)
    (s : astring) (t : text),
  valid_cfg c -> shows c s t -> ends next it l it' ->
  exists p s' it1, longest_fit (cap c - blen t) l p /\
    extend_chars c (char_fuel c) next it s = (Ret tt, it1, s') /\
    extend_char_refs c (char_fuel c) next it s = (Ret tt, it1, s') /\ shows c s' (t ++ p).
Proof. exact (@c33_extend_chars). Qed.
Print Assumptions C33_extend_chars.
Example C33_extend_chars_case :
  valid_cfg c5 /\ shows c5 s_he [h_; e_] /\ longest_fit (cap c5 - blen [h_; e_]) [i_; euro; i_] [i_] /\
  extend_chars c5 (char_fuel c5) list_iter [i_; euro; i_] s_he =
    (Ret tt, [], mkastring [104; 195; 169; 105; 9] 4).
Proof. solve_case. Qed.

(** [Extend<&str>]: the same for the concatenation. *)
Theorem C33_extend_strs : forall (c : cfg) (IT : Type) (next : iter IT as_ref_item) (it : IT) (l : list text)
    (it' : IT) (s : astring) (t : text) (fuel : nat),
  valid_cfg c -> shows c s t -> ends next it (map item_of l) it' -> (length l < fuel)%nat ->
  exists p s' it1, longest_fit (cap c - blen t) (concat l) p /\
    extend_strs c fuel next it s = (Ret tt, it1, s') /\ shows c s' (t ++ p) /\
    (blen (concat l) <= cap c -> it1 = it') /\
    (cap c < blen (concat l) -> exists l1 x l2, l = l1 ++ x :: l2 /\
       blen (concat l1) <= cap c < blen (concat l1) + blen x /\ yields next it (map item_of (l1 ++ [x])) it1).
Proof. exact (@c33_extend_strs). Qed.
Print Assumptions C33_extend_strs.
Example C33_extend_strs_case :
  valid_cfg c5 /\ shows c5 s_he [h_; e_] /\
  longest_fit (cap c5 - blen [h_; e_]) (concat [[i_]; []; [h_; h_]]) [i_; h_] /\
  extend_strs c5 4 list_iter (map item_of [[i_]; []; [h_; h_]]) s_he =
    (Ret tt, [], mkastring [104; 195; 169; 105; 104] 5).
Proof. solve_case. Qed.

(** A closure that panics: the string keeps its old value. *)
Theorem C44_retain : forall (c : cfg) (F : Type) (f : char -> ST F bool) (s : astring) (pre : list char)
    (a : char) (post : list char) (kept : text) (x x1 x2 : F),
  valid_cfg c -> shows c s (pre ++ a :: post) ->
  filter_run f x pre = (Ret kept, x1) -> f a x1 = (Panic, x2) ->
  retain c f x s = (Panic, s, x2).
Proof. exact (@c44_retain). Qed.
Print Assumptions C44_retain.
Example C44_retain_case :
  valid_cfg c5 /\ shows c5 s_he ([h_] ++ e_ :: []) /\
  retain c5 (fun a n => if code a =? 233 then (Panic, n) else (Ret false, n + 1)) 0 s_he = (Panic, s_he, 1).
Proof. solve_case. Qed.

(** An iterator that panics: the string keeps its old value. *)
Theorem C44_extend : forall c : cfg,
  valid_cfg c -> forall s,
  (forall IT (next : iter IT char) it l it', panics next it l it' -> blen l <= cap c ->
     extend_chars c (char_fuel c) next it s = (Panic, it', s) /\
     extend_char_refs c (char_fuel c) next it s = (Panic, it', s)) /\
  (forall IT (next : iter IT as_ref_item) it l it' fuel, panics next it (map item2 l) it' ->
     blen (concat (map fst l)) <= cap c -> (length l < fuel)%nat ->
     extend_strs c fuel next it s = (Panic, it', s)).
Proof. exact (@c44_extend). Qed.
Print Assumptions C44_extend.
Example C44_extend_case :
  valid_cfg c5 /\ panics then_panic [i_; i_] [i_; i_] [] /\ blen [i_; i_] <= cap c5 /\
  extend_chars c5 (char_fuel c5) then_panic [i_; i_] s_he = (Panic, [], s_he) /\
  extend_strs c5 4 then_panic (map item2 [([i_], [i_])]) s_he = (Panic, [], s_he).
Proof. solve_case. Qed.

(** The panic of an iterator is passed on. *)
Theorem C44_constructors : forall c : cfg,
  valid_cfg c ->
  (forall IT (next : iter IT char) it l it', panics next it l it' -> blen l <= cap c ->
     try_from_chars c (char_fuel c) next it = (Panic, it') /\
     from_chars_truncate c (char_fuel c) next it = (Panic, it') /\
     from_iter_chars c (char_fuel c) next it = (Panic, it')) /\
  (forall IT (next : iter IT as_ref_item) it l it' fuel, panics next it (map item2 l) it' ->
     blen (concat (map fst l)) <= cap c -> (length l < fuel)%nat ->
     try_from_iterator c fuel next it = (Panic, it') /\
     from_iterator_truncate c fuel next it = (Panic, it') /\
     from_iter_strs c fuel next it = (Panic, it')).
Proof. exact (@c44_constructors). Qed.
Print Assumptions C44_constructors.
Example C44_constructors_case :
  valid_cfg c5 /\ panics then_panic [i_; i_] [i_; i_] [] /\
  try_from_chars c5 (char_fuel c5) then_panic [i_; i_] = (Panic, []) /\
  from_iterator_truncate c5 4 then_panic (map item2 [([i_], [h_])]) = (Panic, []).
Proof. solve_case. Qed.

(** Any iterator over characters, also an infinite one: everything is taken, or the first character that does not fit is the last one pulled. *)
Theorem C45_from_chars_truncate : forall (c : cfg) (IT : Type) (next : iter IT char) (it : IT),
  valid_cfg c -> well_behaved next ->
  (exists l it' s, ends next it l it' /\ blen l <= cap c /\
     from_chars_truncate c (char_fuel c) next it = (Ret s, it') /\ shows c s l) \/
  (exists l x it' s, yields next it (l ++ [x]) it' /\ blen l <= cap c < blen l + clen x /\
     from_chars_truncate c (char_fuel c) next it = (Ret s, it') /\ shows c s l) \/
  (exists l it', panics next it l it' /\ blen l <= cap c /\
     from_chars_truncate c (char_fuel c) next it = (Panic, it')).
Proof. exact (@c45_from_chars_truncate). Qed.
Print Assumptions C45_from_chars_truncate.
Example C45_from_chars_truncate_case :
  valid_cfg c5 /\ well_behaved (forever e_) /\
  from_chars_truncate c5 (char_fuel c5) (forever e_) 0 = (Ret (mkastring [195; 169; 195; 169; 0] 4), 3) /\
  from_chars_truncate c5 (char_fuel c5) then_panic [e_] = (Panic, []).
Proof. solve_case. Qed.

(** The same for [FromIterator<char>]. *)
Theorem C45_collect : forall (c : cfg) (IT : Type) (next : iter IT char) (it : IT),
  valid_cfg c -> well_behaved next ->
  (exists l it' s, ends next it l it' /\ blen l <= cap c /\
     from_iter_chars c (char_fuel c) next it = (Ret s, it') /\ shows c s l) \/
  (exists l x it' s, yields next it (l ++ [x]) it' /\ blen l <= cap c < blen l + clen x /\
     from_iter_chars c (char_fuel c) next it = (Ret s, it') /\ shows c s l) \/
  (exists l it', panics next it l it' /\ blen l <= cap c /\
     from_iter_chars c (char_fuel c) next it = (Panic, it')).
Proof. exact (@c45_collect). Qed.
Print Assumptions C45_collect.
Example C45_collect_case :
  valid_cfg c5 /\ well_behaved (forever e_) /\
  from_iter_chars c5 (char_fuel c5) (forever e_) 0 = (Ret (mkastring [195; 169; 195; 169; 0] 4), 3).
Proof. solve_case. Qed.

(** The same for [try_from_chars]. *)
Theorem C45_try_from_chars : forall (c : cfg) (IT : Type) (next : iter IT char) (it : IT),
  valid_cfg c -> well_behaved next ->
  (exists l it' s, ends next it l it' /\ blen l <= cap c /\
     try_from_chars c (char_fuel c) next it = (Ret (Ok s), it') /\ shows c s l) \/
  (exists l x it', yields next it (l ++ [x]) it' /\ blen l <= cap c < blen l + clen x /\
     try_from_chars c (char_fuel c) next it = (Ret (Err mkOutOfBounds), it')) \/
  (exists l it', panics next it l it' /\ blen l <= cap c /\
     try_from_chars c (char_fuel c) next it = (Panic, it')).
Proof. exact (@c45_try_from_chars). Qed.
Print Assumptions C45_try_from_chars.
Example C45_try_from_chars_case :
  valid_cfg c5 /\ well_behaved (forever e_) /\
  try_from_chars c5 (char_fuel c5) (forever e_) 0 = (Ret (Err mkOutOfBounds), 3).
Proof. solve_case. Qed.

(** The same for [extend]: what is pulled depends on the capacity, not on the room left. *)
Theorem C45_extend_chars : forall (c : cfg) (IT : Type) (next : iter IT char) (it : IT) (s : astring) (t : text),
  valid_cfg c -> well_behaved next -> shows c s t ->
  (exists l it' s' p, ends next it l it' /\ blen l <= cap c /\ longest_fit (cap c - blen t) l p /\
     extend_chars c (char_fuel c) next it s = (Ret tt, it', s') /\ shows c s' (t ++ p)) \/
  (exists l x it' s' p, yields next it (l ++ [x]) it' /\ blen l <= cap c < blen l + clen x /\
     longest_fit (cap c - blen t) l p /\
     extend_chars c (char_fuel c) next it s = (Ret tt, it', s') /\ shows c s' (t ++ p)) \/
  (exists l it', panics next it l it' /\ blen l <= cap c /\
     extend_chars c (char_fuel c) next it s = (Panic, it', s)).
Proof. exact (@c45_extend_chars). Qed.
Print Assumptions C45_extend_chars.
Example C45_extend_chars_case :
  valid_cfg c5 /\ well_behaved (forever e_) /\ shows c5 s_he [h_; e_] /\
  extend_chars c5 (char_fuel c5) (forever e_) 0 s_he = (Ret tt, 3, mkastring [104; 195; 169; 195; 169] 5).
Proof. solve_case. Qed.

(** At most [capacity + 1] items are pulled in each case above. *)
Theorem C45_pulled : forall (c : cfg) (l : text) (x : char),
  blen l <= cap c -> lenN (l ++ [x]) <= cap c + 1.
Proof. exact (@c45_pulled). Qed.
Print Assumptions C45_pulled.
Example C45_pulled_case :
  blen [h_; i_; h_; i_; h_] <= cap c5 /\ lenN ([h_; i_; h_; i_; h_] ++ [i_]) = cap c5 + 1.
Proof. solve_case. Qed.

(** [AsRef] implementations that answer differently each time: only the first answer counts while the items fit. *)
Theorem C46_fits : forall (c : cfg) (IT : Type) (next : iter IT as_ref_item) (it : IT) (l : list (text * text))
    (it' : IT) (fuel : nat),
  valid_cfg c -> ends next it (map item2 l) it' -> blen (concat (map fst l)) <= cap c -> (length l < fuel)%nat ->
  exists s, from_iterator_truncate c fuel next it = (Ret s, it') /\ shows c s (concat (map fst l)).
Proof. exact (@c46_fits). Qed.
Print Assumptions C46_fits.
Example C46_fits_case :
  valid_cfg c5 /\ blen (concat (map fst [([h_], [euro; euro]); ([e_], [])])) <= cap c5 /\
  from_iterator_truncate c5 3 list_iter (map item2 [([h_], [euro; euro]); ([e_], [])]) =
    (Ret (mkastring [104; 195; 169; 0; 0] 3), []).
Proof. solve_case. Qed.

(** [w1], [w2]: what the item that does not fit answers first and second. *)
Theorem C46_stops : forall (c : cfg) (IT : Type) (next : iter IT as_ref_item) (it : IT) (l : list (text * text))
    (w1 w2 : text) (it' : IT) (fuel : nat),
  valid_cfg c -> yields next it (map item2 (l ++ [(w1, w2)])) it' ->
  blen (concat (map fst l)) <= cap c < blen (concat (map fst l)) + blen w1 -> (length l < fuel)%nat ->
  exists q s, longest_fit (cap c - blen (concat (map fst l))) w2 q /\
    from_iterator_truncate c fuel next it = (Ret s, it') /\ shows c s (concat (map fst l) ++ q).
Proof. exact (@c46_stops). Qed.
Print Assumptions C46_stops.
Example C46_stops_case :
  valid_cfg c5 /\ blen (concat (map fst [([h_], [euro])])) <= cap c5 < blen (concat (map fst [([h_], [euro])])) + blen [euro; euro] /\
  longest_fit (cap c5 - 1) [e_; e_; e_] [e_; e_] /\
  from_iterator_truncate c5 2 list_iter (map item2 ([([h_], [euro])] ++ [([euro; euro], [e_; e_; e_])])) =
    (Ret (mkastring [104; 195; 169; 195; 169] 5), []).
Proof. solve_case. Qed.

(** [try_from_iterator] looks at the first answer only. *)
Theorem C46_try : forall (c : cfg) (IT : Type) (next : iter IT as_ref_item) (it : IT) (l : list (text * text))
    (fuel : nat),
  valid_cfg c -> blen (concat (map fst l)) <= cap c -> (length l < fuel)%nat ->
  (forall it', ends next it (map item2 l) it' ->
     exists s, try_from_iterator c fuel next it = (Ret (Ok s), it') /\ shows c s (concat (map fst l))) /\
  (forall w1 w2 it', yields next it (map item2 (l ++ [(w1, w2)])) it' -> cap c < blen (concat (map fst l)) + blen w1 ->
     try_from_iterator c fuel next it = (Ret (Err mkOutOfBounds), it')).
Proof. exact (@c46_try). Qed.
Print Assumptions C46_try.
Example C46_try_case :
  valid_cfg c5 /\ try_from_iterator c5 3 list_iter (map item2 [([h_], [euro; euro]); ([e_], [])]) =
    (Ret (Ok (mkastring [104; 195; 169; 0; 0] 3)), []) /\
  try_from_iterator c5 3 list_iter (map item2 [([h_], []); ([euro; e_], [])]) = (Ret (Err mkOutOfBounds), []).
Proof. solve_case. Qed.

(** Foreign code in the arguments. [replace_range] and [drain] ask every argument before anything is written; then only the answers obtained matter. *)
Theorem C57_ranges : forall (W : Type) (c : cfg) (db : bool) (lo hi : ST W bound) (a : ST W (list N))
    (s : astring) (w : W),
  comes_back lo -> comes_back hi -> str_arg a ->
  (exists o s' w', g_replace_range c db lo hi a (s, w) = (o, (s', w')) /\
   ((o = Panic /\ s' = s /\ a w = (Panic, w')) \/
    (exists b w1, a w = (Ret b, w1) /\
     ((o = Panic /\ s' = s /\ lo w1 = (Panic, w')) \/
      (exists l w2, lo w1 = (Ret l, w2) /\
       ((o = Panic /\ s' = s /\ hi w2 = (Panic, w')) \/
        (exists h w3, hi w2 = (Ret h, w3) /\
         ((o = Panic /\ s' = s /\ db = true /\ broke False a w3 w') \/
          (replace_range c l h b s = (o, s') /\ called a w3 w' /\ (db = false -> w' = w3)))))))))) /\
  (exists o s' w', g_drain c lo hi (s, w) = (o, (s', w')) /\
   ((o = Panic /\ s' = s /\ lo w = (Panic, w')) \/
    (exists l w1, lo w = (Ret l, w1) /\
     ((o = Panic /\ s' = s /\ hi w1 = (Panic, w')) \/
      (exists h, hi w1 = (Ret h, w') /\ drain c l h s = (o, s')))))).
Proof. exact (@c57_ranges). Qed.
Print Assumptions C57_ranges.
Example C57_ranges_case :
  str_arg fickle /\ comes_back (asked (Included 1)) /\ comes_back (asked Unbounded) /\
  g_replace_range c5 false (asked (Included 1)) (asked Unbounded) fickle (s_he, 1) =
    (Ret (Ok tt), (mkastring [104; 226; 130; 172; 9] 4, 2)) /\
  replace_range c5 (Included 1) Unbounded (enc [euro]) s_he = (Ret (Ok tt), mkastring [104; 226; 130; 172; 9] 4) /\
  g_replace_range c5 true (asked (Included 1)) (asked Unbounded) fickle (s_he, 1) = (Panic, (s_he, 3)).
Proof. solve_case. Qed.
Example C57_ranges_case2 :
  g_replace_range c5 true (asked (Included 1)) (asked Unbounded) (counted [euro]) (s_he, 1) =
    (Ret (Ok tt), (mkastring [104; 226; 130; 172; 9] 4, 4)) /\
  g_replace_range c5 false (asked (Included 1)) (asked Unbounded) (counted [euro]) (s_he, 1) =
    (Ret (Ok tt), (mkastring [104; 226; 130; 172; 9] 4, 2)).
Proof. solve_case. Qed.

(** Appending: what the plain method does with one answer; without logs the argument is asked exactly once. *)
Theorem C57_push : forall (W : Type) (c : cfg) (tr db : bool) (a : ST W (list N)) (s : astring) (w : W),
  str_arg a ->
  one_answer (tr = false /\ db = false) a (try_push_str c) (g_try_push_str c tr db a) s w /\
  one_answer (tr = false) a (push_str_truncate c) (g_push_str_truncate c tr a) s w.
Proof. exact (@c57_push). Qed.
Print Assumptions C57_push.
Example C57_push_case :
  str_arg fickle /\ g_try_push_str c5 false false fickle (s_he, 0) = (Ret (Ok tt), (mkastring [104; 195; 169; 195; 169] 5, 1)) /\
  g_push_str_truncate c5 true fickle (s_he, 0) = (Ret tt, (s_he, 2)) /\
  g_try_push_str c5 true true fickle (s_he, 0) = (Panic, (s_he, 3)).
Proof. solve_case. Qed.

(** Inserting: the same; past the end the argument is not asked. *)
Theorem C57_insert : forall (W : Type) (c : cfg) (tr db : bool) (a : ST W (list N)) (i : N) (s : astring) (w : W),
  str_arg a ->
  (i <= len s -> one_answer (tr = false /\ db = false) a (try_insert_str c i) (g_try_insert_str c tr db i a) s w) /\
  (len s < i -> tr = false -> g_try_insert_str c tr db i a (s, w) = (Ret (Err EOutOfBounds), (s, w))) /\
  one_answer (tr = false) a (insert_str_truncate c i) (g_insert_str_truncate c tr i a) s w.
Proof. exact (@c57_insert). Qed.
Print Assumptions C57_insert.
Example C57_insert_case :
  str_arg fickle /\ g_try_insert_str c5 false false 1 fickle (s_he, 0) = (Ret (Ok tt), (mkastring [104; 195; 169; 195; 169] 5, 1)) /\
  g_try_insert_str c5 false false 1 fickle (s_he, 2) = (Panic, (s_he, 3)) /\
  g_try_insert_str c5 false false 4 fickle (s_he, 2) = (Ret (Err EOutOfBounds), (s_he, 2)) /\
  g_insert_str_truncate c5 false 3 fickle (s_he, 0) = (Ret (Ok tt), (mkastring [104; 195; 169; 195; 169] 5, 1)).
Proof. solve_case. Qed.

(** The constructors from strings *)
Theorem C57_constructors : forall (W : Type) (c : cfg) (tr db : bool) (a : ST W (list N)) (w : W),
  str_arg a ->
  one_answer_new (tr = false /\ db = false) a (try_from_str c) (g_try_from_str c tr db a) w /\
  one_answer_new (tr = false) a (from_str_truncate c) (g_from_str_truncate c tr a) w.
Proof. exact (@c57_constructors). Qed.
Print Assumptions C57_constructors.
Example C57_constructors_case :
  str_arg fickle /\ g_try_from_str c5 false false fickle 0 = (Ret (Ok (mkastring [195; 169; 0; 0; 0] 2)), 1) /\
  g_from_str_truncate c5 true fickle 0 = (Panic, 3).
Proof. solve_case. Qed.
Example C57_constructors_case2 :
  str_arg (counted [euro]) /\
  g_try_from_str c5 false false (counted [euro]) 0 = (Ret (Ok (mkastring [226; 130; 172; 0; 0] 3)), 1) /\
  g_try_from_str c5 true true (counted [euro]) 0 = (Ret (Ok (mkastring [226; 130; 172; 0; 0] 3)), 5).
Proof. solve_case. Qed.

(** and from UTF-16. *)
Theorem C57_utf16 : forall (W : Type) (c : cfg) (db : bool) (a : ST W (list N)) (w : W),
  comes_back a ->
  one_answer_new (db = false) a (try_from_utf16 c) (g_utf16 db (try_from_utf16 c) a) w /\
  one_answer_new (db = false) a (from_utf16_truncate c) (g_utf16 db (from_utf16_truncate c) a) w /\
  one_answer_new (db = false) a (from_utf16_lossy_truncate c) (g_utf16 db (from_utf16_lossy_truncate c) a) w.
Proof. exact (@c57_utf16). Qed.
Print Assumptions C57_utf16.
Example C57_utf16_case :
  comes_back fickle /\ g_utf16 false (try_from_utf16 c5) fickle 0 = (Ret (Ok (mkastring [195; 131; 194; 169; 0] 4)), 1) /\
  g_utf16 true (try_from_utf16 c5) fickle 1 = (Panic, 3).
Proof. solve_case. Qed.

(** [try_from_iterator] over items that answer differently each time: one answer per item counts, and the items are asked in order until one does not fit or foreign code panics. [fuel] bounds the number of items looked at. *)
Theorem C57_hostile_items : forall (W A : Type) (c : cfg) (tr db : bool) (fuel : nat) (next : iter W A)
    (as_ref : A -> ST W (list N)) (w : W),
  valid_cfg c -> comes_back next -> (forall x, str_arg (as_ref x)) ->
  let q := tr = false /\ db = false in
  exists o w', g_try_from_iterator c tr db fuel next as_ref w = (o, w') /\
  ((exists l s, o = Ret (Ok s) /\ hears_all q next as_ref w l w' /\ shows c s (concat l)) \/
   (exists l t, o = Ret (Err mkOutOfBounds) /\ hears q next as_ref w (l ++ [t]) w' /\
      blen (concat l) <= cap c < blen (concat l) + blen t) \/
   (exists l, o = Panic /\ hears_panic q next as_ref w l w' /\ blen (concat l) <= cap c) \/
   (exists l, o = Diverge /\ hears q next as_ref w l w' /\ length l = fuel /\ blen (concat l) <= cap c)).
Proof. exact (@c57_hostile_items). Qed.
Print Assumptions C57_hostile_items.
Example C57_hostile_items_case :
  valid_cfg c5 /\ str_arg fickle /\
  g_try_from_iterator c5 false false 3 (fun n : N => (Ret (if n <? 2 then Some tt else None), n)) (fun _ => fickle) 0 =
    (Ret (Ok (mkastring [195; 169; 226; 130; 172] 5)), 2) /\
  hears_all (false = false /\ false = false) (fun n : N => (Ret (if n <? 2 then Some tt else None), n)) (fun _ => fickle) 0
    [[e_]; [euro]] 2 /\
  shows c5 (mkastring [195; 169; 226; 130; 172] 5) (concat [[e_]; [euro]]).
Proof.
  split; [solve_case|]. split; [exact fickle_str|]. split; [vm_compute; reflexivity|]. split; [|solve_case].
  exists 2. split; [|reflexivity].
  apply (hears_cons _ _ _ 0 tt 0 [e_] 1); [reflexivity| |apply (hears_cons _ _ _ 1 tt 1 [euro] 2); [reflexivity| |constructor]].
  - exists 0, 1. repeat split; constructor.
  - exists 1, 2. repeat split; constructor.
Qed.
Example C57_hostile_items_case2 :
  g_try_from_iterator (with_cap c5 4) false false 3 (fun n : N => (Ret (Some tt), n)) (fun _ => fickle) 0 =
    (Ret (Err mkOutOfBounds), 2) /\
  g_try_from_iterator c5 true false 3 (fun n : N => (Ret (Some tt), n)) (fun _ => fickle) 0 = (Panic, 3) /\
  hears_panic (true = false /\ false = false) (fun n : N => (Ret (Some tt), n)) (fun _ => fickle) 0 [[euro]] 3.
Proof.
  split; [vm_compute; reflexivity|]. split; [vm_compute; reflexivity|].
  exists 2. split.
  - apply (hears_cons _ _ _ 0 tt 0 [euro] 2); [reflexivity| |constructor].
    exists 1, 2. split; [|split; [reflexivity|split; [constructor|intros [H _]; discriminate H]]].
    apply (called_more _ 0 (enc [e_]) 1); [reflexivity|constructor].
  - right. exists tt, 2. split; [reflexivity|]. exists 2. repeat split; constructor.
Qed.

(** [from_iterator_truncate]: every item is asked once; the one that does not fit is asked again, and as much of that answer as fits is appended. *)
Theorem C57_hostile_truncate : forall (W A : Type) (c : cfg) (tr : bool) (fuel : nat) (next : iter W A)
    (as_ref : A -> ST W (list N)) (w : W),
  valid_cfg c -> comes_back next -> (forall x, str_arg (as_ref x)) ->
  exists o w', g_from_iterator_truncate c tr fuel next as_ref w = (o, w') /\
  ((exists l s, o = Ret s /\ hears_all True next as_ref w l w' /\ shows c s (concat l)) \/
   (exists l x t w1 w2 w3, hears True next as_ref w l w1 /\ next w1 = (Ret (Some x), w2) /\ as_ref x w2 = (Ret (enc t), w3) /\
      blen (concat l) <= cap c < blen (concat l) + blen t /\
      ((o = Panic /\ broke (tr = false) (as_ref x) w3 w') \/
       (exists u p s, answered (tr = false) (as_ref x) w3 (enc u) w' /\ longest_fit (cap c - blen (concat l)) u p /\
          o = Ret s /\ shows c s (concat l ++ p)))) \/
   (exists l, o = Panic /\ hears_panic True next as_ref w l w' /\ blen (concat l) <= cap c) \/
   (exists l, o = Diverge /\ hears True next as_ref w l w' /\ length l = fuel /\ blen (concat l) <= cap c)).
Proof. exact (@c57_hostile_truncate). Qed.
Print Assumptions C57_hostile_truncate.
Example C57_hostile_truncate_case :
  valid_cfg c5 /\ str_arg fickle /\
  g_from_iterator_truncate c5 false 3 (fun n : N => (Ret (Some tt), n)) (fun _ => fickle) 0 = (Panic, 3) /\
  hears_panic True (fun n : N => (Ret (Some tt), n)) (fun _ => fickle) 0 [[e_]; [euro]] 3 /\
  blen (concat [[e_]; [euro]]) <= cap c5.
Proof.
  split; [solve_case|]. split; [exact fickle_str|]. split; [vm_compute; reflexivity|]. split; [|vm_compute; discriminate].
  exists 2. split.
  - apply (hears_cons _ _ _ 0 tt 0 [e_] 1); [reflexivity| |apply (hears_cons _ _ _ 1 tt 1 [euro] 2); [reflexivity| |constructor]].
    + exists 0, 1. repeat split; constructor.
    + exists 1, 2. repeat split; constructor.
  - right. exists tt, 2. split; [reflexivity|]. exists 2. repeat split; constructor.
Qed.
Example C57_hostile_truncate_case2 :
  g_from_iterator_truncate c5 false 3 (fun n : N => (Ret (Some tt), n)) (fun _ => counted [h_; euro]) 0 =
    (Ret (mkastring [104; 226; 130; 172; 104] 5), 3) /\
  hears True (fun n : N => (Ret (Some tt), n)) (fun _ => counted [h_; euro]) 0 [[h_; euro]] 1 /\
  answered (false = false) (counted [h_; euro]) 2 (enc [h_; euro]) 3 /\
  longest_fit (cap c5 - blen [h_; euro]) [h_; euro] [h_].
Proof.
  split; [vm_compute; reflexivity|]. split; [|split; [|solve_case]].
  - apply (hears_cons _ _ _ 0 tt 0 [h_; euro] 1); [reflexivity| |constructor]. exists 0, 1. repeat split; constructor.
  - exists 2, 3. repeat split; constructor.
Qed.

(** Honest items: exactly the plain constructors. *)
Theorem C57_honest_items : forall (W : Type) (c : cfg) (tr db : bool) (fuel : nat) (next : iter W text) (w : W),
  g_try_from_iterator c tr db fuel next (fun x => sret (enc x)) w = try_from_iterator c fuel (as_items next) w /\
  g_from_iterator_truncate c tr fuel next (fun x => sret (enc x)) w = from_iterator_truncate c fuel (as_items next) w.
Proof. exact (@c57_honest_items). Qed.
Print Assumptions C57_honest_items.
Example C57_honest_items_case :
  g_try_from_iterator c5 true true 3 list_iter (fun x => sret (enc x)) [[h_]; [euro]] =
    (Ret (Ok (mkastring [104; 226; 130; 172; 0] 4)), []) /\
  try_from_iterator c5 3 (as_items list_iter) [[h_]; [euro]] = (Ret (Ok (mkastring [104; 226; 130; 172; 0] 4)), []).
Proof. solve_case. Qed.
Example C57_honest_items_case2 :
  g_from_iterator_truncate c5 true 4 list_iter (fun x => sret (enc x)) [[h_]; [euro]; [e_; h_]; [i_]] =
    (Ret (mkastring [104; 226; 130; 172; 0] 4), [[i_]]) /\
  from_iterator_truncate c5 4 (as_items list_iter) [[h_]; [euro]; [e_; h_]; [i_]] =
    (Ret (mkastring [104; 226; 130; 172; 0] 4), [[i_]]).
Proof. solve_case. Qed.
