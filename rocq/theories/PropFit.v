(** How much truncation keeps, histories without the calls that do nothing, truncation and order (C64-C66). Statements only: the proofs are the lemmas of ClaimsFit.v. *)
From Verif Require Import Base Char Spec RustStd RustIter RustOrd ModelError Model ModelArgs RustFmt SpecFmt ModelImpl ModelDrain ModelCache
  ModelIntegration Layout TextOps SpecOps ModelOps ModelCacheOps StringSpec TestSuite IterSpec Obs ObsCache Cases SpecFit
  ClaimsFit.

(** After a truncating append or conversion the next character would not fit. *)
Theorem C64_append : forall (c : cfg) (s : astring) (t w : text),
  valid_cfg c -> shows c s t ->
  (exists got, makes c (from_str_truncate c (enc w)) got /\ makes c (from_ref_str c (enc w)) got /\ packed (cap c) w got) /\
  (exists got, returns c (push_str_truncate c (enc w) s) tt got /\ makes c (add c s (enc w)) got /\ packed (cap c) (t ++ w) got).
Proof. exact (@c64_append). Qed.
Print Assumptions C64_append.
Example C64_append_case :
  shows c5 s_he [h_; e_] /\ makes c5 (add c5 s_he (enc [i_; e_])) [h_; e_; i_] /\ cap c5 < blen [h_; e_; i_] + clen e_ /\
  makes c5 (from_str_truncate c5 (enc [euro; euro])) [euro] /\ cap c5 < blen [euro] + clen euro.
Proof. solve_case. Qed.

(** The same for an insertion. *)
Theorem C64_insert : forall (c : cfg) (s : astring) (pre post : list char) (w : text),
  valid_cfg c -> shows c s (pre ++ post) ->
  exists p, returns c (insert_str_truncate c (blen pre) (enc w) s) (Ok tt) (pre ++ p ++ post) /\
    packed (cap c - blen (pre ++ post)) w p.
Proof. exact (@c64_insert). Qed.
Print Assumptions C64_insert.
Example C64_insert_case :
  shows c5 s_he ([h_] ++ [e_]) /\ returns c5 (insert_str_truncate c5 (blen [h_]) (enc [i_; euro; i_]) s_he) (Ok tt) [h_; i_; e_] /\
  cap c5 - blen [h_; e_] < blen [i_] + clen euro.
Proof. solve_case. Qed.

(** The same for characters from an iterator. *)
Theorem C64_iterators : forall (c : cfg) (IT : Type) (next : iter IT char) (it : IT) (l : list char) (it' : IT)
    (s : astring) (t : text),
  valid_cfg c -> shows c s t -> ends next it l it' ->
  (exists a it1 got, from_chars_truncate c (char_fuel c) next it = (Ret a, it1) /\ shows c a got /\ packed (cap c) l got) /\
  (exists s' it1 got, extend_chars c (char_fuel c) next it s = (Ret tt, it1, s') /\ shows c s' got /\ packed (cap c) (t ++ l) got).
Proof. exact (@c64_iterators). Qed.
Print Assumptions C64_iterators.
Example C64_iterators_case :
  from_chars_truncate c5 (char_fuel c5) list_iter [euro; h_; smile; h_] = (Ret (mkastring [226; 130; 172; 104; 0] 4), [h_]) /\
  cap c5 < blen [euro; h_] + clen smile /\
  extend_chars c5 (char_fuel c5) list_iter [i_; euro; i_] s_he = (Ret tt, [], mkastring [104; 195; 169; 105; 9] 4) /\
  cap c5 < blen [h_; e_; i_] + clen euro.
Proof. solve_case. Qed.

(** The same for strings from an iterator: the piece that does not fit is cut. *)
Theorem C64_pieces : forall (c : cfg) (IT : Type) (next : iter IT as_ref_item) (it : IT) (l : list text)
    (it' : IT) (s : astring) (t : text) (fuel : nat),
  valid_cfg c -> shows c s t ->
  ends next it (map item_of l) it' -> (length l < fuel)%nat ->
  (exists a it1 got, from_iterator_truncate c fuel next it = (Ret a, it1) /\ shows c a got /\ packed (cap c) (concat l) got) /\
  (exists s' it1 got, extend_strs c fuel next it s = (Ret tt, it1, s') /\ shows c s' got /\ packed (cap c) (t ++ concat l) got).
Proof. exact (@c64_pieces). Qed.
Print Assumptions C64_pieces.
Example C64_pieces_case :
  from_iterator_truncate c5 4 list_iter (map item_of [[h_; e_]; [i_; euro]; [i_]]) =
    (Ret (mkastring [104; 195; 169; 105; 0] 4), map item_of [[i_]]) /\
  cap c5 < blen [h_; e_; i_] + clen euro /\
  extend_strs c5 4 list_iter (map item_of [[i_]; []; [h_; h_]]) s_he = (Ret tt, [], mkastring [104; 195; 169; 105; 104] 5) /\
  cap c5 < blen [h_; e_; i_; h_] + clen h_.
Proof. solve_case. Qed.

(** The same for lossy UTF-16. *)
Theorem C64_utf16 : forall (c : cfg) (us : list N) (items : list (option char)),
  valid_cfg c -> utf16_items us items ->
  exists got, makes c (from_utf16_lossy_truncate c us) got /\ packed (cap c) (lossy items) got.
Proof. exact (@c64_utf16). Qed.
Print Assumptions C64_utf16.
Example C64_utf16_case :
  utf16_items [55357; 104; 105; 8364] [None; Some h_; Some i_; Some euro] /\
  makes c5 (from_utf16_lossy_truncate c5 [55357; 104; 105; 8364]) [replacement_char; h_; i_] /\
  lossy [None; Some h_; Some i_; Some euro] = [replacement_char; h_; i_] ++ euro :: [] /\
  cap c5 < blen [replacement_char; h_; i_] + clen euro.
Proof. solve_case. Qed.

(** Hence at most three bytes stay unused of a string whose text was cut, none if it is ASCII. *)
Theorem C64_room : forall (c : cfg) (s : astring) (want got : text),
  shows c s got -> packed (cap c) want got ->
  len s <= capacity c /\
  (blen want <= capacity c -> len s = blen want) /\
  (capacity c < blen want -> capacity c - len s <= 3) /\
  (Forall ascii want -> capacity c < blen want -> len s = capacity c).
Proof. exact (@c64_room). Qed.
Print Assumptions C64_room.
Example C64_room_case :
  shows (with_cap c5 3) (mkastring [0; 0; 0] 0) [] /\ packed (cap (with_cap c5 3)) [smile] [] /\
  capacity (with_cap c5 3) - len (mkastring [0; 0; 0] 0) = 3.
Proof. split; [solve_case | split; [|reflexivity]]. right. exists smile, []. split; [reflexivity | vm_compute; reflexivity]. Qed.
Example C64_room_case2 :
  packed (cap c5) [h_; i_; h_; i_; h_; i_] [h_; i_; h_; i_; h_] /\ len (mkastring [104; 105; 104; 105; 104] 5) = capacity c5.
Proof. split; [|reflexivity]. right. exists i_, []. split; [reflexivity | vm_compute; reflexivity]. Qed.

(** Leaving out the calls that reported an error, and those that only look, changes no other result and no byte of the final value. *)
Theorem C65_idle_calls : forall (c : cfg) (s : astring) (t : text) (l : list op) (rs : list (outcome out))
    (s' : astring),
  valid_cfg c -> shows c s t -> Forall typed_op l ->
  run_ops c l s = (rs, s') ->
  run_ops c (map fst (busy l rs)) s = (map snd (busy l rs), s').
Proof. exact (@c65_idle_calls). Qed.
Print Assumptions C65_idle_calls.
Example C65_idle_calls_case :
  let l := [OTryPushStr [euro]; OLen; OTryPush i_; ORemove 2; OTruncate 9; OTruncate 2; OPop; OAsStr] in
  run_ops c5 l s_he =
    ([Ret (ROob (Err mkOutOfBounds)); Ret (RNum 3); Ret (ROob (Ok tt)); Ret (RChar (Err EUtf8)); Ret (RUtf8 (Ok tt));
      Ret (RUtf8 (Err mkUtf8)); Ret (ROptChar (Some i_)); Ret (RBytes [104; 195; 169])], mkastring [104; 195; 169; 105; 9] 3) /\
  map fst (busy l (fst (run_ops c5 l s_he))) = [OTryPush i_; OTruncate 9; OPop] /\
  run_ops c5 [OTryPush i_; OTruncate 9; OPop] s_he =
    ([Ret (ROob (Ok tt)); Ret (RUtf8 (Ok tt)); Ret (ROptChar (Some i_))], mkastring [104; 195; 169; 105; 9] 3).
Proof. repeat split; vm_compute; reflexivity. Qed.

(** What is kept of a beginning of a text is a beginning of what is kept of the text. *)
Theorem C66_prefix : forall (c : cfg) (w1 w2 : list char),
  valid_cfg c -> prefix_of w1 w2 ->
  exists p1 p2, makes c (from_str_truncate c (enc w1)) p1 /\ makes c (from_str_truncate c (enc w2)) p2 /\ prefix_of p1 p2 /\
    (blen w1 <= cap c -> p1 = w1).
Proof. exact (@c66_prefix). Qed.
Print Assumptions C66_prefix.
Example C66_prefix_case :
  makes c5 (from_str_truncate c5 (enc [euro; e_])) [euro; e_] /\ makes c5 (from_str_truncate c5 (enc [euro; euro])) [euro] /\
  makes c5 (from_str_truncate c5 (enc [euro; e_; h_])) [euro; e_].
Proof. solve_case. Qed.

(** The result is equal to the text if that fits, else smaller. *)
Theorem C66_below : forall (c : cfg) (w : text),
  valid_cfg c ->
  exists s p, from_str_truncate c (enc w) = Ret s /\ shows c s p /\
    eq_str c s (enc w) = Ret (blen w <=? capacity c) /\ (capacity c < blen w -> text_lt p w).
Proof. exact (@c66_below). Qed.
Print Assumptions C66_below.
Example C66_below_case :
  from_str_truncate c5 (enc [euro; euro]) = Ret (mkastring [226; 130; 172; 0; 0] 3) /\
  eq_str c5 (mkastring [226; 130; 172; 0; 0] 3) (enc [euro; euro]) = Ret false /\
  from_str_truncate c5 (enc [euro; e_]) = Ret (mkastring [226; 130; 172; 195; 169] 5) /\
  eq_str c5 (mkastring [226; 130; 172; 195; 169] 5) (enc [euro; e_]) = Ret true.
Proof. solve_case. Qed.

(** Truncation reverses the order of two texts exactly when they first differ in a character that fits and one that does not. *)
Theorem C66_order : forall (c : cfg) (w1 w2 : text),
  valid_cfg c -> text_lt w1 w2 ->
  exists s1 s2 o, from_str_truncate c (enc w1) = Ret s1 /\ from_str_truncate c (enc w2) = Ret s2 /\
    ord_cmp c s1 s2 = Ret o /\ (o = Gt <-> wider_there (cap c) w1 w2).
Proof. exact (@c66_order). Qed.
Print Assumptions C66_order.
Example C66_order_case :
  text_lt [euro; e_] [euro; euro] /\ wider_there (cap c5) [euro; e_] [euro; euro] /\
  from_str_truncate c5 (enc [euro; e_]) = Ret (mkastring [226; 130; 172; 195; 169] 5) /\
  from_str_truncate c5 (enc [euro; euro]) = Ret (mkastring [226; 130; 172; 0; 0] 3) /\
  ord_cmp c5 (mkastring [226; 130; 172; 195; 169] 5) (mkastring [226; 130; 172; 0; 0] 3) = Ret Gt.
Proof.
  split; [|split; [|solve_case]].
  - apply lt_tail, lt_head. reflexivity.
  - exists [euro], e_, [], euro, []. repeat split; vm_compute; intuition discriminate.
Qed.

(** So it never reverses the order of texts of characters of one width. *)
Theorem C66_same_width : forall (c : cfg) (w1 w2 : text) (k : N),
  valid_cfg c -> text_lt w1 w2 -> Forall (fun x => clen x = k) (w1 ++ w2) ->
  exists s1 s2 o, from_str_truncate c (enc w1) = Ret s1 /\ from_str_truncate c (enc w2) = Ret s2 /\
    ord_cmp c s1 s2 = Ret o /\ o <> Gt.
Proof. exact (@c66_same_width). Qed.
Print Assumptions C66_same_width.
Example C66_same_width_case :
  text_lt [h_; h_; h_; h_; h_; h_] [h_; h_; h_; h_; h_; i_] /\
  from_str_truncate c5 (enc [h_; h_; h_; h_; h_; h_]) = Ret (mkastring [104; 104; 104; 104; 104] 5) /\
  from_str_truncate c5 (enc [h_; h_; h_; h_; h_; i_]) = Ret (mkastring [104; 104; 104; 104; 104] 5) /\
  Forall (fun x => clen x = 1) ([h_; h_; h_; h_; h_; h_] ++ [h_; h_; h_; h_; h_; i_]).
Proof.
  split; [|split; [solve_case | split; [solve_case | repeat constructor]]].
  do 5 apply lt_tail. apply lt_head. reflexivity.
Qed.
