(** Drain and the trait implementations (C27, C30-C32, C34-C38, C50). Statements only: the proofs are the lemmas of ClaimsTrait.v, ClaimsFmt.v. *)
From Coq Require Import String.
From Verif Require Import Base Char Spec RustStd RustIter RustOrd ModelError Model ModelArgs RustFmt SpecFmt ModelImpl ModelDrain ModelCache
  ModelIntegration Layout TextOps SpecOps ModelOps ModelCacheOps StringSpec TestSuite IterSpec Obs ObsCache Cases
  ClaimsTrait ClaimsFmt.

(** [next] and [next_back] in any order: what was taken from the front, what is left and what was taken from the back make up the text. *)
Theorem C27_drain : forall (c : cfg) (d : Drain) (t : text) (sched : list bool),
  valid_cfg c -> shows c (drained d) t ->
  exists os d' rest, drain_calls c sched d = (Ret os, d') /\
    shows c (drained d') rest /\ drain_as_str c d' = Ret (enc rest) /\ length os = length sched /\
    t = taken true sched os ++ rest ++ rev (taken false sched os) /\
    (In None os -> rest = []).
Proof. exact (@c27_drain). Qed.
Print Assumptions C27_drain.
Example C27_drain_case :
  valid_cfg c5 /\ shows c5 (drained (mkDrain s_sp)) [sp_; h_; sp_; i_; sp_] /\
  drain_calls c5 [true; false; true; true] (mkDrain s_sp) =
    (Ret [Some sp_; Some sp_; Some h_; Some sp_], mkDrain (mkastring [105; 105; 105; 32; 32] 1)) /\
  taken true [true; false; true; true] [Some sp_; Some sp_; Some h_; Some sp_] = [sp_; h_; sp_] /\
  taken false [true; false; true; true] [Some sp_; Some sp_; Some h_; Some sp_] = [sp_].
Proof. solve_case. Qed.

(** An exhausted drain stays exhausted. *)
Theorem C27_fused : forall (c : cfg) (d : Drain) (sched : list bool),
  valid_cfg c -> shows c (drained d) [] ->
  exists d', drain_calls c sched d = (Ret (map (fun _ => None) sched), d') /\ shows c (drained d') [].
Proof. exact (@c27_fused). Qed.
Print Assumptions C27_fused.
Example C27_fused_case :
  valid_cfg c5 /\ shows c5 (drained (mkDrain s_empty)) [] /\
  drain_calls c5 [true; false; true] (mkDrain s_empty) = (Ret [None; None; None], mkDrain s_empty).
Proof. solve_case. Qed.

(** Used as an iterator ([for], [collect], [extend]) it hands out the text and ends. *)
Theorem C27_iterator : forall (c : cfg) (d : Drain) (t : text),
  valid_cfg c -> shows c (drained d) t ->
  exists d', ends (drain_iterator c) d t d' /\ shows c (drained d') [].
Proof. exact (@c27_iterator). Qed.
Print Assumptions C27_iterator.
Example C27_iterator_case :
  valid_cfg c5 /\ shows c5 (drained (mkDrain s_he)) [h_; e_] /\
  from_chars_truncate c5 (char_fuel c5) (drain_iterator c5) (mkDrain s_he) =
    (Ret (mkastring [104; 195; 169; 0; 0] 3), mkDrain (mkastring [195; 169; 169; 7; 9] 0)).
Proof. solve_case. Qed.

(** [Drain]'s comparisons and hash are those of the text left in it. *)
Theorem C27_traits : forall (c : cfg) (d e : Drain) (t u : text),
  shows c (drained d) t -> shows c (drained e) u ->
  (exists b, drain_eq c d e = Ret b /\ (b = true <-> t = u)) /\
  (exists o, drain_cmp c d e = Ret o /\ drain_partial_cmp c d e = Ret (Some o) /\
     (o = Eq <-> t = u) /\ (o = Lt <-> text_lt t u) /\ (o = Gt <-> text_lt u t)) /\
  (forall h st, drain_hash c h d st = Ret (str_hash h (enc t) st)) /\
  drain_clone d = d /\ shows c (drained (drain_default c)) [].
Proof. exact (@c27_traits). Qed.
Print Assumptions C27_traits.
Example C27_traits_case :
  shows c5 (drained (mkDrain s_he)) [h_; e_] /\ shows c5 (drained (mkDrain s_full)) [euro; e_] /\
  drain_eq c5 (mkDrain s_he) (mkDrain s_he') = Ret true /\ drain_eq c5 (mkDrain s_he) (mkDrain s_full) = Ret false /\
  drain_cmp c5 (mkDrain s_he) (mkDrain s_full) = Ret Lt.
Proof. solve_case. Qed.

(** Equality is equality of texts, between values and with [str]. *)
Theorem C30_eq : forall (c : cfg) (s s' : astring) (t t' w : text),
  shows c s t -> shows c s' t' ->
  (exists b, partial_eq c s s' = Ret b /\ (b = true <-> t = t')) /\
  (exists b, eq_str c s (enc w) = Ret b /\ eq_ref_str c s (enc w) = Ret b /\ (b = true <-> t = w)).
Proof. exact (@c30_eq). Qed.
Print Assumptions C30_eq.
Example C30_eq_case :
  shows c5 s_he [h_; e_] /\ shows c5 s_he' [h_; e_] /\ partial_eq c5 s_he s_he' = Ret true /\
  partial_eq c5 s_he s_full = Ret false /\ eq_str c5 s_he (enc [h_; e_]) = Ret true /\
  eq_ref_str c5 s_he (enc [h_]) = Ret false.
Proof. solve_case. Qed.
Example C30_eq_case2 :
  eq_str c5 s_he (enc [h_; e_; i_]) = Ret false /\ eq_str c5 s_empty (enc []) = Ret true /\
  partial_eq c5 s_he s_empty = Ret false.
Proof. solve_case. Qed.

(** It is an equivalence relation. *)
Theorem C30_equivalence : forall (c : cfg) (s1 s2 s3 : astring) (t1 t2 t3 : text),
  shows c s1 t1 -> shows c s2 t2 -> shows c s3 t3 ->
  partial_eq c s1 s1 = Ret true /\
  partial_eq c s1 s2 = partial_eq c s2 s1 /\
  (partial_eq c s1 s2 = Ret true -> partial_eq c s2 s3 = Ret true -> partial_eq c s1 s3 = Ret true).
Proof. exact (@c30_equivalence). Qed.
Print Assumptions C30_equivalence.
Example C30_equivalence_case :
  shows c5 s_he [h_; e_] /\ shows c5 s_he' [h_; e_] /\ partial_eq c5 s_he s_he' = Ret true /\
  partial_eq c5 s_he' s_he = Ret true /\ partial_eq c5 s_he s_he = Ret true.
Proof. solve_case. Qed.

(** Comparison is lexicographic by scalar values. *)
Theorem C31_cmp : forall (c : cfg) (s s' : astring) (t t' : text),
  shows c s t -> shows c s' t' ->
  exists o, ord_cmp c s s' = Ret o /\ partial_cmp c s s' = Ret (Some o) /\
    (o = Eq <-> t = t') /\ (o = Lt <-> text_lt t t') /\ (o = Gt <-> text_lt t' t).
Proof. exact (@c31_cmp). Qed.
Print Assumptions C31_cmp.
Example C31_cmp_case :
  shows c5 s_he [h_; e_] /\ shows c5 s_full [euro; e_] /\ ord_cmp c5 s_he s_full = Ret Lt /\
  ord_cmp c5 s_full s_he = Ret Gt /\ partial_cmp c5 s_he s_he' = Ret (Some Eq).
Proof. solve_case. Qed.

(** That is a strict total order on texts. *)
Theorem C31_total_order : forall a b d : text,
  ~ text_lt a a /\ (text_lt a b -> text_lt b d -> text_lt a d) /\
  (text_lt a b \/ a = b \/ text_lt b a).
Proof. exact (@c31_total_order). Qed.
Print Assumptions C31_total_order.
Example C31_total_order_case :
  text_lt [h_] [h_; e_] /\ text_lt [h_; e_] [euro] /\ text_lt [h_] [euro].
Proof.
  split; [apply lt_tail, lt_nil | split; apply lt_head; vm_compute; reflexivity].
Qed.

(** The hash is that of the [str]; [Borrow] and [Deref] give that [str]. *)
Theorem C32_hash : forall (c : cfg) (s : astring) (t : text) (h : hasher) (st : hstate h),
  shows c s t ->
  hash c h s st = Ret (str_hash h (enc t) st) /\ borrow c s = Ret (enc t) /\ deref c s = Ret (enc t).
Proof. exact (@c32_hash). Qed.
Print Assumptions C32_hash.
Example C32_hash_case :
  shows c5 s_he [h_; e_] /\ borrow c5 s_he = Ret [104; 195; 169] /\ deref c5 s_he = Ret [104; 195; 169] /\
  hash c5 (mkhasher (list N) (fun bs st => st ++ bs) (fun b st => st ++ [b])) s_he [1] = Ret [1; 104; 195; 169; 255].
Proof. solve_case. Qed.

(** Equal values hash alike, with any hasher. *)
Theorem C32_hash_eq : forall (c : cfg) (s s' : astring) (t t' : text) (h : hasher) (st : hstate h),
  shows c s t -> shows c s' t' ->
  partial_eq c s s' = Ret true -> hash c h s st = hash c h s' st.
Proof. exact (@c32_hash_eq). Qed.
Print Assumptions C32_hash_eq.
Example C32_hash_eq_case :
  shows c5 s_he [h_; e_] /\ shows c5 s_he' [h_; e_] /\ partial_eq c5 s_he s_he' = Ret true.
Proof. solve_case. Qed.

(** [+] appends as [push_str_truncate] does. *)
Theorem C34_add : forall (c : cfg) (s : astring) (t w : text),
  valid_cfg c -> shows c s t ->
  exists p, longest_fit (cap c - blen t) w p /\ makes c (add c s (enc w)) (t ++ p) /\
    returns c (push_str_truncate c (enc w) s) tt (t ++ p).
Proof. exact (@c34_add). Qed.
Print Assumptions C34_add.
Example C34_add_case :
  valid_cfg c5 /\ shows c5 s_he [h_; e_] /\ longest_fit (cap c5 - blen [h_; e_]) [e_; h_] [e_] /\
  makes c5 (add c5 s_he (enc [e_; h_])) [h_; e_; e_].
Proof. solve_case. Qed.

(** [From<&str>] is [from_str_truncate], [FromStr] is [try_from_str]. *)
Theorem C34_conversions : forall (c : cfg) (w : text),
  valid_cfg c ->
  (exists p, longest_fit (cap c) w p /\ makes c (from_ref_str c (enc w)) p /\ makes c (from_str_truncate c (enc w)) p) /\
  ((makes_ok c (from_str c (enc w)) w /\ makes_ok c (try_from_str c (enc w)) w) \/
   (from_str c (enc w) = Ret (Err mkOutOfBounds) /\ try_from_str c (enc w) = Ret (Err mkOutOfBounds))).
Proof. exact (@c34_conversions). Qed.
Print Assumptions C34_conversions.
Example C34_conversions_case :
  makes c5 (from_ref_str c5 (enc [h_; euro; e_])) [h_; euro] /\ from_str c5 (enc [h_; euro; e_]) = Ret (Err mkOutOfBounds) /\
  makes_ok c5 (from_str c5 (enc [h_; e_])) [h_; e_].
Proof. solve_case. Qed.

(** [FromIterator<&str>]: the longest prefix of the concatenation that fits. *)
Theorem C34_collect_strs : forall (c : cfg) (IT : Type) (next : iter IT as_ref_item) (it : IT) (l : list text)
    (it' : IT) (fuel : nat),
  valid_cfg c -> ends next it (map item_of l) it' -> (length l < fuel)%nat ->
  exists p s it1, longest_fit (cap c) (concat l) p /\
    from_iter_strs c fuel next it = (Ret s, it1) /\ shows c s p.
Proof. exact (@c34_collect_strs). Qed.
Print Assumptions C34_collect_strs.
Example C34_collect_strs_case :
  valid_cfg c5 /\ longest_fit (cap c5) (concat [[h_; e_]; [i_; euro]]) [h_; e_; i_] /\
  from_iter_strs c5 3 list_iter (map item_of [[h_; e_]; [i_; euro]]) = (Ret (mkastring [104; 195; 169; 105; 0] 4), []).
Proof. solve_case. Qed.

(** [fmt::Write::write_str]: all or nothing. *)
Theorem C35_write_str : forall (c : cfg) (s : astring) (t w : text),
  valid_cfg c -> shows c s t ->
  (blen t + blen w <= cap c -> returns c (write_str c (enc w) s) (Ok tt) (t ++ w)) /\
  (cap c < blen t + blen w -> write_str c (enc w) s = (Ret (Err mkFmtError), s)).
Proof. exact (@c35_write_str). Qed.
Print Assumptions C35_write_str.
Example C35_write_str_case :
  valid_cfg c5 /\ shows c5 s_he [h_; e_] /\ returns c5 (write_str c5 (enc [e_]) s_he) (Ok tt) [h_; e_; e_] /\
  write_str c5 (enc [euro]) s_he = (Ret (Err mkFmtError), s_he).
Proof. solve_case. Qed.

(** [write_char]: all or nothing. *)
Theorem C35_write_char : forall (c : cfg) (s : astring) (t : text) (x : char),
  valid_cfg c -> shows c s t ->
  (blen t + clen x <= cap c -> returns c (write_char c x s) (Ok tt) (t ++ [x])) /\
  (cap c < blen t + clen x -> write_char c x s = (Ret (Err mkFmtError), s)).
Proof. exact (@c35_write_char). Qed.
Print Assumptions C35_write_char.
Example C35_write_char_case :
  valid_cfg c5 /\ shows c5 s_he [h_; e_] /\ returns c5 (write_char c5 e_ s_he) (Ok tt) [h_; e_; e_] /\
  write_char c5 euro s_he = (Ret (Err mkFmtError), s_he).
Proof. solve_case. Qed.
Example C35_write_char_case2 :
  valid_cfg c5 /\ shows c5 s_empty [] /\ returns c5 (write_char c5 smile s_empty) (Ok tt) [smile].
Proof. solve_case. Qed.

(** [write!]: the pieces before the first that does not fit stay. *)
Theorem C35_write_fmt : forall (c : cfg) (s : astring) (t : text) (ws : list text),
  valid_cfg c -> shows c s t ->
  exists ws1 ws2 r, ws = ws1 ++ ws2 /\
    returns c (write_fmt c (pieces (map enc ws)) s) r (t ++ concat ws1) /\
    ((r = Ok tt /\ ws2 = []) \/
     (r = Err mkFmtError /\ exists w rest, ws2 = w :: rest /\ cap c < blen (t ++ concat ws1) + blen w)).
Proof. exact (@c35_write_fmt). Qed.
Print Assumptions C35_write_fmt.
Example C35_write_fmt_case :
  valid_cfg c5 /\ shows c5 s_he [h_; e_] /\
  write_fmt c5 (pieces (map enc [[i_]; [e_]; [i_]])) s_he =
    (Ret (Err mkFmtError), mkastring [104; 195; 169; 105; 9] 4) /\
  cap c5 < blen ([h_; e_] ++ concat [[i_]]) + blen [e_].
Proof. solve_case. Qed.

(** Any formatting at all, also one that looks at the results, goes on after an error or panics: what it did to the text so far stays, and nothing else. *)
Theorem C35_any_formatting : forall (c : cfg) (s : astring) (t : text) (p : formatting),
  valid_cfg c -> shows c s t ->
  exists s', write_fmt c (formatting_prog p) s =
    (match fst (t_write_fmt (cap c) p t) with
     | Some true => Ret (Ok tt)
     | Some false => Ret (Err mkFmtError)
     | None => Panic
     end, s') /\ shows c s' (snd (t_write_fmt (cap c) p t)).
Proof. exact (@c35_any_formatting). Qed.
Print Assumptions C35_any_formatting.
Example C35_any_formatting_case :
  valid_cfg c5 /\ shows c5 s_he [h_; e_] /\
  t_write_fmt (cap c5) (FPiece [euro] (fun b => if b then FStop true else FPiece [i_] (fun _ => FPanic))) [h_; e_] =
    (None, [h_; e_; i_]) /\
  write_fmt c5 (formatting_prog (FPiece [euro] (fun b => if b then FStop true else FPiece [i_] (fun _ => FPanic)))) s_he =
    (Panic, mkastring [104; 195; 169; 105; 9] 4).
Proof. solve_case. Qed.

(** [Display] writes the text, whatever the flags, to any sink. *)
Theorem C36_display : forall (c : cfg) (s : astring) (t : text) (W : Type) (k : sink W) (sp : fmtspec) (w : W),
  shows c s t ->
  display c k sp s w = wstr k (enc t) w.
Proof. exact (@c36_display). Qed.
Print Assumptions C36_display.
Example C36_display_case :
  shows c5 s_he [h_; e_] /\ display c5 buffer default_spec s_he [33] = (Ret (Ok tt), [33; 104; 195; 169]).
Proof. solve_case. Qed.

(** Indexing gives the slice between two boundaries, or panics; [IndexMut] also says where it starts. *)
Theorem C37_index : forall (c : cfg) (s : astring) (t : text) (r : range),
  valid_cfg c -> shows c s t -> range_u8 r ->
  let a := fst (ends_of_range (blen t) r) in
  let b := snd (ends_of_range (blen t) r) in
  (forall pre mid post, t = pre ++ mid ++ post -> blen pre = a -> blen (pre ++ mid) = b ->
     index c s r = Ret (enc mid) /\ index_mut c r s = (Ret (a, enc mid), s)) /\
  (~ (a <= b /\ boundary t a /\ boundary t b) ->
     index c s r = Panic /\ index_mut c r s = (Panic, s)).
Proof. exact (@c37_index). Qed.
Print Assumptions C37_index.
Example C37_index_case :
  valid_cfg c5 /\ shows c5 s_full ([] ++ [euro] ++ [e_]) /\ range_u8 (RToIncl 2) /\
  ends_of_range 5 (RToIncl 2) = (0, 3) /\ index c5 s_full (RToIncl 2) = Ret (enc [euro]) /\
  index_mut c5 (RFrom 3) s_full = (Ret (3, enc [e_]), s_full) /\
  index c5 s_full (RRange 1 3) = Panic /\ index c5 s_full (RFrom 6) = Panic.
Proof. solve_case. Qed.

(** The same as indexing the [str], but for ranges already iterated to their end. *)
Theorem C37_same_as_str : forall (c : cfg) (s : astring) (t : text) (r : range),
  valid_cfg c -> shows c s t -> (forall a b, r <> RIncl a b true) ->
  index c s r = str_index_range (usize_max c) (enc t) r.
Proof. exact (@c37_same_as_str). Qed.
Print Assumptions C37_same_as_str.
Example C37_same_as_str_case :
  valid_cfg c5 /\ shows c5 s_full [euro; e_] /\
  index c5 s_full (RIncl 3 4 false) = str_index_range (usize_max c5) (enc [euro; e_]) (RIncl 3 4 false) /\
  index c5 s_full (RIncl 3 4 false) = Ret (enc [e_]).
Proof. solve_case. Qed.

(** The [&mut str] handed out is the text, and taking it changes nothing. *)
Theorem C38_as_mut : forall (c : cfg) (s : astring) (t : text),
  shows c s t ->
  as_mut c s = (Ret (enc t), s) /\ as_mut_str c s = (Ret (enc t), s) /\
  deref_mut c s = (Ret (enc t), s) /\ borrow_mut c s = (Ret (enc t), s).
Proof. exact (@c38_as_mut). Qed.
Print Assumptions C38_as_mut.
Example C38_as_mut_case :
  shows c5 s_he [h_; e_] /\ as_mut_str c5 s_he = (Ret [104; 195; 169], s_he).
Proof. solve_case. Qed.

(** Overwriting a part of it by characters of the same length changes that part only. *)
Theorem C38_write : forall (c : cfg) (s : astring) (pre mid post : list char) (new : text),
  valid_cfg c -> shows c s (pre ++ mid ++ post) -> blen new = blen mid ->
  exists s', str_write (blen pre) (enc new) s = (Ret tt, s') /\ shows c s' (pre ++ new ++ post) /\
    len s' = len s /\ takeN (blen pre) (arr s') = takeN (blen pre) (arr s) /\
    dropN (blen pre + blen mid) (arr s') = dropN (blen pre + blen mid) (arr s).
Proof. exact (@c38_write). Qed.
Print Assumptions C38_write.
Example C38_write_case :
  valid_cfg c5 /\ shows c5 s_full ([] ++ [euro] ++ [e_]) /\ blen [h_; e_] = blen [euro] /\
  str_write (blen []) (enc [h_; e_]) s_full = (Ret tt, mkastring [104; 195; 169; 195; 169] 5).
Proof. solve_case. Qed.
Example C38_write_case2 :
  str_write (blen [h_]) (enc [i_; i_]) s_he = (Ret tt, mkastring [104; 105; 105; 7; 9] 3).
Proof. solve_case. Qed.

(** ASCII case conversion in place. *)
Theorem C38_ascii_case : forall (c : cfg) (s : astring) (t : text),
  valid_cfg c -> shows c s t ->
  returns c (make_ascii_uppercase c s) tt (map ascii_upper t) /\
  returns c (make_ascii_lowercase c s) tt (map ascii_lower t).
Proof. exact (@c38_ascii_case). Qed.
Print Assumptions C38_ascii_case.
Example C38_ascii_case_case :
  valid_cfg c5 /\ shows c5 s_he [h_; e_] /\ map ascii_upper [h_; e_] = [mkchar 72 eq_refl; e_] /\
  returns c5 (make_ascii_uppercase c5 s_he) tt [mkchar 72 eq_refl; e_].
Proof. solve_case. Qed.

(** What that does to one character. *)
Theorem C38_ascii_letters : forall x : char,
  code (ascii_upper x) = (if (97 <=? code x) && (code x <=? 122) then code x - 32 else code x) /\
  code (ascii_lower x) = (if (65 <=? code x) && (code x <=? 90) then code x + 32 else code x).
Proof. exact (@c38_ascii_letters). Qed.
Print Assumptions C38_ascii_letters.
Example C38_ascii_letters_case :
  code (ascii_upper h_) = 72 /\ ascii_upper e_ = e_ /\ ascii_lower h_ = h_.
Proof. solve_case. Qed.

(** Error values are equal when they are the same variant. *)
Theorem C50_eq : forall a b d : Error,
  (error_eq a b = true <-> a = b) /\
  (error_eq a b = error_eq b a) /\
  (error_eq a b = true -> error_eq b d = true -> error_eq a d = true).
Proof. exact (@c50_eq). Qed.
Print Assumptions C50_eq.
Example C50_eq_case :
  error_eq EUtf8 EUtf8 = true /\ error_eq EUtf8 EUtf16 = false.
Proof. solve_case. Qed.
Example C50_eq_case2 :
  map (error_eq EOutOfBounds) [EUtf8; EUtf16; EOutOfBounds] = [false; false; true] /\
  map (error_eq EUtf16) [EUtf8; EUtf16; EOutOfBounds] = [false; true; false].
Proof. solve_case. Qed.

(** The hash of an error is that of its name; equal errors hash alike. *)
Theorem C50_hash : forall (a b : Error) (h : hasher) (st : hstate h),
  error_hash h a st = str_hash h (lit (variant_name a)) st /\
  (error_eq a b = true -> error_hash h a st = error_hash h b st).
Proof. exact (@c50_hash). Qed.
Print Assumptions C50_hash.
Example C50_hash_case :
  error_eq EUtf16 EUtf16 = true /\
  error_hash (mkhasher (list N) (fun bs st => st ++ bs) (fun b st => st ++ [b])) EUtf8 [1] = [1; 85; 116; 102; 56; 255].
Proof. solve_case. Qed.

(** What the errors print: their names. *)
Theorem C50_texts : forall (e : Error) (a : Utf8) (b : Utf16) (o : OutOfBounds),
  error_display e = lit (variant_name e) /\ error_debug e = lit "Error::" ++ lit (variant_name e) /\
  utf8_display a = lit "Utf8" /\ utf8_debug a = lit "Utf8" /\
  utf16_display b = lit "Utf16" /\ utf16_debug b = lit "Utf16" /\
  oob_display o = lit "OutOfBounds" /\ oob_debug o = lit "OutOfBounds".
Proof. exact (@c50_texts). Qed.
Print Assumptions C50_texts.
Example C50_texts_case :
  error_display EUtf8 = [85; 116; 102; 56] /\
  error_debug EOutOfBounds = [69; 114; 114; 111; 114; 58; 58; 79; 117; 116; 79; 102; 66; 111; 117; 110; 100; 115].
Proof. solve_case. Qed.

(** Different errors print differently. *)
Theorem C50_distinct : forall a b : Error,
  (error_display a = error_display b -> a = b) /\ (error_debug a = error_debug b -> a = b) /\
  (lit (variant_name a) = lit (variant_name b) -> a = b).
Proof. exact (@c50_distinct). Qed.
Print Assumptions C50_distinct.
Example C50_distinct_case :
  error_display EUtf8 <> error_display EUtf16 /\ error_debug EUtf16 <> error_debug EOutOfBounds.
Proof. solve_case. Qed.

(** The conversions into [Error] keep the kind and the text. *)
Theorem C50_conversions : forall (a : Utf8) (b : Utf16) (o : OutOfBounds) (u : unit),
  from_utf8_err a = EUtf8 /\ from_utf16_err b = EUtf16 /\ from_oob o = EOutOfBounds /\
  error_from_utf8_error u = EUtf8 /\ error_from_decode_utf16 u = EUtf16 /\ error_from_encode_utf16 u = EUtf16 /\
  from_utf8_err (utf8_from_utf8_error u) = EUtf8 /\
  from_utf16_err (utf16_from_decode_utf16 u) = EUtf16 /\ from_utf16_err (utf16_from_encode_utf16 u) = EUtf16 /\
  error_display (from_utf8_err a) = utf8_display a /\ error_display (from_utf16_err b) = utf16_display b /\
  error_display (from_oob o) = oob_display o.
Proof. exact (@c50_conversions). Qed.
Print Assumptions C50_conversions.
Example C50_conversions_case :
  from_utf8_err mkUtf8 = EUtf8 /\ from_oob mkOutOfBounds = EOutOfBounds /\
  error_display EOutOfBounds = oob_display mkOutOfBounds.
Proof. solve_case. Qed.
Example C50_conversions_case2 :
  from_utf16_err mkUtf16 = EUtf16 /\ error_from_decode_utf16 tt = EUtf16 /\ error_from_encode_utf16 tt = EUtf16 /\
  error_from_utf8_error tt = EUtf8.
Proof. solve_case. Qed.

(** [Debug], compact and [{:#?}]: the struct with the text and the length, printed as [str] and [u8] print themselves, for every writer. *)
Theorem C52_debug : forall (c : cfg) (s : astring) (t : text) (sdi : list N -> debug_impl)
    (udi : N -> debug_impl) (alt : bool) (ld ln : list wcall),
  shows c s t -> emits (sdi (enc t)) alt ld -> emits (udi (blen t)) alt ln ->
  exists l, emits (debug_fmt c sdi udi s) alt l /\
            calls_bytes l = struct_text alt (calls_bytes ld) (calls_bytes ln).
Proof. exact (@c52_debug). Qed.
Print Assumptions C52_debug.
Example C52_debug_case :
  shows c5 s_he [h_; e_] /\
  emits (str_debug (enc [h_; e_])) false [WChar quote; WStr [104; 195; 169]; WChar quote] /\
  emits (digit_debug (blen [h_; e_])) false [WStr [51]] /\
  struct_text false [34; 104; 195; 169; 34] [51] =
    lit "ArrayString { array: " ++ [34; 104; 195; 169; 34] ++ lit ", size: 3 }".
Proof. solve_case. Qed.

(** Into a buffer, as [format!] does. *)
Theorem C52_format : forall (c : cfg) (s : astring) (t : text) (sdi : list N -> debug_impl)
    (udi : N -> debug_impl) (alt : bool) (ld ln : list wcall) (w : list N),
  shows c s t -> emits (sdi (enc t)) alt ld -> emits (udi (blen t)) alt ln ->
  debug_fmt c sdi udi s _ buffer alt w =
    (Ret (Ok tt), w ++ struct_text alt (calls_bytes ld) (calls_bytes ln)).
Proof. exact (@c52_format). Qed.
Print Assumptions C52_format.
Example C52_format_case :
  shows c5 s_he [h_; e_] /\
  debug_fmt c5 str_debug digit_debug s_he _ buffer false [33] =
    (Ret (Ok tt), [33] ++ lit "ArrayString { array: " ++ [34; 104; 195; 169; 34] ++ lit ", size: 3 }") /\
  debug_fmt c5 str_debug digit_debug s_he _ buffer true [] =
    (Ret (Ok tt), lit "ArrayString {" ++ [10] ++ lit "    array: " ++ [34; 104; 195; 169; 34] ++ lit "," ++ [10] ++
                  lit "    size: 3," ++ [10] ++ lit "}").
Proof. solve_case. Qed.

(** Only the text matters, not what is left over in the array. *)
Theorem C52_text_only : forall (c : cfg) (s s' : astring) (t : text) (sdi : list N -> debug_impl)
    (udi : N -> debug_impl) (W : Type) (k : sink W) (alt : bool) (w : W),
  shows c s t -> shows c s' t -> debug_fmt c sdi udi s W k alt w = debug_fmt c sdi udi s' W k alt w.
Proof. exact (@c52_text_only). Qed.
Print Assumptions C52_text_only.
Example C52_text_only_case :
  shows c5 s_he [h_; e_] /\ shows c5 s_he' [h_; e_] /\
  debug_fmt c5 str_debug digit_debug s_he _ buffer true [] = debug_fmt c5 str_debug digit_debug s_he' _ buffer true [].
Proof. solve_case. Qed.

(** [Debug] of a [Drain]: a newtype around what is left. *)
Theorem C52_drain : forall (c : cfg) (d : Drain) (t : text) (sdi : list N -> debug_impl) (udi : N -> debug_impl)
    (alt : bool) (ld ln : list wcall),
  shows c (drained d) t -> emits (sdi (enc t)) alt ld -> emits (udi (blen t)) alt ln ->
  exists l, emits (drain_debug c sdi udi d) alt l /\
            calls_bytes l = newtype_text alt (lit "Drain") (struct_text alt (calls_bytes ld) (calls_bytes ln)).
Proof. exact (@c52_drain). Qed.
Print Assumptions C52_drain.
Example C52_drain_case :
  shows c5 (drained (mkDrain s_he)) [h_; e_] /\
  drain_debug c5 str_debug digit_debug (mkDrain s_he) _ buffer true [] =
    (Ret (Ok tt), lit "Drain(" ++ [10] ++ lit "    ArrayString {" ++ [10] ++ lit "        array: " ++
                  [34; 104; 195; 169; 34] ++ lit "," ++ [10] ++ lit "        size: 3," ++ [10] ++
                  lit "    }," ++ [10] ++ lit ")").
Proof. solve_case. Qed.

(** [Debug] of a [CacheString]. *)
Theorem C52_cache : forall (c0 : cfg) (s : CacheString) (t : text) (sdi : list N -> debug_impl)
    (udi : N -> debug_impl) (alt : bool) (ld ln : list wcall),
  cache_shows c0 s t -> emits (sdi (enc t)) alt ld -> emits (udi (blen t)) alt ln ->
  exists l, emits (cache_debug c0 sdi udi s) alt l /\
            calls_bytes l = newtype_text alt (lit "CacheString") (struct_text alt (calls_bytes ld) (calls_bytes ln)).
Proof. exact (@c52_cache). Qed.
Print Assumptions C52_cache.
Example C52_cache_case :
  cache_shows c5 k_he [h_; e_] /\
  cache_debug c5 str_debug digit_debug k_he _ buffer false [] =
    (Ret (Ok tt), lit "CacheString(ArrayString { array: " ++ [34; 104; 195; 169; 34] ++ lit ", size: 3 })").
Proof. solve_case. Qed.
