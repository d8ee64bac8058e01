(** The project's own parity tests, for every input (C61). Statements only: the proofs are the lemmas of ClaimsTests.v. *)
From Coq Require Import String.
From Verif Require Import Base Char Spec RustStd RustIter RustOrd ModelError Model ModelArgs RustFmt SpecFmt ModelImpl ModelDrain ModelCache
  ModelIntegration Layout TextOps SpecOps ModelOps ModelCacheOps StringSpec TestSuite IterSpec Obs ObsCache Cases
  ClaimsTests.

(** The constructor tests (tests/string_parity.rs:25-65) pass for every string that fits. The cases are the eight strings of the file at capacity 255. *)
Theorem C61_constructors : forall (c : cfg) (s : text),
  valid_cfg c -> blen s <= cap c ->
  try_from_str_a c s = Ret (Some (enc s)) /\
  from_str_truncate_a c s = Ret (Some (enc s)) /\
  try_from_chars_a c s = Ret (Some (enc s)) /\
  from_chars_a c s = Ret (Some (enc s)) /\
  try_from_iter_a c s = Ret (Some (enc s)) /\
  from_iter_a c s = Ret (Some (enc s)).
Proof. exact (@c61_constructors). Qed.
Print Assumptions C61_constructors.
Example C61_constructors_case :
  map (try_from_str_a c255) STRINGS = map (fun s => Ret (Some (enc s))) STRINGS /\
  map (from_str_truncate_a c255) STRINGS = map (fun s => Ret (Some (enc s))) STRINGS /\
  map (try_from_chars_a c255) STRINGS = map (fun s => Ret (Some (enc s))) STRINGS /\
  map (from_chars_a c255) STRINGS = map (fun s => Ret (Some (enc s))) STRINGS /\
  map (try_from_iter_a c255) STRINGS = map (fun s => Ret (Some (enc s))) STRINGS /\
  map (from_iter_a c255) STRINGS = map (fun s => Ret (Some (enc s))) STRINGS.
Proof. solve_case. Qed.

(** The UTF-16 tests (lines 67-132) pass for every sequence of units whose lossy reading fits, paired or not. *)
Theorem C61_utf16 : forall (c : cfg) (us : list N),
  valid_cfg c -> Forall (fun u => u < 65536) us -> blen (lossy (t_decode16 us)) <= cap c ->
  try_from_utf16_a c us = Ret (utf16_s us) /\
  from_utf16_a c us = Ret (utf16_s us) /\
  from_utf16_lossy_a c us = Ret (utf16_lossy_s us).
Proof. exact (@c61_utf16). Qed.
Print Assumptions C61_utf16.
Example C61_utf16_case :
  map (fun s => try_from_utf16_a c255 (enc16 s)) STRINGS = map (fun s => Ret (Some (enc s))) STRINGS /\
  map (fun s => from_utf16_a c255 (enc16 s)) STRINGS = map (fun s => Ret (Some (enc s))) STRINGS /\
  map (fun s => from_utf16_lossy_a c255 (enc16 s)) STRINGS = map (fun s => Ret (Some (enc s))) STRINGS /\
  map (fun s => try_from_utf16_a c255 (invalidate_utf16 (enc16 s))) STRINGS =
    map (fun s => Ret (utf16_s (invalidate_utf16 (enc16 s)))) STRINGS /\
  map (fun s => from_utf16_a c255 (invalidate_utf16 (enc16 s))) STRINGS =
    map (fun s => Ret (utf16_s (invalidate_utf16 (enc16 s)))) STRINGS /\
  map (fun s => from_utf16_lossy_a c255 (invalidate_utf16 (enc16 s))) STRINGS =
    map (fun s => Ret (utf16_lossy_s (invalidate_utf16 (enc16 s)))) STRINGS /\
  utf16_s (invalidate_utf16 (enc16 (ascii_text "iejueue"))) = None /\
  blen (lossy (t_decode16 (invalidate_utf16 (enc16 (repeat thinking 7))))) = 26.
Proof. solve_case. Qed.

(** The tests of [push_str], [push] and [+] (lines 134-186) pass whenever the result fits. *)
Theorem C61_appends : forall (c : cfg) (s : text) (x : char),
  valid_cfg c -> blen s <= cap c ->
  (blen s + blen s <= cap c ->
     try_push_str_a c s = Ret (s_bytes (string_op (usize_max c) (SPushStr false s) s)) /\
     push_str_a c s = Ret (s_bytes (string_op (usize_max c) (SPushStr true s) s)) /\
     add_str_a c s = Ret (s_bytes (string_op (usize_max c) (SAdd s) s))) /\
  (blen s + clen x <= cap c ->
     push_a c x s = Ret (s_bytes (string_op (usize_max c) (SPush x) s))).
Proof. exact (@c61_appends). Qed.
Print Assumptions C61_appends.
Example C61_appends_case :
  map (try_push_str_a c255) STRINGS = map (fun s => Ret (Some (enc (s ++ s)))) STRINGS /\
  map (push_str_a c255) STRINGS = map (fun s => Ret (Some (enc (s ++ s)))) STRINGS /\
  map (add_str_a c255) STRINGS = map (fun s => Ret (Some (enc (s ++ s)))) STRINGS /\
  map (push_a c255 thinking) STRINGS = map (fun s => Ret (Some (enc (s ++ [thinking])))) STRINGS.
Proof. solve_case. Qed.

(** The tests of [truncate], [pop], [trim], [remove], [retain], [clear], [split_off], [drain], [len] and [is_empty] (lines 188-264, 318-367, 386-412) pass for every string that fits, every index and every closure: an error exactly where [String] panics. *)
Theorem C61_cuts : forall (c : cfg) (s : text) (n : N) (p : char -> bool),
  valid_cfg c -> blen s <= cap c ->
  truncate_a c n s = Ret (s_bytes (string_op (usize_max c) (STruncate n) s)) /\
  pop_a c s = Ret (s_pair out_opt (string_op (usize_max c) SPop s)) /\
  trim_a c s = Ret (Some (enc (trim_text s))) /\
  remove_a c n s = Ret (s_pair out_char (string_op (usize_max c) (SRemove n) s)) /\
  retain_a c p s = Ret (s_bytes (string_op (usize_max c) (SRetain unit (fun _ x => (p x, tt)) tt) s)) /\
  clear_a c s = Ret (s_bytes (string_op (usize_max c) SClear s)) /\
  split_off_a c n s = Ret (s_pair out_text (string_op (usize_max c) (SSplitOff n) s)) /\
  drain_a c n s = Ret (s_pair out_text (string_op (usize_max c) (SDrain Unbounded (Excluded n)) s)) /\
  len_a c s = Ret (blen s) /\
  is_empty_a c s = Ret (match s with [] => true | _ => false end).
Proof. exact (@c61_cuts). Qed.
Print Assumptions C61_cuts.
Example C61_cuts_case :
  map (truncate_a c255 2) STRINGS =
    map (fun s => Ret (s_bytes (string_op 65535 (STruncate 2) s))) STRINGS /\
  truncate_a c255 2 (repeat thinking 7) = Ret None /\
  map (pop_a c255) STRINGS = map (fun s => Ret (s_pair out_opt (string_op 65535 SPop s))) STRINGS /\
  trim_a c255 (ascii_text " ab c  ") = Ret (Some (enc (ascii_text "ab c"))) /\
  map (trim_a c255) STRINGS = map (fun s => Ret (Some (enc (trim_text s)))) STRINGS /\
  map (remove_a c255 2) STRINGS = map (fun s => Ret (s_pair out_char (string_op 65535 (SRemove 2) s))) STRINGS /\
  retain_a c255 (fun x => code x =? 97) (ascii_text "899saH(8hadhaiuhsidnkandu") = Ret (Some (enc (ascii_text "aaaa"))) /\
  map (clear_a c255) STRINGS = map (fun s => Ret (Some [])) STRINGS /\
  map (split_off_a c255 2) STRINGS =
    map (fun s => Ret (s_pair out_text (string_op 65535 (SSplitOff 2) s))) STRINGS /\
  map (drain_a c255 2) STRINGS =
    map (fun s => Ret (s_pair out_text (string_op 65535 (SDrain Unbounded (Excluded 2)) s))) STRINGS /\
  drain_a c255 2 (ascii_text "ab") = Ret (Some ([], lit "ab")) /\
  map (len_a c255) STRINGS = map (fun s => Ret (blen s)) STRINGS /\
  map (is_empty_a c255) STRINGS = map Ret [false; false; false; true; false; false; false; false].
Proof. solve_case. Qed.

(** The tests of [insert], [insert_str] and [replace_range] (lines 266-316, 369-384) pass for every index whenever the result fits. *)
Theorem C61_inserts : forall (c : cfg) (s : text) (n : N) (x : char),
  valid_cfg c -> blen s <= cap c ->
  (blen s + clen x <= cap c ->
     try_insert_a c n x s = Ret (s_bytes (string_op (usize_max c) (SInsert n x) s))) /\
  (blen s + blen s <= cap c ->
     try_insert_str_a c n s = Ret (s_bytes (string_op (usize_max c) (SInsertStr false n s) s)) /\
     insert_str_a c n s = Ret (s_bytes (string_op (usize_max c) (SInsertStr true n s) s)) /\
     replace_range_a c n s =
       Ret (s_bytes (string_op (usize_max c) (SReplaceRange Unbounded (Excluded n) s) s))).
Proof. exact (@c61_inserts). Qed.
Print Assumptions C61_inserts.
Example C61_inserts_case :
  map (try_insert_a c255 2 h_) STRINGS = map (fun s => Ret (s_bytes (string_op 65535 (SInsert 2 h_) s))) STRINGS /\
  map (try_insert_str_a c255 2) STRINGS =
    map (fun s => Ret (s_bytes (string_op 65535 (SInsertStr false 2 s) s))) STRINGS /\
  map (insert_str_a c255 2) STRINGS =
    map (fun s => Ret (s_bytes (string_op 65535 (SInsertStr true 2 s) s))) STRINGS /\
  map (replace_range_a c255 2) STRINGS =
    map (fun s => Ret (s_bytes (string_op 65535 (SReplaceRange Unbounded (Excluded 2) s) s))) STRINGS /\
  try_insert_str_a c255 2 (ascii_text "ab") = Ret (Some (lit "abab")) /\
  replace_range_a c255 2 (ascii_text "ab1") = Ret (Some (lit "ab11")) /\
  try_insert_str_a c255 2 (repeat thinking 7) = Ret None.
Proof. solve_case. Qed.
