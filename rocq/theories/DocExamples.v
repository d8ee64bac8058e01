(** The examples of the crate's own documentation (src/arraystring.rs, src/lib.rs),
    run on the model: the assertions of each doc test, in the build with and in
    the build without debug assertions, on a 64 bit target. *)
From Coq Require Import String.
From Verif Require Import Base Char Spec RustStd ModelError Model RustFmt ModelImpl ModelDrain ModelCache
  ModelIntegration Layout IterSpec Cases.

Definition doc (d : bool) (n : N) : cfg := mkcfg 18446744073709551615 d n.

(** ['A'], ['🤔'], ... and ["0".repeat(n)]. *)
Definition thinking : char := mkchar 129300 eq_refl.
Definition chA : char := mkchar 65 eq_refl.
Definition chB : char := mkchar 66 eq_refl.
Definition chC : char := mkchar 67 eq_refl.
Definition chD : char := mkchar 68 eq_refl.
Definition bang : char := mkchar 33 eq_refl.
Definition zero : char := mkchar 48 eq_refl.
Definition zeros (n : nat) : list N := repeat 48 n.

(** ["My String".chars()]. *)
Definition my_string : list char :=
  [mkchar 77 eq_refl; mkchar 121 eq_refl; mkchar 32 eq_refl; mkchar 83 eq_refl; mkchar 116 eq_refl;
   mkchar 114 eq_refl; mkchar 105 eq_refl; mkchar 110 eq_refl; mkchar 103 eq_refl].

(** A [&str] as an item of an iterator. *)
Definition item (bs : list N) : as_ref_item := mkitem bs bs.

(** [ArrayString::<n>::try_from_str(w)?]. *)
Definition of (d : bool) (n : N) (w : string) : astring :=
  match try_from_str (doc d n) (lit w) with Ret (Ok s) => s | _ => new (doc d n) end.

(** [s.as_str()] after a call, and the value after it. *)
Definition after {A} (m : ST astring A) (s : astring) : astring := snd (m s).
Definition text_of (d : bool) (n : N) (s : astring) : outcome (list N) := as_str (doc d n) s.
Definition res_text {E} (d : bool) (n : N) (o : outcome (result astring E)) : option (outcome (list N)) :=
  match o with Ret (Ok s) => Some (text_of d n s) | _ => None end.
Definition val_text (d : bool) (n : N) (o : outcome astring) : option (outcome (list N)) :=
  match o with Ret s => Some (text_of d n s) | _ => None end.
Definition cache_res_text {E} (d : bool) (o : outcome (result CacheString E)) : option (outcome (list N)) :=
  match o with Ret (Ok s) => Some (cache_as_str (doc d 63) s) | _ => None end.
Definition cache_val_text (d : bool) (o : outcome CacheString) : option (outcome (list N)) :=
  match o with Ret s => Some (cache_as_str (doc d 63) s) | _ => None end.

Definition music : list N := [0xD834; 0xDD1E; 0x006d; 0x0075; 0x0073; 0x0069; 0x0063].
Definition invalid_utf16 : list N := [0xD834; 0xDD1E; 0x006d; 0x0075; 0xD800; 0x0069; 0x0063].

Ltac run := match goal with d : bool |- _ => destruct d end; cbv zeta;
  repeat lazymatch goal with |- _ /\ _ => split end; vm_compute; reflexivity.

(** src/arraystring.rs:44-45 *)
Example doc_new d : is_empty (doc d 23) (new (doc d 23)) = Ret true.
Proof. run. Qed.

(** src/arraystring.rs:62-68 *)
Example doc_try_from_str d :
  res_text d 23 (try_from_str (doc d 23) (lit "My String")) = Some (Ret (lit "My String")) /\
  res_text d 23 (try_from_str (doc d 23) (lit "")) = Some (Ret (lit "")) /\
  try_from_str (doc d 23) (zeros 24) = Ret (Err mkOutOfBounds).
Proof. run. Qed.

(** src/arraystring.rs:88-95 *)
Example doc_from_str_truncate d :
  val_text d 23 (from_str_truncate (doc d 23) (lit "My String")) = Some (Ret (lit "My String")) /\
  val_text d 23 (from_str_truncate (doc d 23) (zeros 24)) = Some (Ret (zeros 23)).
Proof. run. Qed.

(** src/arraystring.rs:113-117 *)
Example doc_try_from_iterator d :
  res_text d 255 (fst (try_from_iterator (doc d 255) 3 list_iter (map item [lit "My String"; lit " My Other String"]))) =
    Some (Ret (lit "My String My Other String")) /\
  fst (try_from_iterator (doc d 23) 101 list_iter (repeat (item (zeros 3)) 100)) = Ret (Err mkOutOfBounds).
Proof. run. Qed.

(** src/arraystring.rs:142-149 *)
Example doc_from_iterator_truncate d :
  val_text d 255 (fst (from_iterator_truncate (doc d 255) 3 list_iter (map item [lit "My String"; lit " Other String"]))) =
    Some (Ret (lit "My String Other String")) /\
  val_text d 23 (fst (from_iterator_truncate (doc d 23) 401 list_iter (repeat (item (zeros 3)) 400))) =
    Some (Ret (zeros 23)).
Proof. run. Qed.

(** src/arraystring.rs:175-179 *)
Example doc_try_from_chars d :
  res_text d 23 (fst (try_from_chars (doc d 23) (char_fuel (doc d 23)) list_iter my_string)) = Some (Ret (lit "My String")) /\
  fst (try_from_chars (doc d 23) (char_fuel (doc d 23)) list_iter (repeat zero 24)) = Ret (Err mkOutOfBounds).
Proof. run. Qed.

(** src/arraystring.rs:201-208 *)
Example doc_from_chars_truncate d :
  val_text d 23 (fst (from_chars_truncate (doc d 23) (char_fuel (doc d 23)) list_iter my_string)) =
    Some (Ret (lit "My String")) /\
  val_text d 23 (fst (from_chars_truncate (doc d 23) (char_fuel (doc d 23)) list_iter (repeat zero 24))) =
    Some (Ret (zeros 23)).
Proof. run. Qed.

(** src/arraystring.rs:233-241 *)
Example doc_try_from_utf16 d :
  res_text d 23 (try_from_utf16 (doc d 23) music) = Some (Ret (lit "𝄞music")) /\
  try_from_utf16 (doc d 23) invalid_utf16 = Ret (Err EUtf16) /\
  try_from_utf16 (doc d 23) (repeat 0 300) = Ret (Err EOutOfBounds).
Proof. run. Qed.

(** src/arraystring.rs:265-274 *)
Example doc_from_utf16_truncate d :
  res_text d 23 (from_utf16_truncate (doc d 23) music) = Some (Ret (lit "𝄞music")) /\
  from_utf16_truncate (doc d 23) invalid_utf16 = Ret (Err mkUtf16) /\
  res_text d 23 (from_utf16_truncate (doc d 23) (repeat 0 300)) = Some (Ret (repeat 0 23)).
Proof. run. Qed.

(** src/arraystring.rs:299-308 *)
Example doc_from_utf16_lossy_truncate d :
  val_text d 23 (from_utf16_lossy_truncate (doc d 23) music) = Some (Ret (lit "𝄞music")) /\
  val_text d 23 (from_utf16_lossy_truncate (doc d 23) invalid_utf16) = Some (Ret (lit "𝄞mu�ic")) /\
  val_text d 23 (from_utf16_lossy_truncate (doc d 23) (repeat 0 300)) = Some (Ret (repeat 0 23)).
Proof. run. Qed.

(** src/arraystring.rs:331-332, 349-350, 366 *)
Example doc_as_str d :
  as_str (doc d 23) (of d 23 "My String") = Ret (lit "My String") /\
  fst (as_mut_str (doc d 23) (of d 23 "My String")) = Ret (lit "My String") /\
  capacity (doc d 32) = 32.
Proof. run. Qed.

(** src/arraystring.rs:381-385 *)
Example doc_try_push_str d :
  let s := of d 255 "My String" in
  let s1 := after (try_push_str (doc d 255) (lit " My other String")) s in
  fst (try_push_str (doc d 255) (lit " My other String") s) = Ret (Ok tt) /\
  text_of d 255 s1 = Ret (lit "My String My other String") /\
  fst (try_push_str (doc d 255) (zeros 255) s1) = Ret (Err mkOutOfBounds).
Proof. run. Qed.

(** src/arraystring.rs:406-412 *)
Example doc_push_str_truncate d :
  text_of d 255 (after (push_str_truncate (doc d 255) (lit " My other String")) (of d 255 "My String")) =
    Ret (lit "My String My other String") /\
  text_of d 23 (after (push_str_truncate (doc d 23) (zeros 24)) (default (doc d 23))) = Ret (zeros 23).
Proof. run. Qed.

(** src/arraystring.rs:431-436 *)
Example doc_try_push d :
  fst (try_push (doc d 23) bang (of d 23 "My String")) = Ret (Ok tt) /\
  text_of d 23 (after (try_push (doc d 23) bang) (of d 23 "My String")) = Ret (lit "My String!") /\
  match try_from_str (doc d 23) (zeros 23) with
  | Ret (Ok s) => fst (try_push (doc d 23) bang s) = Ret (Err mkOutOfBounds)
  | _ => False
  end.
Proof. run. Qed.

(** src/arraystring.rs:454-464 *)
Example doc_truncate d :
  let s1 := after (truncate (doc d 23) 5) (of d 23 "My String") in
  text_of d 23 s1 = Ret (lit "My St") /\
  fst (truncate (doc d 23) 6 s1) = Ret (Ok tt) /\ text_of d 23 (after (truncate (doc d 23) 6) s1) = Ret (lit "My St") /\
  fst (truncate (doc d 23) 1 (of d 23 "🤔")) = Ret (Err mkUtf8).
Proof. run. Qed.

(** src/arraystring.rs:482-485 *)
Example doc_pop d :
  let s := of d 23 "A🤔" in
  let s1 := after (pop (doc d 23)) s in
  let s2 := after (pop (doc d 23)) s1 in
  fst (pop (doc d 23) s) = Ret (Some thinking) /\ fst (pop (doc d 23) s1) = Ret (Some chA) /\
  fst (pop (doc d 23) s2) = Ret None.
Proof. run. Qed.

(** src/arraystring.rs:505-511 *)
Example doc_trim d :
  text_of d 255 (after (trim (doc d 255)) (of d 255 "   to be trimmed     ")) = Ret (lit "to be trimmed") /\
  text_of d 23 (after (trim (doc d 23)) (of d 23 "   🤔")) = Ret (lit "🤔").
Proof. run. Qed.

(** src/arraystring.rs:548-555 *)
Example doc_remove d :
  let s := of d 23 "ABCD🤔" in
  let s1 := after (remove (doc d 23) 0) s in
  fst (remove (doc d 23) 8 s) = Ret (Err EOutOfBounds) /\ fst (remove (doc d 23) 10 s) = Ret (Err EOutOfBounds) /\
  fst (remove (doc d 23) 6 s) = Ret (Err EUtf8) /\
  fst (remove (doc d 23) 0 s) = Ret (Ok chA) /\ text_of d 23 s1 = Ret (lit "BCD🤔") /\
  fst (remove (doc d 23) 2 s1) = Ret (Ok chD) /\ text_of d 23 (after (remove (doc d 23) 2) s1) = Ret (lit "BC🤔").
Proof. run. Qed.

(** src/arraystring.rs:588-590 *)
Example doc_retain d :
  match retain (doc d 23) (fun ch x => (Ret (negb (code ch =? 129300)), x)) tt (of d 23 "ABCD🤔") with
  | (Ret _, s, _) => text_of d 23 s = Ret (lit "ABCD")
  | _ => False
  end.
Proof. run. Qed.

(** src/arraystring.rs:614-622 *)
Example doc_try_insert d :
  let s := after (try_insert (doc d 23) 2 chB) (after (try_insert (doc d 23) 1 chA) (of d 23 "ABCD🤔")) in
  text_of d 23 s = Ret (lit "AABBCD🤔") /\
  fst (try_insert (doc d 23) 20 chC s) = Ret (Err EOutOfBounds) /\ fst (try_insert (doc d 23) 8 chD s) = Ret (Err EUtf8) /\
  match try_from_str (doc d 23) (zeros 23) with
  | Ret (Ok s) => fst (try_insert (doc d 23) 0 chC s) = Ret (Err EOutOfBounds)
  | _ => False
  end.
Proof. run. Qed.

(** src/arraystring.rs:646-652 *)
Example doc_try_insert_str d :
  let s := after (try_insert_str (doc d 23) 1 (lit "BC")) (after (try_insert_str (doc d 23) 1 (lit "AB")) (of d 23 "ABCD🤔")) in
  fst (try_insert_str (doc d 23) 1 (zeros 23) s) = Ret (Err EOutOfBounds) /\
  text_of d 23 s = Ret (lit "ABCABBCD🤔") /\
  fst (try_insert_str (doc d 23) 20 (lit "C") s) = Ret (Err EOutOfBounds) /\
  fst (try_insert_str (doc d 23) 10 (lit "D") s) = Ret (Err EUtf8).
Proof. run. Qed.

(** src/arraystring.rs:676-686 *)
Example doc_insert_str_truncate d :
  let s := after (insert_str_truncate (doc d 23) 1 (lit "BC"))
             (after (insert_str_truncate (doc d 23) 1 (lit "AB")) (of d 23 "ABCD🤔")) in
  text_of d 23 s = Ret (lit "ABCABBCD🤔") /\
  fst (insert_str_truncate (doc d 23) 20 (lit "C") s) = Ret (Err EOutOfBounds) /\
  fst (insert_str_truncate (doc d 23) 10 (lit "D") s) = Ret (Err EUtf8) /\
  fst (insert_str_truncate (doc d 23) 0 (zeros 33) (after clear s)) = Ret (Ok tt) /\
  text_of d 23 (after (insert_str_truncate (doc d 23) 0 (zeros 33)) (after clear s)) = Ret (zeros 23).
Proof. run. Qed.

(** src/arraystring.rs:711-715 *)
Example doc_len d :
  len (of d 23 "ABCD") = 4 /\ len (after (try_push (doc d 23) thinking) (of d 23 "ABCD")) = 8.
Proof. run. Qed.

(** src/arraystring.rs:737-741 *)
Example doc_split_off d :
  let s := of d 23 "AB🤔CD" in
  let s1 := after (split_off (doc d 23) 6) s in
  res_text d 23 (fst (split_off (doc d 23) 6 s)) = Some (Ret (lit "CD")) /\ text_of d 23 s1 = Ret (lit "AB🤔") /\
  fst (split_off (doc d 23) 20 s1) = Ret (Err EOutOfBounds) /\ fst (split_off (doc d 23) 4 s1) = Ret (Err EUtf8).
Proof. run. Qed.

(** src/arraystring.rs:759-762 *)
Example doc_clear d :
  is_empty (doc d 23) (of d 23 "ABCD") = Ret false /\ is_empty (doc d 23) (after clear (of d 23 "ABCD")) = Ret true.
Proof. run. Qed.

(** src/arraystring.rs:781-786; [collect] is four calls of [next]. *)
Example doc_drain d :
  let s := of d 23 "ABCD🤔" in
  let s1 := after (drain_iter (doc d 23) Unbounded (Excluded 3)) s in
  match fst (drain_iter (doc d 23) Unbounded (Excluded 3) s) with
  | Ret (Ok it) =>
      let '(r1, it) := drain_next (doc d 23) it in
      let '(r2, it) := drain_next (doc d 23) it in
      let '(r3, it) := drain_next (doc d 23) it in
      let '(r4, it) := drain_next (doc d 23) it in
      [r1; r2; r3; r4] = [Ret (Some chA); Ret (Some chB); Ret (Some chC); Ret None]
  | _ => False
  end /\
  text_of d 23 s1 = Ret (lit "D🤔") /\
  fst (drain_iter (doc d 23) (Included 3) Unbounded s1) = Ret (Err EUtf8) /\
  fst (drain_iter (doc d 23) (Included 10) Unbounded s1) = Ret (Err EOutOfBounds).
Proof. run. Qed.

(** src/arraystring.rs:828-834 *)
Example doc_replace_range d :
  let s := after (replace_range (doc d 23) (Included 2) (Excluded 4) (lit "EFGHI")) (of d 23 "ABCD🤔") in
  eq_ref_str (doc d 23) s (lit "ABEFGHI🤔") = Ret true /\
  fst (replace_range (doc d 23) (Included 9) Unbounded (lit "J") s) = Ret (Err EUtf8) /\
  fst (replace_range (doc d 23) Unbounded (Excluded 90) (lit "K") s) = Ret (Err EOutOfBounds) /\
  fst (replace_range (doc d 23) (Included 0) (Excluded 1) (zeros 23) s) = Ret (Err EOutOfBounds).
Proof. run. Qed.

(** src/lib.rs:67-68 *)
Example doc_user d :
  res_text d 20 (try_from_str (doc d 20) (lit "user")) = Some (Ret (lit "user")) /\
  res_text d 5 (try_from_str (doc d 5) (lit "admin")) = Some (Ret (lit "admin")).
Proof. run. Qed.

(** src/lib.rs:176-177, 191-197, 213-220, 402 *)
Example doc_cache_new d : cache_is_empty (doc d 63) (cache_new (doc d 63)) = Ret true /\ cache_capacity = 63.
Proof. run. Qed.
Example doc_cache_try_from_str d :
  cache_res_text d (cache_try_from_str (doc d 63) (lit "My String")) = Some (Ret (lit "My String")) /\
  cache_res_text d (cache_try_from_str (doc d 63) (lit "")) = Some (Ret (lit "")) /\
  cache_try_from_str (doc d 63) (zeros 64) = Ret (Err mkOutOfBounds).
Proof. run. Qed.
Example doc_cache_from_str_truncate d :
  cache_val_text d (cache_from_str_truncate (doc d 63) (lit "My String")) = Some (Ret (lit "My String")) /\
  cache_val_text d (cache_from_str_truncate (doc d 63) (zeros 64)) = Some (Ret (zeros 63)).
Proof. run. Qed.

(** src/lib.rs:234-238, 257-264, 281-285, 301-308 *)
Example doc_cache_iterators d :
  cache_res_text d (fst (cache_try_from_iterator (doc d 63) 3 list_iter (map item [lit "My String"; lit " My Other String"]))) =
    Some (Ret (lit "My String My Other String")) /\
  fst (cache_try_from_iterator (doc d 63) 101 list_iter (repeat (item (zeros 3)) 100)) = Ret (Err mkOutOfBounds) /\
  cache_val_text d (fst (cache_from_iterator_truncate (doc d 63) 3 list_iter (map item [lit "My String"; lit " Other String"]))) =
    Some (Ret (lit "My String Other String")) /\
  cache_val_text d (fst (cache_from_iterator_truncate (doc d 63) 401 list_iter (repeat (item (zeros 3)) 400))) =
    Some (Ret (zeros 63)) /\
  cache_res_text d (fst (cache_try_from_chars (doc d 63) 65 list_iter my_string)) = Some (Ret (lit "My String")) /\
  fst (cache_try_from_chars (doc d 63) 65 list_iter (repeat zero 64)) = Ret (Err mkOutOfBounds) /\
  cache_val_text d (fst (cache_from_chars_truncate (doc d 63) 65 list_iter my_string)) = Some (Ret (lit "My String")) /\
  cache_val_text d (fst (cache_from_chars_truncate (doc d 63) 65 list_iter (repeat zero 64))) = Some (Ret (zeros 63)).
Proof. run. Qed.

(** src/lib.rs:325-333, 351-360, 377-386 *)
Example doc_cache_utf16 d :
  cache_res_text d (cache_try_from_utf16 (doc d 63) music) = Some (Ret (lit "𝄞music")) /\
  cache_try_from_utf16 (doc d 63) invalid_utf16 = Ret (Err EUtf16) /\
  cache_try_from_utf16 (doc d 63) (repeat 0 300) = Ret (Err EOutOfBounds) /\
  cache_res_text d (cache_from_utf16_truncate (doc d 63) music) = Some (Ret (lit "𝄞music")) /\
  cache_from_utf16_truncate (doc d 63) invalid_utf16 = Ret (Err mkUtf16) /\
  cache_res_text d (cache_from_utf16_truncate (doc d 63) (repeat 0 300)) = Some (Ret (repeat 0 63)) /\
  cache_val_text d (cache_from_utf16_lossy_truncate (doc d 63) music) = Some (Ret (lit "𝄞music")) /\
  cache_val_text d (cache_from_utf16_lossy_truncate (doc d 63) invalid_utf16) = Some (Ret (lit "𝄞mu�ic")) /\
  cache_val_text d (cache_from_utf16_lossy_truncate (doc d 63) (repeat 0 300)) = Some (Ret (repeat 0 63)).
Proof. run. Qed.

(** src/lib.rs:420-424 *)
Example doc_cache_split_off d :
  match cache_try_from_str (doc d 63) (lit "AB🤔CD") with
  | Ret (Ok s) =>
      let '(r, s1) := cache_split_off (doc d 63) 6 s in
      cache_res_text d r = Some (Ret (lit "CD")) /\ cache_as_str (doc d 63) s1 = Ret (lit "AB🤔") /\
      fst (cache_split_off (doc d 63) 20 s1) = Ret (Err EOutOfBounds) /\
      fst (cache_split_off (doc d 63) 4 s1) = Ret (Err EUtf8)
  | _ => False
  end.
Proof. destruct d; vm_compute; repeat split. Qed.
