(** The model of Rust's core library checked against the examples of its
    documentation (doc.rust-lang.org/core) and against misuse: what the documentation
    calls undefined behaviour is [UB] here, what it says panics is [Panic]. Every
    example is an assertion of the page of the function named in the comment, unless
    it says otherwise. *)
From Coq Require Import String.
From Verif Require Import Base Char Spec RustStd RustFmt RustIter RustOrd Model ModelDrain ModelOps Cases.

Definition ch (n : N) : char := match char_of_N n with Some c => c | None => replacement_char end.
Definition decode (s : string) : outcome (list char) := fst (iter_collect chars_iter (S (length (lit s))) (lit s)).

(** ** char *)

(** char::len_utf8: 'A', 'ß', 'ℝ', '💣'. *)
Example len_utf8_doc : map (fun n => len_utf8 (ch n)) [0x41; 0xDF; 0x211D; 0x1F4A3] = [1; 2; 3; 4].
Proof. reflexivity. Qed.

(** char::encode_utf8: 'ß' in two bytes, and a buffer of one byte is too small. *)
Example encode_utf8_doc : encode_utf8 (ch 0xDF) 2 = Ret (lit "ß") /\ encode_utf8 (ch 0xDF) 1 = Panic.
Proof. split; reflexivity. Qed.
Example encode_utf8_all : encode_utf8 (ch 0x41) 4 = Ret (lit "A") /\ encode_utf8 (ch 0x211D) 4 = Ret (lit "ℝ") /\
  encode_utf8 (ch 0x1F4A3) 4 = Ret (lit "💣") /\ encode_utf8 (ch 0x1F4A3) 3 = Panic.
Proof. repeat split. Qed.

(** char::is_whitespace: ' ', U+00A0, '越'. *)
Example is_whitespace_doc : map (fun n => is_whitespace (ch n)) [0x20; 0xA0; 0x8D8A] = [true; true; false].
Proof. reflexivity. Qed.
(** All of White_Space, and no other character below U+3100. *)
Fixpoint upto (n : nat) : list N := match n with O => [] | S n => upto n ++ [N.of_nat n] end.
Example is_whitespace_all : filter (fun n => match char_of_N n with Some c => is_whitespace c | None => false end)
    (flat_map (fun a => map (fun b => a * 256 + b) (upto 256)) (upto 0x31)) =
  [9; 10; 11; 12; 13; 32; 0x85; 0xA0; 0x1680; 0x2000; 0x2001; 0x2002; 0x2003; 0x2004; 0x2005; 0x2006; 0x2007; 0x2008;
   0x2009; 0x200A; 0x2028; 0x2029; 0x202F; 0x205F; 0x3000].
Proof. vm_compute. reflexivity. Qed.

(** char::from_u32_unchecked: 0x2764 is '❤'; not for a surrogate or past U+10FFFF. *)
Example from_u32_unchecked_doc : from_u32_unchecked 0x2764 = Ret (ch 0x2764) /\
  from_u32_unchecked 0xD800 = UB /\ from_u32_unchecked 0xDFFF = UB /\ from_u32_unchecked 0x110000 = UB.
Proof. repeat split; vm_compute; reflexivity. Qed.

(** char::decode_utf16. *)
Example decode_utf16_doc :
  fst (iter_collect decode_utf16_next 20 (None, [0xD834; 0xDD1E; 0x6d; 0x75; 0x73; 0xDD1E; 0x69; 0x63; 0xD834])) =
  Ret [Some (ch 0x1D11E); Some (ch 0x6d); Some (ch 0x75); Some (ch 0x73); None; Some (ch 0x69); Some (ch 0x63); None].
Proof. vm_compute. reflexivity. Qed.
(** A lead surrogate before another unit does not swallow it. *)
Example decode_utf16_pairs :
  fst (iter_collect decode_utf16_next 20 (None, [0xD800; 0xD800; 0xDC00; 0xD800; 0x41; 0xDBFF; 0xDFFF])) =
  Ret [None; Some (ch 0x10000); None; Some (ch 0x41); Some (ch 0x10FFFF)].
Proof. vm_compute. reflexivity. Qed.

(** ** str *)

(** str::is_char_boundary on "Löwe 老虎 Léopard". *)
Example is_char_boundary_doc : let s := lit "Löwe 老虎 Léopard" in
  map (str_is_char_boundary s) [0; 6; lenN s; 2; 8; lenN s + 1] = [true; true; true; false; false; false].
Proof. reflexivity. Qed.

(** str::get on "🗻∈🌏". *)
Example get_doc : let v := lit "🗻∈🌏" in
  str_get v 0 4 = Some (lit "🗻") /\ str_get v 1 (lenN v) = None /\ str_get v 0 8 = None /\ str_get v 0 42 = None /\
  str_get v 4 0 = None.
Proof. repeat split. Qed.

(** str::get_unchecked on the same; wrong ranges are undefined behaviour. *)
Example get_unchecked_doc : let v := lit "🗻∈🌏" in
  str_get_unchecked v 0 4 = Ret (lit "🗻") /\ str_get_unchecked v 4 7 = Ret (lit "∈") /\ str_get_unchecked v 7 11 = Ret (lit "🌏") /\
  str_get_unchecked v 0 5 = UB /\ str_get_unchecked v 7 4 = UB /\ str_get_unchecked v 7 12 = UB.
Proof. repeat split. Qed.

(** Primitive type str, indexing "Löwe 老虎 Léopard" (SliceIndex<str>). *)
Example index_doc : let s := lit "Löwe 老虎 Léopard" in
  str_index_range 65535 s (RRange 0 1) = Ret (lit "L") /\ str_index_range 65535 s (RRange 1 9) = Ret (lit "öwe 老") /\
  str_index_range 65535 s (RRange 2 3) = Panic /\ str_index_range 65535 s (RRange 1 8) = Panic /\
  str_index_range 65535 s (RRange 3 100) = Panic.
Proof. repeat split. Qed.
(** The other ranges; an inclusive range up to usize::MAX panics; an exhausted one is empty. *)
Example index_ranges : let s := lit "Löwe" in
  str_index_range 65535 s (RTo 3) = Ret (lit "Lö") /\ str_index_range 65535 s (RTo 2) = Panic /\ str_index_range 65535 s (RTo 6) = Panic /\
  str_index_range 65535 s (RTo 0) = Ret [] /\ str_index_range 65535 s (RFrom 3) = Ret (lit "we") /\
  str_index_range 65535 s (RFrom 5) = Ret [] /\ str_index_range 65535 s (RFrom 6) = Panic /\
  str_index_range 65535 s RFull = Ret s /\ str_index_range 65535 s (RRange 1 1) = Ret [] /\ str_index_range 65535 s (RRange 4 3) = Panic /\
  str_index_range 65535 s (RToIncl 2) = Ret (lit "Lö") /\ str_index_range 65535 s (RToIncl 65535) = Panic /\
  str_index_range 65535 s (RIncl 1 2 false) = Ret (lit "ö") /\ str_index_range 65535 s (RIncl 3 3 true) = Ret [] /\
  str_index_range 65535 s (RIncl 0 65535 false) = Panic /\ str_index_range 65535 s (RIncl 5 4 false) = Ret [].
Proof. repeat split. Qed.

(** str::from_utf8: the sparkle heart, and the same with a wrong first byte. *)
Example from_utf8_doc : from_utf8_ok [240; 159; 146; 150] = true /\ from_utf8_ok [0; 159; 146; 150] = false.
Proof. split; reflexivity. Qed.
(** Unicode standard, table 3-8 (shortest form, surrogates, past U+10FFFF, cut). *)
Example from_utf8_ill_formed : map from_utf8_ok
  [[0xC0; 0x80]; [0xC1; 0xBF]; [0xE0; 0x9F; 0xBF]; [0xF0; 0x8F; 0xBF; 0xBF]; [0xED; 0xA0; 0x80]; [0xED; 0xBF; 0xBF];
   [0xF4; 0x90; 0x80; 0x80]; [0xF5; 0x80; 0x80; 0x80]; [0x80]; [0xE2; 0x82]; [0xF0; 0x9F; 0x98]; [0xFF]; [0xC3; 0x28]] = repeat false 13.
Proof. reflexivity. Qed.
Example from_utf8_edges : map from_utf8_ok
  [[]; [0x7F]; [0xC2; 0x80]; [0xDF; 0xBF]; [0xE0; 0xA0; 0x80]; [0xED; 0x9F; 0xBF]; [0xEE; 0x80; 0x80]; [0xEF; 0xBF; 0xBF];
   [0xF0; 0x90; 0x80; 0x80]; [0xF4; 0x8F; 0xBF; 0xBF]] = repeat true 10.
Proof. reflexivity. Qed.
Example from_utf8_unchecked_misuse : from_utf8_unchecked [0xC3] = UB /\ from_utf8_unchecked [0xC3; 0xA9] = Ret [0xC3; 0xA9].
Proof. split; reflexivity. Qed.

(** str::chars: "goodbye" and "y̆"; str::char_indices of the second. *)
Example chars_doc : decode "goodbye" = Ret (map ch [103; 111; 111; 100; 98; 121; 101]) /\ decode "y̆" = Ret (map ch [121; 0x306]).
Proof. split; vm_compute; reflexivity. Qed.
Example char_indices_doc :
  char_indices_next (0, lit "y̆") = Ret (Some (0, ch 121, (1, lit "̆"))) /\
  char_indices_next (1, lit "̆") = Ret (Some (1, ch 0x306, (3, []))) /\ char_indices_next (3, []) = Ret None /\
  char_indices_next_back (0, lit "y̆") = Ret (Some (1, ch 0x306, (0, lit "y"))).
Proof. repeat split; vm_compute; reflexivity. Qed.
(** Iterator::last of chars, from the back. *)
Example chars_last_all : map (fun s => chars_last (lit s)) ["A"; "xß"; "ßℝ"; "ℝ💣"; ""]%string =
  [Ret (Some (ch 0x41)); Ret (Some (ch 0xDF)); Ret (Some (ch 0x211D)); Ret (Some (ch 0x1F4A3)); Ret None].
Proof. vm_compute. reflexivity. Qed.

(** str: Ord, PartialEq. Byte by byte: "z" < "ß" < "ℝ" < "💣", a prefix first. *)
Example str_cmp_all : str_cmp (lit "z") (lit "ß") = Lt /\ str_cmp (lit "ß") (lit "ℝ") = Lt /\ str_cmp (lit "💣") (lit "ℝ") = Gt /\
  str_cmp (lit "ab") (lit "abc") = Lt /\ str_cmp (lit "abc") (lit "ab") = Gt /\ str_cmp (lit "ab") (lit "ab") = Eq /\
  str_eq (lit "ab") (lit "ab") = true /\ str_eq (lit "ab") (lit "aB") = false /\ str_eq (lit "ab") (lit "abc") = false.
Proof. repeat split. Qed.

(** str::make_ascii_uppercase: "Grüße, Jürgen ❤"; make_ascii_lowercase: "GRÜßE, JÜRGEN ❤". *)
Example ascii_case_doc : map to_ascii_uppercase (lit "Grüße, Jürgen ❤") = lit "GRüßE, JüRGEN ❤" /\
  map to_ascii_lowercase (lit "GRÜßE, JÜRGEN ❤") = lit "grÜße, jÜrgen ❤".
Proof. split; reflexivity. Qed.
(** The neighbours of the letters stay. *)
Example ascii_case_edges : map to_ascii_uppercase (lit "`az{@AZ[") = lit "`AZ{@AZ[" /\ map to_ascii_lowercase (lit "`az{@AZ[") = lit "`az{@az[".
Proof. split; reflexivity. Qed.

(** ** Slices and pointers *)
Example slice_misuse : slice_get_unchecked_to [1; 2; 4] 2 = Ret [1; 2] /\ slice_get_unchecked_to [1; 2; 4] 3 = Ret [1; 2; 4] /\
  slice_get_unchecked_to [1; 2; 4] 4 = UB.
Proof. repeat split. Qed.
(** ptr::copy, with overlap in both directions, as memmove. *)
Example ptr_copy_overlap : ptr_copy [1; 2; 3; 4; 5] 0 1 4 = Ret [1; 1; 2; 3; 4] /\ ptr_copy [1; 2; 3; 4; 5] 1 0 4 = Ret [2; 3; 4; 5; 5] /\
  ptr_copy [1; 2; 3; 4; 5] 1 2 4 = UB /\ ptr_copy [1; 2; 3; 4; 5] 2 0 4 = UB.
Proof. repeat split. Qed.
Example ptr_copy_from_misuse : ptr_copy_from [1; 2; 3] [7; 8] 1 2 = Ret [1; 7; 8] /\ ptr_copy_from [1; 2; 3] [7; 8] 2 2 = UB /\
  ptr_copy_from [1; 2; 3] [7] 0 2 = UB.
Proof. repeat split. Qed.
Example ptr_add_misuse : ptr_add 5 2 3 = Ret 5 /\ ptr_add 5 2 4 = UB.
Proof. split; reflexivity. Qed.
(** Writing through a [&mut str]: outside it, or bytes that are no UTF-8. *)
Example str_write_misuse : str_write 1 (lit "ß") s_he = (Ret tt, mkastring [104; 195; 159; 7; 9] 3) /\ str_write 1 (lit "ℝ") s_he = (UB, s_he) /\
  str_write 0 [255] s_he = (UB, s_he) /\ str_write 1 [104] s_he = (UB, s_he) /\ str_write 2 [169] s_he = (UB, s_he).
Proof. repeat split. Qed.

(** ** Integers: Rust reference, overflow. [usize_max] is 65535. *)
Example overflow : uadd c5 65535 1 = Panic /\ uadd c5r 65535 1 = Ret 0 /\ usub c5 2 3 = Panic /\ usub c5r 2 3 = Ret 65535 /\
  u8sub c5 0 1 = Panic /\ u8sub c5r 0 1 = Ret 255 /\ sat_add c5 65535 1 = 65535 /\ sat_add c5 3 1 = 4 /\
  debug_assert c5 (Ret false) = Panic /\ debug_assert c5r (Ret false) = Ret tt /\ debug_assert c5 (Ret true) = Ret tt.
Proof. repeat split. Qed.

(** ** core::fmt *)

(** [format!] of a str with the given options, and of a [Debug] implementation. *)
Definition format (sp : fmtspec) (s : string) : list N := snd (str_display buffer sp (lit s) []).
Definition debug_format (alt : bool) (d : debug_impl) : list N := snd (d _ buffer alt []).

(** Module std::fmt, width and fill: [{:5}], [{:<5}], [{:-<5}], [{:^5}], [{:>5}]. *)
Example width_doc : format (mkspec space None (Some 5) None) "x" = lit "x    " /\
  format (mkspec space (Some ALeft) (Some 5) None) "x" = lit "x    " /\
  format (mkspec (ch 45) (Some ALeft) (Some 5) None) "x" = lit "x----" /\
  format (mkspec space (Some ACenter) (Some 5) None) "x" = lit "  x  " /\
  format (mkspec space (Some ARight) (Some 5) None) "x" = lit "    x".
Proof. repeat split. Qed.
(** Width counts characters, an odd remainder goes to the right, a longer text is kept. *)
Example width_more : format (mkspec (ch 42) (Some ACenter) (Some 6) None) "ßℝ💣" = lit "*ßℝ💣**" /\
  format (mkspec space None (Some 3) None) "ßℝ💣" = lit "ßℝ💣" /\ format (mkspec space None (Some 2) None) "ßℝ💣" = lit "ßℝ💣".
Proof. repeat split. Qed.
(** Precision is the maximum width in characters: [{:.2}], [{:5.2}], [{:.0}]. *)
Example precision_doc : format (mkspec space None None (Some 2)) "ßℝ💣" = lit "ßℝ" /\
  format (mkspec space None (Some 5) (Some 2)) "ßℝ💣" = lit "ßℝ   " /\ format (mkspec space None None (Some 0)) "x" = [] /\
  format (mkspec space None None (Some 9)) "x" = lit "x" /\ format default_spec "x" = lit "x".
Proof. repeat split. Qed.

(** Formatter::debug_struct: [Foo { bar: 10, baz: "Hello World" }]. *)
Definition ten : debug_impl := fun W k _ => do_calls k [WStr (lit "10")].
Definition debug_foo : debug_impl := fun W k alt =>
  d <~ debug_start k (lit "Foo") ;;
  d <~ struct_field k alt d (lit "bar") ten ;;
  d <~ struct_field k alt d (lit "baz") (str_debug (lit "Hello World")) ;;
  struct_finish k alt d.
Example debug_struct_doc : debug_format false debug_foo = lit "Foo { bar: 10, baz: ""Hello World"" }" /\
  debug_format true debug_foo = lit "Foo {" ++ [10] ++ lit "    bar: 10," ++ [10] ++ lit "    baz: ""Hello World""," ++ [10] ++ lit "}".
Proof. split; reflexivity. Qed.
(** Formatter::debug_tuple: [Foo(10, "Hello World")]; nested under [{:#?}] each line is indented. *)
Definition debug_tuple : debug_impl := fun W k alt =>
  d <~ debug_start k (lit "Foo") ;;
  d <~ tuple_field k alt d ten ;;
  d <~ tuple_field k alt d (str_debug (lit "Hello World")) ;;
  tuple_finish k d.
Definition debug_nested : debug_impl := fun W k alt =>
  d <~ debug_start k (lit "Bar") ;; d <~ tuple_field k alt d debug_tuple ;; tuple_finish k d.
Definition debug_unit : debug_impl := fun W k alt => d <~ debug_start k (lit "Foo") ;; tuple_finish k d.
Definition debug_empty : debug_impl := fun W k alt => d <~ debug_start k (lit "Foo") ;; struct_finish k alt d.
Example debug_tuple_doc : debug_format false debug_tuple = lit "Foo(10, ""Hello World"")" /\
  debug_format true debug_nested = lit "Bar(" ++ [10] ++ lit "    Foo(" ++ [10] ++ lit "        10," ++ [10] ++
    lit "        ""Hello World""," ++ [10] ++ lit "    )," ++ [10] ++ lit ")" /\
  debug_format false debug_unit = lit "Foo" /\ debug_format true debug_empty = lit "Foo".
Proof. repeat split. Qed.
(** The first failed write ends it. The sink takes [n] writes. *)
Definition failing : sink (nat * list N) :=
  let w b s := match s with (O, l) => (Ret (Err mkFmtError), (O, l)) | (S n, l) => (Ret (Ok tt), (n, l ++ b)) end in
  mksink w (fun x s => (b <~ slift (encode_utf8 x 4) ;; w b) s).
Example debug_fails : debug_foo _ failing false (3%nat, []) = (Ret (Err mkFmtError), (O, lit "Foo { bar")) /\
  debug_tuple _ failing false (2%nat, []) = (Ret (Err mkFmtError), (O, lit "Foo(")) /\
  debug_foo _ failing true (1%nat, []) = (Ret (Err mkFmtError), (O, lit "Foo")).
Proof. repeat split. Qed.
(** A line break inside a value is indented too, through [write_str] and [write_char]. *)
Definition two_lines : debug_impl := fun W k _ => do_calls k [WStr (lit "a" ++ [10] ++ lit "b"); WChar (ch 10); WChar (ch 99)].
Definition debug_lines : debug_impl := fun W k alt =>
  d <~ debug_start k (lit "Foo") ;; d <~ tuple_field k alt d two_lines ;; tuple_finish k d.
Example pad_adapter_lines : debug_format true debug_lines =
  lit "Foo(" ++ [10] ++ lit "    a" ++ [10] ++ lit "    b" ++ [10] ++ lit "    c," ++ [10] ++ lit ")".
Proof. reflexivity. Qed.

(** ** Iterator *)

(** Iterator::nth, count, last, find on [1, 2, 3] and [1, 2, 3, 4, 5]. *)
Example iterator_doc :
  iter_nth list_iter 1 [1; 2; 3] = (Ret (Some 2), [3]) /\ iter_nth list_iter 10 [1; 2; 3] = (Ret None, []) /\
  iter_count list_iter 9 [1; 2; 3] = (Ret 3, []) /\ iter_count list_iter 9 [1; 2; 3; 4; 5] = (Ret 5, []) /\
  iter_last list_iter 9 [1; 2; 3] = (Ret (Some 3), []) /\ iter_last list_iter 9 (@nil N) = (Ret None, []) /\
  iter_find list_iter 9 (fun x => sret (x =? 2)) [1; 2; 3] tt = (Ret (Some 2), [3], tt) /\
  iter_find list_iter 9 (fun x => sret (x =? 5)) [1; 2; 3] tt = (Ret None, [], tt) /\
  iter_collect list_iter 9 [1; 2; 3] = (Ret [1; 2; 3], []).
Proof. repeat split. Qed.
(** Iterator::filter keeps what the closure accepts. *)
Example filter_doc : filter_next 9 list_iter (fun x => sret (1 <? x)) ([0; 1; 2], tt) = (Ret (Some 2), ([], tt)) /\
  filter_next 9 list_iter (fun x => sret (1 <? x)) ([0; 1], tt) = (Ret None, ([], tt)).
Proof. split; reflexivity. Qed.

(** ** Ord: max, min, clamp and the operators, on [u8] and, for clamp, shifted by three. *)
Definition n_cmp (a b : N) : outcome comparison := Ret (a ?= b).
Definition n_pcmp (a b : N) : outcome (option comparison) := Ret (Some (a ?= b)).
Example ord_doc : ord_max n_cmp 1 2 = Ret 2 /\ ord_max n_cmp 2 2 = Ret 2 /\ ord_min n_cmp 1 2 = Ret 1 /\ ord_min n_cmp 2 2 = Ret 2 /\
  ord_clamp n_pcmp 0 1 4 = Ret 1 /\ ord_clamp n_pcmp 3 1 4 = Ret 3 /\ ord_clamp n_pcmp 5 1 4 = Ret 4 /\ ord_clamp n_pcmp 5 4 1 = Panic /\
  op_lt n_pcmp 1 2 = Ret true /\ op_lt n_pcmp 2 2 = Ret false /\ op_le n_pcmp 2 2 = Ret true /\ op_gt n_pcmp 2 1 = Ret true /\
  op_ge n_pcmp 2 2 = Ret true /\ op_ge n_pcmp 1 2 = Ret false.
Proof. repeat split. Qed.

(** ** Hash: [str::hash] writes the bytes and then 0xff (Hasher::write_str). *)
Definition recorder : hasher := mkhasher (list (list N)) (fun b l => l ++ [b]) (fun n l => l ++ [[n]]).
Example str_hash_bytes : str_hash recorder (lit "ab") [] = [[97; 98]; [255]].
Proof. reflexivity. Qed.

(** ** serde: the visitors of [&str] and [String]. *)
Example visitors : deserialize_ref_str (E := unit) (VBorrowedStr (lit "a")) = Ok (lit "a") /\
  deserialize_ref_str (E := unit) (VBorrowedBytes (lit "ß")) = Ok (lit "ß") /\
  deserialize_ref_str (E := unit) (VBorrowedBytes [255]) = Err InvalidValue /\
  deserialize_string (E := unit) (VByteBuf (lit "ß")) = Ok (lit "ß") /\ deserialize_string (E := unit) (VBytes [255]) = Err InvalidValue /\
  deserialize_string (E := unit) VOther = Err InvalidType.
Proof. repeat split. Qed.
