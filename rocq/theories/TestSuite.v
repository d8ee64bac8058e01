(** The tests of tests/string_parity.rs as functions of the string they are run on.
    Each test has two closures: one uses [String] ([_s] below, written on texts with
    StringSpec.v) and one uses [ArrayString] ([_a], written with the model). A
    result is normalised as by [Normalize] (lines 421-487): strings by their bytes,
    every error and every panic of [String] as [None]. The capacity 255 (line 5), the
    index 2, the characters and the closure of the tests are parameters here. *)
From Coq Require Import String.
From Verif Require Import Base Char Spec RustStd RustIter ModelError Model ModelImpl ModelDrain SpecOps StringSpec.

(** tests/string_parity.rs:14-23 [STRINGS]. *)
Definition ascii_text (s : string) : text :=
  flat_map (fun n => match char_of_N n with Some x => [x] | None => [] end) (lit s).
Definition thinking : char := mkchar 0x1F914 eq_refl.
Definition STRINGS : list text :=
  [ repeat thinking 7;
    ascii_text "ABCDEFGHIJKLMNOPQRSASHUDAHSDIUASH         ";
    ascii_text "iejueueheuheuheu        0";
    [];
    ascii_text "1";
    ascii_text "ab";
    ascii_text "   ";
    ascii_text "        899saH(8hadhaiuhsidnkandu" ].

(** ** The [String] side *)
Definition s_bytes (o : option (sout * text)) : option (list N) :=
  match o with Some (_, t) => Some (enc t) | None => None end.
Definition s_pair {B} (f : sout -> option B) (o : option (sout * text)) : option (list N * B) :=
  match o with
  | Some (v, t) => match f v with Some x => Some (enc t, x) | None => None end
  | None => None
  end.
Definition out_text (v : sout) : option (list N) := match v with VText u => Some (enc u) | _ => None end.
Definition out_char (v : sout) : option char := match v with VChar x => Some x | _ => None end.
Definition out_opt (v : sout) : option (option char) := match v with VOptChar o => Some o | _ => None end.

(** [String::from_utf16]: an unpaired surrogate is an error. *)
Fixpoint all_some {A} (l : list (option A)) : option (list A) :=
  match l with
  | [] => Some []
  | None :: _ => None
  | Some a :: r => match all_some r with Some r' => Some (a :: r') | None => None end
  end.
Definition utf16_s (us : list N) : option (list N) :=
  match all_some (t_decode16 us) with Some t => Some (enc t) | None => None end.
(** [String::from_utf16_lossy]. *)
Definition utf16_lossy_s (us : list N) : option (list N) := Some (enc (lossy (t_decode16 us))).

(** tests/string_parity.rs:94-105 [invalidate_utf16]. *)
Definition invalidate_utf16 (us : list N) : list N :=
  if 7 <=? lenN us
  then [0xD834; 0xDD1E; 0x006D; 0x0075; 0xD800; 0x0069; 0x0063] ++ dropN 7 us
  else us.

(** ** The [ArrayString] side *)
Section Tests.
Variable c : cfg.

(** [.as_str().to_owned()], [Result::normalize] and [unwrap]. *)
Definition bytes_a (a : astring) : outcome (option (list N)) := b <- as_str c a ;; Ret (Some b).
Definition result_a {E} (r : result astring E) : outcome (option (list N)) :=
  match r with Ok a => bytes_a a | Err _ => Ret None end.
Definition unwrap_a {A E} (o : outcome (result A E)) : outcome A :=
  r <- o ;; match r with Ok a => Ret a | Err _ => Panic end.

(** [let mut ms = TestString::try_from_str(s).unwrap()] and one call on it. *)
Definition start_a {A} (s : text) (m : ST astring A) : outcome (A * astring) :=
  ms <- unwrap_a (try_from_str c (enc s)) ;; run_local m ms.
(** [ms.call(..); ms] and [let x = ms.call(..); (ms, x)] *)
Definition then_self {A} (s : text) (m : ST astring A) : outcome (option (list N)) :=
  p <- start_a s m ;; bytes_a (snd p).
Definition then_pair {A} (s : text) (m : ST astring A) : outcome (option (list N * A)) :=
  p <- start_a s m ;; let '(a, ms) := p in b <- as_str c ms ;; Ret (Some (b, a)).
(** [ms.call(..).map(|()| ms)] and [ms.call(..).map(|x| (ms, f(x)))] *)
Definition then_ok {A E} (s : text) (m : ST astring (result A E)) : outcome (option (list N)) :=
  p <- start_a s m ;;
  match p with (Ok _, ms) => bytes_a ms | (Err _, _) => Ret None end.
Definition then_map {A B E} (f : A -> outcome B) (s : text) (m : ST astring (result A E)) :
    outcome (option (list N * B)) :=
  p <- start_a s m ;;
  match p with
  | (Ok a, ms) => b <- as_str c ms ;; x <- f a ;; Ret (Some (b, x))
  | (Err _, _) => Ret None
  end.

(** lines 25-65 *)
Definition try_from_str_a (s : text) := r <- try_from_str c (enc s) ;; result_a r.
Definition from_str_truncate_a (s : text) := a <- from_str_truncate c (enc s) ;; bytes_a a.
Definition try_from_chars_a (s : text) :=
  r <- fst (try_from_chars c (char_fuel c) chars_iter (enc s)) ;; result_a r.
Definition from_chars_a (s : text) :=
  a <- fst (from_chars_truncate c (char_fuel c) chars_iter (enc s)) ;; bytes_a a.
Definition try_from_iter_a (s : text) :=
  r <- fst (try_from_iterator c 2 list_iter [mkitem (enc s) (enc s)]) ;; result_a r.
Definition from_iter_a (s : text) :=
  a <- fst (from_iterator_truncate c 2 list_iter [mkitem (enc s) (enc s)]) ;; bytes_a a.

(** lines 67-132, by the units *)
Definition try_from_utf16_a (us : list N) := r <- try_from_utf16 c us ;; result_a r.
Definition from_utf16_a (us : list N) := r <- from_utf16_truncate c us ;; result_a r.
Definition from_utf16_lossy_a (us : list N) := a <- from_utf16_lossy_truncate c us ;; bytes_a a.

(** lines 134-412 *)
Definition try_push_str_a (s : text) := then_ok s (try_push_str c (enc s)).
Definition push_str_a (s : text) := then_self s (push_str_truncate c (enc s)).
Definition add_str_a (s : text) :=
  ms <- unwrap_a (try_from_str c (enc s)) ;; a <- add c ms (enc s) ;; bytes_a a.
Definition push_a (x : char) (s : text) := then_ok s (try_push c x).
Definition truncate_a (n : N) (s : text) := then_ok s (truncate c n).
Definition pop_a (s : text) := then_pair s (pop c).
Definition trim_a (s : text) := then_self s (trim c).
Definition remove_a (n : N) (s : text) := then_map Ret s (remove c n).
Definition retain_a (p : char -> bool) (s : text) :=
  then_self s (fun ms => fst (retain c (fun x => sret (p x)) tt ms)).
Definition try_insert_a (n : N) (x : char) (s : text) := then_ok s (try_insert c n x).
Definition try_insert_str_a (n : N) (s : text) := then_ok s (try_insert_str c n (enc s)).
Definition insert_str_a (n : N) (s : text) := then_ok s (insert_str_truncate c n (enc s)).
Definition clear_a (s : text) := then_self s clear.
Definition split_off_a (n : N) (s : text) := then_map (as_str c) s (split_off c n).
(** [ms.drain(..n).map(|d| d.collect::<String>())] *)
Definition drain_a (n : N) (s : text) :=
  then_map (fun d => t <- fst (iter_collect (drain_iterator c) (char_fuel c) d) ;; Ret (enc t)) s
    (drain_iter c Unbounded (Excluded n)).
Definition replace_range_a (n : N) (s : text) :=
  then_ok s (replace_range c Unbounded (Excluded n) (enc s)).
Definition len_a (s : text) := ms <- unwrap_a (try_from_str c (enc s)) ;; Ret (len ms).
Definition is_empty_a (s : text) := ms <- unwrap_a (try_from_str c (enc s)) ;; is_empty c ms.
End Tests.
