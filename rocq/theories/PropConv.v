(** Conversions through core's blanket impls, and the benchmarks (C73). Statements only: the proofs are the lemmas of ClaimsConv.v. *)
From Verif Require Import Base Char Spec RustStd RustIter RustOrd ModelError Model ModelArgs RustFmt SpecFmt ModelImpl ModelDrain ModelCache
  ModelIntegration Layout TextOps SpecOps ModelOps ModelCacheOps StringSpec TestSuite IterSpec Obs ObsCache Cases RustConv BenchSuite
  ClaimsConv.

(** [into], [try_from] and [try_into] from a [&str] are built by core on [From<&str>]: they give the longest prefix that fits and never fail. *)
Theorem C73_try_from : forall (c : cfg) (w : text),
  valid_cfg c ->
  exists p s, longest_fit (cap c) w p /\ shows c s p /\
    blanket_into (from_ref_str c) (enc w) = Ret s /\
    blanket_try_from (from_ref_str c) (enc w) = Ret (Ok s) /\
    blanket_try_into (from_ref_str c) (enc w) = Ret (Ok s).
Proof. exact (@c73_try_from). Qed.
Print Assumptions C73_try_from.
Example C73_try_from_case :
  longest_fit 5 [h_; euro; e_] [h_; euro] /\ shows c5 (mkastring [104; 226; 130; 172; 0] 4) [h_; euro] /\
  blanket_try_from (from_ref_str c5) (enc [h_; euro; e_]) = Ret (Ok (mkastring [104; 226; 130; 172; 0] 4)).
Proof. solve_case. Qed.

(** So [try_from] agrees with [parse] when the text fits; else [parse] fails and [try_from] drops a part of it without notice. *)
Theorem C73_parse : forall (c : cfg) (w : text),
  valid_cfg c ->
  (blen w <= cap c ->
     makes_ok c (blanket_try_from (from_ref_str c) (enc w)) w /\ makes_ok c (str_parse (from_str c) (enc w)) w) /\
  (cap c < blen w ->
     (exists p, p <> w /\ makes_ok c (blanket_try_from (from_ref_str c) (enc w)) p) /\
     str_parse (from_str c) (enc w) = Ret (Err mkOutOfBounds)).
Proof. exact (@c73_parse). Qed.
Print Assumptions C73_parse.
Example C73_parse_case :
  makes_ok c5 (blanket_try_from (from_ref_str c5) (enc [h_; e_])) [h_; e_] /\ makes_ok c5 (str_parse (from_str c5) (enc [h_; e_])) [h_; e_] /\
  makes_ok c5 (blanket_try_from (from_ref_str c5) (enc [h_; euro; e_])) [h_; euro] /\
  str_parse (from_str c5) (enc [h_; euro; e_]) = Ret (Err mkOutOfBounds).
Proof. repeat apply conj; try (eexists; split; [vm_compute; reflexivity | solve_case]). vm_compute. reflexivity. Qed.

(** [to_string] gives the text, which [parse] turns back into a string of any capacity with room for it. *)
Theorem C73_to_string : forall (c : cfg) (s : astring) (t : text),
  shows c s t ->
  exists b, blanket_to_string (fun sp => display c buffer sp s) = Ret b /\ b = enc t /\
    forall c', valid_cfg c' ->
      (blen t <= cap c' -> makes_ok c' (str_parse (from_str c') b) t) /\
      (cap c' < blen t -> str_parse (from_str c') b = Ret (Err mkOutOfBounds)).
Proof. exact (@c73_to_string). Qed.
Print Assumptions C73_to_string.
Example C73_to_string_case :
  shows c5 s_he [h_; e_] /\ blanket_to_string (fun sp => display c5 buffer sp s_he) = Ret [104; 195; 169] /\
  str_parse (from_str c1) [104; 195; 169] = Ret (Err mkOutOfBounds) /\
  str_parse (from_str c5r) [104; 195; 169] = Ret (Ok (mkastring [104; 195; 169; 0; 0] 3)).
Proof. solve_case. Qed.

(** The same for [CacheString], also from an [ArrayString<63>]. *)
Theorem C73_cache : forall (c0 : cfg) (w : text),
  valid_cfg c0 ->
  (exists p s, longest_fit 63 w p /\ cache_shows c0 s p /\
     blanket_into (cache_from c0) (enc w) = Ret s /\ blanket_try_from (cache_from c0) (enc w) = Ret (Ok s)) /\
  (blen w <= 63 -> exists s, str_parse (cache_from_str c0) (enc w) = Ret (Ok s) /\ cache_shows c0 s w /\
     blanket_to_string (fun sp => cache_display c0 buffer sp s) = Ret (enc w)) /\
  (63 < blen w -> str_parse (cache_from_str c0) (enc w) = Ret (Err mkOutOfBounds)) /\
  (forall a t, shows (c63 c0) a t -> exists s,
     blanket_try_from (fun a => Ret (cache_from_array a)) a = Ret (Ok s) /\ cache_shows c0 s t).
Proof. exact (@c73_cache). Qed.
Print Assumptions C73_cache.
Example C73_cache_case :
  blen (repeat euro 22) = 66 /\
  (exists s, blanket_try_from (cache_from c5) (enc (repeat euro 22)) = Ret (Ok s) /\ cache_shows c5 s (repeat euro 21)) /\
  str_parse (cache_from_str c5) (enc (repeat euro 22)) = Ret (Err mkOutOfBounds).
Proof. split; [vm_compute; reflexivity|]. split; [|vm_compute; reflexivity]. eexists. split; [vm_compute; reflexivity | solve_case]. Qed.

(** The benchmarks measure a capacity with an input exactly if the input fits: the check that [try_from] or the push took all of it is not optional, as neither fails otherwise. *)
Theorem C73_bench : forall (c : cfg) (w : text),
  valid_cfg c ->
  exists b, (b = true <-> blen w <= cap c) /\
    bench_converts (deref c) (from_ref_str c) (enc w) = Ret b /\
    bench_pushes (deref c) (new c) (try_push_str c) (enc w) = Ret b /\
    bench_pushes (deref c) (new c) (push_str_truncate c) (enc w) = Ret b.
Proof. exact (@c73_bench). Qed.
Print Assumptions C73_bench.
Example C73_bench_case :
  bench_converts (deref c5) (from_ref_str c5) (enc [euro; e_]) = Ret true /\
  bench_pushes (deref c5) (new c5) (push_str_truncate c5) (enc [euro; e_]) = Ret true /\
  bench_converts (deref c5) (from_ref_str c5) (enc [euro; e_; h_]) = Ret false /\
  bench_pushes (deref c5) (new c5) (try_push_str c5) (enc [euro; e_; h_]) = Ret false /\
  bench_pushes (deref c5) (new c5) (push_str_truncate c5) (enc [euro; e_; h_]) = Ret false.
Proof. solve_case. Qed.

(** Every measured iteration of [bench_push] starts with an empty string and pushes the whole input. *)
Theorem C73_bench_iter : forall (c : cfg) (w : text) (n : nat),
  valid_cfg c -> blen w <= cap c ->
  (exists s, bench_push_iter (try_push_str c) clear (enc w) n (new c) = (Ret tt, s) /\ shows c s [] /\
     returns c (try_push_str c (enc w) s) (Ok tt) w) /\
  (exists s, bench_push_iter (push_str_truncate c) clear (enc w) n (new c) = (Ret tt, s) /\ shows c s [] /\
     returns c (push_str_truncate c (enc w) s) tt w).
Proof. exact (@c73_bench_iter). Qed.
Print Assumptions C73_bench_iter.
Example C73_bench_iter_case :
  blen [h_; e_] <= cap c5 /\
  bench_push_iter (try_push_str c5) clear (enc [h_; e_]) 3 (new c5) = (Ret tt, mkastring [104; 195; 169; 0; 0] 0).
Proof. solve_case. Qed.

(** The same for [CacheString]. *)
Theorem C73_bench_cache : forall (c0 : cfg) (w : text) (n : nat),
  valid_cfg c0 ->
  (exists b, (b = true <-> blen w <= 63) /\
    bench_converts (cache_as_ref c0) (cache_from c0) (enc w) = Ret b /\
    bench_pushes (cache_as_ref c0) (cache_new c0) (cache_try_push_str c0) (enc w) = Ret b /\
    bench_pushes (cache_as_ref c0) (cache_new c0) (cache_push_str_truncate c0) (enc w) = Ret b) /\
  (blen w <= 63 ->
    (exists s, bench_push_iter (cache_try_push_str c0) cache_clear (enc w) n (cache_new c0) = (Ret tt, s) /\ cache_shows c0 s []) /\
    (exists s, bench_push_iter (cache_push_str_truncate c0) cache_clear (enc w) n (cache_new c0) = (Ret tt, s) /\ cache_shows c0 s [])).
Proof. exact (@c73_bench_cache). Qed.
Print Assumptions C73_bench_cache.
Example C73_bench_cache_case :
  bench_converts (cache_as_ref c5) (cache_from c5) (enc (repeat euro 21)) = Ret true /\
  bench_converts (cache_as_ref c5) (cache_from c5) (enc (repeat euro 22)) = Ret false /\
  bench_pushes (cache_as_ref c5) (cache_new c5) (cache_try_push_str c5) (enc (repeat euro 22)) = Ret false.
Proof. solve_case. Qed.
