(** Strings as keys of std's maps (C72). Statements only: the proofs are the lemmas of ClaimsMap.v. *)
From Coq Require Import Sorted.
From Verif Require Import Base Char Spec RustStd RustIter RustOrd ModelError Model ModelArgs RustFmt SpecFmt ModelImpl ModelDrain ModelCache
  ModelIntegration Layout TextOps SpecOps ModelOps ModelCacheOps StringSpec TestSuite IterSpec Obs ObsCache Cases ObsMap
  ClaimsMap.

(** A [HashMap] with [ArrayString] keys answers every sequence of calls like a map from texts, whatever the hasher and whatever part of the hash the table uses; in the end it holds exactly the entries of that map, each text once. Keys are looked up by [&str] as well as by keys of any history. *)
Theorem C72_hash_map : forall (V : Type) (c : cfg) (h : hasher) (start : hstate h) (finish : hstate h -> N)
    (slot : N -> N) (os : list (map_call astring V)) (ts : list (map_op V)),
  Forall2 (same_call (shows c)) os ts ->
  exists m keys,
    hash_map_run (borrow c) h start finish slot (hash c h) (partial_eq c) os [] = Ret (fst (t_map_run ts no_text), m) /\
    entries (shows c) (table_entries m) (snd (t_map_run ts no_text)) keys.
Proof. exact (@c72_hash_map). Qed.
Print Assumptions C72_hash_map.
Example C72_hash_map_case :
  Forall2 (same_call (shows c5)) [KInsert s_he 1; KInsert s_full 2; KGet (enc [h_; e_]); KInsert s_he' 3; KGetKey s_he; KRemove (enc [euro; e_]); KGet (enc [euro; e_])]
    [TInsert [h_; e_] 1; TInsert [euro; e_] 2; TGet [h_; e_]; TInsert [h_; e_] 3; TGet [h_; e_]; TRemove [euro; e_]; TGet [euro; e_]] /\
  hash_map_run (borrow c5) sum_hasher 7 (fun n => n) (fun n => n mod 2) (hash c5 sum_hasher) (partial_eq c5)
    [KInsert s_he 1; KInsert s_full 2; KGet (enc [h_; e_]); KInsert s_he' 3; KGetKey s_he; KRemove (enc [euro; e_]); KGet (enc [euro; e_])] [] =
    Ret ([None; None; Some 1; Some 1; Some 3; Some 2; None], [(0, s_he, 3)]).
Proof. split; [repeat constructor; solve_case | vm_compute; reflexivity]. Qed.

(** The same for a [BTreeMap], which holds its keys in the order of the texts. *)
Theorem C72_btree_map : forall (V : Type) (c : cfg) (os : list (map_call astring V)) (ts : list (map_op V)),
  Forall2 (same_call (shows c)) os ts ->
  exists m keys,
    btree_run (borrow c) (ord_cmp c) os [] = Ret (fst (t_map_run ts no_text), m) /\
    entries (shows c) m (snd (t_map_run ts no_text)) keys /\ StronglySorted text_lt keys.
Proof. exact (@c72_btree_map). Qed.
Print Assumptions C72_btree_map.
Example C72_btree_map_case :
  Forall2 (same_call (shows c5)) [KInsert s_he 1; KInsert s_full 2; KInsert s_empty 4; KGet (enc [h_; e_]); KInsert s_he' 3; KRemove (enc [i_])]
    [TInsert [h_; e_] 1; TInsert [euro; e_] 2; TInsert [] 4; TGet [h_; e_]; TInsert [h_; e_] 3; TRemove [i_]] /\
  btree_run (borrow c5) (ord_cmp c5)
    [KInsert s_he 1; KInsert s_full 2; KInsert s_empty 4; KGet (enc [h_; e_]); KInsert s_he' 3; KRemove (enc [i_])] [] =
    Ret ([None; None; None; Some 1; Some 1; None], [(s_empty, 4); (s_he, 3); (s_full, 2)]).
Proof. split; [repeat constructor; solve_case | vm_compute; reflexivity]. Qed.

(** The same for [CacheString] keys. *)
Theorem C72_cache : forall (V : Type) (c0 : cfg) (h : hasher) (start : hstate h) (finish : hstate h -> N)
    (slot : N -> N) (os : list (map_call CacheString V)) (ts : list (map_op V)),
  Forall2 (same_call (cache_shows c0)) os ts ->
  (exists m keys,
    hash_map_run (cache_borrow c0) h start finish slot (cache_hash c0 h) (cache_eq c0) os [] =
      Ret (fst (t_map_run ts no_text), m) /\
    entries (cache_shows c0) (table_entries m) (snd (t_map_run ts no_text)) keys) /\
  (exists m keys,
    btree_run (cache_borrow c0) (cache_cmp c0) os [] = Ret (fst (t_map_run ts no_text), m) /\
    entries (cache_shows c0) m (snd (t_map_run ts no_text)) keys /\ StronglySorted text_lt keys).
Proof. exact (@c72_cache). Qed.
Print Assumptions C72_cache.
Example C72_cache_case :
  Forall2 (same_call (cache_shows c5)) [KInsert k_he 1; KInsert k_he' 3; KGet (enc [h_; e_])] [TInsert [h_; e_] 1; TInsert [h_; e_] 3; TGet [h_; e_]] /\
  hash_map_run (cache_borrow c5) sum_hasher 7 (fun n => n) (fun n => n mod 2) (cache_hash c5 sum_hasher) (cache_eq c5)
    [KInsert k_he 1; KInsert k_he' 3; KGet (enc [h_; e_])] [] = Ret ([None; Some 1; Some 3], [(0, k_he, 3)]) /\
  btree_run (cache_borrow c5) (cache_cmp c5) [KInsert k_he 1; KInsert k_he' 3; KGet (enc [h_; e_])] [] =
    Ret ([None; Some 1; Some 3], [(k_he, 3)]).
Proof. split; [repeat constructor; solve_case | vm_compute; split; reflexivity]. Qed.
