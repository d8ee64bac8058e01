(** JSON documents written and read by serde_json. Statements only: the proofs are the lemmas of ClaimsJson.v. *)
From Coq Require Import String.
From Verif Require Import Base Char Spec RustStd RustIter RustOrd ModelError Model ModelArgs RustFmt SpecFmt ModelImpl ModelDrain ModelCache
  ModelIntegration Layout TextOps SpecOps ModelOps ModelCacheOps StringSpec TestSuite IterSpec Obs ObsCache Cases RustJson SpecJson
  ClaimsJson.

(** What [serde_json::to_string] writes for an [ArrayString]: the text between quotes, with escapes. *)
Theorem C63_to_string : forall (c : cfg) (s : astring) (t : text),
  shows c s t ->
  serialize c json_str s = Ret ([34] ++ flat_map json_char t ++ [34]).
Proof. exact (@c63_to_string). Qed.
Print Assumptions C63_to_string.
Example C63_to_string_case :
  shows c5 (mkastring [104; 10; 34; 1; 31] 5) [h_; mkchar 10 eq_refl; quote; mkchar 1 eq_refl; mkchar 31 eq_refl] /\
  serialize c5 json_str (mkastring [104; 10; 34; 1; 31] 5) = Ret (lit """h\n\""\u0001\u001f""").
Proof. solve_case. Qed.
Example C63_to_string_case2 :
  shows c5 s_he [h_; e_] /\ serialize c5 json_str s_he = Ret [34; 104; 195; 169; 34].
Proof. solve_case. Qed.

(** [serde_json::from_str] accepts exactly the documents that are one string without escapes, and truncates. *)
Theorem C63_from_str : forall (c : cfg) (d : text),
  valid_cfg c ->
  (forall t, json_doc d t -> exists p, longest_fit (cap c) t p /\ makes_ok c (json_from_str (deserialize c) (enc d)) p) /\
  ((forall t, ~ json_doc d t) -> exists e, json_from_str (deserialize c) (enc d) = Ret (Err e)).
Proof. exact (@c63_from_str). Qed.
Print Assumptions C63_from_str.
Example C63_from_str_case :
  json_doc [sp_; quote; euro; h_; euro; quote; sp_; sp_] [euro; h_; euro] /\
  json_from_str (deserialize c5) (enc [sp_; quote; euro; h_; euro; quote; sp_; sp_]) = Ret (Ok (mkastring [226; 130; 172; 104; 0] 4)).
Proof.
  split; [|solve_case]. split; [repeat constructor; vm_compute; intuition discriminate|].
  exists [sp_], [sp_; sp_]. split; [reflexivity|]. split; repeat constructor.
Qed.
Example C63_from_str_case2 :
  json_from_str (deserialize c5) (lit """h\u0041""") = Ret (Err InvalidType) /\
  json_from_str (deserialize c5) (lit """h""i") = Ret (Err (FromFormat Syntax)) /\
  json_from_str (deserialize c5) (lit """h") = Ret (Err (FromFormat Syntax)) /\
  json_from_str (deserialize c5) (lit "{}") = Ret (Err (FromFormat NotAString)).
Proof. solve_case. Qed.

(** Writing and reading back: the text, or an error if it needs an escape. *)
Theorem C63_round_trip : forall (c : cfg) (s : astring) (t : text),
  valid_cfg c -> shows c s t ->
  exists d, serialize c json_str s = Ret d /\
    (json_plain t -> makes_ok c (json_from_str (deserialize c) d) t) /\
    (~ json_plain t -> json_from_str (deserialize c) d = Ret (Err InvalidType)).
Proof. exact (@c63_round_trip). Qed.
Print Assumptions C63_round_trip.
Example C63_round_trip_case :
  exists a, serialize c5 json_str s_he = Ret [34; 104; 195; 169; 34] /\
  json_from_str (deserialize c5) [34; 104; 195; 169; 34] = Ret (Ok a) /\ shows c5 a [h_; e_].
Proof. exists (mkastring [104; 195; 169; 0; 0] 3). solve_case. Qed.
Example C63_round_trip_case2 :
  serialize c5 json_str (mkastring [104; 92; 0; 0; 0] 2) = Ret (lit """h\\""") /\
  json_from_str (deserialize c5) (lit """h\\""") = Ret (Err InvalidType).
Proof. solve_case. Qed.

(** A [String] reads back everything it writes. *)
Theorem C63_string : forall t : text,
  json_from_str (fun v => Ret (deserialize_string v)) (json_str (enc t)) = Ret (Ok (enc t)).
Proof. exact (@c63_string). Qed.
Print Assumptions C63_string.
Example C63_string_case :
  json_from_str (fun v => Ret (deserialize_string v)) (lit """h\n\""\\\u0001\u001f""") = Ret (Ok [104; 10; 34; 92; 1; 31]).
Proof. solve_case. Qed.
Example C63_string_case2 :
  json_from_str (fun v => Ret (deserialize_string v)) (lit """\ud83d\ude00\u20aC\u00e9\/""") = Ret (Ok (enc [smile; euro; e_] ++ [47])) /\
  json_from_str (fun v => Ret (deserialize_string v)) (lit """\ud83d\u0041""") = Ret (Err (FromFormat Syntax)).
Proof. solve_case. Qed.

(** Every document: a [String] reads every JSON string, with or without escapes, and refuses everything else; the crate refuses exactly those with an escape besides. *)
Theorem C63_documents : forall (c : cfg) (d : text),
  valid_cfg c ->
  (forall t e, json_string d t e ->
    json_from_str (fun v => Ret (deserialize_string v)) (enc d) = Ret (Ok (enc t)) /\
    (e = true -> json_from_str (deserialize c) (enc d) = Ret (Err InvalidType)) /\
    (e = false -> exists p, longest_fit (cap c) t p /\ makes_ok c (json_from_str (deserialize c) (enc d)) p)) /\
  ((forall t e, ~ json_string d t e) ->
    (exists x, json_from_str (fun v => Ret (deserialize_string v)) (enc d) = Ret (Err (FromFormat x))) /\
    (exists y, json_from_str (deserialize c) (enc d) = Ret (Err y))).
Proof. exact (@c63_documents). Qed.
Print Assumptions C63_documents.
Example C63_documents_case :
  json_string (ascii_text (lit """h\ud83d\uDE00""")) [h_; smile] true /\
  json_from_str (fun v => Ret (deserialize_string v)) (lit """h\ud83d\uDE00""") = Ret (Ok (enc [h_; smile])) /\
  json_from_str (deserialize c5) (lit """h\ud83d\uDE00""") = Ret (Err InvalidType).
Proof.
  split; [|split; vm_compute; reflexivity].
  exists [], (ascii_text (lit "h\ud83d\uDE00")), []. split; [vm_compute; reflexivity|]. split; [constructor|]. split; [constructor|].
  apply (body_piece [h_] h_ false (ascii_text (lit "\ud83d\uDE00")) [smile] true); [constructor; vm_compute; intuition discriminate|].
  apply (body_piece (ascii_text (lit "\ud83d\uDE00")) smile true [] [] false); [|constructor].
  apply (piece_pair (ascii_text (lit "d83d")) (ascii_text (lit "DE00")) smile 55357 56832); [| |lia|lia|reflexivity].
  - do 4 eexists. exists 13, 8, 3, 13. split; [reflexivity|]. vm_compute. intuition reflexivity.
  - do 4 eexists. exists 13, 14, 0, 0. split; [reflexivity|]. vm_compute. intuition reflexivity.
Qed.
Example C63_documents_case2 :
  json_from_str (fun v => Ret (deserialize_string v)) (lit """\u:000""") = Ret (Err (FromFormat Syntax)) /\
  json_from_str (fun v => Ret (deserialize_string v)) (lit """\u00G0""") = Ret (Err (FromFormat Syntax)) /\
  json_from_str (fun v => Ret (deserialize_string v)) (lit """\udc00""") = Ret (Err (FromFormat Syntax)) /\
  json_from_str (fun v => Ret (deserialize_string v)) (lit """\udbff\udfff""") = Ret (Ok [244; 143; 191; 191]) /\
  json_from_str (fun v => Ret (deserialize_string v)) (lit """\uD7ff\ue000""") = Ret (Ok [237; 159; 191; 238; 128; 128]) /\
  json_from_str (fun v => Ret (deserialize_string v)) (lit """\x""") = Ret (Err (FromFormat Syntax)).
Proof. solve_case. Qed.

(** The same for [CacheString]. *)
Theorem C63_cache : forall (c0 : cfg) (s : CacheString) (t : text),
  valid_cfg c0 -> cache_shows c0 s t ->
  cache_serialize c0 json_str s = Ret ([34] ++ flat_map json_char t ++ [34]) /\
  (json_plain t -> exists a, json_from_str (cache_deserialize c0) ([34] ++ flat_map json_char t ++ [34]) = Ret (Ok a) /\ cache_shows c0 a t) /\
  (~ json_plain t -> json_from_str (cache_deserialize c0) ([34] ++ flat_map json_char t ++ [34]) = Ret (Err InvalidType)).
Proof. exact (@c63_cache). Qed.
Print Assumptions C63_cache.
Example C63_cache_case :
  exists a, cache_serialize c5 json_str k_he = Ret [34; 104; 195; 169; 34] /\
  json_from_str (cache_deserialize c5) [34; 104; 195; 169; 34] = Ret (Ok a) /\ cache_shows c5 a [h_; e_].
Proof. eexists. split; [vm_compute; reflexivity|]. split; [vm_compute; reflexivity|]. solve_case. Qed.
