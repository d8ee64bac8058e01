(** Claims about [Debug] output. *)
From Coq Require Import String.
From Coq Require Import ZArith ZifyBool ZifyN ZifyNat Arith.
From Verif Require Import Base Char Spec RustStd RustFmt SpecFmt ListFacts Utf8Facts FmtFacts Model ModelImpl
  ModelDrain ModelCache ModelOps CoreFacts MethodFacts Obs ObsCache.

Lemma calls_bytes_app a b : calls_bytes (a ++ b) = calls_bytes a ++ calls_bytes b.
Proof. unfold calls_bytes. rewrite map_app. apply concat_app. Qed.

(** The builder after a series of writes that ended without error. *)
Lemma builder_step {W} (k : sink W) (m : ST W (result unit FmtError)) (n : result unit FmtError -> ST W (result unit FmtError)) l l' w :
  (forall w, m w = do_calls k l w) ->
  (forall w, n (Ok tt) w = do_calls k l' w) ->
  (forall e w, n (Err e) w = (Ret (Err e), w)) ->
  (r <~ m ;; n r) w = do_calls k (l ++ l') w.
Proof.
  intros Hm Hn He. rewrite do_calls_app. unfold fthen, stry, sbind. rewrite Hm.
  destruct (do_calls k l w) as [[[[]|e]| | |] w']; try reflexivity; [apply Hn | apply He].
Qed.

Definition field_calls (alt first : bool) (name : list N) (l : list wcall) : list wcall :=
  if alt then
    (if first then [WStr (lit " {" ++ [10])] else []) ++
    fst (pad_calls true ([WStr name] ++ [WStr (lit ": ")] ++ l ++ [WStr (lit "," ++ [10])]))
  else [WStr (if first then lit " { " else lit ", ")] ++ [WStr name] ++ [WStr (lit ": ")] ++ l.

Lemma struct_field_ok {W} (k : sink W) alt (has : bool) name (v : debug_impl) l
    (n : builder -> ST W (result unit FmtError)) l' w :
  emits v alt l ->
  (forall w, n (Ok tt, true) w = do_calls k l' w) ->
  (forall e w, n (Err e, true) w = (Ret (Err e), w)) ->
  (d <~ struct_field k alt (Ok tt, has) name v ;; n d) w = do_calls k (field_calls alt (negb has) name l ++ l') w.
Proof.
  intros Hv Hn He.
  assert (Hf : forall w, struct_field k alt (Ok tt, has) name v w =
    (r <~ do_calls k (field_calls alt (negb has) name l) ;; sret (r, true)) w).
  { intros w0. unfold struct_field, debug_and_then. cbn [fst snd]. unfold sbind at 1 2.
    match goal with |- match ?a with _ => _ end = match ?b with _ => _ end => assert (E : a = b) end.
    2:{ rewrite E. reflexivity. }
    unfold field_calls. destruct alt.
    - apply fthen_calls.
      + intros w1. destruct has; [reflexivity | apply do_one_str].
      + intros w1. apply padded_calls. intros s.
        apply fthen_calls; [intros; apply do_one_str | intros; apply fthen_calls; [intros; apply do_one_str | intros]].
        apply fthen_calls; [intros; apply Hv | intros; apply do_one_str].
    - apply fthen_calls; [intros w1; destruct has; apply do_one_str | intros w1].
      apply fthen_calls; [intros; apply do_one_str | intros w2].
      apply fthen_calls; [intros; apply do_one_str | intros w3; apply Hv]. }
  rewrite do_calls_app. unfold fthen, stry. unfold sbind at 1. rewrite Hf. unfold sbind.
  destruct (do_calls k (field_calls alt (negb has) name l) w) as [[[[]|e]| | |] w']; try reflexivity;
    [apply Hn | apply He].
Qed.

Lemma struct_field_err {W} (k : sink W) alt e has name v w :
  struct_field k alt (Err e, has) name v w = (Ret (Err e, true), w).
Proof. reflexivity. Qed.

Lemma debug_fmt_emits c s t sdi udi alt ld ln :
  shows c s t -> emits (sdi (enc t)) alt ld -> emits (udi (blen t)) alt ln ->
  exists l, emits (debug_fmt c sdi udi s) alt l /\
            calls_bytes l = struct_text alt (calls_bytes ld) (calls_bytes ln).
Proof.
  intros Hs Hd Hn.
  assert (Hlen : size s = blen t). { apply shows_rep in Hs. exact (rep_len c s t Hs). }
  destruct Hs as [_ Hs].
  exists ([WStr (lit "ArrayString")] ++ field_calls alt true (lit "array") ld ++
          field_calls alt false (lit "size") ln ++ [WStr (if alt then lit "}" else lit " }")]).
  split.
  - intros W k w. unfold debug_fmt, debug_start. rewrite Hs, Hlen.
    set (rest := fun d : builder =>
      d <~ struct_field k alt d (lit "array") (sdi (enc t)) ;;
      d <~ struct_field k alt d (lit "size") (udi (blen t)) ;;
      struct_finish k alt d).
    transitivity ((r <~ wstr k (lit "ArrayString") ;; rest (r, false)) w).
    { unfold sbind. destruct (wstr k (lit "ArrayString") w) as [[r| | |] w']; reflexivity. }
    apply builder_step; [intros; apply do_one_str | intros w1 | intros e w1; reflexivity].
    unfold rest. apply struct_field_ok; [exact Hd | intros w2 | intros e w2; reflexivity].
    apply (struct_field_ok k alt true); [exact Hn | intros w3 | intros e w3; reflexivity].
    unfold struct_finish. cbn [fst snd]. apply do_one_str.
  - unfold field_calls, struct_text. destruct alt; rewrite !calls_bytes_app.
    + rewrite !pad_calls_bytes, !calls_bytes_app. unfold calls_bytes at 1 2 3 4 6 7 8 10 11.
      cbn [map concat call_bytes]. unfold indent, newline. cbn [calls_bytes map concat app].
      rewrite !app_nil_r, <- !app_assoc. reflexivity.
    + unfold calls_bytes at 1 2 3 4 6 7 8 10. cbn [map concat call_bytes].
      rewrite !app_nil_r, <- !app_assoc. reflexivity.
Qed.

(** A newtype around a value whose [Debug] makes the writes [l]. *)
Lemma newtype_emits name (v : debug_impl) (d : debug_impl) alt l :
  (forall W (k : sink W) w, d W k alt w =
     (b <~ debug_start k name ;; b <~ tuple_field k alt b v ;; tuple_finish k b) w) ->
  emits v alt l ->
  exists l', emits d alt l' /\ calls_bytes l' = newtype_text alt name (calls_bytes l).
Proof.
  intros Hdef Hv.
  exists ([WStr name] ++
    ((if alt then [WStr (lit "(" ++ [10])] ++ fst (pad_calls true (l ++ [WStr (lit "," ++ [10])]))
      else [WStr (lit "(")] ++ l) ++ [WStr (lit ")")])).
  split.
  - intros W k w. rewrite Hdef. unfold debug_start.
    transitivity ((r <~ wstr k name ;; (b <~ tuple_field k alt (r, false) v ;; tuple_finish k b)) w).
    { unfold sbind. destruct (wstr k name w) as [[r| | |] w']; reflexivity. }
    apply builder_step; [intros; apply do_one_str | intros w1 | intros e w1; reflexivity].
    set (m := if alt then
       fthen (wstr k (lit "(" ++ [10]))
         (padded k (fun k' => fthen (v _ k' alt) (wstr k' (lit "," ++ [10]))))
     else fthen (wstr k (lit "(")) (v _ k alt)).
    transitivity ((r <~ m ;; tuple_finish k (r, true)) w1).
    { unfold tuple_field, debug_and_then, m. cbn [fst snd]. unfold sbind.
      match goal with |- match match ?a with _ => _ end with _ => _ end = _ => destruct a as [[r| | |] w'] end;
        reflexivity. }
    apply builder_step.
    + intros w2. unfold m. destruct alt.
      * apply fthen_calls; [intros; apply do_one_str | intros w3]. apply padded_calls. intros s.
        apply fthen_calls; [intros; apply Hv | intros; apply do_one_str].
      * apply fthen_calls; [intros; apply do_one_str | intros w3; apply Hv].
    + intros w2. unfold tuple_finish. cbn [fst snd]. apply do_one_str.
    + intros e w2. reflexivity.
  - unfold newtype_text. rewrite !calls_bytes_app. destruct alt; rewrite !calls_bytes_app.
    + rewrite !pad_calls_bytes, !calls_bytes_app. unfold calls_bytes at 1 2 4 5.
      cbn [map concat call_bytes]. unfold indent, newline. rewrite !app_nil_r, <- !app_assoc. reflexivity.
    + unfold calls_bytes at 1 2 4. cbn [map concat call_bytes]. rewrite !app_nil_r, <- !app_assoc. reflexivity.
Qed.

(** ** C52 *)
Lemma c52_debug c s t sdi udi alt ld ln :
  shows c s t -> emits (sdi (enc t)) alt ld -> emits (udi (blen t)) alt ln ->
  exists l, emits (debug_fmt c sdi udi s) alt l /\
            calls_bytes l = struct_text alt (calls_bytes ld) (calls_bytes ln).
Proof. apply debug_fmt_emits. Qed.

Lemma c52_drain c d t sdi udi alt ld ln :
  shows c (drained d) t -> emits (sdi (enc t)) alt ld -> emits (udi (blen t)) alt ln ->
  exists l, emits (drain_debug c sdi udi d) alt l /\
            calls_bytes l = newtype_text alt (lit "Drain") (struct_text alt (calls_bytes ld) (calls_bytes ln)).
Proof.
  intros Hs Hd Hn. destruct (debug_fmt_emits c (drained d) t sdi udi alt ld ln Hs Hd Hn) as (l & He & <-).
  apply (newtype_emits (lit "Drain") (debug_fmt c sdi udi (drained d))); [reflexivity | exact He].
Qed.

Lemma c52_cache c0 s t sdi udi alt ld ln :
  cache_shows c0 s t -> emits (sdi (enc t)) alt ld -> emits (udi (blen t)) alt ln ->
  exists l, emits (cache_debug c0 sdi udi s) alt l /\
            calls_bytes l = newtype_text alt (lit "CacheString") (struct_text alt (calls_bytes ld) (calls_bytes ln)).
Proof.
  intros Hs Hd Hn. destruct (debug_fmt_emits (c63 c0) (inner s) t sdi udi alt ld ln Hs Hd Hn) as (l & He & <-).
  apply (newtype_emits (lit "CacheString") (debug_fmt (c63 c0) sdi udi (inner s))); [reflexivity | exact He].
Qed.

(** Two values with the same text print the same, whatever the writer. *)
Lemma c52_text_only c s s' t sdi udi W (k : sink W) alt w :
  shows c s t -> shows c s' t -> debug_fmt c sdi udi s W k alt w = debug_fmt c sdi udi s' W k alt w.
Proof.
  intros Hs Hs'. pose proof Hs as R. pose proof Hs' as R'. apply shows_rep in R. apply shows_rep in R'.
  apply rep_len in R. apply rep_len in R'. unfold len in *.
  destruct Hs as [_ Hs], Hs' as [_ Hs']. unfold debug_fmt. rewrite Hs, Hs', R, R'. reflexivity.
Qed.

(** Into a buffer: a [String], or [format!]. *)
Lemma buffer_calls l w : do_calls buffer l w = (Ret (Ok tt), w ++ calls_bytes l).
Proof.
  revert w; induction l as [|[bs|ch] l IH]; intros w; cbn [do_calls].
  - unfold calls_bytes. cbn. rewrite app_nil_r. reflexivity.
  - unfold fthen, stry, sbind. cbn [buffer wstr]. rewrite IH. unfold calls_bytes. cbn [map concat call_bytes].
    rewrite app_assoc. reflexivity.
  - unfold fthen, stry, sbind. cbn [buffer wchar]. unfold slift, sbind, smodify, sret. rewrite encode_utf8_4.
    rewrite IH. unfold calls_bytes. cbn [map concat call_bytes]. rewrite app_assoc. reflexivity.
Qed.

Lemma c52_format c s t sdi udi alt ld ln w :
  shows c s t -> emits (sdi (enc t)) alt ld -> emits (udi (blen t)) alt ln ->
  debug_fmt c sdi udi s _ buffer alt w =
    (Ret (Ok tt), w ++ struct_text alt (calls_bytes ld) (calls_bytes ln)).
Proof.
  intros Hs Hd Hn. destruct (debug_fmt_emits c s t sdi udi alt ld ln Hs Hd Hn) as (l & He & <-).
  rewrite He. apply buffer_calls.
Qed.
