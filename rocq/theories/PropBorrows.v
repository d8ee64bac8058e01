(** Pointers are used within their borrow (C62). Statements only: the proofs are the lemmas of ClaimsBorrows.v, ClaimsBorrowOps.v, ClaimsBorrowMake.v, ClaimsBorrowRead.v. *)
From Verif Require Import Base Char Spec RustStd RustIter RustOrd ModelError Model ModelArgs RustFmt SpecFmt ModelImpl ModelDrain ModelCache
  ModelIntegration Layout TextOps SpecOps ModelOps ModelCacheOps StringSpec TestSuite IterSpec Obs ObsCache Cases Borrows ModelBorrows ModelBorrowOps ModelBorrowMake ModelBorrowRead ObsBorrows CasesBorrows
  ClaimsBorrows ClaimsBorrowOps ClaimsBorrowMake ClaimsBorrowRead.

(** [replace_range], called through a reference that may use the string, never uses a pointer after its permission is gone: it is not undefined behaviour under Stacked Borrows, does what the model of the function says, and the reference may use the string afterwards. The cases are a call on a local variable, a call inside another call with shared references still around, and an error; then six wrong programs that the machine refuses. *)
Theorem C62_replace_range :
  forall c own b s t lo hi w,
  valid_cfg c -> shows c s t -> owns c own b ->
  exists r s' b',
    replace_range c lo hi (enc w) s = (Ret r, s') /\
    b_replace_range c own lo hi (enc w) (s, b) = (Ret r, (s', b')) /\
    owns c own b' /\ prot b' = prot b.
Proof. exact (@c62_replace_range). Qed.
Print Assumptions C62_replace_range.
Example C62_replace_range_case :
  shows c5 s_he [h_; e_] /\ owns c5 0 b_local /\ owns c5 3 b_inner /\
  fst (run_seen 5 (b_replace_range c5 0 (Included 1) (Excluded 3) (enc [h_; i_; h_]) (s_he, b_local))) =
    (Ret (Ok tt), mkastring [104; 104; 105; 104; 9] 4) /\
  fst (run_seen 5 (b_replace_range c5 3 (Included 1) (Excluded 3) (enc [h_]) (s_he, b_inner))) =
    (Ret (Ok tt), mkastring [104; 104; 169; 7; 9] 2) /\
  fst (run_seen 5 (b_replace_range c5 3 (Included 2) (Excluded 3) (enc [h_]) (s_he, b_inner))) =
    (Ret (Err EUtf8), s_he).
Proof.
  split; [solve_case|]. split; [exact (local_owned c5)|]. split; [exact (inner_owned c5)|]. repeat split.
Qed.
Example C62_replace_range_case2 :
  map (fun f => fst (f c5 0 (s_he, b_local)))
    [wrong_const_ptr; wrong_kept_ptr; wrong_kept_str; wrong_kept_shared; wrong_shared_write; wrong_owner_write] =
    [UB; UB; UB; UB; UB; UB].
Proof. solve_case. Qed.
Example C62_replace_range_case3 :
  run_seen 5 (b_replace_range c5r 0 (Included 1) (Excluded 3) (enc [h_; i_; h_]) (mkastring [104; 195; 169; 105; 9] 4, b_local)) =
  (Ret (Ok tt), mkastring [104; 104; 105; 104; 105] 5,
   ([[(SharedRO, 26); (SharedRO, 25); (SharedRW, 24); (Disabled, 23); (Disabled, 22); (Unique, 1); (Unique, 0)];
     [(SharedRO, 26); (SharedRW, 24); (Disabled, 23); (Disabled, 22); (Unique, 1); (Unique, 0)];
     [(SharedRO, 26); (SharedRW, 24); (Disabled, 23); (Disabled, 22); (Unique, 1); (Unique, 0)];
     [(SharedRO, 26); (SharedRW, 24); (Disabled, 23); (Disabled, 22); (Unique, 1); (Unique, 0)];
     [(SharedRO, 26); (SharedRW, 24); (Disabled, 23); (Disabled, 22); (Unique, 1); (Unique, 0)];
     [(Unique, 1); (Unique, 0)]], 27, [])).
Proof. solve_case. Qed.

(** [as_mut] hands out a reference that may use the bytes of the text. *)
Theorem C62_as_mut :
  forall c own b s t,
  valid_cfg c -> shows c s t -> owns c own b ->
  exists v b',
    b_as_mut c own (s, b) = (Ret (v, enc t), (s, b')) /\
    lends c Unique own v (blen t) b' /\ prot b' = prot b.
Proof. exact (@c62_as_mut). Qed.
Print Assumptions C62_as_mut.
Example C62_as_mut_case :
  run_seen 5 (b_as_mut c5 3 (s_he, b_inner)) =
  (Ret (13, enc [h_; e_]), s_he,
   ([[(Unique, 13); (Unique, 11); (Unique, 10); (Unique, 9); (Unique, 8); (Unique, 6); (Unique, 3); (Unique, 0)];
     [(Unique, 13); (Unique, 11); (Unique, 10); (Unique, 9); (Unique, 8); (Unique, 6); (Unique, 3); (Unique, 0)];
     [(Unique, 13); (Unique, 11); (Unique, 10); (Unique, 9); (Unique, 8); (Unique, 6); (Unique, 3); (Unique, 0)];
     [(Unique, 10); (Unique, 9); (Unique, 8); (Unique, 6); (Unique, 3); (Unique, 0)];
     [(Unique, 10); (Unique, 9); (Unique, 8); (Unique, 6); (Unique, 3); (Unique, 0)];
     [(SharedRO, 7); (Unique, 6); (Unique, 3); (Unique, 0)]], 14, [3; 0])).
Proof. solve_case. Qed.

(** Writes through that reference are allowed, one after another, and its owner may use the string after them. *)
Theorem C62_write :
  forall c own v n b s s' a new,
  n <= cap c -> a + lenN new <= n -> lends c Unique own v n b ->
  str_write a new s = (Ret tt, s') ->
  exists b', b_write v a new (s, b) = (Ret tt, (s', b')) /\ lends c Unique own v n b' /\ prot b' = prot b.
Proof. exact (@c62_write). Qed.
Print Assumptions C62_write.
Example C62_write_case :
  fst (run_seen 5 ((p <~ b_as_mut c5 3 ;;
    _ <~ b_write (fst p) 0 (enc [i_]) ;;
    _ <~ b_write (fst p) 1 (enc [e_]) ;;
    b_replace_range c5 3 (Included 1) (Excluded 3) (enc [h_])) (s_he, b_inner))) =
  (Ret (Ok tt), mkastring [105; 104; 169; 7; 9] 2).
Proof. solve_case. Qed.

(** [as_str] hands out a reference that may read the bytes of the text. *)
Theorem C62_as_str :
  forall c own b s t,
  valid_cfg c -> shows c s t -> owns c own b ->
  exists v b',
    b_as_str c own (s, b) = (Ret (v, enc t), (s, b')) /\
    lends c SharedRO own v (blen t) b' /\ prot b' = prot b.
Proof. exact (@c62_as_str). Qed.
Print Assumptions C62_as_str.
Example C62_as_str_case :
  fst (run_seen 5 (b_as_str c5 3 (s_he, b_inner))) = (Ret (20, enc [h_; e_]), s_he) /\
  map (fun k => existsb (fun i => snd i =? 20) k) (fst (fst (snd (run_seen 5 (b_as_str c5 3 (s_he, b_inner)))))) =
  [true; true; true; false; false; false].
Proof. solve_case. Qed.

(** While it lives, it may be read and the string may be asked for its length or its boundaries through its owner, in any order. *)
Theorem C62_shared :
  forall c own v n b s t i a k,
  valid_cfg c -> shows c s t -> n <= cap c -> lends c SharedRO own v n b -> a + k <= n ->
  (exists b', on_tags (access false v a k) (s, b) = (Ret tt, (s, b')) /\
              lends c SharedRO own v n b' /\ prot b' = prot b) /\
  (exists b', b_len c own (s, b) = (Ret (blen t), (s, b')) /\
              lends c SharedRO own v n b' /\ prot b' = prot b) /\
  (exists b', b_is_char_boundary c own i (s, b) = (is_char_boundary c s i, (s, b')) /\
              lends c SharedRO own v n b' /\ prot b' = prot b).
Proof. exact (@c62_shared). Qed.
Print Assumptions C62_shared.
Example C62_shared_case :
  fst (run_seen 5 ((p <~ b_as_str c5 3 ;;
    _ <~ on_tags (access false (fst p) 0 3) ;;
    _ <~ b_is_char_boundary c5 3 2 ;;
    _ <~ b_len c5 3 ;;
    on_tags (access false (fst p) 0 3)) (s_he, b_inner))) = (Ret tt, s_he).
Proof. solve_case. Qed.

(** Every call of the API (SpecOps.v; [drain], which copies from a lent [&str] in unsafe code, [retain] and the closures of [pop] among them) is likewise accepted, also when it panics in the caller's code: whatever the model of the function answers, it answers here, and the reference it was called through may be used afterwards. Then five wrong programs that are refused: [drain] copying after it shortened the string, [retain] writing while it reads, [pop] with the size changed elsewhere, a [&mut] read after its owner was read, and a variable used while a reference to it is used again later. *)
Theorem C62_call :
  forall c own b s t o r s',
  valid_cfg c -> shows c s t -> owns c own b -> run_op c o s = (r, s') -> calm r ->
  exists b', b_run_op c own o (s, b) = (r, (s', b')) /\ owns c own b' /\ prot b' = prot b.
Proof. exact (@c62_call). Qed.
Print Assumptions C62_call.
Example C62_call_case :
  fst (run_seen 5 (b_run_op c5 3 (ODrain (Included 1) Unbounded) (s_he, b_inner))) =
    (Ret (RPart (Ok (enc [e_]))), mkastring [104; 195; 169; 7; 9] 1) /\
  fst (run_seen 5 (b_run_op c5 3 (ORetain unit (fun x y => (Ret (code x =? 233), y)) tt) (s_he, b_inner))) =
    (Ret RUnit, mkastring [195; 169; 0; 0; 0] 2) /\
  fst (run_seen 5 (b_run_op c5 3 (ORetain unit (fun x y => if code x =? 233 then (Panic, y) else (Ret true, y)) tt) (s_he, b_inner))) =
    (Panic, s_he) /\
  fst (run_seen 5 (b_run_op c5r 0 OPop (s_he, b_local))) =
    (Ret (ROptChar (Some e_)), mkastring [104; 195; 169; 7; 9] 1) /\
  nth_error (fst (fst (snd (run_seen 5 (b_run_op c5r 0 OPop (s_he, b_local)))))) 5 =
    Some [(Unique, 10); (Unique, 1); (Unique, 0)].
Proof. solve_case. Qed.
Example C62_call_case2 :
  fst (wrong_drain c5 0 0 1 (s_he, b_local)) = UB /\ fst (wrong_retain c5 0 (s_he, b_local)) = UB /\
  fst (wrong_pop c5 0 (s_he, b_local)) = UB /\ fst (wrong_disabled 0 (s_he, b_local)) = UB /\ fst (wrong_through c5 0 (s_he, b_local)) = UB.
Proof. solve_case. Qed.

(** The same through a [&mut] made from another reference: both keep their permissions, so the one may be used again and then the other. *)
Theorem C62_through :
  forall c own v b s t o r s',
  valid_cfg c -> shows c s t -> lends c Unique own v (cap c + 1) b -> run_op c o s = (r, s') -> calm r ->
  exists b', b_run_op c v o (s, b) = (r, (s', b')) /\ lends c Unique own v (cap c + 1) b' /\ prot b' = prot b.
Proof. exact (@c62_through). Qed.
Print Assumptions C62_through.
Example C62_through_case :
  lends c5 Unique 0 3 (cap c5 + 1) b_lent /\
  fst (run_seen 5 ((_ <~ b_run_op c5 3 OPop ;; _ <~ b_run_op c5 3 (OTryPushStr [i_; h_]) ;;
    _ <~ b_run_op c5 0 (ORemove 0) ;; b_run_op c5 0 OAsStr) (s_he, b_lent))) =
  (Ret (RBytes (enc [i_; h_])), mkastring [105; 104; 104; 7; 9] 2).
Proof. split; [apply lent_lends|]. vm_compute. reflexivity. Qed.

(** Histories, calls that panic and are caught included. *)
Theorem C62_history :
  forall c own l b s t rs s',
  valid_cfg c -> shows c s t -> owns c own b -> Forall typed_op l ->
  run_ops c l s = (rs, s') -> Forall calm rs ->
  exists b', b_run_ops c own l (s, b) = (rs, (s', b')) /\ owns c own b' /\ prot b' = prot b.
Proof. exact (@c62_history). Qed.
Print Assumptions C62_history.
Example C62_history_case :
  fst (run_seen 5 (let '(rs, m) := b_run_ops c5 3 [OTrim; OIndex (RFrom 2); OUpper; OOverwrite (RRange 1 3) [e_];
    ODrain (Included 0) (Excluded 1); OExtendChars unit (fun y => (Panic, y)) tt; OInsertStrTruncate 0 [euro; h_];
    OSplitOff 3; OAdd [smile; i_]; ODisplay default_spec] (s_he, b_inner) in (Ret rs, m))) =
  (Ret [Ret RUnit; Panic; Ret RUnit; Ret RUnit; Ret (RPart (Ok [72])); Panic; Ret (RErr (Ok tt));
        Ret (RPart (Ok (enc [e_]))); Ret RUnit; Ret (RBytes (enc [euro]))],
   mkastring [226; 130; 172; 195; 169] 3).
Proof. solve_case. Qed.

(** Constructors work on a variable of their own: whatever the model of the constructor answers, it answers here, and the permissions of other memory are as before. *)
Theorem C62_build :
  forall c b k,
  valid_cfg c -> (forall u, In u (prot b) -> u < fresh b) -> calm (build c k) ->
  exists b', b_build c k b = (build c k, b') /\
    stacks b' = stacks b /\ prot b' = prot b /\ fresh b <= fresh b'.
Proof. exact (@c62_build). Qed.
Print Assumptions C62_build.
Example C62_build_case :
  fst (b_build c5 (CTryFromStr [h_; e_]) b_lent) = Ret (Ok (mkastring [104; 195; 169; 0; 0] 3)) /\
  fst (b_build c5 (CFromUtf16Truncate [104; 0xD83D; 0xDE00; 105]) b_lent) =
    Ret (Ok (mkastring [104; 240; 159; 152; 128] 5)) /\
  fst (b_build c5 (CCollectStrs (list text) 9 list_iter [[h_]; [euro]; [i_; h_]]) b_lent) =
    Ret (Ok (mkastring [104; 226; 130; 172; 105] 5)) /\
  fst (b_build c5r (CTryFromChars unit (fun y => (Panic, y)) tt) b_lent) = Panic /\
  fst (wrong_from_str c5 b_lent) = UB.
Proof. solve_case. Qed.

(** So do [next] and [next_back] of [Drain], in any order, with the rest of its text read before each. The text read after [next] is refused. *)
Theorem C62_drain :
  forall c own sched b d t,
  valid_cfg c -> shows c (drained d) t -> owns c own b ->
  exists os d' b', drain_calls c sched d = (Ret os, d') /\
    b_drain_calls c own sched (drained d, b) = (Ret os, (drained d', b')) /\ owns c own b' /\ prot b' = prot b.
Proof. exact (@c62_drain). Qed.
Print Assumptions C62_drain.
Example C62_drain_case :
  fst (run_seen 5 (b_drain_calls c5 3 [true; false; true] (s_he, b_inner))) =
    (Ret [Some h_; Some e_; None], mkastring [195; 169; 169; 7; 9] 0) /\
  fst (wrong_drain_str c5 3 (s_he, b_inner)) = UB.
Proof. solve_case. Qed.

(** And the calls of [CacheString], those it has itself and those found through [deref] and [deref_mut]. A reference of [deref_mut] used after a call on the [CacheString] is refused. *)
Theorem C62_cache :
  forall c own b s t o r s',
  valid_cfg c -> shows (c63 c) (inner s) t -> owns (c63 c) own b -> cache_run_op c o s = (r, s') -> calm r ->
  exists b', b_cache_op (c63 c) own o (inner s, b) = (r, (inner s', b')) /\
    owns (c63 c) own b' /\ prot b' = prot b.
Proof. exact (@c62_cache). Qed.
Print Assumptions C62_cache.
Example C62_cache_case :
  fst (fst (run_seen 63 ((_ <~ b_cache_op (c63 c5) 0 (OTryPushStr [h_; e_; i_]) ;; _ <~ b_cache_op (c63 c5) 0 (OWriteFmt (FPiece [euro] (fun ok => FStop ok))) ;;
     _ <~ b_cache_op (c63 c5) 0 OUpper ;; _ <~ b_cache_op (c63 c5) 0 (OOverwrite (RTo 1) [i_]) ;;
     b_cache_op (c63 c5) 0 (OIndex (RFrom 1))) (inner (cache_new c5), b_local)))) = Ret (RBytes (enc [e_] ++ [73] ++ enc [euro])) /\
   fst (wrong_deref_mut (c63 c5) 0 (inner (cache_new c5), b_local)) = UB.
Proof. solve_case. Qed.

(** [Hash] of the three types and [Serialize] change nothing and are accepted through the owner, through an owner that has lent a reference (which stays usable) and through a shared reference. A [hash] that took [&mut self] would end the lent reference, which the machine notices. *)
Theorem C62_readers :
  forall (c : cfg) (s : astring) (t : text), shows c s t ->
  (forall h st, only_reads c (b_hash c h st) s (hash c h s st) /\
                only_reads c (b_drain_hash c h st) s (drain_hash c h (mkDrain s) st) /\
                only_reads c (b_cache_hash c h st) s (hash c h s st)) /\
  (forall R (f : list N -> R), only_reads c (b_serialize c f) s (serialize c f s) /\
                               only_reads c (b_cache_serialize c f) s (serialize c f s)).
Proof. exact (@c62_readers). Qed.
Print Assumptions C62_readers.
Example C62_readers_case :
  reader c5 3 (lends c5 SharedRO 0 3 (cap c5 + 1)) /\ lends c5 SharedRO 0 3 (cap c5 + 1) b_shared /\
  fst (run_seen 5 (b_hash c5 sum_hasher 1 3 (s_he, b_shared))) = (Ret 724, s_he) /\
  map (fun k => existsb (fun i => snd i =? 3) k) (fst (fst (snd (run_seen 5 (b_hash c5 sum_hasher 1 3 (s_he, b_shared)))))) =
    [true; true; true; true; true; true].
Proof. split; [apply by_shared|]. split; [apply shared_lends|]. split; vm_compute; reflexivity. Qed.
Example C62_readers_case2 :
  fst (b_serialize c5 (fun b => 34 :: b ++ [34]) 0 (s_he, b_shared)) = Ret [34; 104; 195; 169; 34] /\
  fst (b_cache_hash c5 sum_hasher 1 0 (s_he, b_shared)) = fst (b_drain_hash c5 sum_hasher 1 3 (s_he, b_shared)) /\
  fst (wrong_hash c5 0 (s_he, b_local)) = UB.
Proof. solve_case. Qed.

(** So do [ToSql], whose output is other memory, and [Debug] (of the three types), which writes to a formatter between reading the text and reading the size: what is written there is what the model of the function writes, failing writers and panics included. *)
Theorem C62_beside :
  forall (c : cfg) (s : astring) (t : text), shows c s t ->
  (forall O R (f : list N -> ST O R),
     only_reads_beside c (b_to_sql c f) s (to_sql c f s) /\
     only_reads_beside c (b_cache_to_sql c f) s (to_sql c f s)) /\
  (forall sd ud W (k : sink W) alt,
     only_reads_beside c (b_debug_fmt c sd ud k alt) s (debug_fmt c sd ud s W k alt) /\
     only_reads_beside c (b_drain_debug c sd ud k alt) s (drain_debug c sd ud (mkDrain s) W k alt) /\
     (forall c0, c = c63 c0 ->
        only_reads_beside c (b_cache_debug c sd ud k alt) s (cache_debug c0 sd ud (mkCache s) W k alt))).
Proof. exact (@c62_beside). Qed.
Print Assumptions C62_beside.
Example C62_beside_case :
  fst (b_to_sql c5 (fun b o => (Ret tt, o ++ b)) 3 ((s_he, b_shared), [33])) = Ret tt /\
  snd (snd (b_to_sql c5 (fun b o => (Ret tt, o ++ b)) 3 ((s_he, b_shared), [33]))) = [33; 104; 195; 169] /\
  snd (snd (b_debug_fmt c5 str_debug digit_debug buffer false 0 ((s_he, b_shared), []))) =
    snd (debug_fmt c5 str_debug digit_debug s_he _ buffer false []) /\
  lenN (snd (snd (b_debug_fmt c5 str_debug digit_debug buffer false 0 ((s_he, b_shared), [])))) = 37 /\
  snd (snd (b_drain_debug c5 str_debug digit_debug buffer true 0 ((s_he, b_shared), []))) =
    snd (drain_debug c5 str_debug digit_debug (mkDrain s_he) _ buffer true []) /\
  fst (b_cache_debug c5 str_debug digit_debug buffer false 3 ((s_he, b_shared), [])) = Ret (Ok tt).
Proof. solve_case. Qed.

(** Comparing two strings reads both and changes neither. *)
Theorem C62_compare :
  forall (c : cfg) (s s' : astring) (t t' : text), shows c s t -> shows c s' t' ->
  only_reads_both c (b_compare c str_eq) s s' (partial_eq c s s') /\
  only_reads_both c (b_cache_compare c str_eq) s s' (partial_eq c s s') /\
  only_reads_both c (b_drain_compare c str_eq) s s' (drain_eq c (mkDrain s) (mkDrain s')) /\
  only_reads_both c (b_compare c str_cmp) s s' (ord_cmp c s s') /\
  only_reads_both c (b_cache_compare c str_cmp) s s' (ord_cmp c s s') /\
  only_reads_both c (b_drain_compare c str_cmp) s s' (drain_cmp c (mkDrain s) (mkDrain s')).
Proof. exact (@c62_compare). Qed.
Print Assumptions C62_compare.
Example C62_compare_case :
  fst (b_compare c5 str_eq 0 3 ((s_he, b_local), (s_he', b_shared))) = Ret true /\
  fst (b_drain_compare c5 str_cmp 0 3 ((s_he, b_local), (s_empty, b_inner))) = Ret Gt /\
  fst (fst (snd (b_cache_compare c5 str_cmp 0 3 ((s_he, b_local), (s_empty, b_inner))))) = s_he.
Proof. solve_case. Qed.

(** So does comparing a string with itself, as in [s == s]. With [other] as [&mut] it would be refused. *)
Theorem C62_compare_self :
  forall (c : cfg) (s : astring) (t : text), shows c s t ->
  only_reads c (fun r => b_compare_self c str_eq r r) s (partial_eq c s s) /\
  only_reads c (fun r => b_cache_compare_self c str_eq r r) s (partial_eq c s s) /\
  only_reads c (fun r => b_drain_compare_self c str_eq r r) s (drain_eq c (mkDrain s) (mkDrain s)) /\
  only_reads c (fun r => b_compare_self c str_cmp r r) s (ord_cmp c s s) /\
  only_reads c (fun r => b_cache_compare_self c str_cmp r r) s (ord_cmp c s s) /\
  only_reads c (fun r => b_drain_compare_self c str_cmp r r) s (drain_cmp c (mkDrain s) (mkDrain s)).
Proof. exact (@c62_compare_self). Qed.
Print Assumptions C62_compare_self.
Example C62_compare_self_case :
  fst (b_compare_self c5 str_eq 0 0 (s_he, b_shared)) = Ret true /\
  fst (b_drain_compare_self c5 str_cmp 3 3 (s_he, b_shared)) = Ret Eq /\
  fst (wrong_eq c5 0 (s_he, b_local)) = UB.
Proof. solve_case. Qed.
