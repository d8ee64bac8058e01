(** CacheString, serde, diesel and sizes (C39-C42). Statements only: the proofs are the lemmas of ClaimsCache.v. *)
From Verif Require Import Base Char Spec RustStd RustIter RustOrd ModelError Model ModelArgs RustFmt SpecFmt ModelImpl ModelDrain ModelCache
  ModelIntegration Layout TextOps SpecOps ModelOps ModelCacheOps StringSpec TestSuite IterSpec Obs ObsCache Cases
  ClaimsCache.

(** The same history on a [CacheString] and on an [ArrayString<63>] with the same text gives the same results and the same text. *)
Theorem C39_history : forall (c0 : cfg) (s : CacheString) (a : astring) (t : text) (l : list op),
  valid_cfg c0 -> cache_shows c0 s t -> shows (c63 c0) a t -> Forall typed_op l ->
  exists rs s' a' t', cache_run_ops c0 l s = (rs, s') /\ run_ops (c63 c0) l a = (rs, a') /\
    cache_shows c0 s' t' /\ shows (c63 c0) a' t'.
Proof. exact (@c39_history). Qed.
Print Assumptions C39_history.
Example C39_history_case :
  valid_cfg c5 /\ cache_shows c5 k_he [h_; e_] /\ shows (c63 c5) (inner k_he') [h_; e_] /\
  fst (cache_run_ops c5 [OPushStrTruncate [h_; e_]; OTruncate 2; OPop; OAsStr] k_he) =
    [Ret RUnit; Ret (RUtf8 (Err mkUtf8)); Ret (ROptChar (Some e_)); Ret (RBytes [104; 195; 169; 104])] /\
  fst (run_ops (c63 c5) [OPushStrTruncate [h_; e_]; OTruncate 2; OPop; OAsStr] (inner k_he')) =
    [Ret RUnit; Ret (RUtf8 (Err mkUtf8)); Ret (ROptChar (Some e_)); Ret (RBytes [104; 195; 169; 104])].
Proof. solve_case. Qed.

(** What each call does to the text, in the terms of SpecOps.v. *)
Theorem C39_calls : forall (c0 : cfg) (s : CacheString) (t : text) (o : op),
  valid_cfg c0 -> cache_shows c0 s t -> typed_op o ->
  exists s', cache_run_op c0 o s = (fst (t_op (usize_max c0) 63 o t), s') /\
    cache_shows c0 s' (snd (t_op (usize_max c0) 63 o t)).
Proof. exact (@c39_calls). Qed.
Print Assumptions C39_calls.
Example C39_calls_case :
  valid_cfg c5 /\ cache_shows c5 k_he [h_; e_] /\
  fst (cache_run_op c5 (OTryPushStr [euro]) k_he) = Ret (ROob (Ok tt)) /\
  cache_shows c5 (snd (cache_run_op c5 (OTryPushStr [euro]) k_he)) [h_; e_; euro].
Proof. solve_case. Qed.
Example C39_calls_case2 :
  valid_cfg c5 /\ cache_shows c5 k_he [h_; e_] /\
  fst (cache_run_op c5 OIsEmpty k_he) = Ret (RBool false) /\
  fst (cache_run_op c5 (OIndex (RFrom 1)) k_he) = Ret (RBytes [195; 169]) /\
  cache_shows c5 (snd (cache_run_op c5 (OAdd [euro]) k_he)) [h_; e_; euro].
Proof. solve_case. Qed.

(** Constructors: the text or the failure that [t_ctor] says, as for [ArrayString<63>]. *)
Theorem C39_constructors : forall (c0 : cfg) (k : ctor),
  valid_cfg c0 -> typed_ctor k ->
  match t_ctor 63 k with
  | Ret (Ok t) => exists s a, cache_build c0 k = Ret (Ok s) /\ build (c63 c0) k = Ret (Ok a) /\
                    cache_shows c0 s t /\ shows (c63 c0) a t
  | Ret (Err e) => cache_build c0 k = Ret (Err e) /\ build (c63 c0) k = Ret (Err e)
  | Panic => cache_build c0 k = Panic /\ build (c63 c0) k = Panic
  | UB => cache_build c0 k = UB /\ build (c63 c0) k = UB
  | Diverge => cache_build c0 k = Diverge /\ build (c63 c0) k = Diverge
  end.
Proof. exact (@c39_constructors). Qed.
Print Assumptions C39_constructors.
Example C39_constructors_case :
  valid_cfg c5 /\ cache_build c5 (CTryFromUtf16 [55357]) = Ret (Err EUtf16) /\
  build (c63 c5) (CTryFromUtf16 [55357]) = Ret (Err EUtf16).
Proof. solve_case. Qed.

(** Observers, comparisons and conversions. *)
Theorem C39_traits : forall (c0 : cfg) (s s' : CacheString) (t t' w : text) (h : hasher) (st : hstate h),
  cache_shows c0 s t -> cache_shows c0 s' t' ->
  cache_capacity = 63 /\ cache_len s = blen t /\
  cache_as_ref c0 s = Ret (enc t) /\ cache_as_ref_bytes c0 s = Ret (enc t) /\ cache_borrow c0 s = Ret (enc t) /\
  (exists b, cache_eq c0 s s' = Ret b /\ (b = true <-> t = t')) /\
  (exists b, cache_eq_str c0 s (enc w) = Ret b /\ cache_eq_ref_str c0 s (enc w) = Ret b /\ (b = true <-> t = w)) /\
  (exists o, cache_cmp c0 s s' = Ret o /\ cache_partial_cmp c0 s s' = Ret (Some o) /\
     (o = Eq <-> t = t') /\ (o = Lt <-> text_lt t t') /\ (o = Gt <-> text_lt t' t)) /\
  cache_hash c0 h s st = Ret (str_hash h (enc t) st).
Proof. exact (@c39_traits). Qed.
Print Assumptions C39_traits.
Example C39_traits_case :
  cache_shows c5 k_he [h_; e_] /\ cache_shows c5 k_he' [h_; e_] /\ cache_len k_he = 3 /\
  cache_eq_str c5 k_he (enc [h_]) = Ret false /\ cache_cmp c5 k_he k_he' = Ret Eq /\
  cache_cmp c5 k_he (cache_new c5) = Ret Gt.
Proof. solve_case. Qed.
Example C39_traits_case2 :
  cache_shows c5 k_he [h_; e_] /\ cache_as_ref c5 k_he = Ret [104; 195; 169] /\
  cache_as_ref_bytes c5 k_he = Ret [104; 195; 169] /\ cache_borrow c5 k_he = Ret [104; 195; 169] /\
  cache_eq_str c5 k_he (enc [h_; e_]) = Ret true /\ cache_eq_ref_str c5 k_he (enc [h_; e_]) = Ret true /\
  cache_hash c5 (mkhasher (list N) (fun bs st => st ++ bs) (fun b st => st ++ [b])) k_he [1] =
    Ret [1; 104; 195; 169; 255].
Proof. solve_case. Qed.

(** [From<ArrayString<63>>]. *)
Theorem C39_from_array : forall (c0 : cfg) (a : astring) (t : text),
  shows (c63 c0) a t -> cache_shows c0 (cache_from_array a) t.
Proof. exact (@c39_from_array). Qed.
Print Assumptions C39_from_array.
Example C39_from_array_case :
  shows (c63 c5) (inner k_he) [h_; e_] /\ cache_shows c5 (cache_from_array (inner k_he)) [h_; e_].
Proof. solve_case. Qed.

(** [&mut str] access. *)
Theorem C39_mut : forall (c0 : cfg) (s : CacheString) (t : text),
  cache_shows c0 s t ->
  cache_as_mut c0 s = (Ret (enc t), s) /\ cache_borrow_mut c0 s = (Ret (enc t), s).
Proof. exact (@c39_mut). Qed.
Print Assumptions C39_mut.
Example C39_mut_case :
  cache_shows c5 k_he [h_; e_] /\ cache_as_mut c5 k_he = (Ret [104; 195; 169], k_he).
Proof. solve_case. Qed.

(** [CacheString] from any iterator of characters. *)
Theorem C39_from_chars : forall (c0 : cfg) (IT : Type) (next : iter IT char) (it : IT),
  valid_cfg c0 -> well_behaved next ->
  let fuel := char_fuel (c63 c0) in
  cache_from_iter_chars c0 fuel next it = cache_from_chars_truncate c0 fuel next it /\
  ((exists l it' s s', ends next it l it' /\ blen l <= 63 /\
      cache_from_chars_truncate c0 fuel next it = (Ret s, it') /\ cache_shows c0 s l /\
      cache_try_from_chars c0 fuel next it = (Ret (Ok s'), it') /\ cache_shows c0 s' l) \/
   (exists l x it' s, yields next it (l ++ [x]) it' /\ blen l <= 63 < blen l + clen x /\
      cache_from_chars_truncate c0 fuel next it = (Ret s, it') /\ cache_shows c0 s l /\
      cache_try_from_chars c0 fuel next it = (Ret (Err mkOutOfBounds), it')) \/
   (exists l it', panics next it l it' /\ blen l <= 63 /\
      cache_from_chars_truncate c0 fuel next it = (Panic, it') /\
      cache_try_from_chars c0 fuel next it = (Panic, it'))).
Proof. exact (@c39_from_chars). Qed.
Print Assumptions C39_from_chars.
Example C39_from_chars_case :
  valid_cfg c5 /\ well_behaved (forever euro) /\
  snd (cache_try_from_chars c5 (char_fuel (c63 c5)) (forever euro) 0) = 22 /\
  fst (cache_try_from_chars c5 (char_fuel (c63 c5)) (forever euro) 0) = Ret (Err mkOutOfBounds).
Proof. solve_case. Qed.

(** [Extend] with any iterator of characters. *)
Theorem C39_extend_chars : forall (c0 : cfg) (IT : Type) (next : iter IT char) (it : IT) (s : CacheString) (t : text),
  valid_cfg c0 -> well_behaved next -> cache_shows c0 s t ->
  let fuel := char_fuel (c63 c0) in
  cache_extend_char_refs c0 fuel next it s = cache_extend_chars c0 fuel next it s /\
  ((exists l it' s' p, ends next it l it' /\ blen l <= 63 /\ longest_fit (63 - blen t) l p /\
      cache_extend_chars c0 fuel next it s = (Ret tt, it', s') /\ cache_shows c0 s' (t ++ p)) \/
   (exists l x it' s' p, yields next it (l ++ [x]) it' /\ blen l <= 63 < blen l + clen x /\
      longest_fit (63 - blen t) l p /\
      cache_extend_chars c0 fuel next it s = (Ret tt, it', s') /\ cache_shows c0 s' (t ++ p)) \/
   (exists l it', panics next it l it' /\ blen l <= 63 /\
      cache_extend_chars c0 fuel next it s = (Panic, it', s))).
Proof. exact (@c39_extend_chars). Qed.
Print Assumptions C39_extend_chars.
Example C39_extend_chars_case :
  valid_cfg c5 /\ well_behaved (forever smile) /\ cache_shows c5 k_he [h_; e_] /\
  snd (fst (cache_extend_chars c5 (char_fuel (c63 c5)) (forever smile) 0 k_he)) = 16 /\
  cache_shows c5 (snd (cache_extend_chars c5 (char_fuel (c63 c5)) (forever smile) 0 k_he))
    ([h_; e_] ++ repeat smile 15) /\
  longest_fit (63 - blen [h_; e_]) (repeat smile 15) (repeat smile 15).
Proof. solve_case. Qed.
Example C39_extend_chars_case2 :
  valid_cfg c5 /\ cache_shows c5 k_he [h_; e_] /\
  cache_shows c5 (snd (cache_extend_char_refs c5 (char_fuel (c63 c5)) list_iter [euro; i_] k_he)) [h_; e_; euro; i_].
Proof. solve_case. Qed.

(** Iterators of strings. *)
Theorem C39_strs : forall (c0 : cfg) (IT : Type) (next : iter IT as_ref_item) (it : IT) (l : list text)
    (it' : IT) (s : CacheString) (t : text) (fuel : nat),
  valid_cfg c0 -> cache_shows c0 s t -> ends next it (map item_of l) it' -> (length l < fuel)%nat ->
  exists p q s1 s2 it1, longest_fit 63 (concat l) p /\ longest_fit (63 - blen t) (concat l) q /\
    cache_from_iterator_truncate c0 fuel next it = (Ret s1, it1) /\
    cache_from_iter_strs c0 fuel next it = (Ret s1, it1) /\ cache_shows c0 s1 p /\
    cache_extend_strs c0 fuel next it s = (Ret tt, it1, s2) /\ cache_shows c0 s2 (t ++ q) /\
    (blen (concat l) <= 63 -> it1 = it' /\
       exists s3, cache_try_from_iterator c0 fuel next it = (Ret (Ok s3), it1) /\ cache_shows c0 s3 (concat l)) /\
    (63 < blen (concat l) -> exists l1 x l2, l = l1 ++ x :: l2 /\
       blen (concat l1) <= 63 < blen (concat l1) + blen x /\ yields next it (map item_of (l1 ++ [x])) it1 /\
       cache_try_from_iterator c0 fuel next it = (Ret (Err mkOutOfBounds), it1)).
Proof. exact (@c39_strs). Qed.
Print Assumptions C39_strs.
Example C39_strs_case :
  valid_cfg c5 /\ cache_shows c5 k_he [h_; e_] /\
  ends list_iter (map item_of [[h_]; []; [e_]]) (map item_of [[h_]; []; [e_]]) [] /\
  (length [[h_]; []; [e_]] < 4)%nat /\ longest_fit 63 (concat [[h_]; []; [e_]]) [h_; e_] /\
  blen (concat [[h_]; []; [e_]]) <= 63 /\
  cache_shows c5 (snd (cache_extend_strs c5 4 list_iter (map item_of [[h_]; []; [e_]]) k_he)) [h_; e_; h_; e_].
Proof. solve_case. Qed.

(** [retain] through [DerefMut], with the closure's state. *)
Theorem C39_retain : forall (c0 : cfg) (F : Type) (f : char -> ST F bool) (g : F -> char -> bool * F) (x : F)
    (s : CacheString) (t : text),
  valid_cfg c0 -> cache_shows c0 s t -> (forall a y, f a y = (Ret (fst (g y a)), snd (g y a))) ->
  exists s', cache_retain c0 f x s = (Ret tt, s', snd (filter_st g x t)) /\ cache_shows c0 s' (fst (filter_st g x t)).
Proof. exact (@c39_retain). Qed.
Print Assumptions C39_retain.
Example C39_retain_case :
  valid_cfg c5 /\ cache_shows c5 k_he [h_; e_] /\
  filter_st (fun n (a : char) => (N.odd n, n + 1)) 0 [h_; e_] = ([e_], 2) /\
  snd (cache_retain c5 (fun a n => (Ret (N.odd n), n + 1)) 0 k_he) = 2 /\
  cache_shows c5 (snd (fst (cache_retain c5 (fun a n => (Ret (N.odd n), n + 1)) 0 k_he))) [e_].
Proof. solve_case. Qed.

(** [Display] of a [CacheString]. *)
Theorem C39_display : forall (c0 : cfg) (s : CacheString) (t : text) (W : Type) (k : sink W) (sp : fmtspec)
    (w : W),
  cache_shows c0 s t ->
  cache_display c0 k sp s w = wstr k (enc t) w.
Proof. exact (@c39_display). Qed.
Print Assumptions C39_display.
Example C39_display_case :
  cache_shows c5 k_he [h_; e_] /\ cache_display c5 buffer default_spec k_he [33] = (Ret (Ok tt), [33; 104; 195; 169]).
Proof. solve_case. Qed.

(** serde: the serializer is given the text. *)
Theorem C40_serialize : forall (c : cfg) (s : astring) (t : text) (R : Type) (f : list N -> R),
  shows c s t -> serialize c f s = Ret (f (enc t)).
Proof. exact (@c40_serialize). Qed.
Print Assumptions C40_serialize.
Example C40_serialize_case :
  shows c5 s_he [h_; e_] /\ serialize c5 (fun b => lenN b) s_he = Ret 3.
Proof. solve_case. Qed.

(** serde: borrowed text is taken over and cut; everything else is an error. *)
Theorem C40_deserialize : forall (c : cfg) (E : Type),
  valid_cfg c ->
  (forall w, exists p, longest_fit (cap c) w p /\
     makes_ok c (deserialize c (E := E) (VBorrowedStr (enc w))) p /\
     makes_ok c (deserialize c (E := E) (VBorrowedBytes (enc w))) p) /\
  (forall b, (forall w, b <> enc w) -> deserialize c (E := E) (VBorrowedBytes b) = Ret (Err InvalidValue)) /\
  (forall b, deserialize c (E := E) (VStr b) = Ret (Err InvalidType) /\
             deserialize c (E := E) (VString b) = Ret (Err InvalidType) /\
             deserialize c (E := E) (VBytes b) = Ret (Err InvalidType) /\
             deserialize c (E := E) (VByteBuf b) = Ret (Err InvalidType)) /\
  deserialize c (E := E) VOther = Ret (Err InvalidType) /\
  (forall e : E, deserialize c (DeErr e) = Ret (Err (FromFormat e))).
Proof. exact (@c40_deserialize). Qed.
Print Assumptions C40_deserialize.
Example C40_deserialize_case :
  valid_cfg c5 /\ makes_ok c5 (deserialize c5 (E := unit) (VBorrowedStr (enc [euro; e_; h_]))) [euro; e_] /\
  deserialize c5 (E := unit) (VBorrowedBytes [195]) = Ret (Err InvalidValue) /\
  deserialize c5 (E := unit) (VStr [104]) = Ret (Err InvalidType).
Proof. solve_case. Qed.

(** What was serialized is read back. *)
Theorem C40_round_trip : forall (c : cfg) (E : Type) (s : astring) (t : text),
  valid_cfg c -> shows c s t ->
  exists v, serialize c (fun b => VBorrowedStr (E := E) b) s = Ret v /\ makes_ok c (deserialize c v) t.
Proof. exact (@c40_round_trip). Qed.
Print Assumptions C40_round_trip.
Example C40_round_trip_case :
  valid_cfg c5 /\ shows c5 s_he [h_; e_] /\
  serialize c5 (fun b => VBorrowedStr (E := unit) b) s_he = Ret (VBorrowedStr [104; 195; 169]) /\
  makes_ok c5 (deserialize c5 (E := unit) (VBorrowedStr [104; 195; 169])) [h_; e_].
Proof. solve_case. Qed.

(** serde for [CacheString]. *)
Theorem C40_cache : forall (c0 : cfg) (s : CacheString) (t : text) (E : Type),
  valid_cfg c0 -> cache_shows c0 s t ->
  (forall R (f : list N -> R), cache_serialize c0 f s = Ret (f (enc t))) /\
  (forall w, exists p a, longest_fit 63 w p /\
     cache_deserialize c0 (E := E) (VBorrowedStr (enc w)) = Ret (Ok a) /\
     cache_deserialize c0 (E := E) (VBorrowedBytes (enc w)) = Ret (Ok a) /\ cache_shows c0 a p) /\
  (forall b, (forall w, b <> enc w) -> cache_deserialize c0 (E := E) (VBorrowedBytes b) = Ret (Err InvalidValue)) /\
  (forall b, cache_deserialize c0 (E := E) (VStr b) = Ret (Err InvalidType) /\
             cache_deserialize c0 (E := E) (VString b) = Ret (Err InvalidType) /\
             cache_deserialize c0 (E := E) (VBytes b) = Ret (Err InvalidType) /\
             cache_deserialize c0 (E := E) (VByteBuf b) = Ret (Err InvalidType)) /\
  cache_deserialize c0 (E := E) VOther = Ret (Err InvalidType) /\
  (forall e : E, cache_deserialize c0 (DeErr e) = Ret (Err (FromFormat e))).
Proof. exact (@c40_cache). Qed.
Print Assumptions C40_cache.
Example C40_cache_case :
  valid_cfg c5 /\ cache_shows c5 k_he [h_; e_] /\
  cache_deserialize c5 (E := unit) (VString [104]) = Ret (Err InvalidType).
Proof. solve_case. Qed.
Example C40_cache_case2 :
  valid_cfg c5 /\ cache_shows c5 k_he [h_; e_] /\ cache_serialize c5 (fun b => b ++ [33]) k_he = Ret [104; 195; 169; 33].
Proof. solve_case. Qed.

(** diesel: the backend is given the text. *)
Theorem C41_to_sql : forall (c : cfg) (s : astring) (t : text) (O R : Type) (f : list N -> ST O R) (o : O),
  shows c s t -> to_sql c f s o = f (enc t) o.
Proof. exact (@c41_to_sql). Qed.
Print Assumptions C41_to_sql.
Example C41_to_sql_case :
  shows c5 s_he [h_; e_] /\ to_sql c5 (fun b o => (Ret tt, o ++ b)) s_he [33] = (Ret tt, [33; 104; 195; 169]).
Proof. solve_case. Qed.

(** diesel: the text in the column, cut; the backend's errors are passed on. *)
Theorem C41_from_sql : forall (c : cfg) (V E : Type) (g : V -> result str_ptr E) (v : V),
  valid_cfg c ->
  (forall w, g v = Ok (At (enc w)) -> exists p, longest_fit (cap c) w p /\ makes_ok c (from_sql c g v) p) /\
  (forall e, g v = Err e -> from_sql c g v = Ret (Err e)).
Proof. exact (@c41_from_sql). Qed.
Print Assumptions C41_from_sql.
Example C41_from_sql_case :
  valid_cfg c5 /\ makes_ok c5 (from_sql c5 (fun v => Ok (E := unit) (At v)) (enc [euro; e_; h_])) [euro; e_] /\
  from_sql c5 (fun v : N => Err (A := str_ptr) v) 7 = Ret (Err 7).
Proof. solve_case. Qed.

(** What a backend must not return: a null pointer is caught in debug builds only, a dangling one or bytes that are not UTF-8 never. *)
Theorem C41_bad_pointer : forall (c : cfg) (V E : Type) (g : V -> result str_ptr E) (v : V),
  (g v = Ok Null -> from_sql c g v = if debug c then Panic else UB) /\
  (g v = Ok Dangling -> from_sql c g v = UB) /\
  (forall b, (forall w, b <> enc w) -> g v = Ok (At b) -> from_sql c g v = UB).
Proof. exact (@c41_bad_pointer). Qed.
Print Assumptions C41_bad_pointer.
Example C41_bad_pointer_case :
  from_sql c5 (fun _ : N => Ok (E := unit) Null) 7 = Panic /\ from_sql c5r (fun _ : N => Ok (E := unit) Null) 7 = UB /\
  from_sql c5 (fun _ : N => Ok (E := unit) Dangling) 7 = UB /\ from_sql c5 (fun v => Ok (E := unit) (At v)) [104; 195] = UB.
Proof. solve_case. Qed.

(** What was stored is read back. *)
Theorem C41_round_trip : forall (c : cfg) (V E : Type) (g : V -> result str_ptr E) (column : list N -> V)
    (s : astring) (t : text) (v0 : V),
  valid_cfg c -> shows c s t ->
  (forall w, g (column (enc w)) = Ok (At (enc w))) ->
  exists v, to_sql c (fun b _ => (Ret tt, column b)) s v0 = (Ret tt, v) /\ makes_ok c (from_sql c g v) t.
Proof. exact (@c41_round_trip). Qed.
Print Assumptions C41_round_trip.
Example C41_round_trip_case :
  valid_cfg c5 /\ shows c5 s_he [h_; e_] /\
  to_sql c5 (fun b _ => (Ret tt, 0 :: b)) s_he [] = (Ret tt, 0 :: enc [h_; e_]) /\
  makes_ok c5 (from_sql c5 (fun v => Ok (E := unit) (At (tl v))) (0 :: enc [h_; e_])) [h_; e_].
Proof. solve_case. Qed.

(** diesel for [CacheString]. *)
Theorem C41_cache : forall (c0 : cfg) (s : CacheString) (t : text) (V X : Type) (g : V -> result str_ptr X)
    (v : V),
  valid_cfg c0 -> cache_shows c0 s t ->
  (forall O R (f : list N -> ST O R) o, cache_to_sql c0 f s o = f (enc t) o) /\
  (forall w, g v = Ok (At (enc w)) ->
     exists p a, longest_fit 63 w p /\ cache_from_sql c0 g v = Ret (Ok a) /\ cache_shows c0 a p) /\
  (forall e, g v = Err e -> cache_from_sql c0 g v = Ret (Err e)) /\
  (g v = Ok Null -> cache_from_sql c0 g v = if debug c0 then Panic else UB) /\
  (g v = Ok Dangling -> cache_from_sql c0 g v = UB) /\
  (forall b, (forall w, b <> enc w) -> g v = Ok (At b) -> cache_from_sql c0 g v = UB) /\
  (forall (column : list N -> V), (forall w, g (column (enc w)) = Ok (At (enc w))) ->
     exists v' a, cache_to_sql c0 (fun b _ => (Ret tt, column b)) s v = (Ret tt, v') /\
       cache_from_sql c0 g v' = Ret (Ok a) /\ cache_shows c0 a t).
Proof. exact (@c41_cache). Qed.
Print Assumptions C41_cache.
Example C41_cache_case :
  valid_cfg c5 /\ cache_shows c5 k_he [h_; e_] /\
  cache_from_sql c5 (fun v : N => Err (A := str_ptr) v) 7 = Ret (Err 7) /\
  cache_from_sql c5 (fun _ : N => Ok (E := N) Null) 7 = Panic /\ cache_from_sql c5r (fun _ : N => Ok (E := N) Null) 7 = UB.
Proof. solve_case. Qed.
Example C41_cache_case2 :
  valid_cfg c5 /\ cache_shows c5 k_he [h_; e_] /\
  cache_to_sql c5 (fun b o => (Ret tt, o ++ b)) k_he [33] = (Ret tt, [33; 104; 195; 169]).
Proof. solve_case. Qed.

(** [ArrayString<N>] takes [N + 1] bytes, with either order of its fields. *)
Theorem C42_array_string : forall (swap : bool) (n : N),
  size_of (arraystring_layout swap n) = n + 1 /\ align_of (arraystring_layout swap n) = 1.
Proof. exact (@c42_array_string). Qed.
Print Assumptions C42_array_string.
Example C42_array_string_case :
  size_of (arraystring_layout true 23) = 24 /\ size_of (arraystring_layout false 255) = 256.
Proof. solve_case. Qed.

(** [CacheString] takes one cache line. *)
Theorem C42_cache_string : forall swap : bool,
  cachestring_layout swap = mklayout 64 64.
Proof. exact (@c42_cache_string). Qed.
Print Assumptions C42_cache_string.
Example C42_cache_string_case :
  size_of (cachestring_layout false) = 64 /\ align_of (cachestring_layout true) = 64.
Proof. solve_case. Qed.

(** [Drain<N>] is no larger than the string. *)
Theorem C42_drain : forall (swap : bool) (n : N),
  size_of (drain_layout swap n) = n + 1 /\ align_of (drain_layout swap n) = 1.
Proof. exact (@c42_drain). Qed.
Print Assumptions C42_drain.
Example C42_drain_case :
  size_of (drain_layout true 23) = 24.
Proof. solve_case. Qed.

(** [MaxString] takes 256 bytes. *)
Theorem C42_max_string : forall swap : bool,
  size_of (maxstring_layout swap) = 256 /\ align_of (maxstring_layout swap) = 1.
Proof. exact (@c42_max_string). Qed.
Print Assumptions C42_max_string.
Example C42_max_string_case :
  align_of (maxstring_layout false) = 1.
Proof. solve_case. Qed.

(** [SmallString] takes three words and one byte. *)
Theorem C42_small_string : forall (swap : bool) (word : N),
  size_of (smallstring_layout swap word) = 3 * word + 1.
Proof. exact (@c42_small_string). Qed.
Print Assumptions C42_small_string.
Example C42_small_string_case :
  size_of (smallstring_layout false 8) = 25.
Proof. solve_case. Qed.

(** [String] takes three words. *)
Theorem C42_std_string : forall word : N,
  1 <= word -> size_of (string_layout word) = 3 * word.
Proof. exact (@c42_std_string). Qed.
Print Assumptions C42_std_string.
Example C42_std_string_case :
  size_of (string_layout 8) = 24 /\ align_of (string_layout 8) = 8.
Proof. solve_case. Qed.
