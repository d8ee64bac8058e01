(** What a caller can observe of the crate when its log messages go to a logger:
    the vocabulary of PropLogs.v. *)
From Coq Require Import String.
From Verif Require Import Base Char Spec RustStd RustFmt ModelError Model.
From Verif Require Export ModelLogs IterSpec.

(** The level of a message, [debug] or [trace], is enabled. *)
Definition level_on (tr db : bool) (e : event) : bool :=
  match e with
  | EvUtf16 _ _ | EvTruncate _ | EvPop | EvRemove _ | EvSplitOff | EvDrain _ _ _ | EvReplace _ _ _ _ _ => db
  | _ => tr
  end.

(** Some call of the logger with the enabled message [e] panics; some such call at all
    does. *)
Definition panics_on {W} (tr db : bool) (log : event -> ST W unit) (e : event) : Prop :=
  level_on tr db e = true /\ exists w, fst (log e w) = Panic.
Definition can_panic {W} (tr db : bool) (log : event -> ST W unit) : Prop := exists e, panics_on tr db log e.

(** A logger that always returns from an enabled message. *)
Definition quiet {W} (tr db : bool) (log : event -> ST W unit) : Prop :=
  forall e w, level_on tr db e = true -> fst (log e w) = Ret tt.

(** A logger is safe code: it returns from an enabled message or panics. *)
Definition a_logger {W} (tr db : bool) (log : event -> ST W unit) : Prop :=
  forall e, level_on tr db e = true -> comes_back (log e).

(** The call [g] with logs did what [p] does without. *)
Definition as_without {W A} (g : ST (astring * W) A) (p : ST astring A) (s : astring) (w : W) : Prop :=
  exists w', g (s, w) = (fst (p s), (snd (p s), w')).

(** The call panicked and left [s']. *)
Definition panicked {W A} (g : ST (astring * W) A) (s : astring) (w : W) (s' : astring) : Prop :=
  exists w', g (s, w) = (Panic, (s', w')).

(** [g], which cannot change a string, answers [r] or passes on the panic of the logger. *)
Definition answers {W A} (tr db : bool) (log : event -> ST W unit) (g : ST W A) (r : outcome A) : Prop :=
  forall w, exists w', g w = (r, w') \/ (can_panic tr db log /\ g w = (Panic, w')).

(** The bytes of [s'] with the length of [s]. *)
Definition torn (s s' : astring) : astring := mkastring (arr s') (size s).

(** Calls that edit the string at one place, possibly in its middle. *)
Definition inner_edit (o : op) : bool :=
  match o with
  | OTrim | ORemove _ | OTryInsert _ _ | OTryInsertStr _ _ | OInsertStrTruncate _ _
  | ODrain _ _ | OSplitOff _ | OReplaceRange _ _ _ => true
  | _ => false
  end.

(** Calls that may have made several changes when the logger panics. *)
Definition several_steps (o : op) : bool :=
  match o with
  | OTrim | OWriteFmt _ => true
  | _ => false
  end.

(** Calls that write behind the end of the text. *)
Definition appends (o : op) : bool :=
  match o with
  | OTryPushStr _ | OPushStrTruncate _ | OTryPush _ | OExtendChars _ _ _ | OExtendStrs _ _ _ _
  | OWriteStr _ | OWriteChar _ => true
  | _ => false
  end.

(** The calls with an [impl AsRef<str>] argument. *)
Inductive str_call : Type :=
| KPush | KPushTruncate | KInsert (idx : N) | KInsertTruncate (idx : N) | KReplace (lo hi : bound).

(** The call with the text [u], and with foreign code as its argument. *)
Definition call_op (k : str_call) (u : text) : op :=
  match k with
  | KPush => OTryPushStr u
  | KPushTruncate => OPushStrTruncate u
  | KInsert i => OTryInsertStr i u
  | KInsertTruncate i => OInsertStrTruncate i u
  | KReplace lo hi => OReplaceRange lo hi u
  end.
Definition l_str_call (c : cfg) (tr db : bool) {W} (log : event -> ST W unit) (k : str_call) (a : ST W (list N)) :
    ST (astring * W) out :=
  match k with
  | KPush => l_out ROob (l_try_push_str c tr db log a)
  | KPushTruncate => l_out (fun _ => RUnit) (l_push_str_truncate c tr db log a)
  | KInsert i => l_out RErr (l_try_insert_str c tr db log i a)
  | KInsertTruncate i => l_out RErr (l_insert_str_truncate c tr db log i a)
  | KReplace lo hi => l_out RErr (l_replace_range c tr db log lo hi a)
  end.

(** [try_insert_str] looks at the index before it asks for the text. *)
Definition asks (k : str_call) (s : astring) : Prop :=
  match k with KInsert i => i <= len s | _ => True end.

(** [u] is one of the answers of [a]; some call of [a] panics. *)
Definition may_answer {W} (a : ST W (list N)) (u : text) : Prop := exists w w', a w = (Ret (enc u), w').
Definition may_panic {W A} (a : ST W A) : Prop := exists w, fst (a w) = Panic.

(** A formatting interrupted at some piece has made [u] of the text [t]: each piece
    before was added, or refused if it did not fit. *)
Inductive so_far (n : N) : formatting -> text -> text -> Prop :=
| sf_here p t : so_far n p t t
| sf_added w next t u : blen t + blen w <= n -> so_far n (next true) (t ++ w) u -> so_far n (FPiece w next) t u
| sf_refused w next t u : n < blen t + blen w -> so_far n (next false) t u -> so_far n (FPiece w next) t u.

(** Programs that catch panics between calls are safe with this logger. *)
Definition no_torn {W} (tr db : bool) (log : event -> ST W unit) (l : list op) : Prop :=
  Forall (fun o => inner_edit o = false) l \/ ~ panics_on tr db log EvLen.

(** A [Debug] that writes the name of the type and panics. *)
Definition named_panic : debug_impl := fun W k _ w => (Panic, snd (debug_start k (lit "ArrayString") w)).
