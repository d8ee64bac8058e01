(** The generic arguments of src/arraystring.rs: [impl AsRef<str>],
    [impl AsRef<[u16]>], [impl RangeBounds<usize>] and iterators over
    [impl AsRef<str>], as foreign code that is run at the places where the methods
    call it. It has a state [W] (interior mutability), may answer differently each
    time and may panic.

    With the feature [logs] the methods call [as_ref] once more per logged
    argument. [tr] and [db]: the feature is on and the level trace (debug) is
    enabled. What the logger does with the message is not modelled. *)
From Verif Require Import Base Char RustStd ModelError.
From Verif Require Export Model.

Section WithCfg.
Variable c : cfg.
Variables tr db : bool.
Context {W : Type}.

(** Code of the crate that holds [&mut self] next to the foreign state. *)
Definition on_self {A} (m : ST astring A) : ST (astring * W) A := fun p =>
  let '(o, s) := m (fst p) in (o, (s, snd p)).

(** Foreign code. *)
Definition on_arg {A} (m : ST W A) : ST (astring * W) A := fun p =>
  let '(o, w) := m (snd p) in (o, (fst p, w)).

(** An argument of [trace!] or [debug!]: evaluated when the level is enabled;
    src/lib.rs:108-118 removes it when the feature is off. *)
Definition logged {S A} (on : bool) (m : ST S A) : ST S unit :=
  if on then _ <~ m ;; sret tt else sret tt.

(** src/arraystring.rs:838-892 [replace_range]: [with.as_ref()] (845),
    [r.start_bound()] (846), [r.end_bound()] (851), then two more [with.as_ref()] for
    the log (861, 862). After that only the string and the bounds obtained are used. *)
Definition g_replace_range (lo hi : ST W bound) (with_ : ST W (list N)) :
    ST (astring * W) (result unit Error) :=
  str <~ on_arg with_ ;;
  l <~ on_arg lo ;;
  h <~ on_arg hi ;;
  _ <~ logged db (on_arg with_) ;;
  _ <~ logged db (on_arg with_) ;;
  on_self (replace_range c l h str).

(** src/arraystring.rs:389-396 [try_push_str]. *)
Definition g_try_push_str (string : ST W (list N)) : ST (astring * W) (result unit OutOfBounds) :=
  _ <~ logged tr (on_arg string) ;;
  len <~ on_self (sread (fun s => Ret (len s))) ;;
  r <~ g_replace_range (sret (Included len)) (sret (Excluded len)) string ;;
  sret (map_err (fun _ => mkOutOfBounds) r).

(** src/arraystring.rs:416-421 [push_str_truncate]: from [string.as_ref()] on (420)
    everything is a plain [&str]. *)
Definition g_push_str_truncate (string : ST W (list N)) : ST (astring * W) unit :=
  _ <~ logged tr (on_arg string) ;;
  b <~ on_arg string ;;
  on_self (push_str_truncate c b).

(** src/arraystring.rs:656-662 [try_insert_str]: the index is checked first. *)
Definition g_try_insert_str (idx : N) (string : ST W (list N)) : ST (astring * W) (result unit Error) :=
  _ <~ logged tr (on_arg string) ;;
  _ <~? from_oob ? on_self (sread (fun s => Ret (is_inside_boundary idx (len s)))) ;;
  g_replace_range (sret (Included idx)) (sret (Excluded idx)) string.

(** src/arraystring.rs:690-703 [insert_str_truncate]. *)
Definition g_insert_str_truncate (idx : N) (string : ST W (list N)) : ST (astring * W) (result unit Error) :=
  _ <~ logged tr (on_arg string) ;;
  b <~ on_arg string ;;
  on_self (insert_str_truncate c idx b).

(** src/arraystring.rs:790-820 [drain]: [start_bound()] (793), [end_bound()] (798). *)
Definition g_drain (lo hi : ST W bound) : ST (astring * W) (result astring Error) :=
  l <~ on_arg lo ;;
  h <~ on_arg hi ;;
  on_self (drain c l h).

(** A method called on a local string that starts as [new()]; the string is dropped
    when the call does not return. *)
Definition g_local {A B} (m : ST (astring * W) A) (k : A -> astring -> B) : ST W B := fun w =>
  let '(o, (s, w)) := m (new c, w) in (omap (fun a => k a s) o, w).

(** src/arraystring.rs:72-79 [try_from_str]; 97-104 [from_str_truncate]. *)
Definition g_try_from_str (string : ST W (list N)) : ST W (result astring OutOfBounds) :=
  _ <~ logged tr string ;;
  g_local (g_try_push_str string) (fun r s => map_ok (fun _ => s) r).
Definition g_from_str_truncate (string : ST W (list N)) : ST W astring :=
  _ <~ logged tr string ;;
  g_local (g_push_str_truncate string) (fun _ s => s).

(** src/arraystring.rs:245-254, 278-289, 312-323: the constructors from UTF-16 call
    [slice.as_ref()] once (250, 283, 317), and once for the log. *)
Definition g_utf16 {A} (from : list N -> outcome A) (slice : ST W (list N)) : ST W A :=
  _ <~ logged db slice ;;
  b <~ slice ;;
  slift (from b).

(** [for x in iter { body }] where [next] and the body share the foreign state. *)
Fixpoint g_for {A R} (fuel : nat) (next : ST W (option A)) (body : A -> ST (astring * W) (flow R)) :
    ST (astring * W) (option R) :=
  match fuel with
  | O => slift Diverge
  | S fuel =>
      o <~ on_arg next ;;
      match o with
      | None => sret None
      | Some a =>
          f <~ body a ;;
          match f with
          | Continue => g_for fuel next body
          | Break => sret None
          | Return r => sret (Some r)
          end
      end
  end.

(** src/arraystring.rs:121-132 [try_from_iterator]; [as_ref x] is the item's [as_ref()]. *)
Definition g_try_from_iterator {A} (fuel : nat) (next : ST W (option A)) (as_ref : A -> ST W (list N)) :
    ST W (result astring OutOfBounds) :=
  g_local
    (g_for fuel next (fun x =>
       r <~ g_try_push_str (as_ref x) ;; sret (match r with Ok _ => Continue | Err e => Return e end)))
    (fun o s => match o with None => Ok s | Some e => Err e end).

(** src/arraystring.rs:153-165 [from_iterator_truncate]: [s.as_ref()] (159) hands a
    [&str] to [try_push_str]; [push_str_truncate(s)] (160) calls [as_ref] again. *)
Definition g_from_iterator_truncate {A} (fuel : nat) (next : ST W (option A)) (as_ref : A -> ST W (list N)) :
    ST W astring :=
  g_local
    (g_for (R := Empty_set) fuel next (fun x =>
       b <~ on_arg (as_ref x) ;;
       r <~ on_self (try_push_str c b) ;;
       match r with
       | Ok _ => sret Continue
       | Err _ => _ <~ g_push_str_truncate (as_ref x) ;; sret Break
       end))
    (fun _ s => s).

End WithCfg.
