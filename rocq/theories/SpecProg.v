(** Programs with several variables, on texts (C70). A variable holds a string or a
    draining iterator. Nothing here refers to the model of the crate. *)
From Verif Require Import Base Char Spec RustStd RustFmt ModelError.
From Verif Require Export SpecOps.

(** Methods that take a string and are given the text of another variable. *)
Inductive arg_op : Type :=
| APush
| APushTruncate
| AInsert (i : N)
| AInsertTruncate (i : N)
| AReplace (lo hi : bound)
| AAdd.

Inductive cmd : Type :=
| PMake (n : N) (k : ctor)              (* let x = an ArrayString<n> made by [k] *)
| PFrom (n : N) (j : nat)               (* let x = ArrayString::<n>::try_from_str(y) *)
| PCopy (j : nat)                       (* let x = y.clone() *)
| PCall (i : nat) (o : op)              (* a call on x *)
| PWith (i : nat) (a : arg_op) (j : nat) (* a call on x with the text of y *)
| PWriteTo (i j : nat) (sp : fmtspec)   (* write!(x, "{}", y), with any flags *)
| PSplit (i : nat) (n : N)              (* let y = x.split_off(n) *)
| PDrain (i : nat) (lo hi : bound)      (* let y = x.drain(lo..hi) *)
| PNext (j : nat) (front : bool)        (* y.next() or y.next_back() *)
| PExtend (i j : nat)                   (* x.extend(&mut y), y a draining iterator *)
| PCollect (n : N) (j : nat)            (* let x: ArrayString<n> = (&mut y).collect() *)
| PEq (i j : nat)                       (* x == y.as_str() *)
| PCmp (i j : nat)                      (* x.cmp(&y) *)
| PSwap (i j : nat).                    (* mem::swap(&mut x, &mut y) *)

(** What a command answers. *)
Inductive pout : Type :=
| PRet (r : out)
| PMade (r : result unit Error)
| POrd (o : comparison)
| PDone.

(** The order of two texts: by the first character that differs, a prefix first. *)
Fixpoint order (a b : text) : comparison :=
  match a, b with
  | [], [] => Eq
  | [], _ :: _ => Lt
  | _ :: _, [] => Gt
  | x :: a, y :: b => match code x ?= code y with Eq => order a b | o => o end
  end.

(** A variable: is it a draining iterator, its capacity, its text. *)
Record tvar : Type := mktvar { is_drain : bool; tcap : N; ttext : text }.

Fixpoint set_nth {A} (i : nat) (x : A) (l : list A) : list A :=
  match l, i with
  | [], _ => []
  | _ :: l, O => x :: l
  | y :: l, S i => y :: set_nth i x l
  end.

Definition with_text (a : arg_op) (u : text) : op :=
  match a with
  | APush => OTryPushStr u
  | APushTruncate => OPushStrTruncate u
  | AInsert i => OTryInsertStr i u
  | AInsertTruncate i => OInsertStrTruncate i u
  | AReplace lo hi => OReplaceRange lo hi u
  | AAdd => OAdd u
  end.

(** A new variable, or the error. *)
Definition t_made (dr : bool) (n : N) (r : result text Error) (w : list tvar) : outcome pout * list tvar :=
  match r with
  | Ok t => (Ret (PMade (Ok tt)), w ++ [mktvar dr n t])
  | Err e => (Ret (PMade (Err e)), w)
  end.

(** [None]: the command does not fit the variables: a program the compiler rejects
    (wrong types, or a variable borrowed twice). *)
Definition t_cmd (umax : N) (p : cmd) (w : list tvar) : option (outcome pout) * list tvar :=
  let some (r : outcome pout * list tvar) := (Some (fst r), snd r) in
  let call i n o t := let '(r, t') := t_op umax n o t in (Some (omap PRet r), set_nth i (mktvar false n t') w) in
  match p with
  | PMake n k =>
      match t_ctor n k with
      | Ret r => some (t_made false n r w)
      | Panic => (Some Panic, w)
      | UB => (Some UB, w)
      | Diverge => (Some Diverge, w)
      end
  | PFrom n j =>
      match nth_error w j with
      | Some y => some (t_made false n (if blen (ttext y) <=? n then Ok (ttext y) else Err EOutOfBounds) w)
      | None => (None, w)
      end
  | PCopy j => match nth_error w j with Some y => (Some (Ret PDone), w ++ [y]) | None => (None, w) end
  | PCall i o => match nth_error w i with Some (mktvar false n t) => call i n o t | _ => (None, w) end
  | PWith i a j =>
      match nth_error w i, nth_error w j with
      | Some (mktvar false n t), Some y =>
          if Nat.eqb i j then (None, w) else call i n (with_text a (ttext y)) t
      | _, _ => (None, w)
      end
  | PWriteTo i j _ =>
      match nth_error w i, nth_error w j with
      | Some (mktvar false n t), Some (mktvar false _ u) =>
          if Nat.eqb i j then (None, w) else call i n (OWriteStr u) t
      | _, _ => (None, w)
      end
  | PSplit i m =>
      match nth_error w i with
      | Some (mktvar false n t) =>
          let '(r, t') := t_split_off m t in some (t_made false n r (set_nth i (mktvar false n t') w))
      | _ => (None, w)
      end
  | PDrain i lo hi =>
      match nth_error w i with
      | Some (mktvar false n t) =>
          let '(r, t') := t_drain umax lo hi t in some (t_made true n r (set_nth i (mktvar false n t') w))
      | _ => (None, w)
      end
  | PNext j front =>
      match nth_error w j with
      | Some (mktvar true n u) =>
          let '(r, u') := t_deque_step front u in
          (Some (Ret (PRet (ROptChar r))), set_nth j (mktvar true n u') w)
      | _ => (None, w)
      end
  | PExtend i j =>
      match nth_error w i, nth_error w j with
      | Some (mktvar false n t), Some (mktvar true m u) =>
          (* collected into a string of x's capacity first; the item that does not fit is lost *)
          let v := fit n u in
          (Some (Ret PDone), set_nth j (mktvar true m (skipn (S (length v)) u))
                               (set_nth i (mktvar false n (t_extend n v t)) w))
      | _, _ => (None, w)
      end
  | PCollect n j =>
      match nth_error w j with
      | Some (mktvar true m u) =>
          let v := fit n u in
          some (t_made false n (Ok v) (set_nth j (mktvar true m (skipn (S (length v)) u)) w))
      | _ => (None, w)
      end
  | PEq i j =>
      match nth_error w i, nth_error w j with
      | Some (mktvar false n t), Some y => (Some (omap PRet (fst (t_op umax n (OEqStr (ttext y)) t))), w)
      | _, _ => (None, w)
      end
  | PCmp i j =>
      match nth_error w i, nth_error w j with
      | Some x, Some y =>
          if Bool.eqb (is_drain x) (is_drain y) && (tcap x =? tcap y)
          then (Some (Ret (POrd (order (ttext x) (ttext y)))), w) else (None, w)
      | _, _ => (None, w)
      end
  | PSwap i j =>
      match nth_error w i, nth_error w j with
      | Some x, Some y =>
          if Bool.eqb (is_drain x) (is_drain y) && (tcap x =? tcap y) && negb (Nat.eqb i j)
          then (Some (Ret PDone), set_nth i y (set_nth j x w)) else (None, w)
      | _, _ => (None, w)
      end
  end.

Fixpoint t_cmds (umax : N) (l : list cmd) (w : list tvar) : list (option (outcome pout)) * list tvar :=
  match l with
  | [] => ([], w)
  | p :: l =>
      let '(r, w1) := t_cmd umax p w in
      let '(rs, w2) := t_cmds umax l w1 in (r :: rs, w2)
  end.

(** The types of the arguments: capacities 1..=255, [u16] units, ranges of [u8]. *)
Definition typed_cmd (p : cmd) : Prop :=
  match p with
  | PMake n k => 1 <= n <= 255 /\ typed_ctor k
  | PFrom n _ | PCollect n _ => 1 <= n <= 255
  | PCall _ o => typed_op o
  | _ => True
  end.

(** Arguments that always return; that may also panic. *)
Definition benign_cmd (p : cmd) : Prop :=
  match p with PMake _ k => benign_ctor k | PCall _ o => benign o | _ => True end.
Definition harmless_cmd (p : cmd) : Prop :=
  match p with PMake _ k => harmless_ctor k | PCall _ o => harmless o | _ => True end.

(** The variables a command may change. *)
Definition changes (p : cmd) (k : nat) : Prop :=
  match p with
  | PCall i _ | PWith i _ _ | PWriteTo i _ _ | PSplit i _ | PDrain i _ _ => k = i
  | PNext j _ | PCollect _ j => k = j
  | PExtend i j | PSwap i j => k = i \/ k = j
  | _ => False
  end.
