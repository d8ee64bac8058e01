(** Running the programs of SpecProg.v with the feature [logs]: [run_cmd] of ModelProg.v
    over the functions of ModelLogs.v (which cite /repo). All variables share the one
    logger of the process. *)
From Verif Require Import Base Char RustStd RustFmt ModelError Model ModelImpl ModelDrain ModelLogs.
From Verif Require Export ModelProg.

Section WithLog.
Variable c : cfg.
Variables tr db : bool.
Context {W : Type}.
Variable log : event -> ST W unit.

Local Notation at_cap := (for_cap c).

(** [y.as_str()]: src/arraystring.rs:338-341; src/drain.rs:93-96, on the string inside. *)
Definition l_var_str (v : var) : ST W (list N) :=
  match v with
  | VStr n s => l_as_str (at_cap n) tr log s
  | VDrain n d => l_as_str (at_cap n) tr log (drained d)
  end.

Definition l_run_with (n : N) (a : arg_op) (b : list N) : ST (astring * W) out :=
  match a with
  | APush => l_out ROob (l_try_push_str (at_cap n) tr db log (sret b))
  | APushTruncate => l_out (fun _ => RUnit) (l_push_str_truncate (at_cap n) tr db log (sret b))
  | AInsert i => l_out RErr (l_try_insert_str (at_cap n) tr db log i (sret b))
  | AInsertTruncate i => l_out RErr (l_insert_str_truncate (at_cap n) tr db log i (sret b))
  | AReplace lo hi => l_out RErr (l_replace_range (at_cap n) tr db log lo hi (sret b))
  | AAdd => fun p =>
      match l_add (at_cap n) tr db log (fst p) b (snd p) with
      | (Ret s', w) => (Ret RUnit, (s', w))
      | (Panic, w) => (Panic, (fst p, w))
      | (UB, w) => (UB, (fst p, w))
      | (Diverge, w) => (Diverge, (fst p, w))
      end
  end.

(** [for] over an iterator that logs, too: [for_loop] of RustStd.v with the logger's
    state passed to the iterator and to the body in turn. *)
Fixpoint l_for_loop {IT A R} (fuel : nat) (next : ST (IT * W) (option A)) (body : A -> ST (astring * W) (flow R))
    (it : IT) (x : astring * W) : outcome (option R) * IT * (astring * W) :=
  match fuel with
  | O => (Diverge, it, x)
  | S fuel =>
      let '(o, (it, w)) := next (it, snd x) in
      match o with
      | Ret None => (Ret None, it, (fst x, w))
      | Ret (Some a) =>
          match body a (fst x, w) with
          | (Ret Continue, x) => l_for_loop fuel next body it x
          | (Ret Break, x) => (Ret None, it, x)
          | (Ret (Return r), x) => (Ret (Some r), it, x)
          | (Panic, x) => (Panic, it, x)
          | (UB, x) => (UB, it, x)
          | (Diverge, x) => (Diverge, it, x)
          end
      | Panic => (Panic, it, (fst x, w))
      | UB => (UB, it, (fst x, w))
      | Diverge => (Diverge, it, (fst x, w))
      end
  end.

(** src/arraystring.rs:210-221 [from_chars_truncate] from a draining iterator, whose
    [next] is src/drain.rs:105-108: both log. *)
Definition l_next (m : N) : ST (Drain * W) (option char) := fun p =>
  let '(r, (s, w)) := l_drain_next (at_cap m) tr db log (drained (fst p), snd p) in (r, (mkDrain s, w)).
Definition l_next_back (m : N) : ST (Drain * W) (option char) := fun p =>
  let '(r, (s, w)) := l_drain_next_back (at_cap m) tr db log (drained (fst p), snd p) in (r, (mkDrain s, w)).

Definition l_from_drain (n m : N) (d : Drain) : W -> outcome astring * Drain * W :=
  l_from_loop (R := Empty_set) (trace tr log EvFromCharsTruncate) d
    (fun w => l_for_loop (char_fuel (at_cap n)) (l_next m)
       (fun ch => l_or_break (l_try_push (at_cap n) tr db log ch)) d (new (at_cap n), w))
    (fun s => s) (fun e => match e with end).

(** A new variable, or the error. *)
Definition l_made (r : outcome (result var Error)) (v : list var) (w : W) : option (outcome pout) * list var * W :=
  (Some (fst (made r v)), snd (made r v), w).

Definition l_run_cmd (p : cmd) (v : list var) (w : W) : option (outcome pout) * list var * W :=
  let call i n (r : outcome out * (astring * W)) :=
    (Some (omap PRet (fst r)), set_nth i (VStr n (fst (snd r))) v, snd (snd r)) in
  match p with
  | PMake n k => let '(r, w) := l_build (at_cap n) tr db log k w in l_made (omap (map_ok (VStr n)) r) v w
  | PFrom n j =>
      match nth_error v j with
      | Some y =>
          let '(r, w) := (b <~ l_var_str y ;;
                          r <~ l_try_from_str (at_cap n) tr db log (sret b) ;;
                          sret (map_ok (VStr n) (map_err from_oob r))) w in
          l_made r v w
      | None => (None, v, w)
      end
  | PCopy j =>
      match nth_error v j with
      | Some (VStr n s) => (Some (Ret PDone), v ++ [VStr n s], w)
      | Some (VDrain n d) => (Some (Ret PDone), v ++ [VDrain n (drain_clone d)], w)
      | None => (None, v, w)
      end
  | PCall i o =>
      match nth_error v i with
      | Some (VStr n s) => call i n (l_run_op (at_cap n) tr db log o (s, w))
      | _ => (None, v, w)
      end
  | PWith i a j =>
      match nth_error v i, nth_error v j with
      | Some (VStr n s), Some y =>
          if Nat.eqb i j then (None, v, w) else
          call i n ((b <~ on_arg (l_var_str y) ;; l_run_with n a b) (s, w))
      | _, _ => (None, v, w)
      end
  | PWriteTo i j sp =>
      match nth_error v i, nth_error v j with
      | Some (VStr n s), Some (VStr m s') =>
          if Nat.eqb i j then (None, v, w) else
          (* src/implementations.rs:223-232 [Display] of y, writing to x *)
          call i n (l_out (fun r => RFmt (is_ok r))
            (b <~ on_arg (l_as_str (at_cap m) tr log s') ;;
             write_one_str (mksink (l_write_str (at_cap n) tr db log)
               (fun ch => b <~ slift (encode_utf8 ch 4) ;; l_write_str (at_cap n) tr db log b)) b) (s, w))
      | _, _ => (None, v, w)
      end
  | PSplit i m =>
      match nth_error v i with
      | Some (VStr n s) =>
          let '(r, (s', w)) := l_split_off (at_cap n) tr db log m (s, w) in
          l_made (omap (map_ok (VStr n)) r) (set_nth i (VStr n s') v) w
      | _ => (None, v, w)
      end
  | PDrain i lo hi =>
      match nth_error v i with
      | Some (VStr n s) =>
          let '(r, (s', w)) := l_drain (at_cap n) tr db log lo hi (s, w) in
          l_made (omap (map_ok (fun a => VDrain n (mkDrain a))) r) (set_nth i (VStr n s') v) w
      | _ => (None, v, w)
      end
  | PNext j front =>
      match nth_error v j with
      | Some (VDrain n d) =>
          let '(r, (d', w)) := (if front then l_next n else l_next_back n) (d, w) in
          (Some (omap (fun o => PRet (ROptChar o)) r), set_nth j (VDrain n d') v, w)
      | _ => (None, v, w)
      end
  | PExtend i j =>
      match nth_error v i, nth_error v j with
      | Some (VStr n s), Some (VDrain m d) =>
          let '(r, d', s', w) := l_extend_with (at_cap n) tr db log (l_from_drain n m d) s w in
          (Some (omap (fun _ => PDone) r), set_nth j (VDrain m d') (set_nth i (VStr n s') v), w)
      | _, _ => (None, v, w)
      end
  | PCollect n j =>
      match nth_error v j with
      | Some (VDrain m d) =>
          let '(r, d', w) := l_from_drain n m d w in
          l_made (omap (fun s => Ok (VStr n s)) r) (set_nth j (VDrain m d') v) w
      | _ => (None, v, w)
      end
  | PEq i j =>
      match nth_error v i, nth_error v j with
      | Some (VStr n s), Some y =>
          let '(r, w) := (b <~ l_var_str y ;; a <~ l_as_str (at_cap n) tr log s ;; sret (str_eq a b)) w in
          (Some (omap (fun b => PRet (RBool b)) r), v, w)
      | _, _ => (None, v, w)
      end
  | PCmp i j =>
      match nth_error v i, nth_error v j with
      | Some (VStr n s), Some (VStr m s') =>
          if n =? m then
            let '(r, w) := l_ord_cmp (at_cap n) tr log s s' w in (Some (omap POrd r), v, w)
          else (None, v, w)
      | Some (VDrain n d), Some (VDrain m d') =>
          (* src/drain.rs:58-66, the same body on [Drain::as_str] *)
          if n =? m then
            let '(r, w) := l_ord_cmp (at_cap n) tr log (drained d) (drained d') w in (Some (omap POrd r), v, w)
          else (None, v, w)
      | _, _ => (None, v, w)
      end
  | PSwap i j => let '(r, v) := run_cmd c (PSwap i j) v in (r, v, w)
  end.

Fixpoint l_run_cmds (l : list cmd) (v : list var) (w : W) : list (option (outcome pout)) * list var * W :=
  match l with
  | [] => ([], v, w)
  | p :: l =>
      let '(r, v1, w1) := l_run_cmd p v w in
      let '(rs, v2, w2) := l_run_cmds l v1 w1 in (r :: rs, v2, w2)
  end.

End WithLog.
