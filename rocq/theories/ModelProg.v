(** Running the programs of SpecProg.v on the model: a dispatcher over the functions
    of Model.v, ModelImpl.v and ModelDrain.v (which cite /repo). The build fixes word
    size and profile; every variable has the capacity of its type. *)
From Verif Require Import Base Char.
From Verif Require Export ModelOps SpecProg.

Inductive var : Type :=
| VStr (n : N) (s : astring)   (* an [ArrayString<n>] *)
| VDrain (n : N) (d : Drain).  (* a [Drain<n>] *)

Section WithCfg.
Variable c : cfg.

Definition for_cap (n : N) : cfg := mkcfg (usize_max c) (debug c) n.

(** [y.as_str()]. *)
Definition var_str (v : var) : outcome (list N) :=
  match v with
  | VStr n s => as_str (for_cap n) s
  | VDrain n d => drain_as_str (for_cap n) d
  end.

Definition run_with (n : N) (a : arg_op) (b : list N) : ST astring out := fun s =>
  match a with
  | APush => to_out ROob (try_push_str (for_cap n) b) s
  | APushTruncate => to_out (fun _ => RUnit) (push_str_truncate (for_cap n) b) s
  | AInsert i => to_out RErr (try_insert_str (for_cap n) i b) s
  | AInsertTruncate i => to_out RErr (insert_str_truncate (for_cap n) i b) s
  | AReplace lo hi => to_out RErr (replace_range (for_cap n) lo hi b) s
  | AAdd => match add (for_cap n) s b with
            | Ret s' => (Ret RUnit, s')
            | Panic => (Panic, s)
            | UB => (UB, s)
            | Diverge => (Diverge, s)
            end
  end.

(** A new variable, or the error. *)
Definition made (r : outcome (result var Error)) (w : list var) : outcome pout * list var :=
  match r with
  | Ret (Ok v) => (Ret (PMade (Ok tt)), w ++ [v])
  | Ret (Err e) => (Ret (PMade (Err e)), w)
  | Panic => (Panic, w)
  | UB => (UB, w)
  | Diverge => (Diverge, w)
  end.

Definition run_cmd (p : cmd) (w : list var) : option (outcome pout) * list var :=
  let some (r : outcome pout * list var) := (Some (fst r), snd r) in
  let call i n (r : outcome out * astring) := (Some (omap PRet (fst r)), set_nth i (VStr n (snd r)) w) in
  match p with
  | PMake n k => some (made (omap (map_ok (VStr n)) (build (for_cap n) k)) w)
  | PFrom n j =>
      match nth_error w j with
      | Some y =>
          some (made (b <- var_str y ;;
                      r <- try_from_str (for_cap n) b ;; Ret (map_ok (VStr n) (map_err from_oob r))) w)
      | None => (None, w)
      end
  | PCopy j =>
      match nth_error w j with
      | Some (VStr n s) => (Some (Ret PDone), w ++ [VStr n s])
      | Some (VDrain n d) => (Some (Ret PDone), w ++ [VDrain n (drain_clone d)])
      | None => (None, w)
      end
  | PCall i o =>
      match nth_error w i with
      | Some (VStr n s) => call i n (run_op (for_cap n) o s)
      | _ => (None, w)
      end
  | PWith i a j =>
      match nth_error w i, nth_error w j with
      | Some (VStr n s), Some y =>
          if Nat.eqb i j then (None, w) else
          call i n ((b <~ slift (var_str y) ;; run_with n a b) s)
      | _, _ => (None, w)
      end
  | PWriteTo i j sp =>
      match nth_error w i, nth_error w j with
      | Some (VStr n s), Some (VStr m s') =>
          if Nat.eqb i j then (None, w) else
          call i n (to_out (fun r => RFmt (is_ok r))
            (display (for_cap m) (mksink (write_str (for_cap n)) (write_char (for_cap n))) sp s') s)
      | _, _ => (None, w)
      end
  | PSplit i m =>
      match nth_error w i with
      | Some (VStr n s) =>
          let '(r, s') := split_off (for_cap n) m s in
          some (made (omap (map_ok (VStr n)) r) (set_nth i (VStr n s') w))
      | _ => (None, w)
      end
  | PDrain i lo hi =>
      match nth_error w i with
      | Some (VStr n s) =>
          let '(r, s') := drain_iter (for_cap n) lo hi s in
          some (made (omap (map_ok (VDrain n)) r) (set_nth i (VStr n s') w))
      | _ => (None, w)
      end
  | PNext j front =>
      match nth_error w j with
      | Some (VDrain n d) =>
          let '(r, d') := (if front then drain_next (for_cap n) d else drain_next_back (for_cap n) d) in
          (Some (omap (fun o => PRet (ROptChar o)) r), set_nth j (VDrain n d') w)
      | _ => (None, w)
      end
  | PExtend i j =>
      match nth_error w i, nth_error w j with
      | Some (VStr n s), Some (VDrain m d) =>
          let '(r, d', s') := extend_chars (for_cap n) (char_fuel (for_cap n)) (drain_iterator (for_cap m)) d s in
          (Some (omap (fun _ => PDone) r), set_nth j (VDrain m d') (set_nth i (VStr n s') w))
      | _, _ => (None, w)
      end
  | PCollect n j =>
      match nth_error w j with
      | Some (VDrain m d) =>
          let '(r, d') := from_iter_chars (for_cap n) (char_fuel (for_cap n)) (drain_iterator (for_cap m)) d in
          some (made (omap (fun s => Ok (VStr n s)) r) (set_nth j (VDrain m d') w))
      | _ => (None, w)
      end
  | PEq i j =>
      match nth_error w i, nth_error w j with
      | Some (VStr n s), Some y =>
          (Some (omap (fun b => PRet (RBool b)) (b <- var_str y ;; eq_str (for_cap n) s b)), w)
      | _, _ => (None, w)
      end
  | PCmp i j =>
      match nth_error w i, nth_error w j with
      | Some (VStr n s), Some (VStr m s') =>
          if n =? m then (Some (omap POrd (ord_cmp (for_cap n) s s')), w) else (None, w)
      | Some (VDrain n d), Some (VDrain m d') =>
          if n =? m then (Some (omap POrd (drain_cmp (for_cap n) d d')), w) else (None, w)
      | _, _ => (None, w)
      end
  | PSwap i j =>
      match nth_error w i, nth_error w j with
      | Some x, Some y =>
          let same := match x, y with
                      | VStr n _, VStr m _ | VDrain n _, VDrain m _ => n =? m
                      | _, _ => false
                      end in
          if same && negb (Nat.eqb i j) then (Some (Ret PDone), set_nth i y (set_nth j x w)) else (None, w)
      | _, _ => (None, w)
      end
  end.

Fixpoint run_cmds (l : list cmd) (w : list var) : list (option (outcome pout)) * list var :=
  match l with
  | [] => ([], w)
  | p :: l =>
      let '(r, w1) := run_cmd p w in
      let '(rs, w2) := run_cmds l w1 in (r :: rs, w2)
  end.

End WithCfg.
