(** What the commands of a program tell the logger: the vocabulary of PropLogProgLines.v.
    Nothing here refers to the functions of the model. *)
From Verif Require Import Base Char Spec RustStd RustFmt ModelError Model ModelDrain TextOps.
From Verif Require Export ObsLogStory ModelProg ObsProg.

(** One call of [next] on an iterator with the text [u]. *)
Definition next_lines (u : text) : list event :=
  EvRemove 0 :: match u with [] => [] | x :: _ => [edit_line u 0 (clen x) []] end.

(** A new string of capacity [n], with the text [t] so far, reads an iterator with the
    text [u]: each character is taken from the one and goes to the end of the other,
    until none is left or one has no room. *)
Fixpoint take_lines (n : N) (t u : text) : list event :=
  match u with
  | [] => [EvRemove 0]
  | x :: r =>
      EvRemove 0 :: edit_line u 0 (clen x) [] :: push_line t [x] ::
      (if blen t + clen x <=? n then take_lines n (t ++ [x]) r else [])
  end.

(** The debug messages of a command, in order. *)
Definition cmd_lines (umax : N) (p : cmd) (w : list tvar) : list event :=
  match p with
  | PMake n k => build_lines n k
  | PFrom _ j => match nth_error w j with Some y => [push_line [] (ttext y)] | None => [] end
  | PCall i o =>
      match nth_error w i with Some (mktvar false n t) => debug_lines umax n o t | _ => [] end
  | PWith i a j =>
      match nth_error w i, nth_error w j with
      | Some (mktvar false n t), Some y => if Nat.eqb i j then [] else debug_lines umax n (with_text a (ttext y)) t
      | _, _ => []
      end
  | PWriteTo i j _ =>
      match nth_error w i, nth_error w j with
      | Some (mktvar false n t), Some (mktvar false _ u) => if Nat.eqb i j then [] else [push_line t u]
      | _, _ => []
      end
  | PSplit i m =>
      match nth_error w i with
      | Some (mktvar false n t) => EvSplitOff :: drain_lines umax (Included m) Unbounded t
      | _ => []
      end
  | PDrain i lo hi =>
      match nth_error w i with Some (mktvar false n t) => drain_lines umax lo hi t | _ => [] end
  | PNext j front =>
      match nth_error w j with
      | Some (mktvar true n u) => if front then next_lines u else [EvPop]
      | _ => []
      end
  | PExtend i j =>
      match nth_error w i, nth_error w j with
      | Some (mktvar false n t), Some (mktvar true _ u) =>
          take_lines n [] u ++ [push_line t (fit (n - blen t) (fit n u))]
      | _, _ => []
      end
  | PCollect n j =>
      match nth_error w j with Some (mktvar true _ u) => take_lines n [] u | _ => [] end
  | PCopy _ | PEq _ _ | PCmp _ _ | PSwap _ _ => []
  end.

Fixpoint program_lines (umax : N) (l : list cmd) (w : list tvar) : list event :=
  match l with
  | [] => []
  | p :: l => cmd_lines umax p w ++ program_lines umax l (snd (t_cmd umax p w))
  end.

(** ** All messages but "Len" and "As str" *)

(** One call of [next] on an iterator of capacity [m]. *)
Definition next_story (m : N) (u : text) : list event :=
  match u with
  | [] => [EvRemove 0; EvInside 1 0; EvFromOutOfBounds]
  | x :: _ => EvRemove 0 :: EvInside 1 (blen u) :: EvBoundary (enc u) 0 :: edit_story m u 0 (clen x) []
  end.

Fixpoint take_story (n m : N) (t u : text) : list event :=
  next_story m u ++
  match u with
  | [] => []
  | x :: r => push_char_story n t x ++ (if blen t + clen x <=? n then take_story n m (t ++ [x]) r else [])
  end.

(** The messages of a command, in order; [v] are the variables, for the messages that
    show one. *)
Definition cmd_story (umax : N) (p : cmd) (v : list var) (w : list tvar) : list event :=
  let call i o :=
    match nth_error v i, nth_error w i with
    | Some (VStr _ self), Some (mktvar false n t) => story n umax self o t
    | _, _ => []
    end in
  match p with
  | PMake n k => build_story n k
  | PFrom n j =>
      match nth_error w j with Some y => EvTryFromStr (enc (ttext y)) :: push_story n [] (ttext y) | None => [] end
  | PCall i o => call i o
  | PWith i a j =>
      match nth_error w j with
      | Some y => if Nat.eqb i j then [] else call i (with_text a (ttext y))
      | None => []
      end
  | PWriteTo i j _ =>
      match nth_error w i, nth_error w j with
      | Some (mktvar false n t), Some (mktvar false _ u) => if Nat.eqb i j then [] else push_story n t u
      | _, _ => []
      end
  | PSplit i m => call i (OSplitOff m)
  | PDrain i lo hi => call i (ODrain lo hi)
  | PNext j front =>
      match nth_error w j with
      | Some (mktvar true m u) => if front then next_story m u else [EvPop]
      | _ => []
      end
  | PExtend i j =>
      match nth_error w i, nth_error w j with
      | Some (mktvar false n t), Some (mktvar true m u) =>
          EvFromCharsTruncate :: take_story n m [] u ++ push_cut_story n t (fit n u)
      | _, _ => []
      end
  | PCollect n j =>
      match nth_error w j with
      | Some (mktvar true m u) => EvFromCharsTruncate :: take_story n m [] u
      | _ => []
      end
  | PCopy _ | PEq _ _ | PCmp _ _ | PSwap _ _ => []
  end.

(** The log of a program is that of its commands one after the other, each with the story
    of the command on variables [v] that show the texts at that time. *)
Fixpoint program_told (c : cfg) (tr db : bool) (l : list cmd) (u : list tvar) (m : list event) : Prop :=
  match l with
  | [] => m = []
  | p :: l => exists v m1 m2, m = m1 ++ m2 /\ world_shows c v u /\
      story_grew tr db [] (cmd_story (usize_max c) p v u) m1 /\
      program_told c tr db l (snd (t_cmd (usize_max c) p u)) m2
  end.
