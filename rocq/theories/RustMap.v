(** Model of std's [HashMap] and [BTreeMap] as their keys see them: which
    functions of the key type a call runs, and what it does with the answers. *)
From Verif Require Import Base.
From Verif Require Export RustStd.

(** A call of a map with keys of type [K]: [insert(k, v)], [get(q)] and
    [remove(q)] with a borrowed [&str], [get(&k)] with a key. *)
Inductive map_call (K V : Type) : Type :=
| KInsert (k : K) (v : V)
| KGet (q : list N)
| KGetKey (k : K)
| KRemove (q : list N).
Arguments KInsert {K V}. Arguments KGet {K V}. Arguments KGetKey {K V}. Arguments KRemove {K V}.

Section Maps.
Context {K V : Type}.
(** [<K as Borrow<str>>::borrow]. *)
Variable kborrow : K -> outcome (list N).

(** ** [HashMap<K, V>] *)
Section HashMap.
(** The [Hasher] with the state a [BuildHasher] starts it with, its [finish], and
    the part of the hash that the table compares before it asks [eq] (hashbrown
    keeps seven bits and a position, both functions of the hash). *)
Variable h : hasher.
Variable start : hstate h.
Variable finish : hstate h -> N.
Variable slot : N -> N.
(** [K: Hash] and [K: Eq]. *)
Variable khash : K -> hstate h -> outcome (hstate h).
Variable keq : K -> K -> outcome bool.

(** The table: for each entry its slot, key and value. *)
Definition hash_table : Type := list (N * K * V).

(** What iterating over the map yields, in the order of the table. *)
Definition table_entries (m : hash_table) : list (K * V) := map (fun e => let '(_, k, v) := e in (k, v)) m.

(** The entries before the one that is found, that one and those after it. *)
Fixpoint table_find (p : N) (same : K -> outcome bool) (m : hash_table) :
    outcome (option (hash_table * (K * V) * hash_table)) :=
  match m with
  | [] => Ret None
  | (p', k, v) :: m' =>
      hit <- (if p' =? p then same k else Ret false) ;;
      if hit then Ret (Some ([], (k, v), m'))
      else
        r <- table_find p same m' ;;
        Ret (match r with
             | Some (a, kv, b) => Some ((p', k, v) :: a, kv, b)
             | None => None
             end)
  end.

Definition key_slot (k : K) : outcome N := st <- khash k start ;; Ret (slot (finish st)).
Definition str_slot (q : list N) : N := slot (finish (str_hash h q start)).
(** [q.eq(key.borrow())], for [str]. *)
Definition str_is (q : list N) (k : K) : outcome bool := b <- kborrow k ;; Ret (str_eq q b).

(** [insert] keeps the key that is already there. *)
Definition hash_map_call (o : map_call K V) (m : hash_table) : outcome (option V * hash_table) :=
  match o with
  | KInsert k v =>
      p <- key_slot k ;;
      r <- table_find p (keq k) m ;;
      Ret (match r with
           | Some (a, (k', v'), b) => (Some v', a ++ (p, k', v) :: b)
           | None => (None, (p, k, v) :: m)
           end)
  | KGet q =>
      r <- table_find (str_slot q) (str_is q) m ;;
      Ret (match r with Some (_, (_, v), _) => Some v | None => None end, m)
  | KGetKey k =>
      p <- key_slot k ;;
      r <- table_find p (keq k) m ;;
      Ret (match r with Some (_, (_, v), _) => Some v | None => None end, m)
  | KRemove q =>
      r <- table_find (str_slot q) (str_is q) m ;;
      Ret (match r with Some (a, (_, v), b) => (Some v, a ++ b) | None => (None, m) end)
  end.

Fixpoint hash_map_run (os : list (map_call K V)) (m : hash_table) : outcome (list (option V) * hash_table) :=
  match os with
  | [] => Ret ([], m)
  | o :: os =>
      p <- hash_map_call o m ;;
      let '(x, m) := p in
      p <- hash_map_run os m ;;
      let '(xs, m) := p in Ret (x :: xs, m)
  end.
End HashMap.

(** ** [BTreeMap<K, V>] *)
Section BTreeMap.
(** [K: Ord]. *)
Variable kcmp : K -> K -> outcome comparison.

(** The entries in the order in which the tree holds them. A search compares the
    key it looks for with those of a node from the left until it is not greater;
    here the tree is a single node. *)
Definition tree : Type := list (K * V).

Fixpoint tree_search (cmp : K -> outcome comparison) (m : tree) : outcome (tree * option (K * V) * tree) :=
  match m with
  | [] => Ret ([], None, [])
  | (k, v) :: m' =>
      o <- cmp k ;;
      match o with
      | Gt => r <- tree_search cmp m' ;; let '(a, x, b) := r in Ret ((k, v) :: a, x, b)
      | Eq => Ret ([], Some (k, v), m')
      | Lt => Ret ([], None, m)
      end
  end.

(** [q.cmp(key.borrow())], for [str]. *)
Definition str_versus (q : list N) (k : K) : outcome comparison := b <- kborrow k ;; Ret (str_cmp q b).

Definition btree_call (o : map_call K V) (m : tree) : outcome (option V * tree) :=
  match o with
  | KInsert k v =>
      r <- tree_search (kcmp k) m ;;
      Ret (match r with
           | (a, Some (k', v'), b) => (Some v', a ++ (k', v) :: b)
           | (a, None, b) => (None, a ++ (k, v) :: b)
           end)
  | KGet q => r <- tree_search (str_versus q) m ;; Ret (option_map snd (snd (fst r)), m)
  | KGetKey k => r <- tree_search (kcmp k) m ;; Ret (option_map snd (snd (fst r)), m)
  | KRemove q =>
      r <- tree_search (str_versus q) m ;;
      Ret (match r with
           | (a, Some (_, v), b) => (Some v, a ++ b)
           | (_, None, _) => (None, m)
           end)
  end.

Fixpoint btree_run (os : list (map_call K V)) (m : tree) : outcome (list (option V) * tree) :=
  match os with
  | [] => Ret ([], m)
  | o :: os =>
      p <- btree_call o m ;;
      let '(x, m) := p in
      p <- btree_run os m ;;
      let '(xs, m) := p in Ret (x :: xs, m)
  end.
End BTreeMap.
End Maps.
