(** Model of [lambeq/bobcat/parser.py: Cell] (lines 69-164).
    Simplifications: scores are integers (the code only compares them, and any finite set of
    floats without NaN is order-isomorphic to integers); a category is a natural number, equal
    numbers standing for equal categories; Python object identity ([is]) is equality of the whole
    record, which carries an identity number. *)
From Verif Require Import PyBase.
Set Implicit Arguments.

Record ptree := PTree { t_id : nat; t_cat : nat; t_score : Z }.
Definition same_tree (a b : ptree) : bool :=
  Nat.eqb (t_id a) (t_id b) && Nat.eqb (t_cat a) (t_cat b) && (t_score a =? t_score b)%Z.
(** 79-82; [c_map] is the dictionary [trees_map], [c_min] is [min_score] with [None] for minus infinity *)
Record cell := Cell { c_beam : nat; c_trees : list ptree; c_map : list (nat * ptree); c_min : option Z }.
Definition new_cell (b : nat) : cell := Cell b [] [] None.

(** dictionaries *)
Definition dget (k : nat) (m : list (nat * ptree)) : option ptree :=
  match find (fun p => Nat.eqb (fst p) k) m with Some p => Some (snd p) | None => None end.
Definition ddel (k : nat) (m : list (nat * ptree)) : res (list (nat * ptree)) :=
  match dget k m with Some _ => Ok (filter (fun p => negb (Nat.eqb (fst p) k)) m) | None => Err KeyError end.
Definition dset (k : nat) (t : ptree) (m : list (nat * ptree)) : list (nat * ptree) :=
  (k, t) :: filter (fun p => negb (Nat.eqb (fst p) k)) m.

(** 84-98 [find]; [fuel] bounds the number of turns of the loop *)
Fixpoint find_loop (fuel : nat) (trees : list ptree) (score : Z) (lo hi : nat) : nat :=
  match fuel with
  | 0 => lo
  | S fuel' =>
      if Nat.ltb lo hi then
        let mid := (lo + hi) / 2 in
        match nth_error trees mid with
        | None => lo
        | Some t =>
            if (score =? t_score t)%Z then mid
            else if (t_score t <? score)%Z then find_loop fuel' trees score lo mid
            else find_loop fuel' trees score (S mid) hi
        end
      else lo
  end.
Definition cell_find (trees : list ptree) (score : Z) : nat :=
  find_loop (S (List.length trees)) trees score 0 (List.length trees).

(** 134-142: forward scan from [old_index]; returns the list without the tree if found *)
Fixpoint del_forward (l : list ptree) (old : ptree) : option (list ptree) :=
  match l with
  | [] => None
  | t :: l' =>
      if same_tree t old then Some l'
      else if (t_score t =? t_score old)%Z then match del_forward l' old with Some r => Some (t :: r) | None => None end
      else None
  end.
(** 143-147: backward scan; [l] is the part before [old_index] reversed *)
Fixpoint del_backward (l : list ptree) (old : ptree) : list ptree :=
  match l with [] => [] | t :: l' => if same_tree t old then l' else t :: del_backward l' old end.
Definition remove_old (trees : list ptree) (old : ptree) : list ptree :=
  let i := cell_find trees (t_score old) in
  match del_forward (skipn i trees) old with
  | Some r => firstn i trees ++ r
  | None => rev (del_backward (rev (firstn i trees)) old) ++ skipn i trees
  end.

(** 109: [sorted(to_add, key=lambda tree: -tree.score)], a stable sort *)
Fixpoint insert_desc (t : ptree) (l : list ptree) : list ptree :=
  match l with [] => [t] | u :: l' => if (t_score u <? t_score t)%Z then t :: l else u :: insert_desc t l' end.
Definition sort_desc (l : list ptree) : list ptree := fold_left (fun acc t => insert_desc t acc) l [].

Fixpoint del_all (ts : list ptree) (m : list (nat * ptree)) : res (list (nat * ptree)) :=
  match ts with [] => Ok m | t :: ts' => do m' <- ddel (t_cat t) m; del_all ts' m' end.
(** 149-161: insert, then apply the beam; returns the cell and the change of [added] *)
Definition insert_tree (c : cell) (t : ptree) : res (cell * Z) :=
  let i := cell_find (c_trees c) (t_score t) in
  let trees := firstn i (c_trees c) ++ t :: skipn i (c_trees c) in
  let m := dset (t_cat t) t (c_map c) in
  let b := c_beam c in
  match py_index trees (Z.of_nat b - 1) with
  | Err _ => Ok (Cell b trees m (c_min c), 1%Z)
  | Ok tb =>
      let cutoff := t_score tb in
      match nth_error trees b with
      | None => Ok (Cell b trees m (Some cutoff), 1%Z)
      | Some tn =>
          if (t_score tn <? cutoff)%Z then
            do m' <- del_all (skipn b trees) m;
            Ok (Cell b (firstn b trees) m' (Some cutoff), (1 - (Z.of_nat (List.length trees) - Z.of_nat b))%Z)
          else Ok (Cell b trees m (Some cutoff), 1%Z)
      end
  end.
(** 116-162: the loop *)
Fixpoint add_loop (ts : list ptree) (c : cell) (added : Z) : res (cell * Z) :=
  match ts with
  | [] => Ok (c, added)
  | t :: ts' =>
      do full <- (if Nat.leb (c_beam c) (List.length (c_trees c))
                  then do l <- py_index (c_trees c) (-1); Ok (t_score t <? t_score l)%Z else Ok false);
      if full : bool then Ok (c, added)
      else
        match dget (t_cat t) (c_map c) with
        | None => do r <- insert_tree c t; add_loop ts' (fst r) (added + snd r)%Z
        | Some old =>
            if (t_score old <? t_score t)%Z then
              do r <- insert_tree (Cell (c_beam c) (remove_old (c_trees c) old) (c_map c) (c_min c)) t;
              add_loop ts' (fst r) (added + snd r)%Z
            else add_loop ts' c added
        end
  end.
(** 100-163 [add] *)
Definition cell_add (c : cell) (to_add : list ptree) : res (cell * Z) := add_loop (sort_desc to_add) c 0.
(** a history of calls on a new cell *)
Fixpoint cell_run (h : list (list ptree)) (c : cell) : res cell :=
  match h with [] => Ok c | ts :: h' => do r <- cell_add c ts; cell_run h' (fst r) end.
