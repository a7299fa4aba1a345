(** Model of [remove_cycles] (lambeq/text2diagram/pregroup_tree_converter.py 223-266), with [get_depth] (pregroup_tree.py 303-339) and the
    effect of [remove_self_cycles] (376-391) on a tree whose nodes are being detached.

    A node is identified with its position: the numbers of the children to go to, from the root.  A node is detached ([parent] set to None and
    taken from the children of its parent) when its position is in the list [cuts]; the root has no parent.
    Simplifications: [node.parent.children.remove(node)] takes the first child that is equal to the node by [__eq__]; here it takes the node
    itself (two equal children of one node are copies of the same word, at the same depth, with equal subtrees).  [curr_node != node] in
    [get_depth] compares positions (the node it is called with has an index that no other node has, so [__eq__] tells it apart).
    [get_nodes] is given by its groups, as proved in C67_node_lists for trees without negative indices. *)
From Coq Require Import ZArith.
From Verif Require Import PyBase TyModel TreeModel.
Close Scope string_scope. Set Implicit Arguments. Unset Strict Implicit.

Definition pos := list nat.
(** a node and the nodes below it, each before its descendants, with their positions *)
Fixpoint positions (n : node) : list (pos * node) :=
  let 'Node _ _ _ _ cs := n in
  ([], n) :: (fix go (k : nat) (cs : list node) : list (pos * node) :=
    match cs with [] => [] | c :: cs' => map (fun x => (k :: fst x, snd x)) (positions c) ++ go (S k) cs' end) 0 cs.
(** pregroup_tree.py 276-300 *)
Definition top_index (n : node) : nat := list_max (map (fun x => Z.to_nat (n_ind (snd x))) (positions n)).
Definition group (i : Z) (n : node) : list (pos * node) := filter (fun x => (n_ind (snd x) =? i)%Z) (positions n).
Definition groups (n : node) : list (list (pos * node)) :=
  filter (fun g => match g with [] => false | _ => true end) (map (fun i => group (Z.of_nat i) n) (seq 0 (S (top_index n)))).

Fixpoint pos_eqb (p q : pos) : bool := match p, q with [], [] => true | a :: p', b :: q' => (a =? b)%nat && pos_eqb p' q' | _, _ => false end.
Definition detached (cuts : list pos) (p : pos) : bool := existsb (pos_eqb p) cuts.
(** pregroup_tree.py 303-339: [up] is the reversed position of the node *)
Fixpoint get_depth (cuts : list pos) (root : pos) (up : pos) : Z :=
  if pos_eqb (rev up) root then 0%Z
  else match up with
       | [] => (-1)%Z
       | _ :: up' => if detached cuts (rev up) then (-1)%Z
                     else let d := get_depth cuts root up' in if (d =? -1)%Z then (-1)%Z else (d + 1)%Z
       end.
(** pregroup_tree.py 376-391: the children that are detached *)
Fixpoint self_cuts (n : node) : list pos :=
  let 'Node _ _ _ _ cs := n in
  (fix go (k : nat) (cs : list node) : list pos :=
    match cs with [] => [] | c :: cs' => (if is_same_word n c then [[k]] else map (cons k) (self_cuts c)) ++ go (S k) cs' end) 0 cs.

(** 247-257: the index and the depth of the copy to retain *)
Fixpoint deepest (cuts : list pos) (root : pos) (j : nat) (best : nat * Z) (l : list (pos * node)) : nat * Z :=
  match l with
  | [] => best
  | x :: l' => let d := get_depth cuts root (rev (fst x)) in
               deepest cuts root (S j) (if (snd best <? d)%Z then (j, d) else best) l'
  end.
(** 259-266 *)
Fixpoint drop_others (keep j : nat) (cuts : list pos) (l : list (pos * node)) : list pos :=
  match l with
  | [] => cuts
  | x :: l' =>
      let p := fst x in
      let has_parent := match p with [] => false | _ => negb (detached cuts p) end in
      drop_others keep (S j) (if negb (j =? keep)%nat && has_parent then p :: cuts else cuts) l'
  end.
Definition break_group (root : pos) (cuts : list pos) (g : list (pos * node)) : list pos :=
  match g with
  | x :: (y :: l) => drop_others (fst (deepest cuts root 1 (0, get_depth cuts root (rev (fst x))) (y :: l))) 0 cuts (x :: y :: l)
  | _ => cuts
  end.
(** the tree that is left *)
Fixpoint prune (cut : pos -> bool) (n : node) : node :=
  let 'Node w i t p cs := n in
  Node w i t p ((fix go (k : nat) (cs : list node) : list node :=
    match cs with [] => [] | c :: cs' => (if cut [k] then [] else [prune (fun q => cut (k :: q)) c]) ++ go (S k) cs' end) 0 cs).
(** 237-266 *)
Definition remove_cycles (n : node) : res node :=
  let nodes := groups n in
  match nth_error nodes (Z.to_nat (n_ind n)) with
  | None => Err IndexError
  | Some [(root, m)] =>
      let cuts := fold_left (break_group root) nodes (map (app root) (self_cuts m)) in
      Ok (prune (detached cuts) n)
  | Some _ => Err AssertionError
  end.
