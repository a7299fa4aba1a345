(** Specification vocabulary for pregroup trees and the tree rewriter (C67, C69). *)
From Coq Require Import Ascii Permutation Sorted.
From Verif Require Import PyBase TyModel TreeModel.
Close Scope string_scope. Set Implicit Arguments. Unset Strict Implicit.

(** all the nodes, each before its descendants *)
Fixpoint subtrees (n : node) : list node := let 'Node _ _ _ _ cs := n in n :: List.concat (map subtrees cs).
(** the nodes with the index of their parent, [-1] for the root *)
Fixpoint with_parent (p : Z) (n : node) : list (node * Z) := let 'Node _ i _ _ cs := n in (n, p) :: List.concat (map (with_parent i) cs).
(** the [parent] attributes are right *)
Inductive linked : option Z -> node -> Prop := linked_node p w i t cs : Forall (linked (Some i)) cs -> linked p (Node w i t p cs).
Fixpoint t_height (n : node) : nat := let 'Node _ _ _ _ cs := n in S (list_max (map t_height cs)).
(** [is] lists the indices that occur in the tree, in order, once *)
Definition indices (is : list Z) (n : node) : Prop := StronglySorted Z.lt is /\ forall i, In i is <-> exists m, In m (subtrees n) /\ n_ind m = i.
Definition at_index (i : Z) (n : node) : list node := filter (fun m => (n_ind m =? i)%Z) (subtrees n).
(** children in the order of their indices, everywhere *)
Fixpoint canon (n : node) : node := let 'Node w i t p cs := n in Node w i t p (sort_ind (map canon cs)).

(** ** The drawing: a node is preceded by one symbol per ancestor *)
Fixpoint with_path (flags : list bool) (n : node) : list (list bool * (string * Z * ty)) :=
  let 'Node w i t _ cs := n in
  (flags, (w, i, t)) :: (fix go (cs : list node) := match cs with [] => [] | c :: cs' => with_path (flags ++ [match cs' with [] => true | _ => false end]) c ++ go cs' end) cs.
Fixpoint render (flags : list bool) : list branch :=
  match flags with [] => [] | [l] => [if l then Last else Inner] | l :: fl => (if l then Gap else Through) :: render fl end.

(** ** Self cycles *)
Definition token := (string * Z * ty * option Z)%type.
(** the paths from the root, one for each node *)
Fixpoint paths (n : node) : list (list token) := let 'Node w i t p cs := n in [(w, i, t, p)] :: List.concat (map (fun c => map (cons (w, i, t, p)) (paths c)) cs).
Definition same_token (a b : token) : bool := let '(w, i, _, _) := a in let '(w', i', _, _) := b in (w =? w')%string && (i =? i')%Z.
Fixpoint no_repeat (l : list token) : bool := match l with [] => true | a :: l' => match l' with [] => true | b :: _ => negb (same_token a b) && no_repeat l' end end.

(** ** Rewriting *)
(** the tree without its parent attributes *)
Fixpoint erase (n : node) : node := let 'Node w i t _ cs := n in Node w i t None (map erase cs).
(** what the rule asks of a node: its type, if the rule names one, and its word, if the rule lists words, upper and lower case alike *)
Definition wanted (r : rule) (n : node) : Prop := (match match_type r with None => True | Some t => n_typ n = t end) /\ (match_words r = [] \/ In (lower (n_word n)) (match_words r)).
Definition matching (r : rule) (n c : node) : Prop := n_children n = [c] /\ n_typ c = n_typ n /\ wanted r n.
(** the word of a merged node *)
Definition joined_word (r : rule) (upper low : string) : string := match r_join r with JMerge => (upper ++ " " ++ low)%string | JFirst => upper | JLast => low end.
(** the nodes [ms] that match, one below the other, and the first one that does not *)
Inductive spine (r : rule) : node -> list node -> node -> Prop :=
| spine_end n : (forall c, ~ matching r n c) -> spine r n [] n
| spine_step n c ms b : matching r n c -> spine r c ms b -> spine r n (n :: ms) b.
Definition with_word (w : string) (n : node) : node := let 'Node _ i t p cs := n in Node w i t p cs.
(** at most [max_depth] of them, the lowest, are merged into the last node *)
Inductive contracted (r : rule) : node -> node -> Prop :=
| con n ms b cs : spine r n ms b -> Forall2 (contracted r) (n_children b) cs ->
    let k := List.length ms in let d := match max_depth r with None => k | Some d => Nat.min k d end in
    contracted r n (fold_right (fun m acc => Node (n_word m) (n_ind m) (n_typ m) None [acc])
      (fold_right (fun m acc => with_word (joined_word r (n_word m) (n_word acc)) acc) (Node (n_word b) (n_ind b) (n_typ b) None cs) (skipn (k - d) ms)) (firstn (k - d) ms)).
Definition words (n : node) : list string := map n_word (subtrees n).
Definition inds (n : node) : list Z := map n_ind (subtrees n).
(** [l'] is [l] without some elements, which satisfy [P] *)
Inductive kept {A} (P : A -> Prop) : list A -> list A -> Prop :=
| kept_nil : kept P [] []
| kept_keep x l l' : kept P l l' -> kept P (x :: l) (x :: l')
| kept_drop x l l' : P x -> kept P l l' -> kept P (x :: l) l'.
