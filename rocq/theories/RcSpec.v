(** Specification vocabulary for breaking cycles (C100): what is to stay of a tree in which words occur more than once. *)
From Coq Require Import ZArith.
From Verif Require Import PyBase TyModel TreeModel TreeSpec.
Close Scope string_scope. Set Implicit Arguments. Unset Strict Implicit.

(** the word index at the end of a path from the root *)
Definition end_ind (l : list token) : option Z := match rev l with [] => None | (_, i, _, _) :: _ => Some i end.
Definition same_end (l l' : list token) : bool := match end_ind l, end_ind l' with Some i, Some j => (i =? j)%Z | _, _ => false end.
(** number the elements of a list *)
Definition numbered {A} (ls : list A) : list (nat * A) := combine (seq 0 (List.length ls)) ls.
(** among the nodes of its word, none is deeper, and none before it is as deep; the paths are listed with each node before its descendants *)
Definition first_deepest (ls : list (list token)) (x : nat * list token) : bool :=
  forallb (fun y => negb (same_end (snd x) (snd y)) || (List.length (snd y) <? List.length (snd x))%nat
                    || ((List.length (snd y) =? List.length (snd x))%nat && (fst x <=? fst y)%nat)) (numbered ls).
(** the paths that are to stay *)
Definition deepest_paths (n : node) : list (list token) := map snd (filter (first_deepest (paths n)) (numbered (paths n))).
(** a node is a leaf unless it is the first of the deepest nodes of its word *)
Definition copies_are_leaves (n : node) : Prop :=
  forall k l m, nth_error (paths n) k = Some l -> nth_error (subtrees n) k = Some m -> first_deepest (paths n) (k, l) = false -> n_children m = [].
(** no word is missing below the root's *)
Definition no_gaps (n : node) : Prop :=
  (forall m, In m (subtrees n) -> (0 <= n_ind m)%Z) /\ (forall i, (0 <= i < n_ind n)%Z -> In i (inds n)).

(** no other node has the index of the root *)
Definition lone_root (n : node) : Prop := forall k m, nth_error (subtrees n) k = Some m -> n_ind m = n_ind n -> k = 0.
