(** Specification vocabulary for the conversion of pregroup trees to diagrams (C68). *)
From Coq Require Import Sorted.
From Verif Require Import PyBase TyModel DiagModel DiagSpec TreeModel TreeSpec.
Close Scope string_scope. Set Implicit Arguments. Unset Strict Implicit.

(** the arcs of a tree: a node and one of its children *)
Definition arcs (n : node) : list (node * node) := List.concat (map (fun m => map (pair m) (n_children m)) (subtrees n)).
Definition lo (pc : node * node) : Z := Z.min (n_ind (fst pc)) (n_ind (snd pc)).
Definition hi (pc : node * node) : Z := Z.max (n_ind (fst pc)) (n_ind (snd pc)).
(** every token at most once *)
Definition tidy (ntok : nat) (n : node) : Prop := NoDup (inds n) /\ forall i, In i (inds n) -> (0 <= i < Z.of_nat ntok)%Z.
(** drawn above the sentence, the arcs do not cross, and none passes over the root *)
Definition planar (n : node) : Prop :=
  (forall x, In x (arcs n) -> ~ (lo x < n_ind n < hi x)%Z) /\ forall x y, In x (arcs n) -> In y (arcs n) -> ~ (lo x < lo y /\ lo y < hi x /\ hi x < hi y)%Z.

(** the parts of the type of token [i], each with the token it is linked to: its own type, linked to its head (-1 for the root), and an adjoint of the type of each dependent *)
Definition links (n : node) (i : Z) : list (Z * ty) :=
  (if (n_ind n =? i)%Z then [((-1)%Z, n_typ n)] else []) ++
  List.concat (map (fun '(p, c) =>
    (if (n_ind p =? i)%Z then [(n_ind c, if (n_ind c <? i)%Z then rot 1 (n_typ c) else rot (-1) (n_typ c))] else []) ++ (if (n_ind c =? i)%Z then [(n_ind p, n_typ c)] else [])) (arcs n)).
(** the order of the parts: links to the left, the nearest first; the part of the root that stays open; links to the right, the farthest first *)
Definition side (i o : Z) : nat := if (o =? -1)%Z then 1 else if (o <? i)%Z then 0 else 2.
Definition before (i : Z) (x y : Z * ty) : Prop := side i (fst x) < side i (fst y) \/ (side i (fst x) = side i (fst y) /\ (fst y < fst x)%Z).
Definition word_links (n : node) (i : Z) (l : list (Z * ty)) : Prop := Permutation l (links n i) /\ StronglySorted (before i) l.

(** ** Wires *)
(** a wire of a row of words: the token, the token it is linked to, the place within that part *)
Definition wire := (Z * Z * nat)%type.
Definition part_wires (i : Z) (p : Z * ty) : list wire := map (fun k => (i, fst p, k)) (seq 0 (List.length (snd p))).
Definition word_wires (i : Z) (l : list (Z * ty)) : list wire := List.concat (map (part_wires i) l).
Fixpoint wires_from (i : Z) (wc : list (list (Z * ty))) : list wire := match wc with [] => [] | l :: wc' => word_wires i l ++ wires_from (i + 1) wc' end.
Definition wires (wc : list (list (Z * ty))) : list wire := wires_from 0 wc.
(** the pairs of wires that an arc joins: a wire to its mirror image *)
Definition arc_pairs (x : node * node) : list (wire * wire) :=
  let n := List.length (n_typ (snd x)) in map (fun k => ((lo x, hi x, n - 1 - k), (hi x, lo x, k))) (seq 0 n).
(** following the wires through cups and swaps: the pairs joined by cups, and the wires that remain *)
Fixpoint joins {A} (ls : list layer) (ws : list A) : list (A * A) * list A :=
  match ls with
  | [] => ([], ws)
  | (l, b, _) :: ls' =>
      match skipn (List.length l) ws, b with
      | x :: y :: w2, Cup _ _ _ => let '(ps, r) := joins ls' (firstn (List.length l) ws ++ w2) in ((x, y) :: ps, r)
      | x :: y :: w2, Swap _ _ => joins ls' (firstn (List.length l) ws ++ y :: x :: w2)
      | _, _ => joins ls' ws
      end
  end.
