(** C63: the chart cell of the Bobcat parser. *)
From Verif Require Import PyBase CellModel CellSpec CellFacts.
Set Implicit Arguments. Unset Strict Implicit.

(** After any history [h] of calls of [add] on a new cell of beam size [b]: no call raises; the
    trees are in order of score, one per category; the category index describes them exactly; there are
    at most [b] of them, except for ties with the [b]-th; each of them was offered, and nothing
    offered with its category had a higher score; whatever was offered and whose category is not
    in the cell has a score below the [b]-th; and [min_score] is the [b]-th score, if there is one. *)
Theorem C63_cell : forall b h, 1 <= b -> exists c, cell_run h (new_cell b) = Ok c /\
  descending (c_trees c) /\ NoDup (map t_cat (c_trees c)) /\ index_exact (c_map c) (c_trees c) /\ within_beam b (c_trees c) /\
  (forall t, In t (c_trees c) -> In t (List.concat h)) /\
  (forall t s, In t (c_trees c) -> In s (List.concat h) -> t_cat s = t_cat t -> (t_score s <= t_score t)%Z) /\
  (forall s, In s (List.concat h) -> ~ In (t_cat s) (map t_cat (c_trees c)) ->
     exists u, nth_error (c_trees c) (b - 1) = Some u /\ (t_score s < t_score u)%Z) /\
  threshold b (c_trees c) (c_min c).
Proof. exact run_summary. Qed.
Print Assumptions C63_cell.

(** [min_score] only excludes trees that [add] would refuse: they change nothing. *)
Theorem C63_min_score : forall b h c t x, 1 <= b -> cell_run h (new_cell b) = Ok c -> c_min c = Some x -> (t_score t < x)%Z ->
  cell_add c [t] = Ok (c, 0%Z).
Proof. exact run_below_min. Qed.
Print Assumptions C63_min_score.

(** A beam of size 0 is not an empty cell: the first [add] raises IndexError. *)
Theorem C63_beam_zero_refuted : forall t, cell_add (new_cell 0) [t] = Err IndexError.
Proof. intro t. reflexivity. Qed.
Print Assumptions C63_beam_zero_refuted.

(** The number that [add] returns is not the growth of the cell: replacing a tree counts as adding one. *)
Theorem C63_added_refuted : exists c t c', cell_run [[PTree 0 0 1]] (new_cell 3) = Ok c /\ cell_add c [t] = Ok (c', 1%Z) /\
  List.length (c_trees c') = List.length (c_trees c).
Proof. do 2 eexists. exists (Cell 3 [PTree 1 0 2] [(0, PTree 1 0 2)] None). split; [reflexivity|]. split; [|reflexivity]. instantiate (1 := PTree 1 0 2). vm_compute. reflexivity. Qed.
Print Assumptions C63_added_refuted.

(** non-vacuity: ties beyond the beam are kept, a better tree of a kept category replaces it, and a later better tree of
    another category pushes the tied ones out *)
Example C63_instance :
  let h1 := [[PTree 0 0 5; PTree 1 1 5]; [PTree 2 2 5; PTree 3 0 3]] in
  let h2 := [[PTree 4 1 7]; [PTree 5 3 6]] in
  (exists c, cell_run h1 (new_cell 2) = Ok c /\ map t_id (c_trees c) = [1; 2; 0]) /\
  (exists c, cell_run (h1 ++ h2) (new_cell 2) = Ok c /\ map t_id (c_trees c) = [4; 5] /\ c_min c = Some 6%Z).
Proof. cbn zeta. split; eexists; vm_compute; repeat split. Qed.
