(** Specification vocabulary for snake removal: the course of a single wire through a
    list of layers, and the pairs of a cap and a cup that the snake equations straighten. *)
From Verif Require Import PyBase TyModel DiagModel DiagSpec.
Set Implicit Arguments.

Definition pos_of (x : layer) : nat := List.length (l_left x).
Definition wires_in (x : layer) : nat := List.length (b_dom (l_box x)).
Definition wires_out (x : layer) : nat := List.length (b_cod (l_box x)).

(** [strand j ls j']: the wire at position [j] above the layers [ls] meets no box of [ls]
    and is at position [j'] below them. *)
Inductive strand : nat -> list layer -> nat -> Prop :=
| strand_nil j : strand j [] j
| strand_left j x ls j' :   (* the box of x is to the left of the wire *)
    pos_of x + wires_in x <= j -> strand (j + wires_out x - wires_in x) ls j' -> strand j (x :: ls) j'
| strand_right j x ls j' :  (* the box of x is to the right of the wire *)
    j < pos_of x -> strand j ls j' -> strand j (x :: ls) j'.

(** A leg of a cap runs into the opposite leg of a cup: [Id @ Cap >> Cup @ Id] (the cap's
    left leg is the cup's right leg) or [Cap @ Id >> Id @ Cup], with boxes in between. *)
Definition snake_at (ls A : list layer) (cap : layer) (M : list layer) (cup : layer) (B : list layer) : Prop :=
  ls = A ++ cap :: M ++ cup :: B /\
  (exists l r v, l_box cap = Cap l r v) /\ (exists l r v, l_box cup = Cup l r v) /\
  (strand (pos_of cap) M (pos_of cup + 1) \/ strand (pos_of cap + 1) M (pos_of cup)).
Definition has_snake (d : diagram) : Prop := exists A cap M cup B, snake_at (layers d) A cap M cup B.

(** No cap and cup of opposite orientation have legs of the same type that could meet in a
    snake. In particular this holds if all cups and caps have the same orientation. *)
Definition no_mixed (bs : list box) : Prop :=
  forall l r v l' r' v', In (Cap l r v) bs -> In (Cup l' r' v') bs -> v <> v' ->
    l <> r' /\ r <> l'.

(** No further interchange is possible: no box lies entirely to the right of the box below it
    (to the left of it, when normalising with left interchangers). *)
Definition settled (left : bool) (d : diagram) : Prop :=
  forall A x0 x1 B, layers d = A ++ x0 :: x1 :: B ->
    if left then pos_of x1 < pos_of x0 + wires_out x0 else pos_of x0 < pos_of x1 + wires_in x1.
