(** Specification vocabulary for chart cells. *)
From Verif Require Import PyBase CellModel.
Set Implicit Arguments. Unset Strict Implicit.

(** non-increasing scores *)
Definition descending (l : list ptree) : Prop :=
  forall i j a b, i <= j -> nth_error l i = Some a -> nth_error l j = Some b -> (t_score b <= t_score a)%Z.
(** the category index describes the list exactly *)
Definition index_exact (m : list (nat * ptree)) (l : list ptree) : Prop :=
  forall k t, dget k m = Some t <-> In t l /\ t_cat t = k.
(** at most [b] trees, except for ties with the [b]-th score *)
Definition within_beam (b : nat) (l : list ptree) : Prop :=
  forall i t, b <= i -> nth_error l i = Some t -> exists u, nth_error l (b - 1) = Some u /\ t_score t = t_score u.
(** the score below which nothing is kept any more *)
Definition threshold (b : nat) (l : list ptree) (m : option Z) : Prop :=
  m = match nth_error l (b - 1) with Some u => Some (t_score u) | None => None end.
(** every tree offered is outdone by a kept tree of its category, or lies below the threshold *)
Definition accounted (offered l : list ptree) (m : option Z) : Prop :=
  forall t, In t offered ->
    (exists u, In u l /\ t_cat u = t_cat t /\ (t_score t <= t_score u)%Z) \/ (exists x, m = Some x /\ (t_score t < x)%Z).
