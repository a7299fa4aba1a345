(** Specification vocabulary: interpretations in which turning a box means bending its wires (C32). Nothing here models repository code. *)
From Verif Require Import PyBase TyModel DiagModel DiagSpec Cat.

(** the adjoint that stands to the left of a type under a cup of either orientation *)
Definition side (rv : bool) : Z := if rv then 1%Z else (-1)%Z.
(** nested cups from [rot (side rv) t ++ t] to the empty type *)
Fixpoint nested_cups {C} (I : interp C) (rv : bool) (t : ty) : Hom C :=
  match t with
  | [] => idm C (unit_ob C)
  | a :: t' => cmp C (tns C (idm C (obt C (obi I) (rot (side rv) t'))) (tns C (ari I (Cup (rot_atom (side rv) a) a rv)) (idm C (obt C (obi I) t')))) (nested_cups I rv t')
  end.
(** [f'] on the left leg of the cups is the same as [f] on the right leg: [f'] is [f] turned round the cups *)
Definition slides {C} (I : interp C) (rv : bool) (s t : ty) (f f' : Hom C) : Prop :=
  heq C (cmp C (tns C f' (idm C (obt C (obi I) s))) (nested_cups I rv s)) (cmp C (tns C (idm C (obt C (obi I) (rot (side rv) t))) f) (nested_cups I rv t)).
(** [b.r.dagger()] and [b.l.dagger()] denote the box [b] turned round cups of both orientations, whichever leg it stands on *)
Definition turns {C} (I : interp C) : Prop := forall rv b, box_ok b ->
  slides I rv (b_dom b) (b_cod b) (ari I b) (ari I (b_rotate (side rv) (b_dagger b))) /\
  slides I rv (rot (- side rv) (b_cod b)) (rot (- side rv) (b_dom b)) (ari I (b_rotate (- side rv) (b_dagger b))) (ari I b).
