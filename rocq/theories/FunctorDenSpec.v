(** Specification vocabulary: interpreting the source of a functor through its images (C99).  Nothing here models repository code. *)
From Verif Require Import PyBase TyModel DiagModel DiagSpec FunctorModel FunctorSpec Cat.
Set Implicit Arguments. Unset Strict Implicit.

(** [J] gives every atomic type the object that [I] gives to its image *)
Definition through_types {C} (ob : string -> ty) (I J : interp C) : Prop := forall a, obi J a = obt C (obi I) (Fa ob a).
(** [J] gives the box [b] the morphism that [I] gives to its image, a well-typed diagram *)
Definition through_box {C} custom_ob custom_ar (I J : interp C) (b : box) : Prop :=
  exists x, F_box custom_ob custom_ar b = Ok x /\ wf x /\ heq C (den I x) (ari J b).
(** two diagrams denote the same morphism in every interpretation, or in every rigid one *)
Definition same (d d' : diagram) : Prop := forall (C : smc) (J : interp C), heq C (den J d) (den J d').
Definition same_rigid (d d' : diagram) : Prop := forall (C : smc) (J : interp C), rigid J -> heq C (den J d) (den J d').
(** the callback is type-respecting on the boxes of [d] *)
Definition respected ob custom_ar (d : diagram) : Prop := All (fun x => All (respects ob custom_ar) (basics (l_box x))) (layers d).
