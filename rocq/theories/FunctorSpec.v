(** Specification vocabulary for functors: the object map on types, what "type-respecting"
    means for the callbacks, and the classes of boxes the structure theorems range over. *)
From Verif Require Import PyBase TyModel DiagModel DiagSpec.
Set Implicit Arguments. Unset Strict Implicit.

Section Spec.
  (** the object map on names, and the box callback *)
  Variable ob : string -> ty.
  Variable custom_ar : box -> res diagram.

  (** the image of an atom: the z-fold adjoint of the image of its name *)
  Definition Fa (a : atom) : ty := rot (snd a) (ob (fst a)).
  (** the image of a type: the tensor of the images of its factors *)
  Definition Fo (t : ty) : ty := flat_map Fa t.

  (** the boxes handed to the [ar] callback *)
  Fixpoint basics (b : box) : list box :=
    match b with
    | Box _ _ _ _ | Word _ _ _ | Frame _ _ _ _ _ | DagFrame _ _ _ _ _ =>
        [if (b_z b =? 0)%Z then b else b_unwind b]
    | Dagg b' => basics b'
    | _ => []
    end.
  (** the callback sends [x] to a well-typed diagram between the images of its types *)
  Definition respects (x : box) : Prop :=
    exists d, custom_ar x = Ok d /\ typed d (Fo (b_dom x)) (Fo (b_cod x)).
  (** images of reversed cups and caps are built only for atomic (or empty) types *)
  Fixpoint rev_ok (b : box) : Prop :=
    match b with
    | Cap l _ true | Cup l _ true => List.length (ob (fst l)) <= 1
    | Dagg b' => rev_ok b'
    | _ => True
    end.
  (** no frames; structural boxes on atoms with atomic images; daggers of boxes and words only *)
  Definition atomic_image (a : atom) : Prop := List.length (ob (fst a)) = 1.
  Definition simple (b : box) : Prop :=
    match b with
    | Box _ _ _ _ | Word _ _ _ | Dagg (Box _ _ _ _) | Dagg (Word _ _ _) => True
    | Cap l r _ | Cup l r _ | Swap l r => atomic_image l /\ atomic_image r
    | Spider t _ _ => atomic_image t
    | _ => False
    end.
  (** the image of a box given to the callback, when it has one *)
  Definition image_all (P : box -> Prop) (x : box) : Prop :=
    forall d, custom_ar x = Ok d -> All (fun y => P (l_box y)) (layers d).
  Definition is_swap (b : box) : Prop := match b with Swap _ _ => True | _ => False end.
End Spec.
