(** Specification vocabulary: strict monoidal categories and the morphism denoted by a
    diagram.  Nothing here models repository code; the operations of the repository are
    proved to respect this denotation.  Hom-sets come with an equivalence relation, so
    that concrete categories need no extensionality axioms. *)
From Coq Require Export Setoid Morphisms.
From Verif Require Import PyBase TyModel DiagModel DiagSpec.

Record smc := SMC {
  Ob : Type;
  Hom : Type;
  src : Hom -> Ob;
  tgt : Hom -> Ob;
  unit_ob : Ob;
  ot : Ob -> Ob -> Ob;
  idm : Ob -> Hom;
  cmp : Hom -> Hom -> Hom;   (* diagrammatic order; meaningful when tgt f = src g *)
  tns : Hom -> Hom -> Hom;
  heq : Hom -> Hom -> Prop;
  heq_equiv : Equivalence heq;
  heq_src : forall f g, heq f g -> src f = src g;
  heq_tgt : forall f g, heq f g -> tgt f = tgt g;
  cmp_heq : forall f f' g g', heq f f' -> heq g g' -> heq (cmp f g) (cmp f' g');
  tns_heq : forall f f' g g', heq f f' -> heq g g' -> heq (tns f g) (tns f' g');
  ot_assoc : forall a b c, ot (ot a b) c = ot a (ot b c);
  ot_unit_l : forall a, ot unit_ob a = a;
  ot_unit_r : forall a, ot a unit_ob = a;
  src_idm : forall a, src (idm a) = a;
  tgt_idm : forall a, tgt (idm a) = a;
  src_cmp : forall f g, tgt f = src g -> src (cmp f g) = src f;
  tgt_cmp : forall f g, tgt f = src g -> tgt (cmp f g) = tgt g;
  src_tns : forall f g, src (tns f g) = ot (src f) (src g);
  tgt_tns : forall f g, tgt (tns f g) = ot (tgt f) (tgt g);
  cmp_assoc : forall f g h, tgt f = src g -> tgt g = src h ->
    heq (cmp (cmp f g) h) (cmp f (cmp g h));
  cmp_idm_l : forall f a, a = src f -> heq (cmp (idm a) f) f;
  cmp_idm_r : forall f a, a = tgt f -> heq (cmp f (idm a)) f;
  tns_assoc : forall f g h, heq (tns (tns f g) h) (tns f (tns g h));
  tns_unit_l : forall f, heq (tns (idm unit_ob) f) f;
  tns_unit_r : forall f, heq (tns f (idm unit_ob)) f;
  tns_idm : forall a b, heq (tns (idm a) (idm b)) (idm (ot a b));
  interchange_law : forall f g h k, tgt f = src h -> tgt g = src k ->
    heq (cmp (tns f g) (tns h k)) (tns (cmp f h) (cmp g k)) }.

#[global] Existing Instance heq_equiv.
#[global] Instance cmp_Proper (C : smc) : Proper (heq C ==> heq C ==> heq C) (cmp C).
Proof. intros f f' H g g' K. now apply cmp_heq. Qed.
#[global] Instance tns_Proper (C : smc) : Proper (heq C ==> heq C ==> heq C) (tns C).
Proof. intros f f' H g g' K. now apply tns_heq. Qed.

(** An interpretation: an object for every atomic type, a morphism for every valid box. *)
Fixpoint obt (C : smc) (obi : atom -> Ob C) (t : ty) : Ob C :=
  match t with
  | [] => unit_ob C
  | a :: t' => ot C (obi a) (obt C obi t')
  end.

Record interp (C : smc) := Interp {
  obi : atom -> Ob C;
  ari : box -> Hom C;
  ari_src : forall b, box_ok b -> src C (ari b) = obt C obi (b_dom b);
  ari_tgt : forall b, box_ok b -> tgt C (ari b) = obt C obi (b_cod b) }.
Arguments obi {C}. Arguments ari {C}.

(** The morphism denoted by a diagram. *)
Definition den_layer {C} (I : interp C) (x : layer) : Hom C :=
  let '(l, b, r) := x in
  tns C (idm C (obt C (obi I) l)) (tns C (ari I b) (idm C (obt C (obi I) r))).
Fixpoint den_layers {C} (I : interp C) (c : ty) (ls : list layer) : Hom C :=
  match ls with
  | [] => idm C (obt C (obi I) c)
  | x :: ls' => cmp C (den_layer I x) (den_layers I c ls')
  end.
Definition den {C} (I : interp C) (d : diagram) : Hom C := den_layers I (cod d) (layers d).

(** Interpretations in which every matching cup-cap pair of the same orientation straightens
    (both snake equations). *)
Definition adj_of (rv : bool) (r : atom) : atom := if rv then rot_atom (-1) r else rot_atom 1 r.
Definition rigid {C} (I : interp C) : Prop :=
  forall rv (r : atom),
    let l := adj_of rv r in
    (* cap(l, r) followed by cup(r, l): the wire r *)
    heq C (cmp C (tns C (idm C (obi I r)) (ari I (Cap l r rv)))
                 (tns C (ari I (Cup r l rv)) (idm C (obi I r)))) (idm C (obi I r)) /\
    (* cap(l, r) followed by cup(r, l): the wire l *)
    heq C (cmp C (tns C (ari I (Cap l r rv)) (idm C (obi I l)))
                 (tns C (idm C (obi I l)) (ari I (Cup r l rv)))) (idm C (obi I l)).
