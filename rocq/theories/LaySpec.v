(** Specification of drawings of diagrams (C87, C88). *)
From Coq Require Import QArith.
From Verif Require Import PyBase DiagModel GDiag LayModel.
Set Implicit Arguments. Unset Strict Implicit.

(** The ends of wires in a diagram: its inputs and outputs, and the legs of its boxes. *)
Inductive port := PIn (i : nat) | PDom (k i : nat) | PCod (k i : nat) | POut (i : nat).
Section Spec.
  Variables (A B : Type) (bd bc : B -> list A).
  Notation lays := (list (list A * B * list A)).
  (** the port whose wire is at position [p] after the first [t] boxes: follow the wire upwards *)
  Fixpoint source (ls : lays) (t p : nat) : port :=
    match t with
    | O => PIn p
    | S t' =>
        match nth_error ls t' with
        | None => source ls t' p
        | Some (l, b, _) =>
            if p <? List.length l then source ls t' p
            else if p <? List.length l + List.length (bc b) then PCod t' (p - List.length l)
            else source ls t' (p + List.length (bd b) - List.length (bc b))
        end
    end.
  (** the wires that end in box [t], the wires that end at the bottom, and all of them in this order *)
  Definition wires_into (ls : lays) (t : nat) : list (port * port) :=
    match nth_error ls t with
    | None => []
    | Some (l, b, _) => map (fun i => (source ls t (List.length l + i), PDom t i)) (seq 0 (List.length (bd b)))
    end.
  Definition links (d : gdiag A B) : list (port * port) :=
    flat_map (wires_into (glayers d)) (seq 0 (List.length (glayers d))) ++
    map (fun i => (source (glayers d) (List.length (glayers d)) i, POut i)) (seq 0 (List.length (gcod d))).
  (** all ports in the order of drawing, each with its kind and type *)
  Definition numbered (f : nat -> port) (k : kind) (t : list A) : list (port * kind * A) := map (fun '(i, a) => (f i, k, a)) (enum 0 t).
  Definition box_ports (k : nat) (x : list A * B * list A) : list (port * kind * A) := numbered (PDom k) KDom (bd (gl_box x)) ++ numbered (PCod k) KCod (bc (gl_box x)).
  Definition ports (d : gdiag A B) : list (port * kind * A) :=
    numbered PIn KInput (gdom d) ++ flat_map (fun '(k, x) => box_ports k x) (enum 0 (glayers d)) ++ numbered POut KOutput (gcod d).
  (** The drawing shows the diagram, when [num] says which endpoint a port is drawn at: every port has its own endpoint, of its type, there are no others;
      the wires are the diagram's; the boxes are the diagram's, in order, with their legs. *)
  Record shows (d : gdiag A B) (g : drawable A B) (num : port -> nat) : Prop := {
    sh_ends : map (fun e => (we_kind e, we_obj e)) (dr_ends g) = map (fun '(p, k, a) => (k, a)) (ports d);
    sh_num : forall i p k a, nth_error (ports d) i = Some (p, k, a) -> num p = i;
    sh_wires : dr_wires g = map (fun '(p, q) => (num p, num q)) (links d);
    sh_boxes : map (fun b => (bn_obj b, bn_dom b, bn_cod b)) (dr_boxes g) =
               map (fun '(k, x) => (gl_box x, map (fun i => num (PDom k i)) (seq 0 (List.length (bd (gl_box x)))), map (fun i => num (PCod k i)) (seq 0 (List.length (bc (gl_box x)))))) (enum 0 (glayers d)) }.

  Open Scope Q_scope.
  (** An endpoint by its number; the horizontal positions of a box's legs, or of its centre if it has none; its left and right edges, half a unit further out. *)
  Definition located (g : drawable A B) (i : nat) (x y : Q) : Prop := exists e, nth_error (dr_ends g) i = Some e /\ we_x e = x /\ we_y e = y.
  Definition at_x (g : drawable A B) (b : box_node B) (x : Q) : Prop :=
    (exists i y, In i (bn_dom b ++ bn_cod b) /\ located g i x y) \/ (bn_dom b ++ bn_cod b = [] /\ x = bn_x b).
  Definition left_edge (g : drawable A B) (b : box_node B) (l : Q) : Prop := (exists x, at_x g b x /\ l == x - (1#2)) /\ forall x, at_x g b x -> l <= x - (1#2).
  Definition right_edge (g : drawable A B) (b : box_node B) (r : Q) : Prop := (exists x, at_x g b x /\ r == x + (1#2)) /\ forall x, at_x g b x -> x + (1#2) <= r.
  (** Wires are vertical and go down; legs are drawn on the upper and lower side of their box, a quarter above and below its centre. *)
  Definition vertical (g : drawable A B) : Prop :=
    forall s t, In (s, t) (dr_wires g) -> exists x y x' y', located g s x y /\ located g t x' y' /\ x == x' /\ y' + (1#2) <= y.
  Definition on_sides (g : drawable A B) : Prop :=
    forall b, In b (dr_boxes g) -> (forall i, In i (bn_dom b) -> exists x y, located g i x y /\ y == bn_y b + (1#4)) /\ (forall i, In i (bn_cod b) -> exists x y, located g i x y /\ y == bn_y b - (1#4)).
  (** Between any two boxes, the wires that pass are at least two and a half units apart, in the order of the diagram. *)
  Definition spaced (d : gdiag A B) (g : drawable A B) (num : port -> nat) : Prop :=
    forall t p q, (t <= List.length (glayers d))%nat -> (p < q < match t with O => List.length (gdom d) | S t' => match nth_error (glayers d) t' with Some x => List.length (gl_cod bc x) | None => 0 end end)%nat ->
      exists x y x' y', located g (num (source (glayers d) t p)) x y /\ located g (num (source (glayers d) t q)) x' y' /\ x + (5#2) <= x'.
  (** No two boxes overlap: one is a unit below the other, or strictly to the left or right. *)
  Definition disjoint (g : drawable A B) : Prop :=
    forall i j a b, i <> j -> nth_error (dr_boxes g) i = Some a -> nth_error (dr_boxes g) j = Some b ->
      bn_y a + 1 <= bn_y b \/ bn_y b + 1 <= bn_y a \/
      (forall l r, left_edge g b l -> right_edge g a r -> r < l) \/ (forall l r, left_edge g a l -> right_edge g b r -> r < l).
  (** No wire runs through a box: the box is above where the wire starts, below where it ends, or the wire passes at its left or right. *)
  Definition clear (g : drawable A B) : Prop :=
    forall s t x y x' y' b, In (s, t) (dr_wires g) -> located g s x y -> located g t x' y' -> In b (dr_boxes g) ->
      y <= bn_y b - (1#4) \/ bn_y b + (1#4) <= y' \/ (forall l, left_edge g b l -> x < l) \/ (forall r, right_edge g b r -> r < x).
  (** The drawing starts at the left border, and is centred vertically. *)
  Definition node_x (g : drawable A B) (x : Q) : Prop := In x (map (@bn_x B) (dr_boxes g)) \/ In x (map (@we_x A) (dr_ends g)).
  Definition node_y (g : drawable A B) (y : Q) : Prop := In y (map (@bn_y B) (dr_boxes g)) \/ In y (map (@we_y A) (dr_ends g)).
  Definition at_origin (g : drawable A B) : Prop :=
    (exists x, node_x g x /\ x == 0) /\ (forall x, node_x g x -> 0 <= x) /\
    exists h, (exists y, node_y g y /\ y == h) /\ (exists y, node_y g y /\ y == - h) /\ forall y, node_y g y -> - h <= y <= h.
  (** [g'] is [g] with every point moved by an affine map: the left border and the lower border of [g] stay where they are, distances from them are
      multiplied by [scale], and everything is shifted by [pad]. *)
  Definition affine (lo s p z z' : Q) : Prop := z' == lo + (z - lo) * s + p.
  Record rescaled (g g' : drawable A B) (scale pad : Q * Q) : Prop := {
    rs_wires : dr_wires g' = dr_wires g;
    rs_ends : map (fun e => (we_kind e, we_obj e)) (dr_ends g') = map (fun e => (we_kind e, we_obj e)) (dr_ends g);
    rs_boxes : map (fun b => (bn_obj b, bn_dom b, bn_cod b)) (dr_boxes g') = map (fun b => (bn_obj b, bn_dom b, bn_cod b)) (dr_boxes g);
    rs_at : exists lx ly, (exists x, node_x g x /\ x == lx) /\ (forall x, node_x g x -> lx <= x) /\ (exists y, node_y g y /\ y == ly) /\ (forall y, node_y g y -> ly <= y) /\
      (forall i e e', nth_error (dr_ends g) i = Some e -> nth_error (dr_ends g') i = Some e' -> affine lx (fst scale) (fst pad) (we_x e) (we_x e') /\ affine ly (snd scale) (snd pad) (we_y e) (we_y e')) /\
      (forall k b b', nth_error (dr_boxes g) k = Some b -> nth_error (dr_boxes g') k = Some b' -> affine lx (fst scale) (fst pad) (bn_x b) (bn_x b') /\ affine ly (snd scale) (snd pad) (bn_y b) (bn_y b')) }.
  (** A diagram that does not fall into two parts, one after the other, with nothing in between. *)
  Definition connected_levels (d : gdiag A B) : Prop :=
    forall t x, (S t < List.length (glayers d))%nat -> nth_error (glayers d) t = Some x -> gl_cod bc x <> [].
End Spec.
