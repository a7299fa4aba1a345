(** Vocabulary for tensor splitting and directed dimensions. *)
From Verif Require Import PyBase TyModel DiagModel DiagSpec.
Set Implicit Arguments. Unset Strict Implicit.
(** wiring, as opposed to tensors *)
Definition is_wiring (b : box) : Prop := match b with Cup _ _ _ | Cap _ _ _ | Swap _ _ | Spider _ _ _ => True | _ => False end.
(** every tensor of the diagram has at most [m] legs *)
Definition order_le (m : nat) (d : diagram) : Prop := Forall (fun b => is_wiring b \/ List.length (b_dom b) + List.length (b_cod b) <= m) (boxes d).
(** no frames, below daggers *)
Fixpoint frameless (b : box) : Prop := match b with Dagg b' => frameless b' | Frame _ _ _ _ _ | DagFrame _ _ _ _ _ => False | _ => True end.
(** the legs of a box, inputs first, with the side they are on *)
Definition legs (b : box) : list (atom * bool) := map (fun a => (a, true)) (b_dom b) ++ map (fun a => (a, false)) (b_cod b).
(** a leg flows into the box iff it is an input of even winding or an output of odd winding *)
Definition inflow (l : atom * bool) : bool := xorb (snd l) (Z.odd (snd (fst l))).
Fixpoint product (l : list nat) : nat := match l with [] => 1 | x :: l' => x * product l' end.
