(** Specification vocabulary for the JSON round trip. *)
From Verif Require Import PyBase TyModel DiagModel DiagSpec JsonModel.
Set Implicit Arguments. Unset Strict Implicit.

(** a type whose [__post_init__] assertions hold hereditarily: any [Ty] object *)
Fixpoint rty_valid (t : rty) : bool :=
  match t with RTy n objs z => post_init (RTy n objs z) && forallb rty_valid objs end.

(** components of frames the decoder knows: diagrams, caps, cups, swaps, spiders and frames *)
Definition comp_json (P : box -> Prop) (c : comp box) : Prop :=
  match c with
  | CBox b => match b with Cap _ _ _ | Cup _ _ _ | Swap _ _ | Spider _ _ _ | Frame _ _ _ _ _ => P b | _ => False end
  | CDiag _ _ ls => All (fun x : layer => let '(_, b, _) := x in P b) ls
  end.
(** daggers of plain boxes only, and decodable frame components, hereditarily *)
Fixpoint json_ok (b : box) : Prop :=
  match b with
  | Dagg b' => match b' with Box _ _ _ _ => True | _ => False end
  | Frame _ _ _ cs _ | DagFrame _ _ _ cs _ => All (comp_json json_ok) cs
  | _ => True
  end.
