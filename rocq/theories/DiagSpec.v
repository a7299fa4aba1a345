(** Specification vocabulary for diagrams: well-typedness, box validity and the
    wire semantics of swap-only diagrams.  Independent of the combinators. *)
From Verif Require Import PyBase TyModel DiagModel.
Set Implicit Arguments.

(** P holds of every element *)
Section All.
  Variable A : Type.
  Variable P : A -> Prop.
  Fixpoint All (l : list A) : Prop :=
    match l with [] => True | x :: l' => P x /\ All l' end.
End All.

(** The layers compose from [d] to [c]: each layer starts at the type the previous
    one ended with. *)
Fixpoint chain (d : ty) (ls : list layer) (c : ty) : Prop :=
  match ls with
  | [] => d = c
  | x :: ls' => d = l_dom x /\ chain (l_cod x) ls' c
  end.

Definition comp_ok (P : box -> Prop) (c : comp box) : Prop :=
  match c with
  | CBox b => P b
  | CDiag d c ls => chain d ls c /\ All (fun x : layer => let '(_, b, _) := x in P b) ls
  end.

(** A box is valid if its cups and caps connect adjoint types, hereditarily. *)
Fixpoint box_ok (b : box) : Prop :=
  match b with
  | Box _ _ _ _ | Word _ _ _ | Swap _ _ | Spider _ _ _ => True
  | Cap l r rv => l = if rv then rot_atom (-1) r else rot_atom 1 r
  | Cup l r rv => l = if rv then rot_atom 1 r else rot_atom (-1) r
  | Dagg b => box_ok b
  | Frame _ _ _ cs _ | DagFrame _ _ _ cs _ => All (comp_ok box_ok) cs
  end.

(** Well-typed diagrams. *)
Definition wf (d : diagram) : Prop :=
  chain (dom d) (layers d) (cod d) /\ All (fun x => box_ok (l_box x)) (layers d).

(** Typing judgement: a well-typed diagram from s to t. *)
Definition typed (d : diagram) (s t : ty) : Prop := wf d /\ dom d = s /\ cod d = t.

(** Wire semantics of swap-only diagrams: what happens to the values carried by the
    wires, top to bottom. *)
Definition run_layer {X} (x : layer) (v : list X) : option (list X) :=
  let '(l, b, r) := x in
  match b with
  | Swap _ _ =>
      match firstn (List.length l) v, skipn (List.length l) v with
      | v1, a :: b :: v2 => Some (v1 ++ b :: a :: v2)
      | _, _ => None
      end
  | _ => None
  end.
Fixpoint run_layers {X} (ls : list layer) (v : list X) : option (list X) :=
  match ls with
  | [] => Some v
  | x :: ls' => match run_layer x v with Some v' => run_layers ls' v' | None => None end
  end.
Definition run {X} (d : diagram) (v : list X) : option (list X) := run_layers (layers d) v.

(** Diagrams obtained from identities and valid boxes through the API. *)
Inductive built : diagram -> Prop :=
| built_id t : built (id t)
| built_box b : box_ok b -> built (to_diag b)
| built_then a b c : built a -> built b -> d_then a b = Ok c -> built c
| built_tensor a b : built a -> built b -> built (tensor a b)
| built_tensor_list a ds : built a -> Forall built ds -> built (tensor_list a ds)
| built_then_list a ds c : built a -> Forall built ds -> then_list a ds = Ok c -> built c
| built_then_at a b i c : built a -> built b -> then_at a b i = Ok c -> built c
| built_dagger a : built a -> built (d_dagger a)
| built_rotate z a : built a -> built (d_rotate z a).

(** No frame anywhere inside has more than one component. *)
Definition comp_sf (P : box -> Prop) (c : comp box) : Prop :=
  match c with
  | CBox b => P b
  | CDiag _ _ ls => All (fun x : layer => let '(_, b, _) := x in P b) ls
  end.
Fixpoint small_frames (b : box) : Prop :=
  match b with
  | Dagg b => small_frames b
  | Frame _ _ _ cs _ | DagFrame _ _ _ cs _ => List.length cs <= 1 /\ All (comp_sf small_frames) cs
  | _ => True
  end.

(** no [Daggered] wrapper around a class that has its own dagger: what the API builds *)
Definition dag_normal (b : box) : Prop :=
  match b with
  | Dagg (Box _ _ _ _) | Dagg (Word _ _ _) => True
  | Dagg _ => False
  | _ => True
  end.

(** Planar contraction of wires.  [cup_run types rem ms ls rem'] : contracting, in the order
    of [ms], pairs of wires that are neighbours among the not yet contracted wires [rem]
    (original positions) gives the cup layers [ls] and leaves the wires [rem'].  Each cup
    joins exactly the two named wires. *)
Inductive cup_run (types : ty) (da : atom) : list nat -> list morphism -> list layer -> list nat -> Prop :=
| cup_run_nil rem : cup_run types da rem [] [] rem
| cup_run_cons R1 s e R2 ms ls rem' :
    nth s types da = rot_atom (-1) (nth e types da) ->
    cup_run types da (R1 ++ R2) ms ls rem' ->
    cup_run types da (R1 ++ s :: e :: R2)
      ((MCup, Z.of_nat s, Z.of_nat e) :: ms)
      ((map (fun i => nth i types da) R1,
        Cup (nth s types da) (nth e types da) false,
        map (fun i => nth i types da) R2) :: ls) rem'.

(** one word box per word, each placed right of the previous ones *)
Fixpoint word_layers (pre : ty) (words : list (string * ty)) : list layer :=
  match words with
  | [] => []
  | (n, c) :: ws => (pre, Word n c 0, []) :: word_layers (pre ++ c) ws
  end.
