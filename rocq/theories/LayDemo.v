(** Concrete diagrams for the layout of drawings (C87, C88). *)
From Coq Require Import QArith.
From Verif Require Import PyBase DiagModel GDiag GDiagSpec LayModel LaySpec.
Open Scope Q_scope.

(** boxes with a name and two types, whose atoms are strings *)
Definition dbox : Type := string * list string * list string.
Definition ddom (b : dbox) : list string := snd (fst b).
Definition dcod (b : dbox) : list string := snd b.
Definition dquantum (b : dbox) : bool := String.eqb (fst (fst b)) "H".
(** "John loves Mary" with its cups; [n] and [n] both bent into a verb, then an effect under a wire; a state, an effect and a state, one after the other *)
Definition sentence_diag : gdiag string dbox :=
  GD [] ["s"%string]
     [([], ("John"%string, [], ["n"%string]), []);
      (["n"%string], ("loves"%string, [], ["n.r"; "s"; "n.l"]%string), []);
      (["n"; "n.r"; "s"; "n.l"]%string, ("Mary"%string, [], ["n"%string]), []);
      ([], ("CUP"%string, ["n"; "n.r"]%string, []), ["s"; "n.l"; "n"]%string);
      (["s"%string], ("CUP"%string, ["n.l"; "n"]%string, []), [])].
Definition effects_diag : gdiag string dbox :=
  GD ["a"; "b"; "c"]%string ["a"; "x"; "y"; "z"; "c"]%string
     [(["a"%string], ("H"%string, ["b"%string], ["b"%string]), ["c"%string]);
      (["a"%string], ("f"%string, ["b"%string], ["x"; "y"; "z"]%string), ["c"%string])].
Definition cut_diag : gdiag string dbox :=
  GD [] ["a"%string]
     [([], ("p"%string, [], ["a"%string]), []); ([], ("q"%string, ["a"%string], []), []); ([], ("r"%string, [], ["a"%string]), [])].
Definition draw (d : gdiag string dbox) (foliated : bool) : res (drawable string dbox) := from_diagram ddom dcod dquantum d foliated.
(** the positions of boxes, with their edges, and of endpoints *)
Definition positions (d : gdiag string dbox) (foliated : bool) : res (list (Q * Q * option (Q * Q)) * list (Q * Q)) :=
  rmap (fun g => (map (fun b => (Qred (bn_x b), Qred (bn_y b), match get_x_lims g b with Ok (l, r) => Some (Qred l, Qred r) | Err _ => None end)) (dr_boxes g),
                  map (fun e => (Qred (we_x e), Qred (we_y e))) (dr_ends g))) (draw d foliated).
(** after scaling *)
Definition scaled (d : gdiag string dbox) (scale pad : Q * Q) : res (list (Q * Q) * list (Q * Q)) :=
  do g <- draw d false; do g <- scale_and_pad g scale pad;
  Ok (map (fun b => (Qred (bn_x b), Qred (bn_y b))) (dr_boxes g), map (fun e => (Qred (we_x e), Qred (we_y e))) (dr_ends g)).
