(** Specification vocabulary for GDiag.v: well-typed diagrams, wire semantics of swap-only diagrams. *)
From Verif Require Import PyBase GDiag.
Set Implicit Arguments. Unset Strict Implicit.
Section G.
  Variables (A B : Type) (bd bc : B -> list A).
  (** each layer starts at the type the previous one ended with *)
  Fixpoint gchain (d : list A) (ls : list (list A * B * list A)) (c : list A) : Prop :=
    match ls with [] => d = c | (l, b, r) :: ls' => d = l ++ bd b ++ r /\ gchain (l ++ bc b ++ r) ls' c end.
  Definition gwf (d : gdiag A B) : Prop := gchain (gdom d) (glayers d) (gcod d).
  Definition gtyped (d : gdiag A B) (s t : list A) : Prop := gwf d /\ gdom d = s /\ gcod d = t.
  (** values on the wires, carried through swaps ([isw]) only *)
  Variable isw : B -> bool.
  Fixpoint grun X (ls : list (list A * B * list A)) (v : list X) : option (list X) :=
    match ls with
    | [] => Some v
    | (l, b, _) :: ls' =>
        if isw b then
          match skipn (List.length l) v with
          | x :: y :: v2 => grun ls' (firstn (List.length l) v ++ y :: x :: v2)
          | _ => None
          end
        else None
    end.
End G.
