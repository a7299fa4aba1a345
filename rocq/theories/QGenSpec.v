(** Specification of the generated quantum boxes: what spiders, cups and caps do to amplitudes, over any commutative ring
    containing a square root [r2] of two with inverse [h] (only [r2 * h = 1] is needed). *)
From Coq Require Import Ring_theory QArith.
From Verif Require Import PyBase GDiag GDiagSpec QModel QSpec.
Close Scope Q_scope. Set Implicit Arguments. Unset Strict Implicit.
Section R.
  Variables (K : Type) (k0 k1 : K) (kadd kmul ksub : K -> K -> K) (kopp : K -> K) (r2 h : K).
  (** the arrays of the boxes used: H = h [[1,1],[1,-1]], X, the scalar sqrt 2, <0|, |0> (quantum.py 773, 806, 1110, 1183-1188) *)
  Definition concrete (base : qbox -> oper K) : Prop :=
    (forall psi, base gH psi [false] = kmul h (kadd (psi [false]) (psi [true]))) /\
    (forall psi, base gH psi [true] = kmul h (ksub (psi [false]) (psi [true]))) /\
    (forall psi b, base gX psi [b] = psi [negb b]) /\
    (forall psi, base sqrt2 psi [] = kmul r2 (psi [])) /\
    (forall psi, base (QBra false) psi [] = psi [false]) /\
    (forall psi b, base (QKet false) psi [b] = if b then k0 else psi []).
  Definition bits_eqb (x y : list bool) : bool := if list_eq_dec Bool.bool_dec x y then true else false.
  (** spider: all inputs and all outputs carry the same bit *)
  Definition spider_op (i o : nat) : oper K := fun psi y =>
    kadd (if bits_eqb y (repeat false o) then psi (repeat false i) else k0) (if bits_eqb y (repeat true o) then psi (repeat true i) else k0).
  (** sum over all bit strings of length [n] *)
  Fixpoint sum_bits (n : nat) (f : list bool -> K) : K :=
    match n with O => f [] | S m => kadd (sum_bits m (fun y => f (false :: y))) (sum_bits m (fun y => f (true :: y))) end.
  Definition cup_op (n : nat) : oper K := fun psi _ => sum_bits n (fun y => psi (y ++ rev y)).
  Definition cap_op (n : nat) : oper K := fun psi x => if bits_eqb (firstn n x) (rev (skipn n x)) then psi [] else k0.
End R.
