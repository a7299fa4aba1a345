(** What it means for a circuit to be within reach of the PennyLane conversion, and for PennyLane's gates to agree with lambeq's (C91-C93).
    Nothing here models repository code. *)
From Coq Require Import QArith.
From Verif Require Import PyBase GDiag QModel QSpec.
Close Scope Q_scope.
Set Implicit Arguments. Unset Strict Implicit.
Local Open Scope string_scope. Local Open Scope list_scope.

(** a rotation angle: a number other than 0, or a symbol without a coefficient *)
Definition good_param (p : param) : Prop := match p with PVal v => ~ (v == 0)%Q | PSym _ _ _ s => (s == 1)%Q end.
(** the gates that are converted faithfully; missing: daggered S and T, CRy, rotations by 0 or by a scaled symbol, double controls *)
Definition pl_gate (b : qbox) : Prop :=
  match b with
  | QBox n d c m _ => In n ["H"; "X"; "Y"; "Z"; "S"; "T"] /\ d = [Qb] /\ c = [Qb] /\ m = false
  | QRot _ p => good_param p
  | QCtl (QBox n d c m _) k => k <> 0%Z /\ In n ["X"; "Y"; "Z"] /\ d = [Qb] /\ c = [Qb] /\ m = false
  | QCtl (QRot a p) k => k <> 0%Z /\ a <> AY /\ good_param p
  | QSwap Qb Qb => True
  | QScal _ _ => True
  | _ => False
  end.
(** no scalar directly follows another *)
Definition is_scal (b : qbox) : bool := match b with QScal _ _ => true | _ => false end.
Fixpoint no_adjacent_scalars (bs : list qbox) : Prop :=
  match bs with [] => True | b :: bs' => match bs' with [] => True | b' :: _ => is_scal b && is_scal b' = false end /\ no_adjacent_scalars bs' end.
(** a pure circuit: qubits in state 0, then gates, then post-selections *)
Definition pl_circuit (d : qdiag) : Prop :=
  qwf d /\ is_circuital d = true /\ Forall (fun b => b = QKet false \/ pl_gate b \/ exists x, b = QBra x) (gboxes d) /\
  (forall i j x b, nth_error (gboxes d) i = Some (QBra x) -> nth_error (gboxes d) j = Some b -> i < j -> exists y, b = QBra y) /\
  no_adjacent_scalars (gboxes d).
(** the angles used by a gate *)
Definition box_angle (b : qbox) : option param := match b with QRot _ p | QCtl (QRot _ p) _ => Some p | _ => None end.
Definition axis_name (a : raxis) : string := match a with AX => "Rx" | AY => "Ry" | AZ => "Rz" end.
(** the interpretation [base] of lambeq's boxes is that of PennyLane's gates [u1], with angles in turns valued by [pvalue] *)
Record pl_agrees {K A : Type} (kzero : K) (kmul : K -> K -> K) (num : Q -> A) (two_pi : A -> A) (scal : bool -> Q -> K)
    (u1 : string -> list A -> oper K) (pvalue : param -> A) (base : qbox -> oper K) : Prop := {
  pa_ok : interp_ok base;
  pa_num : forall v, pvalue (PVal v) = num v;
  pa_named : forall n m s psi b, In n ["H"; "X"; "Y"; "Z"; "S"; "T"] -> base (QBox n [Qb] [Qb] m s) psi [b] = u1 n [] psi [b];
  pa_rot : forall a p psi b, base (QRot a p) psi [b] = u1 (axis_name a) [two_pi (pvalue p)] psi [b];
  pa_ket : forall psi b, base (QKet false) psi [b] = if b then kzero else psi [];
  pa_bra : forall x psi, base (QBra x) psi [] = psi [x];
  pa_scal : forall r v psi, base (QScal r v) psi [] = kmul (scal r v) (psi []);
  (** gates are linear *)
  pa_lin : forall b c psi x, base b (fun y => kmul c (psi y)) [x] = kmul c (base b psi [x]) }.
