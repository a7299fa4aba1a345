(** Specification of gate actions on states of qubits, independent of diagrams.
    A state gives an amplitude (of any type [K]) to every bit string; qubit [i] is position [i] of the string. *)
From Coq Require Import QArith.
From Verif Require Import PyBase GDiag GDiagSpec QModel.
Close Scope Q_scope.
Set Implicit Arguments. Unset Strict Implicit.

Definition bit_of (i : nat) (x : list bool) : bool := nth i x false.
Definition set_bit (i : nat) (b : bool) (x : list bool) : list bool := firstn i x ++ b :: skipn (S i) x.

Section S.
  Variable K : Type.
  (** the one-qubit operator [u] on qubit [t], applied iff every control qubit is 1 *)
  Definition gate_at (u : oper K) (cs : list nat) (t : nat) : oper K :=
    fun psi x => if forallb (fun c => bit_of c x) cs then u (fun y => psi (set_bit t (hd false y) x)) [bit_of t x] else psi x.
  (** an [m]-qubit operator controlled at distance [d]: for [d > 0] the control is the first of the [m + d] wires and [u] acts on
      the last [m]; for [d < 0] the control is the last of the [m + |d|] wires and [u] acts on the first [m] *)
  Definition ctl_at (d : Z) (m : nat) (u : oper K) : oper K :=
    fun psi x =>
      if (0 <? d)%Z then
        if bit_of 0 x then u (fun y => psi (firstn (Z.to_nat d) x ++ y)) (skipn (Z.to_nat d) x) else psi x
      else
        if bit_of (m + Z.abs_nat d - 1) x then u (fun y => psi (y ++ skipn m x)) (firstn m x) else psi x.
  (** the result on strings of length [n] only depends on amplitudes of strings of length [m] *)
  Definition local_op (m n : nat) (u : oper K) : Prop :=
    forall psi phi, (forall y, List.length y = m -> psi y = phi y) -> forall x, List.length x = n -> u psi x = u phi x.
  (** an interpretation of the boxes by operators of the right arity *)
  Definition interp_ok (base : qbox -> oper K) : Prop :=
    forall b, local_op (List.length (q_dom b)) (List.length (q_cod b)) (base b).
  (** a sequence of (controlled) one-qubit gates: gate, controls, target *)
  Definition run_gates (f : qbox -> oper K) (gs : list (qbox * list nat * nat)) : oper K :=
    fun psi => fold_left (fun psi '(g, cs, t) => gate_at (f g) cs t psi) gs psi.
End S.
(** a gate on [m] qubits *)
Definition on_qubits (m : nat) (b : qbox) : Prop := q_dom b = qubits m /\ q_cod b = qubits m.
(** [b] is [g] under any number of nested controls *)
Fixpoint ctl_base (b : qbox) : qbox := match b with QCtl c _ => ctl_base c | _ => b end.
Fixpoint dists_nonzero (b : qbox) : Prop := match b with QCtl c d => d <> 0%Z /\ dists_nonzero c | _ => True end.
Notation qtyped := (gtyped q_dom q_cod).
Notation qwf := (gwf q_dom q_cod).
(** an uncontrolled gate on one qubit *)
Definition one_qubit (g : qbox) : Prop := on_qubits 1 g /\ match g with QCtl _ _ => False | _ => True end.
(** a gate whose name is that of a rotation is a rotation *)
Definition named_ok (g : qbox) : Prop := match g with QRot _ _ => True | _ => gtype g <> "Rx"%string /\ gtype g <> "Rz"%string end.
(** the layer appended for a controlled gate, its action and its export *)
Definition appended (d : qdiag) (s : list wire) (n : nat) (g : qbox) (ctl : list nat) (t : nat) (d' : qdiag) : Prop :=
  qtyped d' s (qubits n) /\
  (forall K (base : qbox -> oper K) psi x, interp_ok base -> List.length x = n -> q_eval base d' psi x = gate_at (q_array base g) ctl t (q_eval base d psi) x) /\
  exists l b r gt ph cs, glayers d' = glayers d ++ [(l, b, r)] /\ ctl_base b = g /\
    from_box b (List.length l) = Ok (Gate gt (cs ++ [t]) ph false (Some (sorted_nat ctl)) (Some t)) /\ Permutation cs ctl.
