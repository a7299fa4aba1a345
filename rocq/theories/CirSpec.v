(** Specification for CirModel.v (C97): which qubits a circuit acts on, with which gates, in which order. Nothing here models repository code. *)
From Coq Require Import QArith.
From Verif Require Import PyBase GDiag QModel QSpec.
Close Scope Q_scope. Set Implicit Arguments. Unset Strict Implicit.

(** lists changed at a position *)
Fixpoint ins {A} (i : nat) (x : A) (l : list A) : list A :=
  match i, l with O, _ => x :: l | S i', a :: l' => a :: ins i' x l' | S _, [] => [x] end.
Fixpoint del {A} (i : nat) (l : list A) : list A :=
  match l with [] => [] | a :: l' => match i with O => l' | S i' => a :: del i' l' end end.
Fixpoint swp {A} (i : nat) (l : list A) : list A :=
  match i, l with O, x :: y :: l' => y :: x :: l' | S i', a :: l' => a :: swp i' l' | _, _ => l end.

(** the wires a gate starting at wire [k] acts on: for a controlled gate its controls and, last, its target. With a positive distance the
    control is the first wire and the controlled gate starts [d] wires further right; with a negative distance the control is the last wire
    and the controlled gate starts at the first *)
Fixpoint positions (b : qbox) (k : nat) : list nat :=
  match b with
  | QCtl c d => if (0 <? d)%Z then k :: positions c (k + Z.to_nat d)
                else let p := positions c k in removelast p ++ [k + (List.length (q_dom c) + Z.abs_nat d - 1)] ++ [last p k]
  | _ => seq k (List.length (q_dom b))
  end.

(** what is done to qubits, each known by the name given to it when it is prepared *)
Inductive visit := VGate (b : qbox) (qs : list nat) | VPost (q : nat) | VDisc (q : nat).
(** Following the wires of a circuit: [names] for the qubits still to be prepared, [ws] the names on the wires. A qubit prepared in 1 is one
    prepared in 0 to which X is applied; a post-selection on 1 is X and a post-selection on 0; a swap only moves names. *)
Definition visit_layer (st : list nat * list nat) (x : list wire * qbox * list wire) : list nat * list nat * list visit :=
  let '(names, ws) := st in
  let k := List.length (gl_left x) in
  match gl_box x with
  | QKet one => match names with [] => (names, ws, []) | n :: names' => (names', ins k n ws, if one then [VGate gX [n]] else []) end
  | QBra one => (names, del k ws, (if one then [VGate gX [nth k ws 0]] else []) ++ [VPost (nth k ws 0)])
  | QDisc => (names, del k ws, [VDisc (nth k ws 0)])
  | QSwap _ _ => (names, swp k ws, [])
  | b => (names, ws, [VGate (ctl_base b) (map (fun p => nth p ws 0) (positions b k))])
  end.
Fixpoint follow (st : list nat * list nat) (ls : list (list wire * qbox * list wire)) : list nat * list nat * list visit :=
  match ls with
  | [] => (st, [])
  | x :: ls' => let '(st1, es) := visit_layer st x in let '(st2, es') := follow st1 ls' in (st2, es ++ es')
  end.
Definition visits (names : list nat) (d : qdiag) : list visit := snd (follow (names, []) (glayers d)).
Definition is_vgate (e : visit) : bool := match e with VGate _ _ => true | _ => false end.
Definition gates_of (es : list visit) : list visit := filter is_vgate es.
Definition ends_of (es : list visit) : list visit := filter (fun e => negb (is_vgate e)) es.
Definition kets_of (d : qdiag) : nat := List.length (filter is_ket (gboxes d)).
(** the same qubits, gates in the same order on the same qubits, the same qubits post-selected and discarded, up to the names of qubits *)
Definition same_circuit (d d' : qdiag) : Prop :=
  exists names, Permutation names (seq 0 (kets_of d)) /\ kets_of d' = kets_of d /\
    gates_of (visits names d') = gates_of (visits (seq 0 (kets_of d)) d) /\ Permutation (ends_of (visits names d')) (ends_of (visits (seq 0 (kets_of d)) d)).

(** the number a wire has after one is inserted at [q] *)
Definition shf (q p : nat) : nat := if p <? q then p else S p.

(** controls all on the left of the target, or one or two controls all on its right *)
Definition base_gate (b : qbox) : Prop := q_dom b = [Qb] /\ q_cod b = [Qb] /\ match b with QCtl _ _ | QKet _ | QBra _ | QDisc | QSwap _ _ => False | _ => True end.
Fixpoint left_controls (b : qbox) : Prop := match b with QCtl c d => (0 < d)%Z /\ left_controls c | _ => base_gate b end.
Definition right_controls (b : qbox) : Prop :=
  match b with
  | QCtl (QCtl c d') d => (d < 0)%Z /\ (d' < 0)%Z /\ base_gate c
  | QCtl c d => (d < 0)%Z /\ base_gate c
  | _ => False
  end.
Definition same_side (b : qbox) : Prop := left_controls b \/ right_controls b.
(** the boxes covered: preparations, post-selections and discards of qubits, boxes on at most one qubit, controlled gates with the controls on
    one side, swaps of qubits *)
Definition circ_box (b : qbox) : Prop :=
  match b with
  | QKet _ | QBra _ | QDisc => True
  | QSwap x y => x = Qb /\ y = Qb
  | QCtl _ _ => same_side b
  | _ => q_dom b = q_cod b /\ (q_dom b = [] \/ q_dom b = [Qb])
  end.

(** an interpretation of the boxes by operators of the right arity, sending zero states to zero states, in which preparations, post-selections
    and X are what they are called; every other box is arbitrary *)
Definition pure_interp K (k0 : K) (base : qbox -> oper K) : Prop :=
  interp_ok base /\
  (forall one psi b, base (QKet one) psi [b] = if Bool.eqb b one then psi [] else k0) /\
  (forall one psi, base (QBra one) psi [] = psi [one]) /\
  (forall psi b, base gX psi [b] = psi [negb b]) /\
  (forall b psi x, (forall y, psi y = k0) -> base b psi x = k0).
