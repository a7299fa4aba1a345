(** Theorems about [to_circuital] (C97). Model: CirModel.v; specification: CirSpec.v; concrete circuits: CirUse.v. *)
From Coq Require Import QArith.
From Verif Require Import PyBase GDiag GDiagSpec QModel QSpec QReadSpec QCirc CirModel CirSpec CirMain CirSem CirUse.
Close Scope Q_scope.

(** ** C97: [to_circuital] keeps the circuit *)
(** For every circuit on qubits made of preparations, post-selections, discards, one-qubit gates, controlled gates (controls on one side) and
    swaps, [to_circuital] gives a well-typed circuital diagram: all preparations first, the i-th at depth i, then gates, then post-selections
    and discards. It is the circuit it started from (closed by [init_and_discard]): the same gates in the same order on the same qubits,
    the same qubits post-selected and discarded. *)
Theorem C97_circuital : forall d n t, qtyped d (qubits n) t -> Forall circ_box (gboxes d) -> n <> 0 \/ glayers d <> [] ->
  exists c d', init_and_discard d = Ok c /\ circuital_form d (Ok d') /\ qtyped d' [] [] /\ circuital d' /\ is_circuital d' = true /\ same_circuit c d'.
Proof.
  intros d n t T F N. destruct (to_circuital_ok T F N) as (c & d' & m & H1 & H2 & H3 & H4 & H5 & _). exists c, d'. split; [exact H1|]. split; [now exists m|]. split; [exact H3|]. split; [exact H4|]. split; [now apply is_circuital_ok|exact H5].
Qed.
Print Assumptions C97_circuital.
(** the layout promised by the documentation *)
Theorem C97_layout : forall d n t d', qtyped d (qubits n) t -> Forall circ_box (gboxes d) -> n <> 0 \/ glayers d <> [] -> circuital_form d (Ok d') ->
  exists c gates ends, init_and_discard d = Ok c /\ glayers d' = map (fun i => (qubits i, QKet false, [])) (seq 0 (kets_of c)) ++ gates ++ ends /\
    Forall (fun x => is_ket (gl_box x) = false /\ is_end (gl_box x) = false) gates /\ Forall (fun x => is_end (gl_box x) = true) ends /\
    (gates <> [] -> map gl_left ends = repeat [] (kets_of c)).
Proof.
  intros d n t d2 T F N (m2 & E). destruct (to_circuital_ok T F N) as (c & d' & m & H1 & H2 & _ & _ & _ & _ & _ & _ & g & p & L & H3 & H4 & H5).
  assert (d2 = d') as -> by (specialize (E (m + m2)); specialize (H2 (m + m2)); rewrite H2 in E by apply Nat.le_add_r; specialize (E (Nat.le_add_l m2 m)); now injection E). now exists c, g, p.
Qed.
Print Assumptions C97_layout.
Example C97_instance : qtyped ex_circ (qubits 0) [Qb; Qb] /\ Forall circ_box (gboxes ex_circ) /\
  visits (seq 0 4) ex_circ = [VGate gX [0]; VGate gH [0]; VGate gX [0; 1]; VGate (QRot AZ (PVal 1%Q)) [0; 2]; VGate gX [1]; VPost 1; VGate gX [2; 0]; VPost 0] /\
  exists d', to_circuital 2000 ex_circ = Ok d' /\ List.length (glayers d') = 17 /\ gates_of (visits [0; 2; 3; 1] d') = gates_of (visits (seq 0 4) ex_circ).
Proof. split; [exact ex_typed|]. split; [exact ex_boxes|]. split; [reflexivity|]. eexists. split; [vm_compute; reflexivity|]. split; vm_compute; reflexivity. Qed.

(** ... and its amplitude is the same, whatever the boxes stand for (discards have none) *)
Theorem C97_amplitude : forall K (k0 : K) base d n t c d', pure_interp k0 base -> qtyped d (qubits n) t -> Forall circ_box (gboxes d) -> n <> 0 \/ glayers d <> [] ->
  init_and_discard d = Ok c -> ~ In QDisc (gboxes c) -> circuital_form d (Ok d') -> forall psi, q_eval base d' psi [] = q_eval base c psi [].
Proof. exact circuital_amplitude. Qed.
Print Assumptions C97_amplitude.
Example C97_amplitude_instance : pure_interp 0%Z ex_base /\ qtyped ex_closed (qubits 0) [] /\ Forall circ_box (gboxes ex_closed) /\ init_and_discard ex_closed = Ok ex_closed /\ ~ In QDisc (gboxes ex_closed) /\
  q_eval ex_base ex_closed (fun _ => 7%Z) [] = 7%Z /\
  exists d', to_circuital 2000 ex_closed = Ok d' /\ List.length (glayers d') = 18 /\ q_eval ex_base d' (fun _ => 7%Z) [] = 7%Z.
Proof.
  split; [exact ex_base_pure|]. split; [exact ex_closed_typed|]. split; [exact ex_closed_boxes|]. split; [reflexivity|]. split; [vm_compute; intuition discriminate|]. split; [reflexivity|].
  eexists. split; [vm_compute; reflexivity|]. split; vm_compute; reflexivity.
Qed.

(** the empty circuit raises *)
Theorem C97_empty_refuted : circuital_form (GD [] [] []) (Err IndexError).
Proof. now apply fuel_all. Qed.
Print Assumptions C97_empty_refuted.
(** a box on two qubits that is neither a controlled gate nor a swap is dropped without a word when a qubit is pulled through it *)
Theorem C97_two_qubit_refuted : qtyped two_circ [] (qubits 3) /\ In two_qubit_box (gboxes two_circ) /\ circuital_form two_circ (Ok two_out) /\ ~ In two_qubit_box (gboxes two_out).
Proof. split; [repeat split|]. split; [vm_compute; tauto|]. split; [now apply fuel_all|]. vm_compute. intuition discriminate. Qed.
Print Assumptions C97_two_qubit_refuted.
(** a bit to the left of a swap: the new swaps put the new qubit left of the bit, and composition fails *)
Theorem C97_bits_refuted : qtyped bit_circ [] [Bt; Qb; Qb; Qb] /\ circuital_form bit_circ (Err ValueError).
Proof. split; [repeat split|now apply fuel_all]. Qed.
Print Assumptions C97_bits_refuted.
(** controls on both sides of the target, or three on its right: the distances after pulling a qubit through at wire [q] are not those of the
    wires the gate was on *)
Theorem C97_controls_refuted : forall b q, (b = QCtl (QCtl gX 1) (-1) /\ q = 2) \/ (b = QCtl (QCtl gX (-1)) 1 /\ q = 1) \/ (b = QCtl (QCtl (QCtl gX (-1)) (-1)) (-1) /\ q = 2) ->
  positions (pull_ctl b 0 q) 0 <> map (shf q) (positions b 0).
Proof. intros b q [(-> & ->)|[(-> & ->)|(-> & ->)]]; vm_compute; discriminate. Qed.
Print Assumptions C97_controls_refuted.
