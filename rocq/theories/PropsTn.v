(** Theorems about evaluation by tensor networks (C44, C47, C76). Models: TnModel.v; specification: TnSpec.v, TnMixSpec.v. *)
From Coq Require Import QArith.
From Verif Require Import PyBase GDiag GDiagSpec QModel QSpec TnModel TnSpec TnFacts TnMixModel TnMixSpec TnMixFacts.
Close Scope Q_scope.
Set Implicit Arguments. Unset Strict Implicit.

(** ** C44: the network of a circuit with classical and quantum wires *)

(** Full claim: for every well-typed circuit. Proved for the circuits whose layers satisfy [source_ok]: mixed boxes of any type, pure boxes on qubits,
    controlled boxes at any distance, swaps of qubits, and swaps of bits with as many bits as qubits to their left. The circuit is decomposed into a
    well-typed one; every copy of every wire entering a box is connected to the leg of that wire ([mix_wires]; [qsource] follows the wire back), a discarded
    qubit to its conjugate; the open edges are the inputs then the outputs (bits, qubits, conjugates, each in order); no leg is used twice.
    Missing: other classical swaps, swaps of a bit with a qubit, pure boxes on bits: see the refutations. *)
Theorem C44_to_tn_partial : forall d s c, gtyped q_dom q_cod d s c -> Forall source_ok (glayers d) ->
  exists dg conns, decompose_all d = Ok dg /\ gtyped q_dom q_cod dg s c /\
    mixed_to_tn d = Ok (mix_nodes (glayers dg), conns, (register 0 (wcount Bt s) 0 ++ register 1 (wcount Qb s) 0 ++ register 2 (wcount Qb s) 0) ++ mix_open s (glayers dg) (List.length (glayers dg)) c) /\
    Permutation conns (flat_map (mix_wires s (glayers dg)) (seq 0 (List.length (glayers dg)))) /\
    NoDup (ends conns ++ (register 0 (wcount Bt s) 0 ++ register 1 (wcount Qb s) 0 ++ register 2 (wcount Qb s) 0) ++ mix_open s (glayers dg) (List.length (glayers dg)) c).
Proof. exact mixed_to_tn_ok. Qed.
Print Assumptions C44_to_tn_partial.
Example C44_instance : let d := GD [Bt; Qb; Qb] [Qb; Bt] [([], QEnc, [Qb; Qb]); ([], QCtl gX 2, []); ([Qb], QSwap Qb Qb, []); ([Qb], QMeas, [Qb]); ([Qb; Bt], QDisc, [])] in
  gtyped q_dom q_cod d [Bt; Qb; Qb] [Qb; Bt] /\ Forall source_ok (glayers d) /\ is_ok (mixed_to_tn d) = true.
Proof.
  cbv zeta. split; [unfold gtyped, gwf; cbn; repeat split|]. split; [|vm_compute; reflexivity].
  unfold glayers. repeat apply Forall_cons; try apply Forall_nil; cbn; auto. split; [discriminate|]. exists 1. split; reflexivity.
Qed.
(** A swap of two bits with a qubit on their left: the circuit is rejected ... *)
Theorem C44_bit_swap_refuted : exists d, gtyped q_dom q_cod d [Qb; Bt; Bt] [Qb; Bt; Bt] /\ mixed_to_tn d = Err IndexError.
Proof. exists (GD [Qb; Bt; Bt] [Qb; Bt; Bt] [([Qb], QSwap Bt Bt, [])]). split; [unfold gtyped, gwf; cbn; repeat split|vm_compute; reflexivity]. Qed.
Print Assumptions C44_bit_swap_refuted.
(** ... or, with more bits, the wrong two bits are swapped silently. *)
Theorem C44_bit_swap_wrong_refuted : exists d nodes conns ins outs, gtyped q_dom q_cod d [Qb; Bt; Bt; Bt] [Qb; Bt; Bt; Bt] /\
  mixed_to_tn d = Ok (nodes, conns, ins ++ outs) /\ List.length ins = 5 /\ outs <> mix_open [Qb; Bt; Bt; Bt] (glayers d) 1 [Qb; Bt; Bt; Bt].
Proof.
  exists (GD [Qb; Bt; Bt; Bt] [Qb; Bt; Bt; Bt] [([Qb], QSwap Bt Bt, [Bt])]), [], [], (register 0 3 0 ++ register 1 1 0 ++ register 2 1 0), [LReg 0 0 1; LReg 0 2 1; LReg 0 1 1; LReg 1 0 1; LReg 2 0 1].
  split; [unfold gtyped, gwf; cbn; repeat split|]. split; [vm_compute; reflexivity|]. split; [reflexivity|]. vm_compute. discriminate.
Qed.
Print Assumptions C44_bit_swap_wrong_refuted.
(** A swap of a qubit with a bit exchanges two qubits. *)
Theorem C44_mixed_swap_refuted : exists d nodes conns ins outs, gtyped q_dom q_cod d [Qb; Bt; Qb] [Bt; Qb; Qb] /\
  mixed_to_tn d = Ok (nodes, conns, ins ++ outs) /\ List.length ins = 5 /\ outs <> mix_open [Qb; Bt; Qb] (glayers d) 1 [Bt; Qb; Qb].
Proof.
  exists (GD [Qb; Bt; Qb] [Bt; Qb; Qb] [([], QSwap Qb Bt, [Qb])]), [], [], (register 0 1 0 ++ register 1 2 0 ++ register 2 2 0), [LReg 0 0 1; LReg 1 1 1; LReg 1 0 1; LReg 2 1 1; LReg 2 0 1].
  split; [unfold gtyped, gwf; cbn; repeat split|]. split; [vm_compute; reflexivity|]. split; [reflexivity|]. vm_compute. discriminate.
Qed.
Print Assumptions C44_mixed_swap_refuted.
(** A bit put on a classical wire ends on the quantum registers: encoding it fails. *)
Theorem C44_bit_refuted : exists d, gtyped q_dom q_cod d [] [Qb] /\ gboxes d = [QBit false; QEnc] /\ mixed_to_tn d = Err IndexError.
Proof. exists (GD [] [Qb] [([], QBit false, []); ([], QEnc, [])]). split; [unfold gtyped, gwf; cbn; repeat split|]. split; vm_compute; reflexivity. Qed.
Print Assumptions C44_bit_refuted.

(** ** C47: the network of a tensor diagram *)

(** Every well-typed diagram is turned into a network (no exception): one node per box other than swaps and cups; the connections are, layer by
    layer, the wires entering the box ([source] follows a wire back to the leg it comes from), leg [i] of the node taking the [i]-th wire;
    the open edges are the inputs then the outputs in order; and every leg of every node is used exactly once. *)
Theorem C47_to_tn : forall d s t, gtyped t_dom t_cod d s t ->
  exists nodes conns open, to_tn d = Ok (nodes, conns, open) /\
    nodes = filter (has_node (glayers d)) (seq 0 (List.length (glayers d))) /\
    conns = flat_map (wires_into (glayers d)) (seq 0 (List.length (glayers d))) /\
    open = map (fun i => LIn i 0) (seq 0 (List.length s)) ++ map (source (glayers d) (List.length (glayers d))) (seq 0 (List.length t)) /\
    NoDup (ends conns ++ open) /\ Permutation (ends conns ++ open) (all_legs (List.length s) (glayers d)).
Proof. exact to_tn_ok. Qed.
Print Assumptions C47_to_tn.
(** a box on [2], a swap of its two outputs, a spider, a cup *)
Example C47_instance : let d := GD [2] [2] [([], TBox "f" [2] [3; 2], []); ([], TSwap 3 2, []); ([], TSpider 2 1 3, [3]); ([2], TCup 2 2, [3]); ([2], TBox "g" [3] [], [])] in
  gtyped t_dom t_cod d [2] [2] /\
  to_tn d = Ok ([0; 2; 4], [(LIn 0 1, LBox 0 0); (LBox 0 2, LBox 2 0); (LBox 2 2, LBox 2 3); (LBox 0 1, LBox 4 0)], [LIn 0 0; LBox 2 1]).
Proof. cbv zeta. split; [|vm_compute; reflexivity]. unfold gtyped, gwf. cbn. repeat split. Qed.

(** ** C76: the array of a tensor cap *)

(** On qubit-sized wires the array of a cap is the identity matrix, as the snake equations require. *)
Theorem C76_cap_partial : forall i j, i < 2 -> j < 2 -> cap_array 2 i j = if i =? j then 1 else 0.
Proof. exact cap_two. Qed.
Print Assumptions C76_cap_partial.
(** On wires of every dimension from 3 it is not: the entry (1, 1) is 0. *)
Theorem C76_cap_refuted : forall d, 3 <= d -> 1 < d /\ cap_array d 1 1 <> 1.
Proof. intros d H. split; [apply (Nat.lt_le_trans _ 2); [auto|apply (Nat.le_trans _ 3); auto]|]. rewrite (cap_more H). discriminate. Qed.
Print Assumptions C76_cap_refuted.
(** Hence a snake on a single wire of dimension [d] ([(Id @ Cap) >> (Cup @ Id)], contracted) is not the identity: it sends index 1 to 0. *)
Theorem C76_snake_refuted : forall d, 3 <= d -> fold_right Nat.add 0 (map (fun k => (if 1 =? k then 1 else 0) * cap_array d k 1) (seq 0 d)) = 0.
Proof. exact snake_zero. Qed.
Print Assumptions C76_snake_refuted.
Example C76_instance : map (fun i => map (cap_array 3 i) [0; 1; 2]) [0; 1; 2] = [[1; 0; 0]; [0; 0; 0]; [0; 0; 1]].
Proof. reflexivity. Qed.
