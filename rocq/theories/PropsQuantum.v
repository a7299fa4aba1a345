(** Theorems about circuits (C40-C43, C45, C46). Models: QModel.v; specifications: QSpec.v, QGenSpec.v, QReadSpec.v. *)
From Coq Require Import Ring_theory QArith Qcanon.
From Verif Require Import PyBase DiagModel GDiag GDiagSpec GDiagFacts QModel QSpec QFacts QPlace QApply QGenSpec QGen QSpider QReadSpec QRead QCirc.
Close Scope Q_scope. Close Scope Qc_scope. Set Implicit Arguments. Unset Strict Implicit.

(** ** C40: gate placement *)

(** One-qubit gates: exactly one layer is appended, it holds the gate at the requested qubit, and the circuit acts as before followed by that gate on that qubit. *)
Theorem C40_one_qubit : forall d s n g a, qtyped d s (qubits n) -> one_qubit g -> a < n ->
  exists d' l, apply_gate d g [Z.of_nat a] = Ok d' /\ qtyped d' s (qubits n) /\ glayers d' = glayers d ++ [l] /\ gl_box l = g /\ List.length (gl_left l) = a /\
    forall K (base : qbox -> oper K) psi x, interp_ok base -> List.length x = n -> q_eval base d' psi x = gate_at (q_array base g) [] a (q_eval base d psi) x.
Proof. exact apply_one. Qed.
Print Assumptions C40_one_qubit.
(** Controlled gates (CX, CY, CZ, CRx, CRy, CRz), any two distinct qubits in any order and at any distance: control [a], target [b],
    as an operator and in the exported gate. The distance [k] stored in the gate passed in is irrelevant. *)
Theorem C40_controlled : forall d s n g k a b, qtyped d s (qubits n) -> one_qubit g -> named_ok g -> a < n -> b < n -> a <> b ->
  exists d', apply_gate d (QCtl g k) [Z.of_nat a; Z.of_nat b] = Ok d' /\ appended d s n g [a] b d'.
Proof. exact apply_ctl. Qed.
Print Assumptions C40_controlled.
(** Doubly controlled gates (CCX, CCZ), all six orders and all distances. *)
Theorem C40_doubly_controlled : forall d s n g k1 k2 a b c, qtyped d s (qubits n) -> one_qubit g -> named_ok g ->
  a < n -> b < n -> c < n -> a <> b -> a <> c -> b <> c ->
  exists d', apply_gate d (QCtl (QCtl g k1) k2) [Z.of_nat a; Z.of_nat b; Z.of_nat c] = Ok d' /\ appended d s n g [a; b] c d'.
Proof. exact apply_ctl2. Qed.
Print Assumptions C40_doubly_controlled.
(** The property is false of the two-qubit SWAP: on non-adjacent qubits it is silently applied to the qubits [min] and [min + 1]. *)
Theorem C40_swap_refuted : exists d d', qtyped d (qubits 3) (qubits 3) /\ apply_gate d gSWAP [0%Z; 2%Z] = Ok d' /\
  forall K (base : qbox -> oper K) psi, q_eval base d' psi [true; false; false] = psi [false; true; false].
Proof. exists (qid (qubits 3)). eexists. split; [apply gtyped_id|]. split; [vm_compute; reflexivity|]. intros. reflexivity. Qed.
Print Assumptions C40_swap_refuted.
Example C40_instance : forall p,
  one_qubit gX /\ one_qubit gY /\ one_qubit gZ /\ one_qubit gH /\ one_qubit (QRot AX p) /\ named_ok gX /\ named_ok gZ /\ named_ok (QRot AX p) /\
  (do d <- apply_gate (Idn 4) gCX [3%Z; 0%Z]; Ok (glayers d)) = Ok [([], QCtl gX (-3), [])] /\
  from_box (QCtl gX (-3)) 0 = Ok (Gate "CX" [3; 0] PhNone false (Some [3]) (Some 0)) /\
  (do d <- apply_gate (Idn 4) gCCX [3%Z; 1%Z; 0%Z]; Ok (glayers d)) = Ok [([], QCtl (QCtl gX (-1)) (-2), [])].
Proof. intro p. unfold one_qubit, on_qubits, named_ok, gX, gY, gZ, gH, q1. cbn. repeat split; discriminate. Qed.

(** ** C41: decomposition of long-range controlled gates *)

(** For every non-zero distance and every controlled box on [m] qubits: the decomposition exists, is well typed on the same qubits, and acts
    as the box itself controlled at that distance, all skipped wires in place. ([u] is the map of the controlled box; the swaps exchange their wires.) *)
Theorem C41_decompose : forall K c d m (f : qbox -> oper K) (u : oper K),
  on_qubits m c -> d <> 0%Z -> d <> 1%Z -> (forall a b, f (QSwap a b) = @op_swap K) -> f (QCtl c 1) = op_ctl1 u -> local_op m m u ->
  exists dg, decompose_ctl c d = Ok dg /\ qtyped dg (qubits (m + Z.abs_nat d)) (qubits (m + Z.abs_nat d)) /\
    forall psi x, List.length x = m + Z.abs_nat d -> q_layers f (glayers dg) psi x = ctl_at d m u psi x.
Proof. intros K c d m f u. apply decompose_ctl_spec. Qed.
Print Assumptions C41_decompose.
(** The linear map ([array]) of a (nested) controlled gate is the controlled map, at every distance. *)
Theorem C41_array : forall K (base : qbox -> oper K) c d, interp_ok base -> one_qubit (ctl_base c) -> dists_nonzero (QCtl c d) ->
  forall psi x, List.length x = List.length (q_dom (QCtl c d)) -> q_array base (QCtl c d) psi x = ctl_at d (List.length (q_dom c)) (q_array base c) psi x.
Proof. intros K base c d HI H1 H2 psi x L. destruct (@array_spec K base (QCtl c d) HI (one_qubit_ok (b:=QCtl c d) H1 H2)) as [_ S]. apply S. exact L. Qed.
Print Assumptions C41_array.
Example C41_instance : on_qubits 2 gCX /\ one_qubit (ctl_base gCX) /\ dists_nonzero (QCtl gCX (-2)) /\
  rmap gboxes (decompose_ctl gCX (-2)) = Ok [gSWAP; gSWAP; gSWAP; QCtl gCX 1; gSWAP; gSWAP; gSWAP] /\
  forall K (base : qbox -> oper K) psi, q_array base gCX psi [false; true] = psi [false; true].
Proof. unfold on_qubits, one_qubit, gCX, gX, q1. repeat split; try reflexivity; try discriminate. Qed.

(** ** C42: phases of exported gates *)

Theorem C42_rotation : forall a p off, exists g, from_box (QRot a p) off = Ok g /\ g_phase g = PhParam p /\ g_dagger g = false.
Proof. intros a p off. eexists. split; [reflexivity|]. split; reflexivity. Qed.
Print Assumptions C42_rotation.
(** CRx and CRz, at any non-zero distance *)
Theorem C42_controlled : forall a p d off, a <> AY -> d <> 0%Z -> exists g, from_box (QCtl (QRot a p) d) off = Ok g /\ g_phase g = PhParam p.
Proof. exact from_box_crot. Qed.
Print Assumptions C42_controlled.
(** False of CRy: the exported gate has no phase at all, whatever the angle. *)
Theorem C42_cry_refuted : forall p d off, d <> 0%Z -> exists g, from_box (QCtl (QRot AY p) d) off = Ok g /\ g_type g = "CRy"%string /\ g_phase g = PhNone.
Proof. exact from_box_cry. Qed.
Print Assumptions C42_cry_refuted.
(** False of doubly controlled rotations as well. *)
Theorem C42_ccr_refuted : forall a p, exists g, from_box (QCtl (QCtl (QRot a p) 1) 1) 0 = Ok g /\ g_phase g = PhNone.
Proof. intros a p. destruct a; eexists; (split; [reflexivity|reflexivity]). Qed.
Print Assumptions C42_ccr_refuted.
Example C42_instance : from_box (QCtl (QRot AZ (PSym "w_0" 0 1 1)) (-2)) 3 = Ok (Gate "CRz" [5; 3] (PhParam (PSym "w_0" 0 1 1)) false (Some [5]) (Some 3)).
Proof. reflexivity. Qed.

(** ** C43: reading a circuit off *)

(** For every circuital diagram made of kets, measurements, post-selections, discards and exportable gates on qubits, the read-off succeeds;
    every measured, post-selected and discarded qubit is the one actually on that wire (reference [trace]), in order, with consecutive bit indices;
    no qubit is used up twice ([ms], [ds] and the remaining qubits partition [0 .. total)); and when no gate follows a measurement,
    post-selection or discard, every gate is exported with the qubits on its wires. *)
Theorem C43_readoff_partial : forall d, qwf d -> is_circuital d = true -> Forall circuit_box (gboxes d) ->
  (forall b, In b (gboxes d) -> is_ket b = false -> is_consumer b = false -> exists g, from_box b 0 = Ok g) ->
  exists ci ms ps ds rest,
    readoff d = Ok ci /\ ci_total ci = List.length (filter is_ket (gboxes d)) /\
    ci_bitmap ci = combine ms (seq 0 (List.length ms)) /\ map Some ms = measured (trace 0 [] (glayers d)) /\
    ci_postmap ci = ps /\ map (fun p => (Some (fst p), snd p)) ps = posted (trace 0 [] (glayers d)) /\
    ci_discards ci = ds /\ map Some ds = discarded (trace 0 [] (glayers d)) /\
    Permutation (seq 0 (ci_total ci)) (ms ++ ds ++ rest) /\
    (gates_first (filter (fun b => negb (is_ket b)) (gboxes d)) ->
     Forall2 (fun g bq => exists g0, from_box (fst bq) 0 = Ok g0 /\ renames g0 g (snd bq)) (ci_gates ci) (gated (trace 0 [] (glayers d)))).
Proof. exact readoff_ok. Qed.
Print Assumptions C43_readoff_partial.
(** Without that last hypothesis the property is false: [is_circuital] accepts a gate after the last post-selection, and it is
    reported on the wrong qubit (qubit 0, which no longer exists, instead of qubit 1). *)
Theorem C43_late_gate_refuted : exists d ci, qwf d /\ is_circuital d = true /\ readoff d = Ok ci /\
  map g_qubits (ci_gates ci) = [[0]] /\ gated (trace 0 [] (glayers d)) = [(gX, [Some 1])] /\ ci_postmap ci = [(0, false)].
Proof.
  exists (GD [] [Qb] [([], QKet false, []); ([Qb], QKet false, []); ([], QBra false, [Qb]); ([], gX, [])]). eexists.
  split; [unfold gwf; cbn; auto|]. split; [reflexivity|]. split; [vm_compute; reflexivity|]. repeat split.
Qed.
Print Assumptions C43_late_gate_refuted.
(** Exactly the circuital diagrams are accepted; the others are rejected with AssertionError. *)
Theorem C43_circuital : forall d, (is_circuital d = true <-> circuital d) /\ (~ circuital d -> readoff d = Err AssertionError).
Proof. intro d. exact (conj (is_circuital_ok d) (@readoff_rejects d)). Qed.
Print Assumptions C43_circuital.
Example C43_instance :
  let d := GD [] [Bt] [([], QKet false, []); ([Qb], QKet true, []); ([Qb; Qb], QKet false, []); ([], gH, [Qb; Qb]); ([Qb], QCtl gX (-1), []);
                       ([Qb], QMeas, [Qb]); ([], QBra true, [Bt; Qb]); ([Bt], QDisc, [])] in
  qwf d /\ is_circuital d = true /\ Forall circuit_box (gboxes d) /\
  (forall b, In b (gboxes d) -> is_ket b = false -> is_consumer b = false -> exists g, from_box b 0 = Ok g) /\
  gates_first (filter (fun b => negb (is_ket b)) (gboxes d)) /\
  readoff d = Ok (CI 3 [Gate "H" [0] PhNone false None None; Gate "CX" [2; 1] PhNone false (Some [2]) (Some 1)] [(1, 0); (0, 1)] [(0, true)] [2]).
Proof.
  cbn zeta. split; [unfold gwf; cbn; repeat split|]. split; [reflexivity|]. split.
  { apply Forall_forall. cbn. intros b H. unfold circuit_box. decompose [or] H; subst; cbn; auto; try tauto; right; right; [exists 1|exists 2]; split; reflexivity. }
  split. { cbn. intros b H. decompose [or] H; subst; try discriminate; try tauto; intros _ _; eexists; reflexivity. }
  split; [|vm_compute; reflexivity]. cbn. repeat split; try discriminate; repeat constructor.
Qed.

(** ** C45: generated spiders, cups and caps *)

(** Spiders on one qubit, all leg counts: generation terminates, the circuit is well typed, and its map copies a common bit from inputs to outputs. *)
Theorem C45_spider : forall K k0 k1 kadd kmul ksub kopp (r2 h : K), ring_theory k0 k1 kadd kmul ksub kopp eq -> kmul r2 h = k1 ->
  forall base, interp_ok base -> concrete k0 kadd kmul ksub r2 h base ->
  forall i o fuel, fuel > S (S (S (i + o))) -> exists D, generate_spider fuel [Qb] i o = Ok D /\ qtyped D (qubits i) (qubits o) /\
    forall psi y, List.length y = o -> q_eval base D psi y = spider_op k0 kadd i o psi y.
Proof.
  intros K k0 k1 kadd kmul ksub kopp r2 h RT RH base HI HC i o fuel Hf. destruct (@spider_all K k0 k1 kadd kmul ksub kopp r2 h RT RH base HI HC i o fuel Hf) as (D & E & T & _ & U & _).
  exists D. split; [exact E|]. split; [exact T|]. intros psi y L. apply U. now rewrite len_qubits.
Qed.
Print Assumptions C45_spider.
(** Other types: the (1,1) spider is the identity, spiders on the unit type are the empty circuit, anything else is refused. *)
Theorem C45_spider_types : forall fuel t i o,
  generate_spider (S fuel) t 1 1 = Ok (qid t) /\
  (i <> 1 \/ o <> 1 -> generate_spider (S fuel) [] i o = Ok (qid []) /\ (t <> [] -> t <> [Qb] -> generate_spider (S fuel) t i o = Err NotImplementedError)).
Proof. exact spider_types. Qed.
Print Assumptions C45_spider_types.
(** Cups on [n] qubits: [2n -> 0], pairing wire [i] with wire [2n - 1 - i]. *)
Theorem C45_cup : forall K k0 k1 kadd kmul ksub kopp (r2 h : K), ring_theory k0 k1 kadd kmul ksub kopp eq -> kmul r2 h = k1 ->
  forall base, interp_ok base -> concrete k0 kadd kmul ksub r2 h base ->
  forall n, exists D, generate_cup (qubits n) (qubits n) = Ok D /\ qtyped D (qubits n ++ qubits n) [] /\ forall psi, q_eval base D psi [] = cup_op kadd n psi [].
Proof.
  intros K k0 k1 kadd kmul ksub kopp r2 h RT RH base HI HC n. destruct (@cup_all K k0 k1 kadd kmul ksub kopp r2 h RT RH base HI HC n) as (D & E & T & _ & U).
  exists D. split; [exact E|]. split; [exact T|]. intros psi. now apply U.
Qed.
Print Assumptions C45_cup.
Theorem C45_cap : forall K k0 k1 kadd kmul ksub kopp (r2 h : K), ring_theory k0 k1 kadd kmul ksub kopp eq -> kmul r2 h = k1 ->
  forall base, interp_ok base -> concrete k0 kadd kmul ksub r2 h base ->
  forall n, exists D, generate_cap (qubits n) (qubits n) = Ok D /\ qtyped D [] (qubits n ++ qubits n) /\
    forall psi x, List.length x = n + n -> q_eval base D psi x = cap_op k0 n psi x.
Proof.
  intros K k0 k1 kadd kmul ksub kopp r2 h RT RH base HI HC n. destruct (@cap_all K k0 k1 kadd kmul ksub kopp r2 h RT RH base HI HC n) as (D & E & T & _ & U).
  exists D. split; [exact E|]. split; [exact T|]. intros psi x L. apply U. now rewrite app_length, !len_qubits.
Qed.
Print Assumptions C45_cap.
(** the hypotheses are met: an interpretation over the rationals *)
Example C45_instance : exists base : qbox -> oper Qc, interp_ok base /\ concrete (Q2Qc 0) Qcplus Qcmult Qcminus (Q2Qc 2) (Q2Qc (1 # 2)) base /\
  ring_theory (Q2Qc 0) (Q2Qc 1) Qcplus Qcmult Qcminus Qcopp eq /\ Qcmult (Q2Qc 2) (Q2Qc (1 # 2)) = Q2Qc 1 /\
  rmap gboxes (generate_spider 10 [Qb] 3 2) = Ok [gCX; QBra false; gCX; QBra false; QKet false; gCX].
Proof. exact spider_instance. Qed.

(** ** C46: init_and_discard *)

(** For every well-typed circuit: one initial [|0>] or classical 0 per input wire, the circuit itself, then one discard per remaining qubit;
    the result has no inputs and only bits as outputs, as many as the circuit has bit outputs. *)
Theorem C46_init_and_discard : forall c s t, qtyped c s t -> exists c' pre post,
  init_and_discard c = Ok c' /\ qtyped c' [] (repeat Bt (count_b t)) /\ glayers c' = pre ++ glayers c ++ post /\
  map gl_box pre = map (fun w => match w with Qb => QKet false | Bt => QBit false end) s /\ map gl_box post = repeat QDisc (count_q t).
Proof. exact init_and_discard_ok. Qed.
Print Assumptions C46_init_and_discard.
Example C46_instance : exists c, qtyped c [Qb; Bt] [Bt; Qb; Bt] /\
  rmap gboxes (init_and_discard c) = Ok [QKet false; QBit false; QMeas; QMix; QDisc].
Proof.
  exists (GD [Qb; Bt] [Bt; Qb; Bt] [([], QMeas, [Bt]); ([Bt], QMix, [Bt])]). split; [split; [unfold gwf; cbn; auto|auto]|vm_compute; reflexivity].
Qed.
