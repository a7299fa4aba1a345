(** Theorems about substituting values for symbols (C48). Model: LamModel.v; specification: LamSpec.v. *)
From Coq Require Import QArith.
From Verif Require Import PyBase GDiag GDiagSpec QModel LamModel LamSpec LamFacts.
Close Scope Q_scope. Set Implicit Arguments. Unset Strict Implicit.

(** Circuits: for every list of distinct symbols that contains those of the circuit, and every list of values, the call succeeds and the result is
    the circuit with each [s * symbol] replaced by [s * value], every other box, wire and position unchanged. *)
Theorem C48_circuit : forall symbols xs d, plain symbols -> List.length xs = List.length symbols -> Forall (fun b => q_made b /\ incl (q_syms b) symbols) (gboxes d) ->
  exists e, lam_qdiag d symbols xs = Ok e /\ diag_inst (q_inst symbols xs) d e.
Proof. exact lam_qdiag_ok. Qed.
Print Assumptions C48_circuit.
(** A symbol of the circuit that is not in the list is reported as ValueError, wherever it occurs. *)
Theorem C48_circuit_missing : forall symbols xs d, plain symbols -> List.length xs = List.length symbols -> Forall q_made (gboxes d) ->
  (exists b s, In b (gboxes d) /\ In s (q_syms b) /\ ~ In s symbols) -> lam_qdiag d symbols xs = Err ValueError.
Proof. exact lam_qdiag_missing. Qed.
Print Assumptions C48_circuit_missing.
(** Tensor diagrams, for any kind of array with a scaling operation (full claim: all diagrams). Proved when no conjugated box carries a symbol and no box
    holds an array of symbols; both exceptions are refuted below. Symbols outside the list stay. *)
Theorem C48_tensor_partial : forall V (smul : Q -> V -> V) symbols xs d, (forall q x, (q == 1)%Q -> smul q x = x) -> plain symbols -> List.length xs = List.length symbols ->
  Forall (@t_simple V) (gboxes d) -> exists e, lam_diag smul d symbols xs = Ok e /\ diag_inst (t_inst smul symbols xs) d e.
Proof. exact lam_diag_ok. Qed.
Print Assumptions C48_tensor_partial.
(** A conjugated box loses its conjugation when its symbol is substituted. *)
Theorem C48_conjugate_refuted : forall V (smul : Q -> V -> V) (v : V), exists b, lam_box smul [Sym "f" 2 3 1%Q] [v] b = Ok (LB "f" [2] [3] (DVal v) 0%Z) /\ b = LB "f" [2] [3] (DSym (Sym "f" 2 3 1%Q)) 1%Z.
Proof. intros V smul v. eexists. split; [|reflexivity]. reflexivity. Qed.
Print Assumptions C48_conjugate_refuted.
(** Symbols inside an array are counted as free symbols but never substituted. *)
Theorem C48_array_refuted : forall V (smul : Q -> V -> V) (v : V), exists b s, In s (free_syms (V:=V) (DArr [DSym s])) /\
  b = LB "f" [1] [1] (DArr [DSym s]) 0%Z /\ lam_box smul [s] [v] b = Ok b.
Proof. intros V smul v. exists (LB "f" [1] [1] (DArr [DSym (Sym "x" 1 1 1%Q)]) 0%Z), (Sym "x" 1 1 1%Q). split; [now left|]. split; reflexivity. Qed.
Print Assumptions C48_array_refuted.

Example C48_instance :
  let d := GD [Qb; Qb] [Qb; Qb] [([], QRot AX (PSym "a" 1 1 (-(1))%Q), [Qb]); ([], QCtl (QRot AZ (PSym "b" 1 1 1%Q)) (-1), []); ([Qb], QDag gS, []); ([], QRot AY (PVal (1 # 2)%Q), [Qb])] in
  let symbols := [Sym "b" 1 1 1%Q; Sym "a" 1 1 1%Q] in
  plain symbols /\ Forall (fun b => q_made b /\ incl (q_syms b) symbols) (gboxes d) /\
  rmap gboxes (lam_qdiag d symbols [(1 # 3)%Q; (1 # 4)%Q]) = Ok [QRot AX (PVal (- (1 # 4))%Q); QCtl (QRot AZ (PVal (1 # 3)%Q)) (-1); QDag gS; QRot AY (PVal (1 # 2)%Q)] /\
  rmap gboxes (lam_qdiag d [Sym "b" 1 1 1%Q] [(1 # 3)%Q]) = Err ValueError.
Proof.
  cbv zeta. split; [|split; [|split; vm_compute; reflexivity]].
  - split; [|repeat constructor]. repeat constructor; cbn; intuition discriminate.
  - cbn [gboxes glayers map gl_box fst snd]. unfold incl. repeat apply Forall_cons; try apply Forall_nil; cbn; repeat split; auto; try discriminate; intuition.
Qed.
Example C48_tensor_instance : let b := LDag (LB "f" [2] [3] (DSym (Sym "f" 2 3 2%Q)) 0%Z) in
  t_simple b /\ lam_box Qmult [Sym "f" 2 3 1%Q] [(1 # 5)%Q] b = Ok (LDag (LB "f" [2] [3] (DVal (2 # 5)%Q) 0%Z)) /\ lam_box Qmult [Sym "g" 2 3 1%Q] [(1 # 5)%Q] b = Ok b.
Proof. cbv zeta. repeat split. Qed.
