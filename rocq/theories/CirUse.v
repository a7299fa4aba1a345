(** Concrete circuits for PropsCir.v. Nothing here models repository code. *)
From Coq Require Import QArith.
From Verif Require Import PyBase GDiag GDiagSpec QModel QSpec QReadSpec CirModel CirSpec.
Close Scope Q_scope. Set Implicit Arguments. Unset Strict Implicit.
(** Two qubits, a controlled gate on both, a third qubit prepared between them, a swap, a post-selection in the middle, a fourth qubit
    prepared where it was, a last controlled gate. *)
Definition ex_layers : list qlayer :=
  [([], QKet true, []); ([Qb], QKet false, []); ([], gH, [Qb]); ([], gCX, []); ([Qb], QKet false, [Qb]); ([Qb], gSWAP, []);
   ([], QCtl (QRot AZ (PVal 1%Q)) 2, []); ([Qb], QBra true, [Qb]); ([Qb], QKet false, [Qb]); ([], QCtl gX (-2), []); ([], QBra false, [Qb; Qb])].
Definition ex_circ : qdiag := GD [] [Qb; Qb] ex_layers.
Lemma ex_typed : qtyped ex_circ (qubits 0) [Qb; Qb]. Proof. repeat split. Qed.
Lemma ex_boxes : Forall circ_box (gboxes ex_circ).
Proof.
  assert (B : forall b, q_dom b = [Qb] -> q_cod b = [Qb] -> match b with QCtl _ _ | QKet _ | QBra _ | QDisc | QSwap _ _ => False | _ => True end -> base_gate b) by (intros; split; auto).
  repeat (apply Forall_cons; [first [exact I | now split | split; [reflexivity|now right] | left; split; [lia|now apply B] | right; split; [lia|now apply B]]|]). apply Forall_nil.
Qed.
(** [to_circuital] of [d] with enough fuel *)
Definition circuital_form (d : qdiag) (o : res qdiag) : Prop := exists m, forall fuel, m <= fuel -> to_circuital fuel d = o.
Lemma fuel_all d o : (forall fuel, to_circuital (100 + fuel) d = o) -> circuital_form d o.
Proof. intro H. exists 100. intros fuel L. replace fuel with (100 + (fuel - 100)) by lia. apply H. Qed.
(** a box on two qubits that is not a controlled gate or a swap, and a qubit prepared between its wires afterwards *)
Definition two_qubit_box : qbox := QBox "U" [Qb; Qb] [Qb; Qb] false false.
Definition two_circ : qdiag := GD [] [Qb; Qb; Qb] [([], QKet false, []); ([Qb], QKet false, []); ([], two_qubit_box, []); ([Qb], QKet false, [Qb])].
Definition two_out : qdiag :=
  GD [] [] [([], QKet false, []); ([Qb], QKet false, []); ([Qb; Qb], QKet false, []); ([Qb; Qb], QDisc, []); ([Qb], QDisc, []); ([], QDisc, [])].
(** a measured qubit to the left of a swap, and a qubit prepared between the wires of the swap afterwards *)
Definition bit_circ : qdiag :=
  GD [] [Bt; Qb; Qb; Qb] [([], QKet false, []); ([Qb], QKet false, []); ([Qb; Qb], QKet false, []); ([], QMeas, [Qb; Qb]); ([Bt], gSWAP, []); ([Bt; Qb], QKet false, [Qb])].
(** an interpretation over the integers: every one-qubit box as X *)
Definition ex_base (b : qbox) : oper Z :=
  match b with
  | QKet one => fun psi x => match x with [v] => if Bool.eqb v one then psi [] else 0%Z | _ => 0%Z end
  | QBra one => fun psi _ => psi [one]
  | _ => fun psi x =>
      if List.length x =? List.length (q_dom b) then (if List.length x =? 1 then psi (map negb x) else psi x) else 0%Z
  end.
Lemma ex_base_pure : pure_interp 0%Z ex_base.
Proof.
  assert (G : forall n m, local_op m n (fun (psi : list bool -> Z) x => if List.length x =? m then (if List.length x =? 1 then psi (map negb x) else psi x) else 0%Z)).
  { intros n m psi phi H x _. destruct (Nat.eqb_spec (List.length x) m); auto. destruct (List.length x =? 1); apply H; rewrite ?map_length; auto. }
  split; [|split; [|split; [|split]]].
  - intros b. destruct b; try (apply G). 
    + intros psi phi H [|v [|? ?]] L; try discriminate. cbn. match goal with |- context [Bool.eqb v ?o] => destruct (Bool.eqb v o) end; auto.
    + intros psi phi H x L. cbn. now apply H.
  - reflexivity.
  - reflexivity.
  - reflexivity.
  - intros b psi x H. destruct b; cbn [ex_base]; try (repeat destruct (_ =? _); auto; fail).
    + destruct x as [|v [|? ?]]; auto. match goal with |- context [Bool.eqb v ?o] => destruct (Bool.eqb v o) end; auto.
Qed.
(** like [ex_layers], closed, with other post-selections *)
Definition ex_closed : qdiag := GD [] []
  [([], QKet true, []); ([Qb], QKet false, []); ([], gH, [Qb]); ([], gCX, []); ([Qb], QKet false, [Qb]); ([Qb], gSWAP, []);
   ([], QCtl (QRot AZ (PVal 1%Q)) 2, []); ([Qb], QBra false, [Qb]); ([Qb], QKet false, [Qb]); ([], QCtl gX (-2), []); ([], QBra false, [Qb; Qb]);
   ([], gH, [Qb]); ([Qb], QBra false, []); ([], QBra true, [])].
Lemma ex_closed_typed : qtyped ex_closed (qubits 0) []. Proof. repeat split. Qed.
Lemma ex_closed_boxes : Forall circ_box (gboxes ex_closed).
Proof.
  assert (B : forall b, q_dom b = [Qb] -> q_cod b = [Qb] -> match b with QCtl _ _ | QKet _ | QBra _ | QDisc | QSwap _ _ => False | _ => True end -> base_gate b) by (intros; split; auto).
  repeat (apply Forall_cons; [first [exact I | now split | split; [reflexivity|now right] | left; split; [lia|now apply B] | right; split; [lia|now apply B]]|]). apply Forall_nil.
Qed.
