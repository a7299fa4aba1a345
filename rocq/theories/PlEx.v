(** A concrete instance of the hypotheses of PropsPl.v: integer amplitudes, angles and gates. Nothing here models repository code. *)
From Coq Require Import QArith Sorting.Sorted.
From Verif Require Import PyBase PyFacts DiagModel GDiag GDiagSpec QModel QSpec PlModel PlSpec.
Close Scope Q_scope.
Set Implicit Arguments. Unset Strict Implicit.
Local Open Scope string_scope. Local Open Scope list_scope.

Definition ex_num (v : Q) : Z := Qnum v.
Definition ex_scal (root : bool) (v : Q) : Z := if root then 2 * Qnum v else Qnum v.
Definition ex_twopi (a : Z) : Z := (6 * a)%Z.
(** every symbol has the value 7 *)
Definition ex_pvalue (p : param) : Z := match p with PVal v => ex_num v | PSym _ _ _ _ => 7 end.
(** X flips, Z and S have a phase, H is not normalised, rotations mix the two amplitudes *)
Definition ex_u1 (n : string) (ps : list Z) : oper Z := fun psi x =>
  match x with
  | [b] => match ps with
           | [] => if n =? "X" then psi [negb b] else if n =? "H" then (psi [false] + (if b then - psi [true] else psi [true]))%Z
                   else if (n =? "Z") && b then (- psi [b])%Z else if (n =? "S") && b then (3 * psi [b])%Z else psi [b]
           | a :: _ => if n =? "Rz" then (if b then a * psi [b] else psi [b])%Z else (psi [b] + a * psi [negb b])%Z
           end
  | _ => 0%Z
  end.
Definition ex_base (b : qbox) : oper Z := fun psi x =>
  match b, x with
  | QBox n [Qb] [Qb] _ _, [_] => ex_u1 n [] psi x
  | QRot a p, [_] => ex_u1 (axis_name a) [ex_twopi (ex_pvalue p)] psi x
  | QKet k, [y] => if Bool.eqb k y then psi [] else 0%Z
  | QBra k, [] => psi [k]
  | QScal r v, [] => (ex_scal r v * psi [])%Z
  | _, _ => 0%Z
  end.
Lemma ex_u1_local n ps psi phi b : (forall y, List.length y = 1 -> psi y = phi y) -> ex_u1 n ps psi [b] = ex_u1 n ps phi [b].
Proof. intro H. unfold ex_u1. rewrite !H by reflexivity. reflexivity. Qed.
Lemma ex_u1_lin n ps c psi b : ex_u1 n ps (fun y => (c * psi y)%Z) [b] = (c * ex_u1 n ps psi [b])%Z.
Proof. unfold ex_u1. destruct ps as [|a ?]; repeat match goal with |- context [if ?t then _ else _] => destruct t end; ring. Qed.
Lemma ex_agrees : pl_agrees 0%Z Z.mul ex_num ex_twopi ex_scal ex_u1 ex_pvalue ex_base.
Proof.
  constructor; try reflexivity.
  - intros b psi phi H x Lx. destruct b as [n d c m s|a p|c d|k|k|k| | | | |r v|a b|b]; cbn in H, Lx; cbn [ex_base]; try reflexivity.
    + destruct d as [|[] [|? ?]], c as [|[] [|? ?]], x as [|? [|? ?]]; try reflexivity. now apply ex_u1_local.
    + destruct x as [|? [|? ?]]; try reflexivity. now apply ex_u1_local.
    + destruct x as [|? [|? ?]]; try reflexivity. now rewrite H.
    + destruct x as [|? ?]; try reflexivity. now rewrite H.
    + destruct x as [|? ?]; try reflexivity. now rewrite H.
  - intros psi []; reflexivity.
  - intros b c psi x. destruct b as [n d c' m s|a p|c' d|k|k|k| | | | |r v|a b|b]; cbn [ex_base]; try ring.
    + destruct d as [|[] [|? ?]], c' as [|[] [|? ?]]; try (symmetry; apply Z.mul_0_r). apply ex_u1_lin.
    + apply ex_u1_lin.
    + destruct (Bool.eqb k x); ring.
Qed.
Lemma ex_ksq : (forall x y : Z, (x * y) * (x * y) = (x * x) * (y * y))%Z. Proof. intros; ring. Qed.

(** two qubits: H, CX, a symbolic rotation, a scalar, post-selection of the first qubit on 1 *)
Definition ex_w : param := PSym "w" 1 1 1.
Definition gX := QBox "X" [Qb] [Qb] false true.
Definition gH := QBox "H" [Qb] [Qb] false true.
Definition gS := QBox "S" [Qb] [Qb] false false.
Definition ex_circ : qdiag := GD [] [Qb]
  [([], QKet false, []); ([Qb], QKet false, []); ([], gH, [Qb]); ([], QCtl gX 1, []); ([Qb], QRot AX ex_w, []); ([Qb; Qb], QScal false 5, []); ([], QRot AZ (PVal (1 # 4)), [Qb]); ([], QBra true, [Qb])].
Lemma ex_circ_ok : pl_circuit ex_circ.
Proof.
  unfold pl_circuit. split; [repeat split|]. split; [reflexivity|]. split.
  - unfold gboxes, ex_circ. cbn [glayers map gl_box fst snd].
    repeat (apply Forall_cons; [first [left; reflexivity|right; right; eexists; reflexivity|right; left; cbn; unfold Qeq; cbn; try (repeat split; try discriminate; auto 10; lia)]|]); apply Forall_nil.
  - split; [|repeat split]. intros i j x b H1 H2 L. destruct i as [|[|[|[|[|[|[|[|i]]]]]]]]; try discriminate.
    + destruct j as [|[|[|[|[|[|[|[|j]]]]]]]]; try lia. destruct j; discriminate.
    + destruct i; discriminate.
Qed.
(** conversion and evaluation with these numbers; the sets are iterated in the order they are built *)
Definition ex_convert (d : qdiag) (prob : bool) := to_pennylane 1%Z Z.mul ex_scal (fun _ => Err OtherError) (fun l => l) d prob.
Definition ex_eval (wm : list (param * Z)) (c : plcirc Z) := pl_eval 0%Z 1%Z Z.mul (fun x => x * x)%Z ex_num (fun q a => (Qnum q * a)%Z) ex_twopi ex_u1 (fun l => l) wm c.
Definition kets (n : nat) (rest : list (list wire * qbox * list wire)) (cod : list wire) : qdiag := GD [] cod (map (fun i => (qubits i, QKet false, [])) (seq 0 n) ++ rest).
