(** The circuits of the ansatz papers, as lists of (gate, controls, target); independent of diagrams. *)
From Coq Require Import QArith.
From Verif Require Import PyBase GDiag GDiagSpec QModel QSpec AnsatzModel.
Close Scope Q_scope. Set Implicit Arguments. Unset Strict Implicit.
Definition gatelist := list (qbox * list nat * nat).
(** one gate per qubit *)
Definition each (n : nat) (f : nat -> qbox) : gatelist := map (fun q => (f q, [], q)) (seq 0 n).
(** [g i] controlled by [c i], target [t i] *)
Definition ctl (is : list nat) (g : nat -> qbox) (c t : nat -> nat) : gatelist := map (fun i => (g i, [c i], t i)) is.
(** the offset of the CNOTs of a layer of the strongly entangling ansatz *)
Definition offset (ranges : option (list Z)) (n l : nat) : nat :=
  match ranges with None => l mod (n - 1) + 1 | Some rs => Z.to_nat (nth l rs 0%Z mod Z.of_nat n) end.
(** layer [l] on [n] qubits with parameters [th 0], [th 1], ... *)
Definition layer_gates (k : akind) (n l : nat) (th : nat -> param) : gatelist :=
  match k with
  | IQP => each n (fun _ => gH) ++ ctl (seq 0 (n - 1)) (fun i => QRot AZ (th i)) (fun i => i) S
  | Sim14 => each n (fun q => QRot AY (th q)) ++ ctl (seq 0 n) (fun i => QRot AX (th (n + i))) (fun i => i) (fun i => (i + (n - 1)) mod n) ++
             each n (fun q => QRot AY (th (2 * n + q))) ++ ctl (rev (seq 1 n)) (fun i => QRot AX (th (4 * n - i))) (fun i => i mod n) (fun i => S i mod n)
  | Sim15 => each n (fun q => QRot AY (th q)) ++ ctl (seq 0 n) (fun _ => gX) (fun i => i) (fun i => (i + (n - 1)) mod n) ++
             each n (fun q => QRot AY (th (n + q))) ++ ctl (rev (seq 1 n)) (fun _ => gX) (fun i => i mod n) (fun i => S i mod n)
  | Sim4 => each n (fun q => QRot AX (th q)) ++ each n (fun q => QRot AZ (th (n + q))) ++ ctl (seq 0 (n - 1)) (fun i => QRot AX (th (2 * n + i))) (fun i => i) S
  | StrEnt rs => flat_map (fun q => [(QRot AZ (th (3 * q)), [], q); (QRot AY (th (3 * q + 1)), [], q); (QRot AZ (th (3 * q + 2)), [], q)]) (seq 0 n) ++
                 ctl (seq 0 n) (fun _ => gX) (fun i => i) (fun i => (i + offset rs n l) mod n)
  | Sim9Cx => each n (fun _ => gH) ++ ctl (seq 0 (n - 1)) (fun _ => gX) (fun i => i) S ++ each n (fun q => QRot AX (th q))
  | Sim9 => each n (fun _ => gH) ++ ctl (seq 0 (n - 1)) (fun _ => gZ) (fun i => i) S ++ each n (fun q => QRot AX (th q))
  end.
(** number of parameters of a layer *)
Definition layer_params (k : akind) (n : nat) : nat :=
  match k with IQP => n - 1 | Sim14 => 4 * n | Sim15 => 2 * n | Sim4 => 3 * n - 1 | StrEnt _ => 3 * n | Sim9Cx | Sim9 => n end.
(** all layers; the IQP circuit ends with Hadamards unless it has no layer *)
Definition ansatz_gates (k : akind) (layers n : nat) (th : nat -> nat -> param) : gatelist :=
  flat_map (fun l => layer_gates k n l (th l)) (seq 0 layers) ++ match k, layers with IQP, S _ => each n (fun _ => gH) | _, _ => [] end.
(** [c] is a circuit on [n] qubits made of exactly these gates, in this order *)
Definition implements (n : nat) (c : qdiag) (gs : gatelist) : Prop :=
  qtyped c (qubits n) (qubits n) /\ map ctl_base (gboxes c) = map (fun g => fst (fst g)) gs /\
  forall K (base : qbox -> oper K) psi x, interp_ok base -> List.length x = n -> q_eval base c psi x = run_gates (q_array base) gs psi x.
(** controls and target are distinct qubits below [n] *)
Definition gate_ok (n : nat) (g : qbox * list nat * nat) : Prop := one_qubit (fst (fst g)) /\ named_ok (fst (fst g)) /\ snd g < n /\ Forall (fun c => c < n /\ c <> snd g) (snd (fst g)).
(** the parameters of a box *)
Fixpoint params_of (b : qbox) : list param := match b with QRot _ p => [p] | QCtl c _ | QDag c => params_of c | _ => [] end.
(** ranges of the strongly entangling ansatz that give CNOTs between distinct qubits *)
Definition ranges_ok (k : akind) (layers n : nat) : Prop :=
  match k with StrEnt (Some rs) => List.length rs = layers /\ Forall (fun r => (r < Z.of_nat n /\ r mod Z.of_nat n <> 0)%Z) rs | _ => True end.
(** one qubit: rotations about the given axes in a cycle *)
Definition single_gates (rots : list raxis) (m : nat) (th : nat -> param) : gatelist :=
  map (fun i => (QRot (nth (i mod List.length rots) rots AX) (th i), [], 0)) (seq 0 m).
(** the gates between initialisation and post-selection, for any number of qubits *)
Definition box_gates (A : ansatz) (n : nat) (label : string) : gatelist :=
  match n with
  | 0 => []
  | 1 => single_gates (a_rots A) (a_single A) (sym label)
  | _ => ansatz_gates (a_kind A) (a_layers A) n (fun l i => sym label (l * layer_params (a_kind A) n + i))
  end.
(** what initialising fresh qubits in 0 before a circuit and post-selecting 0 after it does to amplitudes ([k0] is the zero amplitude) *)
Definition init_zero K (k0 : K) (d : nat) (psi : state K) : state K := fun x => if existsb (fun b => b) (skipn d x) then k0 else psi (firstn d x).
Definition select_zero K (extras : nat) (psi : state K) : state K := fun y => psi (y ++ repeat false extras).
(** the arrays of |0> and <0| *)
Definition ket_bra K (k0 : K) (base : qbox -> oper K) : Prop :=
  (forall psi b, base (QKet false) psi [b] = if b then k0 else psi []) /\ (forall psi, base (QBra false) psi [] = psi [false]).
(** the number of parameters of a box on [n] qubits *)
Definition n_params (A : ansatz) (n : nat) : nat := match n with 0 => 0 | 1 => a_single A | _ => a_layers A * layer_params (a_kind A) n end.
(** boxes whose dagger swaps the ends: self-adjoint boxes and controlled boxes are square *)
Fixpoint sa_ok (b : qbox) : Prop :=
  match b with QBox _ d c _ true => d = c | QCtl c _ => sa_ok c /\ List.length (q_dom c) = List.length (q_cod c) | QDag c => sa_ok c | _ => True end.
