(** Specification of applying a circuit ansatz to a diagram: how many qubits a type has and which diagrams have a circuit. *)
From Verif Require Import PyBase TyModel DiagModel GDiag GDiagSpec QModel QSpec AnsatzModel AnsatzSpec.
Set Implicit Arguments. Unset Strict Implicit.
(** the number of qubits of a type *)
Definition n_qubits (sz : string -> nat) (t : ty) : nat := list_sum (map (fun a => sz (fst a)) t).
(** the dictionary [ob_map] gives every atom of [t] the size [sz] *)
Definition covers (ob_map : list (string * nat)) (sz : string -> nat) (t : ty) : Prop := Forall (fun a => In (fst a, sz (fst a)) ob_map) t.
(** explicit ranges of the strongly entangling ansatz are usable on [n] qubits *)
Definition ranges_fit (k : akind) (n : nat) : Prop :=
  match k with StrEnt (Some rs) => n >= 2 -> Forall (fun r => (r < Z.of_nat n /\ r mod Z.of_nat n <> 0)%Z) rs | _ => True end.
(** a box that has a circuit: no frame, spiders on at most one qubit (or with one leg on each side), ranges that fit *)
Fixpoint fits (ob_map : list (string * nat)) (sz : string -> nat) (k : akind) (anc : box -> nat) (b : box) : Prop :=
  match b with
  | Box _ d c _ => ranges_fit k (Nat.max (n_qubits sz d) (n_qubits sz c) + anc (b_unwind b))
  | Word _ c _ => ranges_fit k (n_qubits sz c + anc (b_unwind b))
  | Spider t n m => In (fst t, sz (fst t)) ob_map /\ (sz (fst t) <= 1 \/ (n = 1 /\ m = 1))
  | Cap _ _ _ | Cup _ _ _ | Swap _ _ => True
  | Dagg b' => fits ob_map sz k anc b'
  | Frame _ _ _ _ _ | DagFrame _ _ _ _ _ => False
  end.
