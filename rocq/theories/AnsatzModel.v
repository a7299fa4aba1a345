(** Model of lambeq/ansatz/circuit.py (the circuit ansaetze), of [BaseAnsatz._summarise_box] (lambeq/ansatz/base.py 62-71) and of functors into circuits.
    Simplifications: qubit, layer and ancilla counts are naturals; the ansatz of a box gets its label, qubit counts and ancilla count as arguments
    ([_ar] computes them by [_summarise_box], [ob_size] and [_get_n_ancillas]); the [n_qubits == 1] branches of the [circuit] methods are left out because [_ar] never
    calls [circuit] with fewer than two qubits. *)
From Coq Require Import QArith DecimalString.
From Verif Require Import PyBase TyModel DiagModel GDiag QModel.
Close Scope Q_scope. Set Implicit Arguments. Unset Strict Implicit.

(** [str(i)] for a natural number *)
Definition str_nat (n : nat) : string := NilEmpty.string_of_uint (Nat.to_uint n).
(** [Symbol(f'{label}_{i}')] *)
Definition sym (label : string) (i : nat) : param := PSym (label ++ "_" ++ str_nat i)%string 1 1 1%Q.

(** [Id().tensor( *map(f, l) )] *)
Definition column (bs : list qbox) : qdiag := tensor_all (map qb bs).

(** IQPAnsatz (circuit.py 207-224) *)
Definition iqp_shape (n : nat) : nat := n - 1.
Definition iqp_circuit (n_layers n : nat) (params : list (list param)) : res qdiag :=
  let hadamards := column (repeat gH n) in
  do c <- foldM (fun c thetas =>
            do rotations <- foldM (fun r i => do t <- py_index thetas (Z.of_nat i); qthen r (qtensor (qtensor (Idn i) (qb (CRot AZ t))) (Idn (n - 2 - i)))) (seq 0 (n - 1)) (Idn n);
            do hr <- qthen hadamards rotations; qthen c hr) params (Idn n);
  if 0 <? n_layers then qthen c hadamards else Ok c.

(** Sim14Ansatz (238-264) *)
Definition sim14_shape (n : nat) : nat := 4 * n.
Definition sim14_circuit (n : nat) (params : list (list param)) : res qdiag :=
  let N := Z.of_nat n in
  foldM (fun c thetas =>
    let sub1 := column (map (QRot AY) (py_slice thetas None (Some N))) in
    do s1 <- foldM (fun s i => let I := Z.of_nat i in do t <- py_index thetas (N + I); apply_gate s (CRot AX t) [I; ((I - 1) mod N)%Z]) (seq 0 n) sub1;
    let sub2 := column (map (QRot AY) (py_slice thetas (Some (2 * N)%Z) (Some (3 * N)%Z))) in
    do s2 <- foldM (fun s i => let I := Z.of_nat i in do t <- py_index thetas (- I); apply_gate s (CRot AX t) [(I mod N)%Z; ((I + 1) mod N)%Z]) (rev (seq 1 n)) sub2;
    do s <- qthen s1 s2; qthen c s) params (Idn n).

(** Sim15Ansatz (278-304) *)
Definition sim15_shape (n : nat) : nat := 2 * n.
Definition sim15_circuit (n : nat) (params : list (list param)) : res qdiag :=
  let N := Z.of_nat n in
  foldM (fun c thetas =>
    let sub1 := column (map (QRot AY) (py_slice thetas None (Some N))) in
    do s1 <- foldM (fun s i => let I := Z.of_nat i in apply_gate s gCX [I; ((I - 1) mod N)%Z]) (seq 0 n) sub1;
    let sub2 := column (map (QRot AY) (py_slice thetas (Some N) None)) in
    do s2 <- foldM (fun s i => let I := Z.of_nat i in apply_gate s gCX [(I mod N)%Z; ((I + 1) mod N)%Z]) (rev (seq 1 n)) sub2;
    do s <- qthen s1 s2; qthen c s) params (Idn n).

(** Sim4Ansatz (316-336) *)
Definition sim4_shape (n : nat) : nat := 3 * n - 1.
Definition sim4_circuit (n : nat) (params : list (list param)) : res qdiag :=
  let N := Z.of_nat n in
  foldM (fun c thetas =>
    do c1 <- qthen c (column (map (QRot AX) (py_slice thetas None (Some N))));
    do c2 <- qthen c1 (column (map (QRot AZ) (py_slice thetas (Some N) (Some (2 * N)%Z))));
    do crxs <- foldM (fun s i => let I := Z.of_nat i in do t <- py_index thetas (2 * N + I); apply_gate s (CRot AX t) [I; (I + 1)%Z]) (seq 0 (n - 1)) (Idn n);
    qthen c2 crxs) params (Idn n).

(** StronglyEntanglingAnsatz (396-417) *)
Definition strent_shape (n : nat) : nat := 3 * n.
Definition strent_step (ranges : option (list Z)) (n layer : nat) : res Z :=
  match ranges with
  | None => Ok (Z.of_nat (layer mod (n - 1)) + 1)%Z
  | Some rs => do r <- py_index rs (Z.of_nat layer); if (Z.of_nat n <=? r)%Z then Err ValueError else Ok r
  end.
Definition strent_circuit (ranges : option (list Z)) (n_layers n : nat) (params : list (list param)) : res qdiag :=
  let N := Z.of_nat n in
  foldM (fun c layer =>
    do c1 <- foldM (fun c j => let J := Z.of_nat j in
               do row <- py_index params (Z.of_nat layer);
               let syms := py_slice row (Some (J * 3)%Z) (Some (J * 3 + 3)%Z) in
               do a <- py_index syms 0; do c' <- apply_gate c (QRot AZ a) [J];
               do b <- py_index syms 1; do c'' <- apply_gate c' (QRot AY b) [J];
               do e <- py_index syms 2; apply_gate c'' (QRot AZ e) [J]) (seq 0 n) c;
    do step <- strent_step ranges n layer;
    foldM (fun c j => let J := Z.of_nat j in apply_gate c gCX [J; ((J + step) mod N)%Z]) (seq 0 n) c1) (seq 0 n_layers) (Idn n).

(** Sim9CxAnsatz (429-446) and Sim9Ansatz (458-475): [g] is CX or CZ *)
Definition sim9_shape (n : nat) : nat := n.
Definition sim9_circuit (g : qbox) (n : nat) (params : list (list param)) : res qdiag :=
  foldM (fun c thetas =>
    do c1 <- qthen c (column (map (fun _ => gH) (seq 0 n)));
    do cs <- foldM (fun s q => let Q := Z.of_nat q in apply_gate s g [Q; (Q + 1)%Z]) (seq 0 (n - 1)) (Idn n);
    do c2 <- qthen c1 cs;
    qthen c2 (column (map (QRot AX) thetas))) params (Idn n).

(** the ansatz classes and the options of [CircuitAnsatz.__init__] (63-121), [StronglyEntanglingAnsatz.__init__] (354-394) *)
Inductive akind := IQP | Sim14 | Sim15 | Sim4 | StrEnt (ranges : option (list Z)) | Sim9Cx | Sim9.
Record ansatz := Ansatz { a_kind : akind; a_layers : nat; a_single : nat; a_discard : bool; a_rots : list raxis; a_basis : qdiag }.
(** [single_qubit_rotations or [Rx, Rz]] (110); the strongly entangling ansatz passes [Rz, Ry] and no basis; its length check on [ranges] *)
Definition make (k : akind) (n_layers n_single : nat) (discard : bool) (rots : list raxis) (basis : qdiag) : res ansatz :=
  match k with
  | StrEnt (Some rs) => if negb (List.length rs =? n_layers) then Err ValueError else Ok (Ansatz k n_layers n_single discard [AZ; AY] (Idn 1))
  | StrEnt None => Ok (Ansatz k n_layers n_single discard [AZ; AY] (Idn 1))
  | _ => Ok (Ansatz k n_layers n_single discard (match rots with [] => [AX; AZ] | _ => rots end) basis)
  end.
(** [params_shape(n_qubits)] is [(n_layers, row_length n_qubits)] *)
Definition row_length (k : akind) (n : nat) : nat :=
  match k with IQP => iqp_shape n | Sim14 => sim14_shape n | Sim15 => sim15_shape n | Sim4 => sim4_shape n | StrEnt _ => strent_shape n | Sim9Cx | Sim9 => sim9_shape n end.
Definition circuit (A : ansatz) (n : nat) (params : list (list param)) : res qdiag :=
  match a_kind A with
  | IQP => iqp_circuit (a_layers A) n params | Sim14 => sim14_circuit n params | Sim15 => sim15_circuit n params | Sim4 => sim4_circuit n params
  | StrEnt rs => strent_circuit rs (a_layers A) n params | Sim9Cx => sim9_circuit gCX n params | Sim9 => sim9_circuit gCZ n params
  end.
(** [np.array(syms).reshape((rows, k))] of a list of [rows * k] entries *)
Fixpoint reshape {X} (rows k : nat) (l : list X) : list (list X) :=
  match rows with O => [] | S r => firstn k l :: reshape r k (skipn k l) end.
(** [zip(cycle(rots), syms)]; [rots] is not empty *)
Fixpoint zip_cycle {X Y} (all cur : list X) (ys : list Y) : list (X * Y) :=
  match ys with
  | [] => []
  | y :: ys' => match cur with x :: cur' => (x, y) :: zip_cycle all cur' ys' | [] => match all with [] => [] | x :: cur' => (x, y) :: zip_cycle all cur' ys' end end
  end.
(** [CircuitAnsatz._ar] (160-194); [dom] and [cod] are qubit counts *)
Definition ar (A : ansatz) (label : string) (dom cod anc : nat) : res qdiag :=
  let n := Nat.max dom cod + anc in
  do c <- match n with
          | 0 => Ok (qid [])
          | 1 => foldM (fun c '(r, s) => qthen c (qb (QRot r s))) (zip_cycle (a_rots A) (a_rots A) (map (sym label) (seq 0 (a_single A)))) (Idn 1)
          | _ => let k := row_length (a_kind A) n in circuit A n (reshape (a_layers A) k (map (sym label) (seq 0 (a_layers A * k))))
          end;
  do c1 <- (if (dom <? cod) || (0 <? anc) then do k <- kets (repeat false ((cod - dom) + anc)); qthen (qtensor (Idn dom) k) c else Ok c);
  if (cod <? dom) || (0 <? anc) then
    let extras := (dom - cod) + anc in
    if a_discard A then qthen c1 (qtensor (Idn cod) (tensor_all (repeat (qb QDisc) extras)))
    else do c2 <- qthen c1 (gtensor_list (Idn cod) (repeat (a_basis A) extras)); do b <- bras (repeat false extras); qthen c2 (qtensor (Idn cod) b)
  else Ok c1.
