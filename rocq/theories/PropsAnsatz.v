(** C35-C37: circuit ansaetze. *)
From Coq Require Import QArith Ascii.
From Verif Require Import PyBase TyModel TyFacts DiagModel DiagSpec DiagFacts GDiag GDiagSpec GDiagFacts QModel QSpec AnsatzModel AnsatzSpec AnsatzFacts AnsatzCirc AnsatzAr AnsatzNameModel AnsatzNameFacts AnsatzDiagSpec AnsatzTop.
Close Scope Q_scope. Set Implicit Arguments. Unset Strict Implicit.

(** ** C35 *)
(** Whatever the ansatz class, its options, the qubit counts and the number of ancillas: the circuit of a box goes from [dom] to [cod] qubits. *)
Theorem C35_box : forall k layers single discard rots basis A label dom cod anc,
  make k layers single discard rots basis = Ok A -> qtyped basis (qubits 1) (qubits 1) -> Forall sa_ok (gboxes basis) -> ranges_fit k (Nat.max dom cod + anc) ->
  exists c, ar A label dom cod anc = Ok c /\ qtyped c (qubits dom) (qubits cod).
Proof.
  intros k layers single discard rots basis A label dom cod anc E T F R. destruct (make_ok E T F) as (<- & <- & _ & _ & NR & TB & SA & G).
  destruct (@ar_layers A label dom cod anc NR TB (fit_ok G R)) as (c & c0 & E' & T' & _). eauto.
Qed.
Print Assumptions C35_box.
(** Its meaning when extra qubits are post-selected in the computational basis: fresh qubits start in 0, the gates of the ansatz run, surplus qubits are required to be 0. *)
Theorem C35_box_meaning : forall K (k0 : K) base, interp_ok base -> ket_bra k0 base -> forall A label dom cod anc,
  a_rots A <> [] -> a_basis A = Idn 1 -> a_discard A = false -> (Nat.max dom cod + anc >= 2 -> ranges_ok (a_kind A) (a_layers A) (Nat.max dom cod + anc)) ->
  exists c, ar A label dom cod anc = Ok c /\
    forall psi y, List.length y = cod ->
      q_eval base c psi y = select_zero (Nat.max dom cod + anc - cod) (run_gates (q_array base) (box_gates A (Nat.max dom cod + anc) label) (init_zero k0 dom psi)) y.
Proof. intros K k0 base HI HK A label dom cod anc H1 H2 H3 H4. destruct (@ar_sem K k0 base HI HK A label dom cod anc H1 H2 H3 H4) as (c & E & _ & S). eauto. Qed.
Print Assumptions C35_box_meaning.
Example C35_meaning_hyps : exists base : qbox -> oper Z, interp_ok base /\ ket_bra 0%Z base.
Proof.
  exists (fun (b : qbox) (psi : list bool -> Z) (x : list bool) => match b, x with QKet false, [a] => if a then 0%Z else psi [] | QBra false, [] => psi [false] | _, _ => 0%Z end). split.
  - intros b psi phi H x L. destruct b as [| | |[]|[]| | | | | | | |]; auto; cbn in L; destruct x as [|a [|]]; try discriminate; try destruct a; auto; apply H; reflexivity.
  - split; intros; reflexivity.
Qed.
(** Applying an ansatz to a well-typed frame-free diagram over types of known size gives a circuit on the qubits of its ends. *)
Theorem C35_diagram : forall k n_layers single discard rots basis A ob_map sz anc d,
  make k n_layers single discard rots basis = Ok A -> qtyped basis (qubits 1) (qubits 1) -> Forall sa_ok (gboxes basis) -> NoDup (map fst ob_map) ->
  wf d -> covers ob_map sz (dom d) -> Forall (fun x => fits ob_map sz k anc (l_box x) /\ covers ob_map sz (l_cod x)) (layers d) ->
  exists c, apply_ansatz A ob_map anc d = Ok c /\ qtyped c (qubits (n_qubits sz (dom d))) (qubits (n_qubits sz (cod d))).
Proof.
  intros k n_layers single discard rots basis A ob_map sz anc d E T F N W C H. destruct (make_ok E T F) as (<- & _ & _ & _ & NR & TB & SA & G).
  destruct (@diag_circ A ob_map anc sz N NR TB SA G d W C H) as (c & E' & T' & _). eauto.
Qed.
Print Assumptions C35_diagram.
(** A diagram with frames is refused. *)
Theorem C35_frames : forall A ob_map anc d, existsb is_frame (boxes d) = true -> apply_ansatz A ob_map anc d = Err OtherError.
Proof. intros A ob_map anc d H. unfold apply_ansatz. now rewrite H. Qed.
Print Assumptions C35_frames.
(** Ranges of the strongly entangling ansatz: one per layer, smaller than the number of qubits. *)
Theorem C35_ranges : forall rs layers single discard rots basis, List.length rs <> layers -> make (StrEnt (Some rs)) layers single discard rots basis = Err ValueError.
Proof. intros rs layers single discard rots basis H. cbn. apply Nat.eqb_neq in H. now rewrite H. Qed.
Print Assumptions C35_ranges.

Definition a_n : atom := ("n"%string, 0%Z). Definition a_s : atom := ("s"%string, 0%Z).
Definition ex_obs : list (string * nat) := [("n"%string, 1); ("s"%string, 1)].
(** "Alice runs": words, a cup, a daggered and a rotated box *)
Definition ex_diag : diagram :=
  Diag [] [a_s] [([], Word "Alice" [a_n] 0, []); ([a_n], Word "runs" [rot_atom 1 a_n; a_s] 0, []); ([], Cup a_n (rot_atom 1 a_n) false, [a_s]);
                 ([], Dagg (Box "f" [a_n; a_n] [a_s] 0), []); ([], Swap a_n a_n, []); ([], Box "f" [a_n; a_n] [a_s] 2, [])].
Example C35_diag_hyps : wf ex_diag /\ covers ex_obs (fun _ => 1) (dom ex_diag) /\ Forall (fun x => fits ex_obs (fun _ => 1) Sim14 (fun _ => 1) (l_box x) /\ covers ex_obs (fun _ => 1) (l_cod x)) (layers ex_diag) /\
  exists A, make Sim14 2 3 false [] (Idn 1) = Ok A.
Proof. split; [repeat split|]. split; [constructor|]. split; [unfold covers; cbn; repeat first [apply Forall_nil | apply Forall_cons | split]; cbn; auto|]. eexists; reflexivity. Qed.

(** Boxes of odd winding are rotated: a (multiply controlled) one-qubit gate at [l] wires from the left and [r] from the right becomes the rotated gate
    on the mirrored qubits, with the mirrored controls. *)
Theorem C35_rotation : forall z l b r, Z.odd z = true -> one_qubit (ctl_base b) -> dists_nonzero b -> let N := l + List.length (q_dom b) + r in
  ctl_base (q_rot z b) = q_rot z (ctl_base b) /\ exists cs t,
  (forall K (base : qbox -> oper K) psi x, interp_ok base -> List.length x = N -> q_layers (q_array base) [(qubits l, b, qubits r)] psi x = gate_at (q_array base (ctl_base b)) cs t psi x) /\
  (forall K (base : qbox -> oper K) psi x, interp_ok base -> List.length x = N -> q_layers (q_array base) [q_rot_layer z (qubits l, b, qubits r)] psi x = gate_at (q_array base (q_rot z (ctl_base b))) (map (fun i => N - 1 - i) cs) (N - 1 - t) psi x).
Proof. exact rotation. Qed.
Print Assumptions C35_rotation.
Example C35_rotation_hyps : let b := QCtl (QCtl (QRot AX (PVal (1 # 3))) (-2)) 1 in one_qubit (ctl_base b) /\ dists_nonzero b /\ q_rot 1 b = QCtl (QCtl (QRot AX (PVal (- (1 # 3)))) 2) (-1).
Proof. cbn. repeat split; discriminate. Qed.

(** ** C36 *)
(** The circuit of [n >= 2] qubits is exactly the published gate list, for every layer count and parameter assignment ... *)
Theorem C36_circuit : forall A n th, n >= 2 -> ranges_ok (a_kind A) (a_layers A) n ->
  exists c, circuit A n (map (fun l => map (th l) (seq 0 (layer_params (a_kind A) n))) (seq 0 (a_layers A))) = Ok c /\ implements n c (ansatz_gates (a_kind A) (a_layers A) n th).
Proof.
  intros A n th Hn R. destruct (circuit_built th Hn R) as (c & E & B). exists c. rewrite row_layer in E. split; [exact E|now apply built_implements].
Qed.
Print Assumptions C36_circuit.
(** ... whose gates act on distinct qubits in range ... *)
Theorem C36_distinct : forall k layers n th, n >= 2 -> ranges_ok k layers n -> Forall (gate_ok n) (ansatz_gates k layers n th).
Proof. intros k layers n th H R. exact (ansatz_gates_ok th H R). Qed.
Print Assumptions C36_distinct.
(** ... and in the circuit of a box every one of the [n_params] symbols labels exactly one gate, in order, and nothing else is a parameter. *)
Theorem C36_once : forall A label dom cod anc,
  a_rots A <> [] -> qtyped (a_basis A) (qubits 1) (qubits 1) -> flat_map params_of (gboxes (a_basis A)) = [] -> (Nat.max dom cod + anc >= 2 -> ranges_ok (a_kind A) (a_layers A) (Nat.max dom cod + anc)) ->
  exists c, ar A label dom cod anc = Ok c /\
    flat_map params_of (gboxes c) = map (sym label) (seq 0 (n_params A (Nat.max dom cod + anc))) /\ NoDup (flat_map params_of (gboxes c)).
Proof.
  intros A label dom cod anc H1 H2 H3 H4. destruct (@ar_params A label dom cod anc H1 H2 H3 H4) as (c & E & P). exists c. split; [exact E|]. rewrite P. split; [reflexivity|apply syms_nodup].
Qed.
Print Assumptions C36_once.
Example C36_ex : (exists A, make (StrEnt (Some [1%Z; (-1)%Z])) 2 3 false [] (Idn 1) = Ok A /\ ranges_ok (a_kind A) (a_layers A) 3 /\ n_params A 3 = 18) /\
  ansatz_gates Sim15 1 2 (fun _ i => PVal (inject_Z (Z.of_nat i))) = [(QRot AY (PVal 0), [], 0); (QRot AY (PVal 1), [], 1); (gX, [0], 1); (gX, [1], 0); (QRot AY (PVal 2), [], 0); (QRot AY (PVal 3), [], 1); (gX, [0], 1); (gX, [1], 0)].
Proof. split; [|reflexivity]. eexists. split; [reflexivity|]. split; [|reflexivity]. split; [reflexivity|]. repeat constructor; cbn; lia. Qed.
(** A range that is a multiple of the number of qubits would put control and target on one qubit: no circuit. *)
Example C36_zero_range : exists A, make (StrEnt (Some [0%Z])) 1 3 false [] (Idn 1) = Ok A /\ ar A "w" 0 2 0 = Err AssertionError.
Proof. eexists. split; [reflexivity|]. vm_compute. reflexivity. Qed.

(** ** C37 *)
(** Boxes get the same label iff they agree in name, domain and codomain ... *)
Theorem C37_label : forall b1 b2, clean_box b1 -> clean_box b2 -> summarise b1 = summarise b2 <-> b_name b1 = b_name b2 /\ b_dom b1 = b_dom b2 /\ b_cod b1 = b_cod b2.
Proof. intros b1 b2 H1 H2. exact (summarise_inj H1 H2). Qed.
Print Assumptions C37_label.
(** ... so a parameter name determines the box and the parameter index. *)
Theorem C37_param : forall b1 b2 i j, clean_box b1 -> clean_box b2 -> sym (summarise b1) i = sym (summarise b2) j <-> b_name b1 = b_name b2 /\ b_dom b1 = b_dom b2 /\ b_cod b1 = b_cod b2 /\ i = j.
Proof. intros b1 b2 i j H1 H2. rewrite sym_inj, (summarise_inj H1 H2). tauto. Qed.
Print Assumptions C37_param.
(** Escaping loses nothing and leaves no bare separator. *)
Theorem C37_escape : forall s t, escape s = escape t -> s = t.
Proof. exact escape_inj. Qed.
Print Assumptions C37_escape.
Example C37_ex : clean_box (Box "runs: away_ @, x" [a_n; rot_atom (-2) a_n] [a_s] 0) /\ summarise (Box "runs: x" [a_n; rot_atom (-2) a_n] [a_s] 0) = "runs\:\ x_n@n.l.l_s"%string.
Proof. split; [|reflexivity]. split; repeat constructor; discriminate. Qed.
(** With separators inside atomic type names different boxes collide. *)
Example C37_collision : summarise (Box "a" [("n_m"%string, 0%Z)] [] 0) = summarise (Box "a_n" [("m"%string, 0%Z)] [] 0).
Proof. reflexivity. Qed.
