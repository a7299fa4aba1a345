(** Model of [lambeq/backend/pennylane.py]: converting a circuit to PennyLane and evaluating it with post-selection.
    PennyLane itself is modelled by the action of each operation on amplitudes ([op_run]): a one-qubit gate, controlled by the
    wires before the last one ([QSpec.gate_at]); its matrices are an arbitrary function [u1].
    Simplifications: [to_circuital] is an arbitrary function (it is only called on diagrams that are not circuital);
    the numbers are an arbitrary type; mixed circuits (density matrices) end in [OtherError]; devices, differentiation
    methods, drawing and the warning (182-186) are left out. A Python set is the list of its elements in iteration order. *)
From Coq Require Import QArith.
From Verif Require Import PyBase GDiag QModel QSpec.
Close Scope Q_scope.
Set Implicit Arguments. Unset Strict Implicit.
Local Open Scope string_scope. Local Open Scope list_scope.

(** 61-84: [OP_MAP]; for each key the one-qubit gate applied, the number of its parameters and of its control wires
    ([SWAP] is not of that form: see [op_run]) *)
Definition OP_MAP : list (string * (string * nat * nat)) :=
  [("H", ("H", 0, 0)); ("X", ("X", 0, 0)); ("Y", ("Y", 0, 0)); ("Z", ("Z", 0, 0)); ("S", ("S", 0, 0)); ("Sdg", ("Sdg", 0, 0));
   ("T", ("T", 0, 0)); ("Tdg", ("Tdg", 0, 0)); ("Rx", ("Rx", 1, 0)); ("Ry", ("Ry", 1, 0)); ("Rz", ("Rz", 1, 0));
   ("CX", ("X", 0, 1)); ("CY", ("Y", 0, 1)); ("CZ", ("Z", 0, 1)); ("CRx", ("Rx", 1, 1)); ("CRy", ("Ry", 1, 1)); ("CRz", ("Rz", 1, 1));
   ("CU1", ("U1", 1, 1)); ("SWAP", ("SWAP", 0, 1)); ("noop", ("I", 0, 0))].
Fixpoint sassoc {V} (k : string) (l : list (string * V)) : option V :=
  match l with [] => None | (k', v) :: l' => if String.eqb k k' then Some v else sassoc k l' end.
(** [OP_MAP[x.gtype]]: the operation is identified with its key *)
Definition op_lookup (k : string) : res string := match sassoc k OP_MAP with Some _ => Ok k | None => Err KeyError end.

(** equality of two dataclass instances: symbol.py 41-44, quantum.py 1515-1541 (without [name]) *)
Definition param_eqb (p q : param) : bool :=
  match p, q with
  | PSym n a b s, PSym n' a' b' s' => String.eqb n n' && (a =? a')%Z && (b =? b')%Z && Qeq_bool s s'
  | PVal v, PVal w => Qeq_bool v w
  | _, _ => false
  end.
Definition phase_eqb (p q : gphase) : bool :=
  match p, q with PhNone, PhNone => true | PhParam a, PhParam b => param_eqb a b | PhScalar r v, PhScalar r' v' => Bool.eqb r r' && Qeq_bool v v' | _, _ => false end.
Fixpoint nats_eqb (l m : list nat) : bool := match l, m with [], [] => true | x :: l', y :: m' => (x =? y)%nat && nats_eqb l' m' | _, _ => false end.
Definition opt_eqb {A} (f : A -> A -> bool) (a b : option A) : bool := match a, b with None, None => true | Some x, Some y => f x y | _, _ => false end.
Definition gate_eqb (g h : gate) : bool :=
  String.eqb (g_type g) (g_type h) && nats_eqb (g_qubits g) (g_qubits h) && phase_eqb (g_phase g) (g_phase h) && Bool.eqb (g_dagger g) (g_dagger h) &&
  opt_eqb nats_eqb (g_control g) (g_control h) && opt_eqb Nat.eqb (g_target g) (g_target h).
(** [l.remove(g)]: the first equal element *)
Fixpoint remove_gate (g : gate) (l : list gate) : list gate := match l with [] => [] | h :: l' => if gate_eqb h g then l' else h :: remove_gate g l' end.

(** [''.join(s) for s in product('01', repeat=n)] (332-333), in order *)
Fixpoint all_bits (n : nat) : list (list bool) := match n with O => [@nil bool] | S m => map (cons false) (all_bits m) ++ map (cons true) (all_bits m) end.
(** [int(''.join(bits), 2)] *)
Definition to_int (bits : list bool) : nat := fold_left (fun (a : nat) (b : bool) => 2 * a + (if b then 1 else 0))%nat bits 0%nat.
Fixpoint nassoc {V} (k : nat) (l : list (nat * V)) : option V := match l with [] => None | (k', v) :: l' => if (k =? k')%nat then Some v else nassoc k l' end.
Definition open_set (n : nat) (post : list (nat * bool)) : list nat := filter (fun i => match nassoc i post with Some _ => false | None => true end) (seq 0 n).
(** 315-341 [get_valid_states]; [open] is [open_wires] in iteration order *)
Definition fixed_bits (n : nat) (post : list (nat * bool)) : list bool := map (fun i => match nassoc i post with Some b => b | None => false end) (seq 0 n).
Definition place_bits (open : list nat) (perm fixed : list bool) : list bool :=
  fold_left (fun new io => set_bit (snd io) (nth (fst io) perm false) new) (enumerate 0 open) fixed.
Definition valid_states (n : nat) (post : list (nat * bool)) (open : list nat) : list nat :=
  map (fun perm => to_int (place_bits open perm (fixed_bits n post))) (all_bits (List.length open)).

Section Pl.
  Variables (K A : Type) (kzero kone : K) (kmul : K -> K -> K) (ksq : K -> K).
  Variables (num : Q -> A) (amul : Q -> A -> A) (two_pi : A -> A).
  (** the value of [Scalar(v)] / [Sqrt(v)]; the matrices of PennyLane's gates; [to_circuital]; iteration orders of the two sets *)
  Variables (scal : bool -> Q -> K) (u1 : string -> list A -> oper K) (to_circuital : qdiag -> res qdiag).
  Variables (sym_order : list param -> list param) (set_order : list nat -> list nat).

  (** 198-203: the loop over [circuit_info.gates] that removes elements of the list it runs over; [i] is the position of
      the list iterator. A gate of type Scalar has phase None or the value of a scalar box (quantum.py 1608-1610) *)
  Fixpoint strip_scalars (fuel i : nat) (gates : list gate) (scalar : K) : K * list gate :=
    match fuel with
    | O => (scalar, gates)
    | S f =>
        match nth_error gates i with
        | None => (scalar, gates)
        | Some g =>
            match String.eqb (g_type g) "Scalar", g_phase g with
            | true, PhScalar r v => strip_scalars f (S i) (remove_gate g gates) (kmul scalar (scal r v))
            | _, _ => strip_scalars f (S i) gates scalar
            end
        end
    end.
  (** 116-137: [x.phase if x.phase else []], then a tensor or the symbol in a list *)
  Definition gate_params (g : gate) : list param :=
    match g_phase g with
    | PhNone => []
    | PhParam (PVal v) => if Qeq_bool v 0 then [] else [PVal v]
    | PhParam p => [p]
    | PhScalar _ v => if Qeq_bool v 0 then [] else [PVal v]
    end.
  Fixpoint dedup_params (l : list param) (seen : list param) : list param :=
    match l with [] => rev seen | p :: l' => if existsb (param_eqb p) seen then dedup_params l' seen else dedup_params l' (p :: seen) end.
  Definition is_sym (p : param) : bool := match p with PSym _ _ _ _ => true | PVal _ => false end.
  (** the fields set in 228-249 *)
  Record plcirc := PL { pl_ops : list string; pl_symbols : list param; pl_params : list (list param); pl_wires : list (list nat);
                        pl_prob : bool; pl_post : list (nat * bool); pl_mixed : bool; pl_scale : K; pl_n : nat }.
  (** quantum.py 257-268 [is_mixed] *)
  Definition diag_mixed (d : qdiag) : bool :=
    (existsb (wire_eqb Bt) (gdom d ++ gcod d) && existsb (wire_eqb Qb) (gdom d ++ gcod d)) || existsb q_mixed (gboxes d).
  (** 142-222 [to_pennylane], 87-139 [extract_ops_from_circuital] *)
  Definition to_pennylane (d : qdiag) (probabilities : bool) : res plcirc :=
    if existsb (fun b => match b with QMeas => true | _ => false end) (gboxes d) then Err ValueError
    else
      do d' <- (if is_circuital d then Ok d else to_circuital d);
      do ci <- readoff d';
      let '(scalar, gates) := strip_scalars (S (List.length (ci_gates ci))) 0 (ci_gates ci) kone in
      do ops <- mapM op_lookup (map g_type gates);
      let params := map gate_params gates in
      Ok (PL ops (sym_order (dedup_params (filter is_sym (List.concat params)) [])) params (map g_qubits gates) probabilities (ci_postmap ci) (diag_mixed d) scalar (ci_total ci)).

  (** 284-292 [initialise_concrete_params], 390-415 [param_substitution]; [weights] is [symbol_weight_map] *)
  Fixpoint passoc {V} (p : param) (l : list (param * V)) : option V := match l with [] => None | (q, v) :: l' => if param_eqb p q then Some v else passoc p l' end.
  Fixpoint pindex (p : param) (l : list param) : option nat := match l with [] => None | q :: l' => if param_eqb q p then Some 0%nat else option_map S (pindex p l') end.
  Definition unscaled (p : param) : param := match p with PSym n a b _ => PSym n a b 1 | PVal v => PVal v end.
  (** symbol.py 85-111 [lambdify] *)
  Definition subst_param (symbols : list param) (weights : list A) (p : param) : res A :=
    match p with
    | PVal v => Ok (num v)
    | PSym _ _ _ s =>
        match pindex (unscaled p) symbols with
        | None => Err ValueError
        | Some i => match nth_error weights i with None => Err IndexError | Some w => Ok (if Qeq_bool s 1 then w else amul s w) end
        end
    end.
  Definition concrete_params (weight_map : list (param * A)) (c : plcirc) : res (list (list A)) :=
    do weights <- (if existsb is_sym (List.concat (pl_params c))
                   then mapM (fun s => match passoc s weight_map with Some w => Ok w | None => Err KeyError end) (pl_symbols c) else Ok []);
    mapM (mapM (subst_param (pl_symbols c) weights)) (pl_params c).

  (** PennyLane: calling an operation with parameters and wires; a wrong number of parameters is a TypeError, of wires a ValueError *)
  Definition op_run (op : string) (ps : list A) (ws : list nat) : res (oper K) :=
    match sassoc op OP_MAP with
    | None => Err KeyError
    | Some (base, np, nc) =>
        if negb (List.length ps =? np)%nat then Err TypeError
        else if negb (List.length ws =? S nc)%nat then Err ValueError
        else if String.eqb op "SWAP" then
          Ok (fun psi x => psi (set_bit (nth 0 ws 0%nat) (bit_of (nth 1 ws 0%nat) x) (set_bit (nth 1 ws 0%nat) (bit_of (nth 0 ws 0%nat) x) x)))
        else Ok (gate_at (u1 base ps) (removelast ws) (last ws 0%nat))
    end.
  (** 353-358: the operations in order *)
  Fixpoint run_ops (ops : list string) (params : list (list A)) (wires : list (list nat)) (psi : state K) : res (state K) :=
    match ops, params, wires with
    | op :: ops', ps :: params', ws :: wires' => do u <- op_run op (map two_pi ps) ws; run_ops ops' params' wires' (u psi)
    | _, _, _ => Ok psi
    end.
  (** the state of the device before the circuit; [qml.state()] / [qml.probs()] as vectors (365-368) *)
  Definition zero_state : state K := fun x => if existsb (fun b => b) x then kzero else kone.
  (** 372-402 [post_selected_circuit], 417-440 [eval]: the shape and the entries of the result *)
  Definition pl_eval (weight_map : list (param * A)) (c : plcirc) : res (list nat * list K) :=
    do params <- concrete_params weight_map c;
    do psi <- run_ops (pl_ops c) params (pl_wires c) zero_state;
    if pl_mixed c then Err OtherError
    else
      let states := map (fun x => if pl_prob c then ksq (psi x) else psi x) (all_bits (pl_n c)) in
      let open := set_order (open_set (pl_n c) (pl_post c)) in
      let sel := map (fun i => kmul (if pl_prob c then kmul (pl_scale c) (pl_scale c) else pl_scale c) (nth i states kzero)) (valid_states (pl_n c) (pl_post c) open) in
      Ok (if (List.length sel =? 1)%nat then [1%nat] else repeat 2%nat (pl_n c - List.length (pl_post c)), sel).
End Pl.
