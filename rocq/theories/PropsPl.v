(** Property theorems C91-C93: conversion to PennyLane and post-selected evaluation. *)
From Coq Require Import QArith Sorting.Sorted.
From Verif Require Import PyBase PyFacts GDiag GDiagSpec QModel QSpec PlModel PlSpec PlFacts PlRun PlEval PlEx.
Close Scope Q_scope.
Set Implicit Arguments. Unset Strict Implicit.
Local Open Scope list_scope.

(** ** C91: the converted circuit evaluates to the post-selected amplitudes of the circuit *)

(** For every pure circuit within reach ([pl_circuit]), when PennyLane's gates are lambeq's gates and every symbol has a weight,
    conversion and evaluation succeed and return, as a tensor with one axis of dimension 2 per open wire in order, the amplitudes
    of the circuit applied to the unit state -- or their squares when probabilities are asked for. The set of symbols may be
    iterated in any order, the set of open wires in ascending order (see C93).
    Missing: what [pl_circuit] leaves out (each refuted below), and circuits with discards. *)
Theorem C91_evaluation_partial : forall K A (kzero kone : K) kmul (ksq : K -> K) (num : Q -> A) amul two_pi scal u1 to_circuital sym_order set_order,
  (forall x y z, kmul x (kmul y z) = kmul (kmul x y) z) -> (forall x y, kmul x y = kmul y x) -> (forall x, kmul kone x = x) ->
  (forall x y, ksq (kmul x y) = kmul (ksq x) (ksq y)) -> ksq kone = kone -> (forall r v, ksq (scal r v) = kmul (scal r v) (scal r v)) ->
  (forall l, Permutation (sym_order l) l) -> (forall l, StronglySorted lt l -> set_order l = l) ->
  forall pvalue base, pl_agrees kzero kmul num two_pi scal u1 pvalue base ->
  forall d prob wm, pl_circuit d ->
  (forall b p, In b (gboxes d) -> box_angle b = Some p -> is_sym p = true -> passoc p wm = Some (pvalue p)) ->
  exists c, to_pennylane kone kmul scal to_circuital sym_order d prob = Ok c /\
    pl_eval kzero kone kmul ksq num amul two_pi u1 set_order wm c =
      Ok (match List.length (gcod d) with 0 => [1] | k => repeat 2 k end,
          map (fun x => let a := q_eval base d (fun _ => kone) x in if prob then ksq a else a) (all_bits (List.length (gcod d)))).
Proof. intros. eapply pl_correct; eauto. Qed.
Print Assumptions C91_evaluation_partial.
(** the hypotheses are met by integer amplitudes and a circuit with entanglement, a symbol, a number, a scalar and a post-selection *)
Example C91_instance : pl_agrees 0%Z Z.mul ex_num ex_twopi ex_scal ex_u1 ex_pvalue ex_base /\ pl_circuit ex_circ /\
  bind (ex_convert ex_circ false) (ex_eval [(ex_w, 7%Z)]) = Ok ([2], [1260; 30]%Z) /\ bind (ex_convert ex_circ true) (ex_eval [(ex_w, 7%Z)]) = Ok ([2], [1587600; 900]%Z).
Proof. split; [exact ex_agrees|]. split; [exact ex_circ_ok|]. split; vm_compute; reflexivity. Qed.
(** Where no scalar follows another, conversion multiplies all of them into the scale and removes all of them, and nothing else. *)
Theorem C91_scalars : forall K (kmul : K -> K -> K) scal kone gs, gno_adj gs ->
  strip_scalars kmul scal (S (List.length gs)) 0 gs kone =
    (fold_left (fun s g => kmul s (sc_val scal kone g)) (filter is_sc gs) kone, filter (fun g => negb (is_sc g)) gs).
Proof. intros K kmul scal kone gs H. apply (@strip_ok K kmul scal kone _ [] gs kone (Forall_nil _) H). cbn. lia. Qed.
Print Assumptions C91_scalars.
Example C91_scalars_instance : exists gs, gno_adj gs /\ List.length (filter is_sc gs) = 2 /\ List.length gs = 3.
Proof. exists [Gate "Scalar" [] (PhScalar false 2) false None None; Gate "X" [0] PhNone false None None; Gate "Scalar" [] (PhScalar true 3) false None None]. vm_compute. auto. Qed.

(** The dagger of a gate is lost: S and its dagger are converted to the same circuit, although they differ. *)
Theorem C91_dagger_refuted : exists d d', gboxes d = [QKet false; gH; gS] /\ gboxes d' = [QKet false; gH; q_dag gS] /\ qwf d /\ qwf d' /\
  (exists c, ex_convert d false = Ok c /\ ex_convert d' false = Ok c) /\ q_dag gS <> gS.
Proof. exists (kets 1 [([], gH, []); ([], gS, [])] [Qb]), (kets 1 [([], gH, []); ([], q_dag gS, [])] [Qb]). repeat split; try (eexists; split; reflexivity). discriminate. Qed.
Print Assumptions C91_dagger_refuted.
(** A rotation by 0 converts but cannot be evaluated: its parameter is dropped. *)
Theorem C91_zero_angle_refuted : exists d c, gboxes d = [QKet false; QRot AX (PVal 0)] /\ qwf d /\ ex_convert d false = Ok c /\ ex_eval [] c = Err TypeError.
Proof. exists (kets 1 [([], QRot AX (PVal 0), [])] [Qb]). eexists. repeat split. Qed.
Print Assumptions C91_zero_angle_refuted.
(** Neither can a controlled Y rotation: its phase is not read. *)
Theorem C91_controlled_ry_refuted : exists d c, gboxes d = [QKet false; QKet false; QCtl (QRot AY ex_w) 1] /\ qwf d /\ ex_convert d false = Ok c /\ ex_eval [(ex_w, 7%Z)] c = Err TypeError.
Proof. exists (kets 2 [([], QCtl (QRot AY ex_w) 1, [])] [Qb; Qb]). eexists. repeat split. Qed.
Print Assumptions C91_controlled_ry_refuted.
(** Two scalars in a row make the conversion raise: the list is changed while it is iterated, and the second is skipped. *)
Theorem C91_adjacent_scalars_refuted : exists d, gboxes d = [QKet false; QScal false 2; QScal false 3] /\ qwf d /\ is_circuital d = true /\ ex_convert d false = Err KeyError.
Proof. exists (kets 1 [([Qb], QScal false 2, []); ([Qb], QScal false 3, [])] [Qb]). repeat split. Qed.
Print Assumptions C91_adjacent_scalars_refuted.
(** A gate with two controls has no PennyLane operation. *)
Theorem C91_toffoli_refuted : exists d, gboxes d = [QKet false; QKet false; QKet false; QCtl (QCtl gX 1) 1] /\ qwf d /\ is_circuital d = true /\ ex_convert d false = Err KeyError.
Proof. exists (kets 3 [([], QCtl (QCtl gX 1) 1, [])] [Qb; Qb; Qb]). repeat split. Qed.
Print Assumptions C91_toffoli_refuted.
(** A circuit that starts in state 1 is converted like one that starts in state 0. *)
Theorem C91_ket_one_refuted : exists d c, gboxes d = [QKet true] /\ qwf d /\ is_circuital d = true /\ ex_convert d false = Ok c /\ ex_eval [] c = Ok ([2], [1; 0]%Z) /\
  map (q_eval ex_base d (fun _ => 1%Z)) (all_bits 1) = [0; 1]%Z.
Proof. exists (GD [] [Qb] [([], QKet true, [])]). eexists. repeat split. Qed.
Print Assumptions C91_ket_one_refuted.

(** ** C92: parameters *)

(** Whatever the order of the symbols: numbers stay, and each symbol without a coefficient gets its own weight, at all its occurrences. *)
Theorem C92_substitution_partial : forall K A (num : Q -> A) amul sym_order (value : param -> A) (c : plcirc K) wm, (forall l, Permutation (sym_order l) l) ->
  (forall v, value (PVal v) = num v) -> pl_symbols c = sym_order (dedup_params (filter is_sym (List.concat (pl_params c))) []) ->
  (forall p, In p (List.concat (pl_params c)) -> is_sym p = true -> good_param p /\ passoc p wm = Some (value p)) ->
  (forall v, In (PVal v) (List.concat (pl_params c)) -> ~ (v == 0)%Q) ->
  concrete_params num amul wm c = Ok (map (map value) (pl_params c)).
Proof.
  intros K A num amul so value c wm SP NV ES H HV. destruct c as [ops syms ps ws pr post mx sc n]. apply (@concrete_ok K A num amul so value); auto.
  apply Forall_forall. intros l Hl. apply Forall_forall. intros p Hp. cbn in H, HV. assert (I : In p (List.concat ps)) by (apply in_concat; eauto). split.
  - destruct p as [n' a b s|v]; [apply (H _ I eq_refl)|exact (HV v I)].
  - intro S. apply (H p I S).
Qed.
Print Assumptions C92_substitution_partial.
Example C92_instance : concrete_params ex_num (fun q a => (Qnum q * a)%Z) [(PSym "v" 1 1 1, 5%Z); (ex_w, 7%Z)]
  (PL [] [ex_w; PSym "v" 1 1 1] [[ex_w]; [PVal (3 # 1)]; [PSym "v" 1 1 1]; [ex_w]] [] false [] false 1%Z 0) = Ok [[7]; [3]; [5]; [7]]%Z.
Proof. vm_compute. reflexivity. Qed.
(** As soon as a symbol occurs with a coefficient (every dagger of a rotation has one), substitution raises, since the weights
    are keyed by symbols without coefficients. *)
Theorem C92_scaled_refuted : forall K A (num : Q -> A) amul sym_order (c : plcirc K) wm n a b s, (forall l, Permutation (sym_order l) l) ->
  pl_symbols c = sym_order (dedup_params (filter is_sym (List.concat (pl_params c))) []) -> In (PSym n a b s) (List.concat (pl_params c)) -> ~ (s == 1)%Q ->
  (forall p v, In (p, v) wm -> good_param p) -> concrete_params num amul wm c = Err KeyError.
Proof. intros. eapply concrete_scaled; eauto. Qed.
Print Assumptions C92_scaled_refuted.
Example C92_scaled_instance : exists d c, gboxes d = [QKet false; q_dag (QRot AX ex_w)] /\ ex_convert d false = Ok c /\ In (PSym "w" 1 1 (- (1))) (List.concat (pl_params c)) /\
  concrete_params ex_num (fun q a => a) [(ex_w, 7%Z)] c = Err KeyError.
Proof. exists (kets 1 [([], q_dag (QRot AX ex_w), [])] [Qb]). eexists. split; [reflexivity|]. split; [reflexivity|]. split; [now left|vm_compute; reflexivity]. Qed.

(** ** C93: the states compatible with the post-selections *)

(** Whatever the order in which the open wires are iterated: the entry of index [perm] is the basis state with the post-selected
    bits, and bit [j] of [perm] at the [j]-th open wire; ... *)
Theorem C93_states : forall n post open perm, Permutation open (open_set n post) -> List.length perm = List.length open -> exists y, List.length y = n /\
  nth (to_int perm) (valid_states n post open) 0 = to_int y /\ (forall q b, q < n -> nassoc q post = Some b -> nth q y false = b) /\
  (forall j, j < List.length open -> nth (nth j open 0) y false = nth j perm false).
Proof. exact valid_nth. Qed.
Print Assumptions C93_states.
(** ... and every basis state that agrees with the post-selections is there, at the index read off its open wires. *)
Theorem C93_all_states : forall n post open y, Permutation open (open_set n post) -> List.length y = n -> (forall q b, q < n -> nassoc q post = Some b -> nth q y false = b) ->
  nth (to_int (map (fun q => nth q y false) open)) (valid_states n post open) 0 = to_int y.
Proof. exact valid_complete. Qed.
Print Assumptions C93_all_states.
(** Indices are those of the amplitudes: the entry of index [y] of the vector of amplitudes is the amplitude of [y]. *)
Theorem C93_index : forall T (f : list bool -> T) dflt n y, List.length y = n -> nth (to_int y) (map f (all_bits n)) dflt = f y /\ to_int y < 2 ^ n.
Proof. intros. now apply nth_all_bits. Qed.
Print Assumptions C93_index.
Example C93_instance : open_set 4 [(1, true); (2, false)] = [0; 3] /\ valid_states 4 [(1, true); (2, false)] [0; 3] = [4; 5; 12; 13] /\ valid_states 4 [(1, true); (2, false)] [3; 0] = [4; 12; 5; 13].
Proof. vm_compute. auto. Qed.
(** The axes of the result follow the iteration order of a Python set, which is not always ascending (for the open wires 10 and 16
    of 18 CPython 3.11 yields 16 first): the axes are then exchanged. *)
Theorem C93_order_refuted : exists post open, Permutation open (open_set 18 post) /\ open = [16; 10] /\ open_set 18 post = [10; 16] /\
  valid_states 18 post open = [0; 128; 2; 130] /\ valid_states 18 post (open_set 18 post) = [0; 2; 128; 130].
Proof.
  exists (map (fun i => (i, false)) (filter (fun i => negb ((i =? 10) || (i =? 16))) (seq 0 18))), [16; 10].
  split; [vm_compute; apply perm_swap|vm_compute; auto].
Qed.
Print Assumptions C93_order_refuted.
(** With such an order the evaluation of a circuit is not that of C91. *)
Theorem C93_evaluation_refuted : exists d c, gboxes d = [QKet false; QKet false; gX] /\ pl_circuit d /\ ex_convert d false = Ok c /\
  pl_eval 0%Z 1%Z Z.mul (fun x => x * x)%Z ex_num (fun q a => (Qnum q * a)%Z) ex_twopi ex_u1 (@rev nat) [] c = Ok ([2; 2], [0; 1; 0; 0]%Z) /\
  map (q_eval ex_base d (fun _ => 1%Z)) (all_bits 2) = [0; 0; 1; 0]%Z.
Proof.
  exists (kets 2 [([], gX, [Qb])] [Qb; Qb]). eexists. split; [reflexivity|]. split.
  - split; [repeat split|]. split; [reflexivity|]. split.
    + repeat (apply Forall_cons; [first [left; reflexivity|right; left; cbn; auto 10]|]). apply Forall_nil.
    + split; [|repeat split]. intros i j x b H. destruct i as [|[|[|i]]]; try discriminate. destruct i; discriminate.
  - repeat split.
Qed.
Print Assumptions C93_evaluation_refuted.
