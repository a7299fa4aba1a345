(** C89: loss functions; C90: normalised predictions. *)
From Coq Require Import Reals Lra Lia.
From Verif Require Import PyBase LossModel LossSpec LossFacts.
Close Scope string_scope.
Open Scope R_scope.

(** *** C89 *)
Theorem C89_cross_entropy : forall n k epsilon p t, (0 < n)%nat -> 0 < epsilon -> has_shape n k p -> has_shape n k t -> non_negative n k p ->
  calculate_ce epsilon p t = Ok (Some (cross_entropy n k (smoothed k epsilon p) t)) /\
  (forall i j, (i < n)%nat -> (j < k)%nat -> 0 < smoothed k epsilon p i j <= 1) /\
  (forall i, (i < n)%nat -> (0 < k)%nat -> Sum k (smoothed k epsilon p i) = 1).
Proof.
  intros n k e p t N E Sp St P. split; [exact (ce_value N E Sp St P)|]. split; [intros i j Hi Hj; eapply smoothed_pos; eassumption|intros i Hi Hk; eapply smoothed_sum; eassumption].
Qed.
Print Assumptions C89_cross_entropy.
Theorem C89_not_negative : forall n k epsilon p t, (0 < n)%nat -> 0 < epsilon -> non_negative n k p -> non_negative n k t ->
  0 <= cross_entropy n k (smoothed k epsilon p) t.
Proof. intros n k e p t N E P Pt. eapply ce_nonneg; eassumption. Qed.
Print Assumptions C89_not_negative.
Theorem C89_one_hot : forall n k epsilon p t c, one_hot n k t c ->
  cross_entropy n k (smoothed k epsilon p) t = - Sum n (fun i => ln (smoothed k epsilon p i (c i))) / INR n.
Proof. intros n k e p t c H. eapply ce_one_hot; eassumption. Qed.
Print Assumptions C89_one_hot.
(** The loss is never below the entropy of the labels, and reaches it exactly when the smoothed predictions are the labels. *)
Theorem C89_minimum : forall n k epsilon p t, (0 < n)%nat -> 0 < epsilon -> non_negative n k p -> distributions n k t ->
  entropy n k t <= cross_entropy n k (smoothed k epsilon p) t /\
  (cross_entropy n k (smoothed k epsilon p) t = entropy n k t <-> forall i j, (i < n)%nat -> (j < k)%nat -> smoothed k epsilon p i j = at_ t i j).
Proof. intros n k e p t N E P D. eapply ce_minimum; eassumption. Qed.
Print Assumptions C89_minimum.
Theorem C89_sparse : forall epsilon p t n, (0 < n)%nat -> 0 < epsilon -> List.length p = n -> List.length t = n -> (forall i, (i < n)%nat -> 0 <= nth i p 0 <= 1) ->
  calculate_bce_sparse epsilon p t =
    Ok (Some (- Sum n (fun i => (1 - nth i t 0) * ln ((1 - nth i p 0 + epsilon) / (1 + 2 * epsilon)) + nth i t 0 * ln ((nth i p 0 + epsilon) / (1 + 2 * epsilon))) / INR n)).
Proof. intros e p t n. apply bce_value. Qed.
Print Assumptions C89_sparse.
Theorem C89_mean_square : forall n k p t, has_shape n k p -> has_shape n k t -> (0 < n * k)%nat ->
  calculate_mse p t = Ok (Some (mean_square n k p t)) /\ calculate_mse t p = Ok (Some (mean_square n k p t)) /\ 0 <= mean_square n k p t /\
  (mean_square n k p t = 0 <-> forall i j, (i < n)%nat -> (j < k)%nat -> at_ p i j = at_ t i j).
Proof.
  intros n k p t Sp St N. split; [exact (mse_value Sp St N)|]. split; [rewrite (mse_value St Sp N), mse_sym; reflexivity|exact (mse_nonneg p t N)].
Qed.
Print Assumptions C89_mean_square.
Theorem C89_shapes : forall n k n' k' epsilon p t, has_shape n k p -> has_shape n' k' t -> (n, k) <> (n', k') ->
  calculate_ce epsilon p t = Err ValueError /\ calculate_mse p t = Err ValueError /\
  (forall a b, List.length a <> List.length b -> calculate_bce_sparse epsilon a b = Err ValueError).
Proof.
  intros n k n' k' e p t (R1 & C1 & _) (R2 & C2 & _) N. unfold calculate_ce, calculate_mse, match_shapes. rewrite R1, C1, R2, C2.
  assert (B : ((n =? n') && (k =? k'))%nat = false) by (destruct (Nat.eqb_spec n n'), (Nat.eqb_spec k k'); cbn; congruence). rewrite B. split; [reflexivity|]. split; [reflexivity|].
  intros a b H. unfold calculate_bce_sparse. apply Nat.eqb_neq in H. rewrite H. reflexivity.
Qed.
Print Assumptions C89_shapes.
Definition demo_pred : matrix := Mat 2 2 [[1/2; 1/2]; [1; 0]].
Definition demo_true : matrix := Mat 2 2 [[0; 1]; [1; 0]].
Example C89_demo : has_shape 2 2 demo_pred /\ has_shape 2 2 demo_true /\ non_negative 2 2 demo_pred /\ distributions 2 2 demo_true /\ one_hot 2 2 demo_true (fun i => 1 - i)%nat /\
  mean_square 2 2 demo_pred demo_true = 1 / 8.
Proof.
  assert (S1 : has_shape 2 2 demo_pred) by (repeat split; intros r [<-|[<-|[]]]; reflexivity). assert (S2 : has_shape 2 2 demo_true) by (repeat split; intros r [<-|[<-|[]]]; reflexivity).
  split; [exact S1|]. split; [exact S2|]. split; [intros [|[|i]] [|[|j]] Hi Hj; try lia; unfold at_, demo_pred; cbn; lra|]. split; [split; [intros [|[|i]] [|[|j]] Hi Hj; try lia; unfold at_, demo_true; cbn; lra|intros [|[|i]] Hi; try lia; unfold at_, demo_true; cbn; lra]|].
  split; [|unfold mean_square, at_, demo_pred, demo_true; cbn; field]. intros [|[|i]] Hi; try lia; (split; [lia|]); intros [|[|j]] Hj; try lia; reflexivity.
Qed.

(** *** C90 *)
Theorem C90_probabilities : forall X (mag : X -> R) (d : X) xs, (forall x, 0 <= mag x) ->
  let ys := normalise_vector mag false xs in let total := Sum (List.length xs) (fun i => mag (nth i xs d)) in
  List.length ys = List.length xs /\ (forall i, (i < List.length xs)%nat -> 0 <= nth i ys 0) /\ Sum (List.length xs) (fun i => nth i ys 0) <= 1 /\
  (1 / 10 ^ 9 <= total -> Sum (List.length xs) (fun i => nth i ys 0) = 1 /\ forall i, (i < List.length xs)%nat -> nth i ys 0 = mag (nth i xs d) / total).
Proof.
  intros X mag d xs M. cbv zeta. split; [apply norm_len|]. split; [exact (@norm_nonneg X mag xs d M)|]. split; [exact (norm_le mag xs d)|]. intro B. assert (RM := Rmax_right _ _ B). split.
  - rewrite (norm_sum mag xs d), RM. apply Rinv_r. assert (K := eps_pos). lra.
  - intros i Hi. rewrite (norm_at mag d Hi), RM. reflexivity.
Qed.
Print Assumptions C90_probabilities.
Theorem C90_special_cases : forall X (mag : X -> R) xs, (forall x, 0 <= mag x) ->
  normalise_vector mag true xs = map mag xs /\ ((forall x, In x xs -> mag x = 0) -> normalise_vector mag false xs = map mag xs).
Proof. intros X mag xs M. split; [reflexivity|exact (@norm_zero X mag xs)]. Qed.
Print Assumptions C90_special_cases.
(** Scaling the input (a global phase or an unnormalised state) does not change the result. *)
Theorem C90_scale : forall X (mag mag' : X -> R) (d : X) c xs, (forall x, 0 <= mag x) -> 0 < c -> (forall x, mag' x = c * mag x) ->
  1 / 10 ^ 9 <= Sum (List.length xs) (fun i => mag (nth i xs d)) -> 1 / 10 ^ 9 <= Sum (List.length xs) (fun i => mag' (nth i xs d)) ->
  normalise_vector mag' false xs = normalise_vector mag false xs.
Proof.
  intros X mag mag' d c xs M Hc E B B'. assert (M' : forall x, 0 <= mag' x) by (intro x; rewrite E; apply Rmult_le_pos; [lra|apply M]).
  apply (nth_ext _ _ 0 0); [rewrite !norm_len; reflexivity|]. intros i Hi. rewrite norm_len in Hi.
  rewrite (proj2 (proj2 (proj2 (proj2 (C90_probabilities X mag d xs M))) B) i Hi), (proj2 (proj2 (proj2 (proj2 (C90_probabilities X mag' d xs M'))) B') i Hi).
  rewrite (Sum_ext (f := fun i => mag' (nth i xs d)) (g := fun i => mag (nth i xs d) * c)) by (intros; rewrite E; ring). rewrite Sum_scale, E. field. assert (K := eps_pos). split; lra.
Qed.
Print Assumptions C90_scale.
(** A vector whose absolute values sum to less than [1e-9] is neither normalised nor returned as it is. *)
Theorem C90_tiny_refuted : exists xs : list R, normalise_vector Rabs false xs = [1 / 10] /\ map Rabs xs <> [1 / 10].
Proof.
  exists [1 / 10 ^ 10]. assert (P : 0 < 1 / 10 ^ 10) by (apply Rdiv_lt_0_compat; [lra|apply pow_lt; lra]). unfold normalise_vector. cbn [map]. rewrite (Rabs_pos_eq (1 / 10 ^ 10)) by lra. unfold sumR. cbn [fold_right]. split.
  - rewrite Rmax_left by lra. f_equal. lra.
  - intro H. injection H as H. lra.
Qed.
Print Assumptions C90_tiny_refuted.
Example C90_demo : normalise_vector Rabs false [3; -1; 0] = [3 / 4; 1 / 4; 0] /\ 1 / 10 ^ 9 <= Sum 3 (fun i => Rabs (nth i [3; -1; 0] 0)).
Proof.
  assert (A1 : Rabs 3 = 3) by (apply Rabs_pos_eq; lra). assert (A2 : Rabs (-1) = 1) by (rewrite Rabs_left; lra). assert (A3 : Rabs 0 = 0) by apply Rabs_R0. split.
  - unfold normalise_vector. cbn [map]. rewrite A1, A2, A3. unfold sumR. cbn [fold_right]. rewrite Rmax_right by lra. repeat f_equal; lra.
  - cbn [Sum nth]. rewrite A1, A2, A3. lra.
Qed.
