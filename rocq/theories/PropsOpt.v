(** Property theorems C56-C59 (optimisers).  Specification vocabulary: [within] (finite and inside the
    bounds), [proper] (one strict interval per weight), [num_eq] (equal finite numbers), [gains] (the gain
    pairs seen at successive steps), [in_bounds], [history], [seen], [target] (the analytic minimiser). *)
From Coq Require Import QArith Qround Qabs Sorted Permutation Lqa.
From Verif Require Import PyBase OptModel OptFacts OptNM.
Local Open Scope Q_scope.

Definition sign (d : Q) : Prop := d = 1 \/ d = -1.

(** ** C56 *)
(** the mask selects the symbols occurring in the batch (all of them when the batch has none) *)
Theorem C56_mask : forall symbols free mask, batch_mask symbols free = Ok mask ->
  List.length mask = List.length symbols /\
  forall i s, nth_error symbols i = Some s ->
    nth_error mask i = Some true <-> (List.concat free = [] \/ In s (List.concat free)).
Proof. exact batch_mask_spec. Qed.
Print Assumptions C56_mask.
Example C56_mask_ok : batch_mask ["a"; "b"; "c"]%string [["c"]; ["a"; "c"]]%string = Ok [true; false; true].
Proof. reflexivity. Qed.

(** a successful backward leaves the weights alone, evaluates the model at exactly two points, and all
    evaluation points are inside the bounds *)
Theorem C56_backward_restores : forall loss o mask delta l o' pts,
  spsa_backward loss o mask delta = (Ok l, o', pts) ->
  within (bds o) (weights o) -> proper (bds o) (weights o) -> List.length delta = List.length (weights o) ->
  weights o' = weights o /\ sweep o' = sweep o /\ Forall (within (bds o)) pts /\
  exists p q lp lq, pts = [p; q] /\ loss p = Ok lp /\ loss q = Ok lq /\ l = (lp + lq) / 2.
Proof. exact backward_restores_pts. Qed.
Print Assumptions C56_backward_restores.

(** also when the loss raises, the points evaluated are inside the bounds *)
Theorem C56_points_in_bounds : forall loss o mask delta r o' pts,
  spsa_backward loss o mask delta = (r, o', pts) ->
  within (bds o) (weights o) -> proper (bds o) (weights o) -> List.length delta = List.length (weights o) ->
  Forall (within (bds o)) pts.
Proof. exact backward_points. Qed.
Print Assumptions C56_points_in_bounds.

(** masked weights get no gradient *)
Theorem C56_masked_gradient : forall loss o mask delta l o' pts i g,
  spsa_backward loss o mask delta = (Ok l, o', pts) ->
  within (bds o) (weights o) -> proper (bds o) (weights o) -> List.length delta = List.length (weights o) ->
  List.length mask = List.length (weights o) -> ~ ck o == 0 -> Forall sign delta ->
  nth_error mask i = Some false -> nth_error (gradient o) i = Some (Fin g) ->
  exists g', nth_error (gradient o') i = Some (Fin g') /\ g' == g.
Proof. intros. eapply masked_gradient; eauto. eapply Forall_impl; [|eassumption]. intros a [-> | ->]; discriminate. Qed.
Print Assumptions C56_masked_gradient.

(** backward followed by step: masked weights are unchanged, all weights stay inside the bounds, the
    gradient is zero again, the sweep counter advances by one *)
Theorem C56_backward_step : forall pow loss o mask delta l o' pts,
  spsa_backward loss o mask delta = (Ok l, o', pts) ->
  within (bds o) (weights o) -> proper (bds o) (weights o) -> List.length delta = List.length (weights o) ->
  List.length mask = List.length (weights o) -> List.length (gradient o) = List.length (weights o) ->
  zero_grads (gradient o) -> ~ ck o == 0 -> Forall sign delta ->
  within (bds o) (weights (spsa_step pow o')) /\ zero_grads (gradient (spsa_step pow o')) /\
  sweep (spsa_step pow o') = sweep o + 1 /\
  (forall i, nth_error mask i = Some false ->
     match nth_error (weights o) i, nth_error (weights (spsa_step pow o')) i with Some a, Some b => num_eq a b | _, _ => False end).
Proof. intros. eapply backward_step_all; eauto. eapply Forall_impl; [|eassumption]. intros a [-> | ->]; discriminate. Qed.
Print Assumptions C56_backward_step.

Definition demo_loss (w : list num) : res Q := match w with [Fin a; Fin b] => Ok (a * a + 3 * b) | _ => Err ValueError end.
Definition demo_opt : spsa := SPSA [Fin (1#2); Fin (1#4)] [Fin 0; Fin 0] (1#2) (1#10) 10 (1#2) (1#10) (1#5) (1#10) 1 (Some [(0, 1); (0, 1)]).
Example C56_ok : within (bds demo_opt) (weights demo_opt) /\ proper (bds demo_opt) (weights demo_opt) /\ zero_grads (gradient demo_opt) /\
  exists l o' pts, spsa_backward demo_loss demo_opt [true; false] [1; -1] = (Ok l, o', pts) /\
    map (fun x => match x with Fin q => Some (Qred q) | _ => None end) (weights (spsa_step (fun _ _ => 1) o')) = [Some (9#10); Some (1#4)].
Proof.
  cbn. unfold within, finite, proper, zero_grads, num_eq. repeat split; repeat constructor; cbn; try (eexists; repeat split; cbn; lra); try (eexists; reflexivity); try lra; try reflexivity.
  eexists _, _, _. split; [reflexivity|]. vm_compute. reflexivity.
Qed.

(** if the loss raises, the perturbed weights stay in the model *)
Theorem C56_loss_raises_refuted : exists loss o mask delta o' pts,
  within (bds o) (weights o) /\ proper (bds o) (weights o) /\
  spsa_backward loss o mask delta = (Err ValueError, o', pts) /\ weights o' <> weights o.
Proof.
  exists (fun _ => Err ValueError), (SPSA [Fin 0] [Fin 0] 1 1 1 1 1 1 1 1 None), [true], [1]. eexists _, _. repeat split.
  - repeat constructor. now exists 0.
  - discriminate.
Qed.
Print Assumptions C56_loss_raises_refuted.

(** with a one-point interval, which the constructor accepts, a masked weight becomes NaN *)
Theorem C56_pinned_weight_refuted : exists pow w b o loss mask delta l o' pts,
  spsa_new pow w (1#5) (1#10) 1 (Some b) = Ok o /\ within (bds o) (weights o) /\ Forall sign delta /\
  spsa_backward loss o mask delta = (Ok l, o', pts) /\ nth_error mask 0 = Some false /\
  nth_error (weights (spsa_step pow o')) 0 = Some NaN.
Proof.
  exists (fun _ _ => 1), [Fin 0; Fin 0], [(0, 0); (0, 1)]. eexists. exists (fun w => match w with [_; Fin q] => Ok q | _ => Ok 0 end), [false; true], [1; 1]. eexists _, _, _.
  split; [reflexivity|]. split; [split; cbn; repeat constructor; eexists; repeat split; cbn; lra|].
  split; [repeat constructor|]. split; [reflexivity|]. split; reflexivity.
Qed.
Print Assumptions C56_pinned_weight_refuted.

(** ** C57 *)
(** loading a saved state into an optimiser built with the same a and c continues the gain sequence *)
Theorem C57_gains_resume : forall pow n o o', hyper_a o = hyper_a o' -> hyper_c o = hyper_c o' ->
  gains pow n (spsa_load o' (spsa_save o)) = gains pow n o.
Proof. exact gains_resume. Qed.
Print Assumptions C57_gains_resume.
(** the k-th step of a new optimiser uses a / (k + 1 + A) ^ alpha and c / (k + 1) ^ gamma *)
Theorem C57_gain_schedule : forall pow w a c A b o, spsa_new pow w a c A b = Ok o -> forall n k,
  (k < n)%nat -> nth_error (gains pow n o) k =
    Some (a / pow (sweep_at k + A) alpha, c / pow (sweep_at k) gamma) /\ sweep_at k == inject_Z (Z.of_nat k) + 1.
Proof. exact gains_schedule. Qed.
Print Assumptions C57_gain_schedule.
(** resuming after k updates is the same as never having stopped, for every k *)
Theorem C57_gains_resume_at : forall pow w a c A b o o' k, spsa_new pow w a c A b = Ok o ->
  hyper_a o' = a -> hyper_c o' = c -> forall n,
  gains pow n (spsa_load o' (spsa_save (Nat.iter k (spsa_update pow) o))) = skipn k (gains pow (k + n) o).
Proof. exact gains_resume_at. Qed.
Print Assumptions C57_gains_resume_at.
Example C57_ok : exists o, spsa_new (fun b _ => b) [Fin 0] (1#2) (1#10) 4 None = Ok o /\
  map (fun g => (Qred (fst g), Qred (snd g))) (gains (fun b _ => b) 2 (spsa_load o (spsa_save (Nat.iter 2 (spsa_update (fun b _ => b)) o)))) = [(1#14, 1#30); (1#16, 1#40)].
Proof. eexists. split; [reflexivity|]. vm_compute. reflexivity. Qed.
(** the saved a and c are loaded but not used: an optimiser built with other values deviates from the second step on *)
Theorem C57_other_hyperparams_refuted : exists pow w b o o', spsa_new pow w (1#2) (1#10) 4 b = Ok o /\ spsa_new pow w 1 (1#10) 4 b = Ok o' /\
  gains pow 2 (spsa_load o' (spsa_save o)) <> gains pow 2 o.
Proof. exists (fun b _ => b), [Fin 0], None. eexists _, _. split; [reflexivity|]. split; [reflexivity|]. vm_compute. congruence. Qed.
Print Assumptions C57_other_hyperparams_refuted.

(** ** C58 *)
(** for every history of backward and step calls, with arbitrary losses and masks *)
Theorem C58_backward : forall nb rho chi psi sigma xatol fatol argsort dim, is_argsort argsort -> (1 <= dim)%nat ->
  forall fs last s f mask l s', history nb rho chi psi sigma xatol fatol argsort dim fs last s ->
  nm_backward nb rho chi psi sigma xatol fatol argsort dim f mask s = (l, s') ->
  (forall l0, last = Some l0 -> l <= l0) /\
  Forall2 (fun v x => in_bounds nb dim v /\ seen (f :: fs) v x) (sim s') (fsim s') /\
  List.length (sim s') = S dim /\ StronglySorted Qle (fsim s') /\
  (forall x, In x (fsim s') -> l <= x) /\ l == nth 0 (fsim s') 0.
Proof. intros. eapply history_backward; eauto. Qed.
Print Assumptions C58_backward.
(** after step, a parameter of the batch has its value in the best vertex *)
Theorem C58_step_weights : forall nb rho chi psi sigma xatol fatol argsort dim, is_argsort argsort -> (1 <= dim)%nat ->
  forall fs last s f mask l s' i x, history nb rho chi psi sigma xatol fatol argsort dim fs last s ->
  nm_backward nb rho chi psi sigma xatol fatol argsort dim f mask s = (l, s') ->
  nth_error (nth 0 (sim s') []) i = Some x -> nth_error mask i = Some true ->
  exists y, nth_error (nw (nm_step nb s')) i = Some y /\ y == x.
Proof. intros. edestruct backward_step_weights as (y & A & B & _); eauto. Qed.
Print Assumptions C58_step_weights.
(** an insertion argsort, and a two-parameter run *)
Fixpoint ins (l : list Q) (i : nat) (m : list nat) : list nat :=
  match m with [] => [i] | j :: m' => if Qle_bool (nth i l 0) (nth j l 0) then i :: m else j :: ins l i m' end.
Definition isort (l : list Q) : list nat := fold_right (ins l) [] (seq 0 (List.length l)).
Example C58_argsort_ok : is_argsort isort.
Proof. exact (@isort_spec ins isort (fun _ _ => eq_refl) (fun _ _ _ _ => eq_refl) (fun _ => eq_refl)). Qed.
Definition bowl (v : list Q) : Q := fold_right (fun q a => q * q + a) 0 v.
Example C58_ok : exists s0 l1 s1 l2 s2, nm_new (Some [(0, 1); (0, 1)]) [1#2; 0] None = Ok s0 /\
  nm_backward (Some [(0, 1); (0, 1)]) 1 2 (1#2) (1#2) (1#10000) (1#10000) isort 2 bowl [true; true] s0 = (l1, s1) /\
  nm_backward (Some [(0, 1); (0, 1)]) 1 2 (1#2) (1#2) (1#10000) (1#10000) isort 2 bowl [true; true] (nm_step (Some [(0, 1); (0, 1)]) s1) = (l2, s2) /\ Qlt l2 l1.
Proof. eexists _, _, _, _, _. do 3 (split; [reflexivity|]). vm_compute. reflexivity. Qed.
(** step overwrites the weights of parameters that do not occur in the batch (with 0 projected to the bounds) *)
Theorem C58_absent_parameters_refuted : exists s0 l s1, nm_new None [1; 1] None = Ok s0 /\
  nm_backward None 1 2 (1#2) (1#2) (1#10000) (1#10000) isort 2 bowl [true; false] s0 = (l, s1) /\
  nth_error (nw s0) 1 = Some 1 /\ exists y, nth_error (nw (nm_step None s1)) 1 = Some y /\ y == 0.
Proof. eexists _, _, _. do 3 (split; [reflexivity|]). eexists. split; [vm_compute; reflexivity|reflexivity]. Qed.
Print Assumptions C58_absent_parameters_refuted.

(** ** C59 *)
(** every coordinate is updated once, in order, from the weights produced by the previous updates, and no other
    coordinate changes; the result is the analytic minimiser reduced by [roto_project] *)
Theorem C59_sweep : forall turn loss w, exists ws,
  List.length ws = S (List.length w) /\ nth_error ws 0 = Some w /\
  nth_error ws (List.length w) = Some (snd (roto_backward turn loss w)) /\
  fst (roto_backward turn loss w) = loss (snd (roto_backward turn loss w)) /\
  forall i a b, nth_error ws i = Some a -> nth_error ws (S i) = Some b ->
    nth_error b i = Some (roto_project (target turn loss a i)) /\ (forall j, j <> i -> nth_error b j = nth_error a j).
Proof. exact roto_sweep. Qed.
Print Assumptions C59_sweep.
Theorem C59_range : forall turn loss w,
  Forall (fun x => 0 <= x < 1) (snd (roto_backward turn loss w)) /\ List.length (snd (roto_backward turn loss w)) = List.length w.
Proof. exact roto_range. Qed.
Print Assumptions C59_range.
(** a non-negative minimiser is replaced by an angle equivalent modulo a full turn *)
Theorem C59_equivalent_partial : forall x, 0 <= x -> exists n : Z, roto_project x == x + inject_Z n.
Proof. exact roto_project_mod. Qed.
Print Assumptions C59_equivalent_partial.
Example C59_ok : roto_project (9#4) == 1#4.
Proof. reflexivity. Qed.
(** a negative one is not: the sign is lost, and with it the minimiser *)
Theorem C59_negative_refuted : exists x, roto_project x == 3#10 /\ x == -(3#10) /\ forall n : Z, ~ roto_project x == x + inject_Z n.
Proof.
  exists (-(3#10)). split; [reflexivity|]. split; [reflexivity|]. intros n H.
  assert (E : inject_Z n * (5#1) == 3) by (assert (roto_project (-(3#10)) == 3#10) by reflexivity; lra).
  unfold Qeq in E. cbn in E. lia.
Qed.
Print Assumptions C59_negative_refuted.
