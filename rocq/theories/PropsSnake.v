(** Property theorems C11 (interchange), C12 (normal_form), C13 (remove_snakes). *)
From Verif Require Import PyBase TyModel DiagModel DiagSpec DiagFacts Cat CatRel BoxEq SnakeModel SnakeFacts SnakeSpec
  SnakeYank SnakeMain.

Local Definition n_ : atom := ("n"%string, 0%Z).
Local Definition s_ : atom := ("s"%string, 0%Z).
Local Definition nl : atom := ("n"%string, (-1)%Z).
Local Definition nll : atom := ("n"%string, (-2)%Z).
Local Definition nr : atom := ("n"%string, 1%Z).

(** ** C11 *)
Theorem C11_interchange_sound : forall left d i j d', wf d -> interchange d i j left = Ok d' ->
  wf d' /\ dom d' = dom d /\ cod d' = cod d /\
  forall (C : smc) (I : interp C), heq C (den I d) (den I d').
Proof.
  intros left d i j d' W E. pose proof (interchange_sound W E) as Q.
  exact (conj (deqv_wf Q) (conj (proj1 Q) (conj (proj1 (proj2 Q)) (fun C I => deqv_den I Q)))).
Qed.
Print Assumptions C11_interchange_sound.

(** box i ends up at position j, the boxes in between keep their order, the others stay *)
Theorem C11_interchange_boxes : forall left d i j d', wf d -> interchange d i j left = Ok d' ->
  exists pre mid b post,
    (0 <= i < Z.of_nat (List.length (layers d)))%Z /\ (0 <= j < Z.of_nat (List.length (layers d)))%Z /\
    ((j <= i)%Z /\ List.length pre = Z.to_nat j /\ List.length mid = Z.to_nat i - Z.to_nat j /\
       boxes d = pre ++ mid ++ [b] ++ post /\ boxes d' = pre ++ [b] ++ mid ++ post \/
     (i <= j)%Z /\ List.length pre = Z.to_nat i /\ List.length mid = Z.to_nat j - Z.to_nat i /\
       boxes d = pre ++ [b] ++ mid ++ post /\ boxes d' = pre ++ mid ++ [b] ++ post).
Proof. exact interchange_position. Qed.
Print Assumptions C11_interchange_boxes.

Theorem C11_interchange_errors : forall left d i j e, wf d -> interchange d i j left = Err e ->
  e = IndexError /\ ~ (0 <= i < Z.of_nat (List.length (layers d)) /\ 0 <= j < Z.of_nat (List.length (layers d)))%Z
  \/ e = InterchangerError.
Proof. exact interchange_err. Qed.
Print Assumptions C11_interchange_errors.

(** neighbours are refused exactly when neither lies entirely beside the other *)
Theorem C11_connected_refused : forall d A x0 x1 B left, layers d = A ++ x0 :: x1 :: B ->
  (interchange d (Z.of_nat (List.length A)) (Z.of_nat (List.length A + 1)) left = Err InterchangerError <->
   pos_of x1 < pos_of x0 + wires_out x0 /\ pos_of x0 < pos_of x1 + wires_in x1).
Proof. exact interchange_connected. Qed.
Print Assumptions C11_connected_refused.

Example C11_nonvacuous :
  let d := Diag [n_; n_; n_] [s_; s_; s_]
     [([], Box "f" [n_] [s_] 0, [n_; n_]); ([s_], Box "g" [n_] [s_] 0, [n_]); ([s_; s_], Box "h" [n_] [s_] 0, [])] in
  wf d /\ exists d', interchange d 0 2 false = Ok d' /\ map b_name (boxes d') = ["g"; "h"; "f"]%string.
Proof. cbv zeta. split; [repeat split|]. eexists; split; reflexivity. Qed.

(** ** C12 *)
Theorem C12_normal_form : forall left d, wf d -> no_mixed (boxes d) ->
  exists F r, (forall fuel, F <= fuel -> normal_form fuel left d = Some r) /\
    (r = Err NotImplementedError \/
     exists d', r = Ok d' /\ wf d' /\ dom d' = dom d /\ cod d' = cod d /\ settled left d' /\
       forall (C : smc) (I : interp C), rigid I -> heq C (den I d) (den I d')).
Proof.
  intros left d W N. destruct (normal_form_ok left W N) as (F & r & E & [->|(d' & -> & Q & S)]); exists F; eexists; (split; [exact E|]); [left; reflexivity|].
  right. exists d'. exact (conj eq_refl (conj (deqvr_wf Q) (conj (proj1 Q) (conj (proj1 (proj2 Q)) (conj S (fun C I R => deqvr_den Q R)))))).
Qed.
Print Assumptions C12_normal_form.

Theorem C12_pregroup_normal_form : forall d, wf d -> no_mixed (boxes d) -> dom d = [] ->
  exists F r, (forall fuel, F <= fuel -> pregroup_normal_form fuel d = Some r) /\
    (r = Err NotImplementedError \/
     exists d', r = Ok d' /\ wf d' /\ dom d' = dom d /\ cod d' = cod d /\
       forall (C : smc) (I : interp C), rigid I -> heq C (den I d) (den I d')).
Proof.
  intros d W N D. destruct (pregroup_normal_form_ok W N D) as (F & r & E & [->|(d' & -> & Q)]); exists F; eexists; (split; [exact E|]); [left; reflexivity|].
  right. exists d'. exact (conj eq_refl (conj (deqvr_wf Q) (conj (proj1 Q) (conj (proj1 (proj2 Q)) (fun C I R => deqvr_den Q R))))).
Qed.
Print Assumptions C12_pregroup_normal_form.

(** ** C13 *)
Theorem C13_remove_snakes : forall d, wf d -> no_mixed (boxes d) ->
  exists d' removed, (forall fuel, List.length (layers d) < fuel -> remove_snakes fuel d = Some (Ok d')) /\
    wf d' /\ dom d' = dom d /\ cod d' = cod d /\ ~ has_snake d' /\
    Permutation (boxes d) (removed ++ boxes d') /\ Forall (fun b => is_cap b || is_cup b = true) removed /\
    forall (C : smc) (I : interp C), rigid I -> heq C (den I d) (den I d').
Proof.
  intros d W N.
  destruct (@remove_snakes_ok (S (List.length (layers d))) d W N (le_n _)) as (d' & rm & E & Q & H & P & F).
  exists d', rm.
  exact (conj (fun fuel L => remove_snakes_fuel E L) (conj (deqvr_wf Q) (conj (proj1 Q) (conj (proj1 (proj2 Q))
    (conj H (conj P (conj F (fun C I R => deqvr_den Q R)))))))).
Qed.
Print Assumptions C13_remove_snakes.

(** With a cap and a cup of opposite orientation the result is not even well typed. *)
Theorem C13_mixed_orientation_refuted : exists d d', wf d /\
  (forall fuel, 3 <= fuel -> remove_snakes fuel d = Some (Ok d')) /\ ~ wf d'.
Proof.
  exists (Diag [n_] [nll] [([n_], Cap nl nll false, []); ([], Cup n_ nl true, [nll])]), (Diag [n_] [nll] []).
  split; [repeat split|]. split; [|intros [H _]; discriminate H].
  intros fuel L. do 3 (destruct fuel; [lia|]). reflexivity.
Qed.
Print Assumptions C13_mixed_orientation_refuted.

(** a snake with an obstruction on each side, and a rigid interpretation *)
Example C13_nonvacuous :
  let d := Diag [n_; s_; s_] [s_; n_; s_]
     [([n_], Cap nr n_ false, [s_; s_]); ([n_; nr; n_], Box "g" [s_] [s_] 0, [s_]);
      ([], Box "f" [n_] [s_; n_] 0, [nr; n_; s_; s_]); ([s_], Cup n_ nr false, [n_; s_; s_]);
      ([s_; n_], Cup s_ s_ false, [])] in
  let d := Diag [n_; s_; s_] [s_; n_; s_; s_] (firstn 4 (layers d)) in
  wf d /\ no_mixed (boxes d) /\ has_snake d /\
  exists d', remove_snakes 5 d = Some (Ok d') /\ map b_name (boxes d') = ["f"; "g"]%string.
Proof.
  cbv zeta. split; [repeat split|]. split.
  - intros l r v l' r' v' H H'. cbn in H, H'. intuition congruence.
  - split.
    + exists [], ([n_], Cap nr n_ false, [s_; s_]),
        [([n_; nr; n_], Box "g" [s_] [s_] 0, [s_]); ([], Box "f" [n_] [s_; n_] 0, [nr; n_; s_; s_])],
        ([s_], Cup n_ nr false, [n_; s_; s_]), [].
      split; [reflexivity|]. split; [repeat eexists|]. split; [repeat eexists|]. left.
      apply strand_right; [cbn; lia|]. apply strand_left; [cbn; lia|]. apply strand_nil.
    + eexists; split; reflexivity.
Qed.
Example C13_rigid_exists : forall V (R : box -> list V -> list V -> Prop), rigid (rel_interp R).
Proof. exact rel_rigid. Qed.
