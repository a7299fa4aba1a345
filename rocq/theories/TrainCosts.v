(** The recorded costs are means weighted by the batch sizes. *)
From Coq Require Import QArith Lqa.
From Verif Require Import PyBase DataModel TrainModel TrainFacts.
Set Implicit Arguments. Unset Strict Implicit.

(** [is_mean sizes values m]: m is the average of the values weighted by the sizes *)
Definition is_mean (sizes : list nat) (values : list Q) (m : Q) : Prop :=
  List.length sizes = List.length values /\ list_sum sizes <> 0 /\
  (m * inject_Z (Z.of_nat (list_sum sizes)) == fold_right (fun nq a => inject_Z (Z.of_nat (fst nq)) * snd nq + a) 0 (combine sizes values))%Q.

Lemma weighted_mean_spec l m : weighted_mean l = Ok m -> is_mean (map fst l) (map snd l) m.
Proof.
  unfold weighted_mean, is_mean. rewrite !map_length.
  assert (S1 : forall l n, fold_left (fun a (x : nat * Q) => a + fst x) l n = n + list_sum (map fst l)).
  { clear. induction l as [|x l IH]; intro n; cbn; [lia|]. rewrite IH. unfold list_sum. cbn. lia. }
  assert (S2 : forall l a, (fold_left (fun a (x : nat * Q) => a + inject_Z (Z.of_nat (fst x)) * snd x) l a ==
                a + fold_right (fun nq a => inject_Z (Z.of_nat (fst nq)) * snd nq + a) 0 (combine (map fst l) (map snd l)))%Q).
  { clear. induction l as [|[n q] l IH]; intro a; cbn; [ring|]. rewrite IH. ring. }
  rewrite S1. cbn [Nat.add]. destruct (Nat.eqb_spec (list_sum (map fst l)) 0); [discriminate|]. intros [= <-].
  split; auto. split; auto. rewrite S2.
  assert (NZ : ~ (inject_Z (Z.of_nat (list_sum (map fst l))) == 0)%Q).
  { intro Z. apply n. apply Nat2Z.inj. now apply inject_Z_injective. }
  field. exact NZ.
Qed.

Section Costs.
  Variables W O P R B Y : Type.
  Variable bsize : B -> nat.
  Variable opt_save : O -> P.
  Variable train_step : B -> W * O * R -> res (Y * Q * (W * O * R)).
  Variable val_step : B -> W -> R -> res (Y * Q * R).
  Notation tst := (tstate W O P R B).
  Implicit Types (c : config R B Y) (st : tst).

  Lemma val_loop_losses c bs : forall w r run losses r' run' losses', val_loop bsize val_step c bs w r run losses = Ok (r', run', losses') ->
    exists qs, losses' = losses ++ combine (map bsize bs) qs /\ List.length qs = List.length bs.
  Proof.
    induction bs as [|b bs IH]; intros w r run losses r' run' losses' H; cbn [val_loop] in H.
    - injection H as _ _ <-. exists []. cbn. now rewrite app_nil_r.
    - ib H. destruct x as [[y q] r1]. destruct (IH _ _ _ _ _ _ _ H) as (qs & -> & L). exists (q :: qs). cbn. rewrite <- app_assoc. split; auto.
  Qed.
  Lemma combine_fst A C (l : list A) : forall (m : list C), List.length m = List.length l -> map fst (combine l m) = l.
  Proof. induction l; intros [|] H; cbn in *; try discriminate; auto. f_equal. apply IHl. lia. Qed.

  Lemma validate_costs c epoch vd st st' : validate bsize opt_save val_step c epoch vd st = Ok st' ->
    train_costs st' = train_costs st /\ train_epoch_costs st' = train_epoch_costs st /\
    exists qs m, val_costs st' = val_costs st ++ [m] /\ is_mean (map bsize (fst (vd (t_rng st)))) qs m.
  Proof.
    unfold validate. destruct (vd (t_rng st)) as [bs r1]. intro H. ib H. destruct x as [[r2 run] losses]. ib H. ib H. destruct x0 as [run' vres]. ib H. ib H.
    destruct (val_loop_losses E) as (qs & -> & L). apply weighted_mean_spec in E0. cbn [app] in E0.
    rewrite combine_fst in E0 by (now rewrite map_length).
    assert (T : train_costs st' = train_costs st /\ train_epoch_costs st' = train_epoch_costs st /\ val_costs st' = val_costs st ++ [x]).
    { destruct (match best_val st with Some b => qlt_bool _ b | None => true end) in H; injection H as <-; cbn; auto. }
    destruct T as (T1 & T2 & T3). split; auto. split; auto. exists (map snd (combine (map bsize bs) qs)), x. cbn. auto.
  Qed.

  Lemma one_batch_costs c evs epoch st losses b st' losses' stop : one_batch bsize opt_save train_step val_step c evs epoch st losses b = Ok (st', losses', stop) ->
    exists q, losses' = losses ++ [(bsize b, q)] /\ train_costs st' = train_costs st ++ [q] /\ train_epoch_costs st' = train_epoch_costs st.
  Proof.
    unfold one_batch. intro H. ib H. destruct x as [[y q] [[w o] r]]. destruct (_ && _) in H; [discriminate|].
    ib H. destruct x as [run' tres]. ib H. ib H. ib H. injection H as <- <- _. exists q. split; auto.
    destruct (val_data c) as [vd|]; [destruct (_ =? 0) in E1|].
    - apply validate_costs in E1. destruct E1 as (A1 & A2 & _). rewrite A1, A2. auto.
    - injection E1 as <-. auto.
    - injection E1 as <-. auto.
  Qed.
  Lemma batch_loop_costs c evs epoch bs : forall st losses st' losses' stop, batch_loop bsize opt_save train_step val_step c evs epoch bs st losses = Ok (st', losses', stop) ->
    exists bs1 bs2 qs, bs = bs1 ++ bs2 /\ (stop = false -> bs2 = []) /\ List.length qs = List.length bs1 /\
      losses' = losses ++ combine (map bsize bs1) qs /\ train_costs st' = train_costs st ++ qs /\ train_epoch_costs st' = train_epoch_costs st.
  Proof.
    induction bs as [|b bs IH]; intros st losses st' losses' stop H; cbn [batch_loop] in H.
    - injection H as <- <- <-. exists [], [], []. cbn. rewrite !app_nil_r. auto 10.
    - ib H. destruct x as [[st1 losses1] stop1]. destruct (one_batch_costs E) as (q & -> & T1 & T2). destruct stop1.
      + injection H as <- <- <-. exists [b], bs, [q]. cbn. repeat split; auto. discriminate.
      + destruct (IH _ _ _ _ _ H) as (bs1 & bs2 & qs & -> & F & L & -> & T3 & T4). exists (b :: bs1), bs2, (q :: qs). cbn.
        rewrite T3, T4, T1, T2, <- !app_assoc. cbn. auto 10.
  Qed.
  (** one epoch: the per-step losses recorded during the epoch, and its mean *)
  Lemma one_epoch_costs c evs epoch st st' stop : one_epoch bsize opt_save train_step val_step c evs epoch st = Ok (st', stop) ->
    exists bs1 bs2 qs m, fst (train_data c (t_rng st)) = bs1 ++ bs2 /\ (stop = false -> bs2 = []) /\
      train_costs st' = train_costs st ++ qs /\ train_epoch_costs st' = train_epoch_costs st ++ [m] /\ is_mean (map bsize bs1) qs m.
  Proof.
    unfold one_epoch. destruct (train_data c (t_rng st)) as [bs r]. intro H. ib H. destruct x as [[st1 losses] stop1]. ib H. injection H as <- <-.
    destruct (batch_loop_costs E) as (bs1 & bs2 & qs & -> & F & L & -> & T1 & T2). cbn in T1, T2. exists bs1, bs2, qs, x. cbn.
    rewrite T1, T2. repeat split; auto; apply weighted_mean_spec in E0; cbn [app] in E0; rewrite combine_fst in E0 by (now rewrite map_length);
      assert (X : map snd (combine (map bsize bs1) qs) = qs) by (clear -L; revert qs L; induction bs1; intros [|] L; cbn in *; try discriminate; auto; f_equal; apply IHbs1; lia);
      rewrite X in E0; apply E0.
  Qed.
End Costs.
