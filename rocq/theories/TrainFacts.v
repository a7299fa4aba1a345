From Coq Require Import QArith Lqa.
From Verif Require Import PyBase PyFacts DataModel DataFacts TrainModel.
Set Implicit Arguments. Unset Strict Implicit.

Lemma bind_ok A B (e : res A) (f : A -> res B) y : bind e f = Ok y -> exists x, e = Ok x /\ f x = Ok y.
Proof. destruct e; cbn; intros H; [eauto|discriminate]. Qed.
Ltac ib H :=
  match type of H with
  | bind ?e ?f = Ok ?y => let x := fresh "x" in let E := fresh "E" in
      apply bind_ok in H; destruct H as (x & E & H)
  end.

Lemma app_len_inv2 A (a b c d : list A) : List.length a = List.length b -> a ++ c = b ++ d -> a = b /\ c = d.
Proof. revert b; induction a; intros [|]; cbn; intros L E; try lia; auto. injection E as -> E. destruct (IHa l) as [-> ->]; auto. Qed.

(** ** early stopping *)
Lemma qlt_bool_iff a b : qlt_bool a b = true <-> (a < b)%Q.
Proof.
  unfold qlt_bool. destruct (Qle_bool b a) eqn:E; cbn; split; intro H; try discriminate; auto.
  - apply Qle_bool_iff in E. lra.
  - destruct (Qlt_le_dec a b); auto. apply Qle_bool_iff in q. congruence.
Qed.
Lemma list_min_lt l : forall r x, (r < list_min x l)%Q <-> (r < x)%Q /\ Forall (fun v => r < v)%Q l.
Proof.
  unfold list_min. induction l as [|y l IH]; intros r x; cbn [fold_left].
  - split; [intros; split; auto|tauto].
  - rewrite IH. destruct (Qle_bool x y) eqn:E.
    + apply Qle_bool_iff in E. split; intros [A C]; split; auto; [constructor; auto; lra|now inversion C].
    + assert (~ (x <= y)%Q) by (rewrite <- Qle_bool_iff; congruence). split; intros [A C].
      * split; [lra|]. constructor; auto.
      * inversion C; subst. auto.
Qed.

(** specification: the value k validations before the end is strictly better than all later ones *)
Definition better (minimize : bool) (a b : Q) : Prop := if minimize then (a < b)%Q else (b < a)%Q.
Definition stalled (minimize : bool) (k : nat) (vals : list Q) : Prop :=
  exists pre r last, vals = pre ++ r :: last /\ List.length last = k /\ 0 < k /\ Forall (better minimize r) last.

Section Tr.
  Variables W O P R B Y : Type.
  Variable bsize : B -> nat.
  Variable opt_new : O.
  Variable opt_save : O -> P.
  Variable opt_load : O -> P -> O.
  Variable train_step : B -> W * O * R -> res (Y * Q * (W * O * R)).
  Variable val_step : B -> W -> R -> res (Y * Q * R).
  Notation config := (config R B Y).
  Notation tstate := (tstate W O P R B).

  Lemma factor_better (c : config) a b : (factor c a < factor c b)%Q <-> better (minimize c) a b.
  Proof. unfold factor, better. destruct (minimize c); lra. Qed.

  Lemma early_stop_spec (c : config) vals :
    exists d, early_stop c vals = Ok d /\
      (d = true <-> exists k, es_interval c = Some k /\ stalled (minimize c) k vals).
  Proof.
    unfold early_stop. destruct (es_interval c) as [k|]; [|exists false; split; auto; split; [discriminate|intros (? & ? & _); discriminate]].
    destruct (Nat.ltb_spec k (List.length vals)) as [L|L].
    - assert (SP : exists pre r last, vals = pre ++ r :: last /\ List.length last = k).
      { exists (firstn (List.length vals - k - 1) vals).
        assert (exists r last, skipn (List.length vals - k - 1) vals = r :: last) as (r & last & E).
        { pose proof (skipn_length (List.length vals - k - 1) vals) as X. destruct (skipn _ vals); [cbn in X; lia|eauto]. }
        exists r, last. split; [now rewrite <- E, firstn_skipn|]. pose proof (skipn_length (List.length vals - k - 1) vals) as X. rewrite E in X. cbn in X. lia. }
      destruct SP as (pre & r & last & -> & K).
      assert (I : py_index (pre ++ r :: last) (- Z.of_nat k - 1) = Ok r).
      { unfold py_index. rewrite app_length in *. cbn [List.length] in *.
        rewrite (proj2 (Z.ltb_lt _ _)) by lia. cbn zeta.
        replace (Z.of_nat (List.length pre + S (List.length last)) + (- Z.of_nat k - 1))%Z with (Z.of_nat (List.length pre)) by lia.
        rewrite (proj2 (Z.leb_le _ _)), (proj2 (Z.ltb_lt _ _)) by lia. cbn [andb].
        rewrite Nat2Z.id, nth_error_app2, Nat.sub_diag by lia. reflexivity. }
      rewrite I. cbn [bind].
      assert (St : forall d, (d = true <-> 0 < k /\ Forall (better (minimize c) r) last) ->
                 (d = true <-> exists k0, Some k = Some k0 /\ stalled (minimize c) k0 (pre ++ r :: last))).
      { intros d D. rewrite D. split.
        - intros [K0 F]. exists k. split; auto. exists pre, r, last. auto.
        - intros (k0 & [= <-] & pre' & r' & last' & E & K' & K0 & F). split; auto.
          assert (pre = pre' /\ r :: last = r' :: last') as [_ X].
          { apply app_len_inv2; auto. rewrite !app_length in *. apply (f_equal (@List.length Q)) in E. rewrite !app_length in E. cbn in *. lia. }
          congruence. }
      rewrite py_slice_start. destruct k as [|k].
      + destruct last; [|discriminate]. cbn [Z.of_nat Z.opp]. unfold adj. cbn [Z.ltb Z.compare Z.to_nat Nat.min skipn].
        rewrite map_app. cbn [map].
        destruct (map (factor c) pre ++ [factor c r]) as [|x l] eqn:E; [now destruct (map (factor c) pre)|].
        eexists; split; [reflexivity|]. apply St. rewrite qlt_bool_iff, list_min_lt. split; [|lia].
        intros [A F]. exfalso. assert (In (factor c r) (x :: l)) by (rewrite <- E; apply in_or_app; cbn; auto).
        destruct H as [->|H]; [lra|]. rewrite Forall_forall in F. specialize (F _ H). lra.
      + rewrite adj_neg by lia. rewrite app_length. cbn [List.length].
        replace (List.length pre + S (List.length last) - Z.to_nat (- - Z.of_nat (S k))) with (List.length pre + 1) by lia.
        rewrite skipn_app, skipn_all2 by lia. replace (List.length pre + 1 - List.length pre) with 1 by lia. cbn [skipn app].
        destruct last as [|y last]; [discriminate|]. cbn [map].
        eexists; split; [reflexivity|]. apply St. rewrite qlt_bool_iff, list_min_lt, factor_better. split.
        * intros [A F]. split; [lia|]. constructor; auto. rewrite Forall_map in F. eapply Forall_impl; [|exact F]. intro. cbn. now rewrite factor_better.
        * intros [_ F]. inversion F; subst. split; auto. rewrite Forall_map. eapply Forall_impl; [|eassumption]. intro. cbn. now rewrite factor_better.
    - exists false. split; auto. split; [discriminate|]. intros (k0 & [= <-] & pre & r & last & -> & K & _). rewrite app_length in L. cbn in L. lia.
  Qed.

  (** ** dictionaries of metrics *)
  Notation names c := (map fst (metric_list c)).
  Lemma dict_upd_keys V (d : dict V) k f : map fst (dict_upd d k f) = map fst d.
  Proof. unfold dict_upd. rewrite map_map. apply map_ext. intros [k' v]. cbn. now destruct (String.eqb k k'). Qed.
  Lemma dict_upd_get V (d : dict V) k f k' : dict_get (dict_upd d k f) k' =
    if String.eqb k k' then option_map f (dict_get d k') else dict_get d k'.
  Proof.
    induction d as [|[k0 v0] d IH]; cbn; [now destruct (String.eqb k k')|]. unfold dict_upd in IH.
    destruct (String.eqb_spec k k0) as [->|N]; cbn.
    - destruct (String.eqb_spec k' k0) as [->|]; [now rewrite String.eqb_refl|]. rewrite IH. destruct (String.eqb_spec k0 k'); congruence.
    - destruct (String.eqb_spec k' k0) as [->|]; [destruct (String.eqb_spec k k0); congruence|]. exact IH.
  Qed.
  Lemma eval_metrics_keys (c : config) y b run : map fst (eval_metrics bsize c y b run) = map fst run.
  Proof.
    unfold eval_metrics. generalize (metric_list c). intro l. revert run. induction l; intro run; cbn; auto. now rewrite IHl, dict_upd_keys.
  Qed.
  Definition growM (r : dict (list Q)) (kv : string * list (nat * Q)) : res (dict (list Q)) :=
    do m <- weighted_mean (snd kv); Ok (dict_upd r (fst kv) (fun l => l ++ [m])).
  Lemma growM_keys run : forall r r', foldM growM run r = Ok r' -> map fst r' = map fst r.
  Proof.
    induction run as [|kv run IH]; intros r r' H; cbn [foldM] in H; [congruence|]. ib H. unfold growM in E. ib E. injection E as <-.
    rewrite (IH _ _ H). apply dict_upd_keys.
  Qed.
  Lemma growM_get run : forall r r' n, NoDup (map fst run) -> foldM growM run r = Ok r' ->
    if existsb (String.eqb n) (map fst run) then exists m, dict_get r' n = option_map (fun l => l ++ [m]) (dict_get r n)
    else dict_get r' n = dict_get r n.
  Proof.
    induction run as [|[k l] run IH]; intros r r' n ND H; cbn [foldM] in H; [injection H as <-; reflexivity|].
    ib H. unfold growM in E. ib E. injection E as <-. cbn [map fst] in ND. inversion ND as [|? ? NI ND']; subst.
    specialize (IH _ _ n ND' H). cbn [map existsb fst]. cbn [fst snd] in *. rewrite dict_upd_get in IH.
    destruct (String.eqb_spec n k) as [->|N].
    - cbn [orb]. rewrite String.eqb_refl in IH. destruct (existsb (String.eqb k) (map fst run)) eqn:EX.
      + exfalso. apply existsb_exists in EX. destruct EX as (k' & I & E). apply String.eqb_eq in E. subst. contradiction.
      + eexists. exact IH.
    - cbn [orb]. rewrite (proj2 (String.eqb_neq k n)) in IH by congruence. exact IH.
  Qed.
  Lemma summarize_spec run results run' results' : summarize run results = Ok (run', results') ->
    run' = map (fun kv => (fst kv, [])) run /\ foldM growM run results = Ok results'.
  Proof. unfold summarize. intro H. fold growM in H. ib H. injection H as <- <-. auto. Qed.

  Lemma val_loop_keys (c : config) bs : forall w r run losses r' run' losses',
    val_loop bsize val_step c bs w r run losses = Ok (r', run', losses') -> map fst run' = map fst run.
  Proof.
    induction bs; intros w r run losses r' run' losses' H; cbn [val_loop] in H; [congruence|].
    ib H. destruct x as [[y l] r1]. rewrite (IHbs _ _ _ _ _ _ _ H). apply eval_metrics_keys.
  Qed.

  (** ** invariant of every reachable trainer state *)
  Definition well_keyed (c : config) (st : tstate) : Prop :=
    val_run st = empty_dict c /\ map fst (val_res st) = names c /\
    map fst (train_run st) = names c /\ map fst (train_res st) = names c.

  Definition crit (c : config) (st : tstate) : res (list Q) := criterion_vals c (val_costs st) (val_res st).

  Lemma empty_dict_keys V (c : config) : map fst (@empty_dict R B Y V c) = names c.
  Proof. unfold empty_dict. now rewrite map_map. Qed.
  Lemma empty_of_keys V X (c : config) (run : dict X) : map fst run = names c ->
    map (fun kv => (fst kv, [])) run = @empty_dict R B Y V c.
  Proof.
    intro H. unfold empty_dict. rewrite <- (map_map fst (fun k => (k, []))). rewrite H, map_map. reflexivity.
  Qed.

  Definition is_val (e : event W P R B) : list (Q * snapshot W P R) := match e with EVal _ v s => [(v, s)] | _ => [] end.
  Definition vals_of (t : list (event W P R B)) := flat_map is_val t.

  Notation validate := (validate bsize opt_save val_step).
  Notation one_batch := (one_batch bsize opt_save train_step val_step).
  Notation batch_loop := (batch_loop bsize opt_save train_step val_step).
  Notation one_epoch := (one_epoch bsize opt_save train_step val_step).
  Notation epoch_loop := (epoch_loop bsize opt_save train_step val_step).
  Notation fit := (fit bsize opt_save train_step val_step).

  Lemma validate_spec (c : config) epoch vd st st' : NoDup (names c) -> well_keyed c st ->
    validate c epoch vd st = Ok st' ->
    well_keyed c st' /\
    t_w st' = t_w st /\ t_opt st' = t_opt st /\ t_step st' = t_step st /\
    train_costs st' = train_costs st /\ train_epoch_costs st' = train_epoch_costs st /\
    train_res st' = train_res st /\ train_run st' = train_run st /\ model_lt st' = model_lt st /\
    (exists m, val_costs st' = val_costs st ++ [m]) /\
    exists v s, trace st' = trace st ++ [EVal (t_step st) v s] /\ s_w s = t_w st /\ s_step s = t_step st /\ s_epoch s = epoch /\
    s_train_costs s = train_costs st /\ s_val_costs s = val_costs st' /\ s_val_res s = val_res st' /\
    (exists cv, crit c st = Ok cv /\ crit c st' = Ok (cv ++ [v])) /\
    (if match best_val st with None => true | Some b => qlt_bool (factor c v) b end
       then best_val st' = Some (factor c v) /\ best_lt st' = Some s
       else best_val st' = best_val st /\ best_lt st' = best_lt st).
  Proof.
    intros ND (K1 & K2 & K3 & K4) H. unfold TrainModel.validate in H. destruct (vd (t_rng st)) as [bs r1].
    ib H. destruct x as [[r2 run] losses]. pose proof (val_loop_keys E) as RK. ib H. ib H. destruct x0 as [run' vres].
    apply summarize_spec in E1. destruct E1 as [Er Eg]. ib H. ib H.
    assert (RN : map fst run = names c) by (rewrite RK, K1; apply empty_dict_keys).
    assert (Cr : exists cv, crit c st = Ok cv /\ x0 = cv ++ [x1]).
    { unfold crit, criterion_vals in *. destruct (es_criterion c) as [n|].
      - assert (ND' : NoDup (map fst run)) by (rewrite RN; auto). pose proof (growM_get n ND' Eg) as G.
        destruct (dict_get vres n) as [l|] eqn:El; [|discriminate]. injection E1 as <-.
        destruct (existsb (String.eqb n) (map fst run)) eqn:EX.
        + destruct G as [m G]. destruct (dict_get (val_res st) n) as [l0|]; [|cbn in G; congruence]. cbn in G. injection G as ->.
          exists l0. split; auto. unfold py_index in E2. rewrite app_length in E2. cbn [List.length] in E2.
          replace (Z.of_nat (List.length l0 + 1) + -1)%Z with (Z.of_nat (List.length l0)) in E2 by lia. cbn [Z.ltb Z.compare] in E2.
          rewrite (proj2 (Z.leb_le _ _)), (proj2 (Z.ltb_lt _ _)) in E2 by lia. cbn [andb] in E2.
          rewrite Nat2Z.id, nth_error_app2, Nat.sub_diag in E2 by lia. cbn in E2. congruence.
        + exfalso. assert (In n (names c)).
          { rewrite <- K2. rewrite <- (growM_keys Eg). clear -El. induction vres as [|[k v] d IH]; cbn in *; [discriminate|].
            destruct (String.eqb_spec n k); auto. }
          rewrite <- RN in H0. assert (existsb (String.eqb n) (map fst run) = true); [|congruence].
          apply existsb_exists. exists n. split; auto. apply String.eqb_refl.
      - injection E1 as <-. exists (val_costs st). split; auto.
        unfold py_index in E2. rewrite app_length in E2. cbn [List.length] in E2.
        replace (Z.of_nat (List.length (val_costs st) + 1) + -1)%Z with (Z.of_nat (List.length (val_costs st))) in E2 by lia. cbn [Z.ltb Z.compare] in E2.
        rewrite (proj2 (Z.leb_le _ _)), (proj2 (Z.ltb_lt _ _)) in E2 by lia. cbn [andb] in E2.
        rewrite Nat2Z.id, nth_error_app2, Nat.sub_diag in E2 by lia. cbn in E2. congruence. }
    destruct Cr as (cv & Cv & ->).
    assert (WK : run' = empty_dict c /\ map fst vres = names c /\ map fst (train_run st) = names c /\ map fst (train_res st) = names c).
    { split; [rewrite Er; now apply empty_of_keys|]. split; [now rewrite (growM_keys Eg)|auto]. }
    destruct (match best_val st with None => true | Some b => qlt_bool (factor c x1) b end) eqn:EB;
      injection H as <-; unfold well_keyed; cbn [val_run val_res train_run train_res t_w t_opt t_step train_costs train_epoch_costs model_lt val_costs trace best_val best_lt];
      (split; [exact WK|]); do 8 (split; [reflexivity|]); (split; [eexists; reflexivity|]); eexists _, _; (split; [reflexivity|]);
      unfold snap_of; cbn [s_w s_step s_epoch s_train_costs s_val_costs s_val_res t_w t_step train_costs val_costs val_res];
      do 6 (split; [reflexivity|]); (split; [exists cv; split; [exact Cv|unfold crit; cbn [val_costs val_res]; exact E1]|]); rewrite EB; split; reflexivity.
  Qed.

  (** the schedule *)
  Inductive tag := Train (step : nat) | Valid (step : nat).
  Definition tag_of (e : event W P R B) := match e with ETrain s _ => Train s | EVal s _ _ => Valid s end.
  Definition has_val (c : config) := match val_data c with Some _ => true | None => false end.
  Definition due (c : config) (evs s : nat) : bool := has_val c && (s mod evs =? 0).
  Definition schedule (c : config) (evs s n : nat) : list tag :=
    flat_map (fun s => Train s :: (if due c evs s then [Valid s] else [])) (seq (s + 1) n).
  Definition batch_of (e : event W P R B) : list B := match e with ETrain _ b => [b] | _ => [] end.

  (** best model bookkeeping: the validations seen in this call of fit, and where the best is *)
  Definition first_best (m : bool) (l : list (Q * snapshot W P R)) (x : Q * snapshot W P R) : Prop :=
    exists l1 l2, l = l1 ++ x :: l2 /\ Forall (fun y => better m (fst x) (fst y)) l1 /\
    Forall (fun y => ~ better m (fst y) (fst x)) l2.
  Definition best_inv (c : config) (b0 : option (snapshot W P R)) (seen : list (Q * snapshot W P R)) (st : tstate) : Prop :=
    match seen with
    | [] => best_val st = None /\ best_lt st = b0
    | _ => exists x, first_best (minimize c) seen x /\ best_val st = Some (factor c (fst x)) /\ best_lt st = Some (snd x)
    end.
  Lemma best_inv_add c b0 seen st st' v s : best_inv c b0 seen st ->
    (if match best_val st with None => true | Some b => qlt_bool (factor c v) b end
       then best_val st' = Some (factor c v) /\ best_lt st' = Some s
       else best_val st' = best_val st /\ best_lt st' = best_lt st) ->
    best_inv c b0 (seen ++ [(v, s)]) st'.
  Proof.
    intros I H. destruct seen as [|y seen].
    - destruct I as [I1 I2]. rewrite I1 in H. destruct H. cbn. exists (v, s). split; auto. exists [], []. auto.
    - destruct I as (x & (l1 & l2 & E & F1 & F2) & I1 & I2). rewrite I1 in H.
      change ((y :: seen) ++ [(v, s)]) with (y :: (seen ++ [(v, s)])). cbn [best_inv].
      destruct (qlt_bool (factor c v) (factor c (fst x))) eqn:Q0.
      + apply qlt_bool_iff in Q0. rewrite factor_better in Q0. exists (v, s). split; [|auto]. exists (y :: seen), []. split; auto. split; [|constructor].
        rewrite E. apply Forall_app. cbn [fst]. split; [|constructor].
        * eapply Forall_impl; [|exact F1]. intros a. unfold better in *. destruct (minimize c); lra.
        * auto.
        * eapply Forall_impl; [|exact F2]. intros a. unfold better in *. destruct (minimize c); lra.
      + destruct H. exists x. split; [|split; congruence]. exists l1, (l2 ++ [(v, s)]). split; [|split; auto].
        * change (y :: seen ++ [(v, s)]) with ((y :: seen) ++ [(v, s)]). rewrite E, <- app_assoc. reflexivity.
        * apply Forall_app. split; auto. constructor; auto. cbn [fst]. rewrite <- factor_better, <- qlt_bool_iff. congruence.
  Qed.

  (** everything one stretch of training does to the observable state, n steps *)
  Record stretch (c : config) (evs : nat) (st st' : tstate) (bs : list B) (new : list (event W P R B)) : Prop := {
    x_keys : well_keyed c st';
    x_step : t_step st' = t_step st + List.length bs;
    x_trace : trace st' = trace st ++ new;
    x_tags : map tag_of new = schedule c evs (t_step st) (List.length bs);
    x_batches : flat_map batch_of new = bs;
    x_costs : List.length (train_costs st') = List.length (train_costs st) + List.length bs;
    x_costs_ext : exists l, train_costs st' = train_costs st ++ l;
    x_vals : exists l, val_costs st' = val_costs st ++ l /\ List.length l = List.length (filter (due c evs) (seq (t_step st + 1) (List.length bs)));
    x_crit : vals_of new = [] /\ crit c st' = crit c st \/ exists cv, crit c st = Ok cv /\ crit c st' = Ok (cv ++ map fst (vals_of new));
    x_best : forall b0 seen, best_inv c b0 seen st -> best_inv c b0 (seen ++ vals_of new) st'
  }.
  (** [x_crit] when the criterion cannot be read only happens without validations *)

  Lemma schedule_app c evs s n m : schedule c evs s (n + m) = schedule c evs s n ++ schedule c evs (s + n) m.
  Proof. unfold schedule. rewrite seq_app, flat_map_app. do 2 f_equal. f_equal. lia. Qed.
  Lemma vals_of_app a b : vals_of (a ++ b) = vals_of a ++ vals_of b.
  Proof. apply flat_map_app. Qed.

  Lemma stretch_trans c evs a b d bs1 bs2 n1 n2 : stretch c evs a b bs1 n1 -> stretch c evs b d bs2 n2 ->
    stretch c evs a d (bs1 ++ bs2) (n1 ++ n2).
  Proof.
    intros X Z. destruct X, Z. split; auto.
    - rewrite x_step1, x_step0, app_length. lia.
    - rewrite x_trace1, x_trace0. now rewrite app_assoc.
    - rewrite map_app, x_tags0, x_tags1, app_length, schedule_app, x_step0. reflexivity.
    - rewrite flat_map_app. congruence.
    - rewrite x_costs1, x_costs0, app_length. lia.
    - destruct x_costs_ext0 as [l1 E1], x_costs_ext1 as [l2 E2]. exists (l1 ++ l2). rewrite E2, E1. now rewrite app_assoc.
    - destruct x_vals0 as (l1 & E1 & L1), x_vals1 as (l2 & E2 & L2). exists (l1 ++ l2). split; [rewrite E2, E1; now rewrite app_assoc|].
      rewrite !app_length, seq_app, filter_app, app_length, L1, L2, x_step0. do 4 f_equal. lia.
    - rewrite vals_of_app, map_app. destruct x_crit0 as [[V0 C0]|(cv & C0 & C0')].
      + rewrite V0. cbn [app map]. rewrite C0 in x_crit1. exact x_crit1.
      + right. exists cv. split; auto. destruct x_crit1 as [[V1 C1]|(cv1 & C1 & C1')].
        * rewrite V1, app_nil_r. congruence.
        * rewrite C0' in C1. injection C1 as <-. now rewrite app_assoc.
    - intros b0 seen I. rewrite vals_of_app, app_assoc. auto.
  Qed.

  Lemma one_batch_stretch c evs epoch st losses b st' losses' stop : NoDup (names c) -> well_keyed c st ->
    one_batch c evs epoch st losses b = Ok (st', losses', stop) ->
    exists new, stretch c evs st st' [b] new /\ (exists cv, crit c st' = Ok cv /\ early_stop c cv = Ok stop) /\
    train_epoch_costs st' = train_epoch_costs st /\ model_lt st' = model_lt st.
  Proof.
    intros ND WK H. unfold TrainModel.one_batch in H. ib H. destruct x as [[y loss] [[w o] r]].
    destruct ((evs =? 0) && _); [discriminate|]. ib H. destruct x as [run' tres]. ib H. ib H. ib H. injection H as -> <- ->.
    destruct WK as (K1 & K2 & K3 & K4).
    assert (Kr : map fst run' = names c /\ map fst tres = names c).
    { set (run := if on_train c then eval_metrics bsize c y b (train_run st) else train_run st) in *.
      assert (Krun : map fst run = names c) by (unfold run; destruct (on_train c); auto; now rewrite eval_metrics_keys).
      destruct (on_train c && ((t_step st + 1) mod evs =? 0)).
      - apply summarize_spec in E0. destruct E0 as [-> G]. split; [now rewrite map_map|]. now rewrite (growM_keys G).
      - injection E0 as <- <-. auto. }
    destruct Kr as [Kr Kt].
    match type of E1 with context [validate c epoch _ ?s] => set (st1 := s) in * | context [Ok ?s] => set (st1 := s) in * end.
    assert (WK1 : well_keyed c st1) by (unfold well_keyed, st1; cbn; auto).
    assert (Hd : due c evs (t_step st + 1) = match val_data c with Some _ => (t_step st + 1) mod evs =? 0 | None => false end).
    { unfold due, has_val. now destruct (val_data c). }
    assert (SCH : forall t, (if due c evs (t_step st + 1) then [Valid (t_step st + 1)] else []) = t -> schedule c evs (t_step st) 1 = Train (t_step st + 1) :: t).
    { intros t <-. unfold schedule. cbn [seq flat_map]. now rewrite app_nil_r. }
    assert (Base : due c evs (t_step st + 1) = false -> stretch c evs st st1 [b] [ETrain (t_step st + 1) b] /\ train_epoch_costs st1 = train_epoch_costs st /\ model_lt st1 = model_lt st).
    { intros D. split; [|auto]. split; auto; cbn [List.length].
      - cbn [map tag_of]. rewrite (SCH []); auto. now rewrite D.
      - unfold st1; cbn [train_costs]. now rewrite app_length.
      - unfold st1; cbn [train_costs]. eauto.
      - exists []. split; [unfold st1; cbn; now rewrite app_nil_r|]. cbn [seq filter]. now rewrite D.
      - intros b0 seen I. cbn [vals_of flat_map is_val]. rewrite app_nil_r. unfold best_inv, st1 in *. destruct seen; cbn in *; auto. }
    destruct (val_data c) as [vd|].
    - destruct ((t_step st + 1) mod evs =? 0).
      + pose proof (validate_spec ND WK1 E1) as (V1 & V2 & V3 & V4 & V5 & V6 & V7 & V8 & V9 & (m & V10) & v & s & T & S1 & S2 & S3 & S4 & S5 & S6 & (cv & C1 & C2) & BV).
        exists [ETrain (t_step st + 1) b; EVal (t_step st + 1) v s]. split; [|split; [exists x0; split; [exact E2|exact E3]|split; [exact V6|exact V9]]].
        split; auto; cbn [List.length].
        * rewrite T. unfold st1. cbn [trace t_step]. now rewrite <- app_assoc.
        * cbn [map tag_of]. erewrite SCH; [reflexivity|]. now rewrite Hd.
        * rewrite V5. unfold st1. cbn. now rewrite app_length.
        * rewrite V5. unfold st1. cbn. eauto.
        * exists [m]. split; [exact V10|]. cbn [seq filter]. now rewrite Hd.
        * right. exists cv. split; [exact C1|]. exact C2.
        * intros b0 seen I. cbn [vals_of flat_map is_val app]. eapply best_inv_add; [|exact BV].
          unfold best_inv, st1 in *. destruct seen; cbn in *; auto.
      + injection E1 as E1; subst st'. destruct Base as [X Z]; auto. eexists; split; [exact X|]. split; [exists x0; split; [exact E2|exact E3]|exact Z].
    - injection E1 as E1; subst st'. destruct Base as [X Z]; auto. eexists; split; [exact X|]. split; [exists x0; split; [exact E2|exact E3]|exact Z].
  Qed.

  Definition quiet (c : config) (st : tstate) (new : list (event W P R B)) : Prop :=
    forall cv p q, crit c st = Ok cv -> map fst (vals_of new) = p ++ q -> p <> [] -> q <> [] -> early_stop c (cv ++ p) = Ok false.
  Definition verdict (c : config) (st : tstate) (stop : bool) : Prop :=
    exists cv, crit c st = Ok cv /\ early_stop c cv = Ok stop.

  Lemma app_split_cases A (a b p q : list A) : a ++ b = p ++ q ->
    (exists r, a = p ++ r /\ q = r ++ b) \/ (exists r, p = a ++ r /\ b = r ++ q).
  Proof.
    revert p; induction a as [|x a IH]; intros p E; cbn in E.
    - right. exists p. auto.
    - destruct p as [|y p]; cbn in E.
      + left. exists (x :: a). cbn. auto.
      + injection E as <- E. destruct (IH _ E) as [(r & -> & ->)|(r & -> & ->)]; [left|right]; exists r; auto.
  Qed.

  Lemma quiet_trans c evs a b bs1 n1 n2 : stretch c evs a b bs1 n1 -> quiet c a n1 -> quiet c b n2 ->
    (bs1 <> [] -> verdict c b false) -> quiet c a (n1 ++ n2).
  Proof.
    intros X Q1 Q2 V cv p q Ca E Np Nq. rewrite vals_of_app, map_app in E.
    assert (Cb : crit c b = Ok (cv ++ map fst (vals_of n1))).
    { destruct (x_crit X) as [[V0 C0]|(cv' & C0 & C1)].
      - rewrite V0, C0. cbn. now rewrite app_nil_r.
      - congruence. }
    apply app_split_cases in E. destruct E as [(r & E1 & E2)|(r & E1 & E2)].
    - destruct r as [|x r].
      + rewrite app_nil_r in E1. destruct V as (cv' & C' & S').
        * intro Z. subst bs1. pose proof (x_batches X). destruct X. cbn in x_tags0. apply map_eq_nil in x_tags0. subst n1. cbn in E1. congruence.
        * rewrite Cb in C'. injection C' as <-. now rewrite <- E1.
      + eapply Q1; eauto. discriminate.
    - destruct r as [|x r].
      + rewrite app_nil_r in E1. destruct V as (cv' & C' & S').
        * intro Z. subst bs1. destruct X. cbn in x_tags0. apply map_eq_nil in x_tags0. subst n1. cbn in E1. congruence.
        * rewrite Cb in C'. injection C' as <-. now rewrite E1.
      + rewrite E1, app_assoc. eapply Q2; eauto. discriminate.
  Qed.

  Lemma stretch_refl c evs st : well_keyed c st -> stretch c evs st st [] [].
  Proof.
    intro K. split; auto; cbn; try lia; rewrite ?app_nil_r; auto.
    - exists []. now rewrite app_nil_r.
    - exists []. now rewrite app_nil_r.
    - intros. now rewrite app_nil_r.
  Qed.

  Lemma one_batch_quiet c evs st st' b new : stretch c evs st st' [b] new -> quiet c st new.
  Proof.
    intros X cv p q _ E Np Nq. exfalso. pose proof (x_tags X) as T. cbn [List.length] in T. unfold schedule in T. cbn [seq flat_map] in T. rewrite app_nil_r in T.
    assert (L : List.length (vals_of new) <= 1).
    { destruct new as [|e new]; [discriminate|]. cbn [map] in T. injection T as T1 T2.
      destruct e; cbn in T1; [|discriminate]. cbn [vals_of flat_map is_val app].
      destruct (due c evs (t_step st + 1)).
      - destruct new as [|e' [|]]; try discriminate. destruct e'; cbn in *; lia.
      - apply map_eq_nil in T2. subst. cbn. lia. }
    apply (f_equal (@List.length Q)) in E. rewrite map_length, app_length in E. destruct p, q; cbn in E; try congruence. lia.
  Qed.

  Lemma batch_loop_stretch c evs epoch : NoDup (names c) -> forall bs st losses st' losses' stop, well_keyed c st ->
    batch_loop c evs epoch bs st losses = Ok (st', losses', stop) ->
    exists bs1 bs2 new, bs = bs1 ++ bs2 /\ (stop = false -> bs2 = []) /\ stretch c evs st st' bs1 new /\ quiet c st new /\
      (bs <> [] -> verdict c st' stop) /\
      train_epoch_costs st' = train_epoch_costs st /\ model_lt st' = model_lt st /\ (bs <> [] -> bs1 <> []).
  Proof.
    intros ND. induction bs as [|b bs IH]; intros st losses st' losses' stop WK H; cbn [TrainModel.batch_loop] in H.
    - injection H as <- <- <-. exists [], [], []. split; auto. split; auto. split; [now apply stretch_refl|]. split; [|split; [congruence|auto]].
      intros cv p q _ E Np. cbn in E. destruct p; [congruence|discriminate].
    - ib H. destruct x as [[st1 l1] stop1]. destruct (one_batch_stretch ND WK E) as (new1 & X1 & V1 & E1 & M1).
      destruct stop1.
      + injection H as <- <- <-. exists [b], bs, new1. split; auto. split; [discriminate|]. split; auto. split; [eapply one_batch_quiet; eauto|].
        split; [intros _; exact V1|]. split; auto. split; auto. discriminate.
      + destruct (IH _ _ _ _ _ (x_keys X1) H) as (bs1 & bs2 & new2 & -> & S2 & X2 & Q2 & V2 & E2 & M2 & N2).
        exists (b :: bs1), bs2, (new1 ++ new2). split; auto. split; auto. split; [exact (stretch_trans X1 X2)|].
        split; [eapply quiet_trans; eauto; eapply one_batch_quiet; eauto|].
        split; [|split; [congruence|split; [congruence|discriminate]]]. intros _.
        destruct (bs1 ++ bs2) as [|b' r] eqn:Eb; [|apply V2; discriminate].
        apply app_eq_nil in Eb. destruct Eb as [-> ->]. cbn [TrainModel.batch_loop app] in H. injection H as <- <- <-. exact V1.
  Qed.

  (** changes invisible to [stretch] *)
  Definition same_view (a b : tstate) : Prop :=
    t_step a = t_step b /\ train_costs a = train_costs b /\ val_costs a = val_costs b /\ val_res a = val_res b /\ val_run a = val_run b /\
    train_run a = train_run b /\ train_res a = train_res b /\ trace a = trace b /\ best_val a = best_val b /\ best_lt a = best_lt b.
  Lemma stretch_view c evs a a' b b' bs new : same_view a a' -> same_view b b' -> stretch c evs a b bs new -> stretch c evs a' b' bs new.
  Proof.
    intros (A1 & A2 & A3 & A4 & A5 & A6 & A7 & A8 & A9 & A10) (B1 & B2 & B3 & B4 & B5 & B6 & B7 & B8 & B9 & B10) X. destruct X.
    unfold well_keyed, crit, best_inv in *.
    rewrite A1, B1, A2, B2, A3, B3, A4, B4, A8, B8, A9, A10, B9, B10, B5, B6, B7 in *. split; auto.
  Qed.

  Lemma one_epoch_stretch c evs epoch st st' stop : NoDup (names c) -> well_keyed c st ->
    one_epoch c evs epoch st = Ok (st', stop) ->
    exists r bs1 bs2 new, fst (train_data c r) = bs1 ++ bs2 /\ (stop = false -> bs2 = []) /\ stretch c evs st st' bs1 new /\ quiet c st new /\
      (fst (train_data c r) <> [] -> verdict c st' stop /\ bs1 <> []) /\
      model_lt st' = Some (snap_of opt_save epoch st') /\ (exists m, train_epoch_costs st' = train_epoch_costs st ++ [m]).
  Proof.
    intros ND WK H. unfold TrainModel.one_epoch in H. destruct (train_data c (t_rng st)) as [bs r] eqn:ED.
    ib H. destruct x as [[st1 losses] stop1]. ib H. injection H as <- <-.
    match type of E with batch_loop _ _ _ _ ?s _ = _ => set (st0 := s) in * end.
    assert (WK0 : well_keyed c st0) by exact WK.
    destruct (batch_loop_stretch ND WK0 E) as (bs1 & bs2 & new & -> & S2 & X & Q1 & V & EC & M & N).
    exists (t_rng st), bs1, bs2, new. rewrite ED. cbn [fst]. split; auto. split; auto. split.
    - eapply stretch_view; [| |exact X]; unfold same_view, st0; cbn; auto 20.
    - split; [exact Q1|]. split; [|split; [reflexivity|]].
      + intro Z. split; [|auto]. apply V; auto.
      + exists x. cbn. now rewrite EC.
  Qed.

  Lemma epoch_loop_stretch c evs : NoDup (names c) -> (forall r, List.length (fst (train_data c r)) = bpe c) -> 0 < bpe c ->
    forall es st st' stop, well_keyed c st -> epoch_loop c evs es st = Ok (st', stop) ->
    exists bss rest new, stretch c evs st st' (List.concat bss) new /\ quiet c st new /\
      (es <> [] -> verdict c st' stop) /\
      List.length bss <= List.length es /\ (es <> [] -> bss <> []) /\
      (stop = false -> rest = [] /\ List.length bss = List.length es) /\
      (exists rs, map (fun r => fst (train_data c r)) rs = match rev bss with [] => [] | l :: f => rev f ++ [l ++ rest] end) /\
      (es <> [] -> exists e, In e es /\ (stop = false -> exists es', es = es' ++ [e]) /\ model_lt st' = Some (snap_of opt_save e st')) /\
      (exists l, train_epoch_costs st' = train_epoch_costs st ++ l /\ List.length l = List.length bss).
  Proof.
    intros ND LB B0. induction es as [|e es IH]; intros st st' stop WK H; cbn [TrainModel.epoch_loop] in H.
    - injection H as <- <-. exists [], [], []. split; [now apply stretch_refl|]. split.
      { intros cv p q _ E Np. cbn in E. destruct p; [congruence|discriminate]. }
      split; [congruence|]. split; auto. split; [congruence|]. split; auto. split; [exists []; auto|]. split; [congruence|]. exists []. now rewrite app_nil_r.
    - ib H. destruct x as [st1 stop1]. destruct (one_epoch_stretch ND WK E) as (r & bs1 & bs2 & new1 & ER & S1 & X1 & Q1 & V1 & M1 & (m & C1)).
      assert (NE : fst (train_data c r) <> []) by (intro Z; specialize (LB r); rewrite Z in LB; cbn in LB; lia).
      destruct (V1 NE) as [V1' N1]. destruct stop1.
      + injection H as <- <-. exists [bs1], bs2, new1. cbn [List.concat]. rewrite app_nil_r. split; auto. split; auto. split; auto.
        split; [cbn; lia|]. split; [discriminate|]. split; [discriminate|]. split; [exists [r]; cbn; now rewrite ER|]. split.
        * intros _. exists e. split; [now left|]. split; [discriminate|auto].
        * exists [m]. auto.
      + specialize (S1 eq_refl). subst bs2. rewrite app_nil_r in ER.
        destruct (IH _ _ _ (x_keys X1) H) as (bss & rest & new2 & X2 & Q2 & V2 & L2 & NB & S2 & (rs & RS) & M2 & (l & C2 & C3)).
        exists (bs1 :: bss), rest, (new1 ++ new2). cbn [List.concat].
        split; [exact (stretch_trans X1 X2)|]. split; [eapply quiet_trans; eauto|].
        split. { intros _. destruct es as [|e' es']; [cbn in H; injection H as <- <-; exact V1'|apply V2; discriminate]. }
        split; [cbn; lia|]. split; [discriminate|]. split; [intro Z; destruct (S2 Z); cbn; auto|]. split.
        { destruct bss as [|b bss'] eqn:Eb.
          - cbn [rev app]. cbn in RS. destruct rs; [|discriminate]. destruct es as [|e' es'].
            + exists [r]. cbn in H. injection H as <- <-. destruct (S2 eq_refl) as [-> _]. cbn. rewrite ER, app_nil_r. reflexivity.
            + now destruct (NB ltac:(discriminate)).
          - exists (r :: rs). cbn [map]. rewrite RS, ER. destruct (rev (b :: bss')) as [|y z] eqn:ER'.
            + apply (f_equal (@List.length _)) in ER'. rewrite rev_length in ER'. discriminate.
            + replace (rev (bs1 :: b :: bss')) with (rev (b :: bss') ++ [bs1]) by reflexivity. rewrite ER'. cbn [app]. rewrite rev_app_distr. reflexivity. }
        split.
        * intros _. destruct es as [|e' es'].
          -- cbn in H. injection H as <- <-. exists e. split; [now left|]. split; [exists []; auto|auto].
          -- destruct (M2 ltac:(discriminate)) as (e2 & I2 & F2 & G2). exists e2. split; [now right|]. split; auto. intro Z. destruct (F2 Z) as (es0 & ->). exists (e :: es0). auto.
        * exists (m :: l). rewrite C2, C1, <- app_assoc. cbn. auto.
  Qed.
End Tr.
