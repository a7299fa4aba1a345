From Coq Require Import QArith Lqa.
From Verif Require Import PyBase PyFacts DataModel DataFacts TrainModel TrainFacts.
Set Implicit Arguments. Unset Strict Implicit.

Section Tr.
  Variables W O P R B Y : Type.
  Variable bsize : B -> nat.
  Variable opt_new : O.
  Variable opt_save : O -> P.
  Variable opt_load : O -> P -> O.
  Variable train_step : B -> W * O * R -> res (Y * Q * (W * O * R)).
  Variable val_step : B -> W -> R -> res (Y * Q * R).
  Notation config := (config R B Y).
  Notation tstate := (tstate W O P R B).
  Notation names c := (map fst (metric_list c)).
  Notation validate := (validate bsize opt_save val_step).
  Notation one_batch := (one_batch bsize opt_save train_step val_step).
  Notation batch_loop := (batch_loop bsize opt_save train_step val_step).
  Notation one_epoch := (one_epoch bsize opt_save train_step val_step).
  Notation epoch_loop := (epoch_loop bsize opt_save train_step val_step).
  Notation fit := (fit bsize opt_save train_step val_step).
  Notation resume := (resume opt_new opt_load).
  Notation new_trainer := (new_trainer P opt_new).

  (** ** fit *)
  Lemma fit_spec (c : config) se st st' stop evs : NoDup (names c) -> (forall r, List.length (fst (train_data c r)) = bpe c) -> 0 < bpe c ->
    well_keyed c st -> evaluation_step c = Ok evs -> fit c se st = Ok (st', stop) ->
    let st0 := TS (t_w st) (t_opt st) (t_rng st) (t_step st) (train_costs st) (train_epoch_costs st) (train_res st) (train_run st)
                  (val_costs st) (val_res st) (val_run st) None (model_lt st) (best_lt st) (trace st) in
    exists bs rest new rs, stretch c evs st0 st' bs new /\ quiet c st new /\
      (se <= epochs c -> verdict c st' stop) /\
      bs ++ rest = List.concat (map (fun r => fst (train_data c r)) rs) /\ List.length rs <= epochs c + 1 - se /\
      (stop = false -> rest = [] /\ List.length rs = epochs c + 1 - se) /\
      (se <= epochs c -> exists e, se <= e <= epochs c /\ (stop = false -> e = epochs c) /\ model_lt st' = Some (snap_of opt_save e st')) /\
      (exists l, train_epoch_costs st' = train_epoch_costs st ++ l /\ List.length l = List.length rs).
  Proof.
    intros ND LB B0 WK EV H st0. unfold TrainModel.fit in H. rewrite EV in H. cbn [bind] in H. ib H. fold st0 in H. ib H. destruct x0 as [s1 stop1].
    assert (s1 = st' /\ stop1 = stop) as [-> ->] by (destruct (train_epoch_costs s1); [discriminate|injection H as -> ->; auto]).
    assert (WK0 : well_keyed c st0) by exact WK.
    destruct (epoch_loop_stretch ND LB B0 WK0 E0) as (bss & rest & new & X & Q & V & L & NB & S & (rs & RS) & M & (l & C1 & C2)).
    rewrite seq_length in *.
    assert (Hrs : List.concat bss ++ (if match bss with [] => true | _ => false end then [] else rest) = List.concat (map (fun r => fst (train_data c r)) rs) /\ List.length rs = List.length bss).
    { pose proof (rev_involutive bss) as RV. pose proof (rev_length bss) as RL. destruct (rev bss) as [|y z].
      - cbn in RV. subst bss. cbn in RS |- *. destruct rs; [auto|discriminate].
      - cbn [rev] in RV. subst bss. rewrite RS. destruct (rev z ++ [y]) eqn:EZ; [destruct (rev z); discriminate|]. rewrite <- EZ. clear EZ.
        rewrite !concat_app. cbn [List.concat]. rewrite !app_nil_r. split; [now rewrite app_assoc|]. apply (f_equal (@List.length _)) in RS. rewrite map_length in RS. rewrite RS, !app_length. reflexivity. }
    destruct Hrs as [HR LR].
    exists (List.concat bss), (if match bss with [] => true | _ => false end then [] else rest), new, rs.
    split; auto. split; auto.
    assert (NE : se <= epochs c -> seq se (epochs c + 1 - se) <> []).
    { intros A C. apply (f_equal (@List.length _)) in C. rewrite seq_length in C. cbn in C. lia. }
    split; [auto|]. split; [auto|]. split; [lia|]. split; [intro Z; destruct (S Z) as [-> S2]; split; [now destruct bss|lia]|].
    split; [|exists l; split; auto; lia].
    intro A. destruct (M (NE A)) as (e & I & F & G). exists e. apply in_seq in I. split; [lia|]. split; auto.
    intro Z. destruct (F Z) as (es & EE).
    replace (epochs c + 1 - se) with ((epochs c - se) + 1) in EE by lia. rewrite seq_app in EE. cbn [seq] in EE.
    apply app_inj_tail in EE. destruct EE. lia.
  Qed.

  (** ** states that train alike *)
  Definition alike (a b : tstate) : Prop :=
    t_w a = t_w b /\ t_opt a = t_opt b /\ t_rng a = t_rng b /\ t_step a = t_step b /\ train_costs a = train_costs b /\
    train_epoch_costs a = train_epoch_costs b /\ val_costs a = val_costs b /\ val_res a = val_res b /\ val_run a = val_run b.
  Definition alike_run (a b : tstate) : Prop := alike a b /\ train_run a = train_run b /\ train_res a = train_res b.

  Definition rel_res {A} (Q : A -> A -> Prop) (x y : res A) : Prop :=
    match x, y with Ok a, Ok b => Q a b | Err e, Err e' => e = e' | _, _ => False end.

  (** the running train metrics can always be averaged right after a step *)
  Definition sums_ok (run : dict (list (nat * Q))) : Prop := Forall (fun kv => exists m, weighted_mean (snd kv) = Ok m) run.
  Hypothesis bsize_pos : forall b, 0 < bsize b.
  Lemma fold_size l : forall n, fold_left (fun a (x : nat * Q) => a + fst x) l n = n + fold_left (fun a (x : nat * Q) => a + fst x) l 0.
  Proof. induction l as [|x l IH]; intro n; cbn; [lia|]. rewrite IH, (IH (fst x)). lia. Qed.
  Lemma mean_ok l b q : exists m, weighted_mean (l ++ [(bsize b, q)]) = Ok m.
  Proof.
    unfold weighted_mean. rewrite !fold_left_app. cbn [fold_left fst snd]. pose proof (bsize_pos b).
    destruct (Nat.eqb_spec (fold_left (fun a (x : nat * Q) => a + fst x) l 0 + bsize b) 0); [lia|eauto].
  Qed.
  Lemma eval_metrics_sums (c : config) y b run : map fst run = names c -> sums_ok (eval_metrics bsize c y b run).
  Proof.
    unfold eval_metrics. intro K.
    assert (G : forall ms d, (forall k l, In (k, l) d -> In k (map fst ms) \/ exists m, weighted_mean l = Ok m) ->
              sums_ok (fold_left (fun d nf => dict_upd d (fst nf) (fun l => l ++ [(bsize b, snd nf y b)])) ms d)).
    { induction ms as [|[n f] ms IH]; intros d HD; cbn [fold_left].
      - apply Forall_forall. intros [k l] I. cbn. now destruct (HD _ _ I).
      - apply IH. intros k l I. unfold dict_upd in I. apply in_map_iff in I. destruct I as ([k0 l0] & E & I). cbn [fst snd] in E.
        destruct (String.eqb_spec n k0) as [->|N].
        + injection E as <- <-. right. apply mean_ok.
        + injection E as <- <-. destruct (HD _ _ I) as [[|]|]; auto. cbn in H. congruence. }
    apply G. intros k l I. left. rewrite <- K. apply (in_map fst) in I. exact I.
  Qed.
  Lemma growM_ok run : sums_ok run -> forall r, exists r', foldM growM run r = Ok r'.
  Proof.
    induction 1 as [|[k l] run [m Hm] F IH]; intro r; cbn [foldM]; eauto. unfold growM at 1. cbn [fst snd]. cbn in Hm. rewrite Hm. cbn [bind]. apply IH.
  Qed.
  Lemma summarize_ok run results : sums_ok run -> exists r, summarize run results = Ok (map (fun kv => (fst kv, [])) run, r).
  Proof. intro H. unfold summarize. fold growM. destruct (growM_ok H results) as [r E]. rewrite E. cbn. eauto. Qed.

  Lemma validate_alike (c : config) epoch vd a b : alike a b -> rel_res alike (validate c epoch vd a) (validate c epoch vd b).
  Proof.
    intros (A1 & A2 & A3 & A4 & A5 & A6 & A7 & A8 & A9). unfold TrainModel.validate. rewrite A3. destruct (vd (t_rng b)) as [bs r1].
    rewrite A1, A9. destruct (val_loop bsize val_step c bs (t_w b) r1 (val_run b) []) as [[[r2 run] losses]|]; cbn [bind]; [|reflexivity].
    destruct (weighted_mean losses) as [m|]; cbn [bind]; [|reflexivity].
    rewrite A8. destruct (summarize run (val_res b)) as [[run' vres]|]; cbn [bind]; [|reflexivity].
    rewrite A7. destruct (criterion_vals c (val_costs b ++ [m]) vres) as [cv|]; cbn [bind]; [|reflexivity].
    destruct (py_index cv (-1)) as [last|]; cbn [bind]; [|reflexivity].
    destruct (match best_val a with None => true | Some b0 => _ end), (match best_val b with None => true | Some b0 => _ end);
      unfold rel_res, alike; cbn; auto 20.
  Qed.
  Lemma validate_run (c : config) epoch vd st st' : validate c epoch vd st = Ok st' -> train_run st' = train_run st /\ train_res st' = train_res st /\ t_step st' = t_step st.
  Proof.
    unfold TrainModel.validate. intro H. destruct (vd (t_rng st)) as [bs r1]. ib H. destruct x as [[r2 run] losses]. ib H. ib H. destruct x0. ib H. ib H.
    destruct (match best_val st with None => true | Some b0 => _ end); injection H as <-; auto.
  Qed.

  Lemma one_batch_alike (c : config) evs epoch a b losses bt : alike a b -> map fst (train_run a) = names c -> map fst (train_run b) = names c ->
    rel_res (fun x y => alike (fst (fst x)) (fst (fst y)) /\ snd (fst x) = snd (fst y) /\ snd x = snd y /\
               map fst (train_run (fst (fst x))) = names c /\ map fst (train_run (fst (fst y))) = names c /\
               (train_run a = train_run b -> train_res a = train_res b -> train_run (fst (fst x)) = train_run (fst (fst y)) /\ train_res (fst (fst x)) = train_res (fst (fst y))))
      (one_batch c evs epoch a losses bt) (one_batch c evs epoch b losses bt).
  Proof.
    intros (A1 & A2 & A3 & A4 & A5 & A6 & A7 & A8 & A9) Ka Kb. unfold TrainModel.one_batch. rewrite A1, A2, A3.
    destruct (train_step bt (t_w b, t_opt b, t_rng b)) as [[[y loss] [[w o] r]]|]; cbn [bind]; [|reflexivity].
    destruct ((evs =? 0) && _); [reflexivity|]. rewrite A4.
    set (ra := if on_train c then eval_metrics bsize c y bt (train_run a) else train_run a).
    set (rb := if on_train c then eval_metrics bsize c y bt (train_run b) else train_run b).
    assert (Kra : map fst ra = names c) by (unfold ra; destruct (on_train c); auto; now rewrite eval_metrics_keys).
    assert (Krb : map fst rb = names c) by (unfold rb; destruct (on_train c); auto; now rewrite eval_metrics_keys).
    assert (SUM : exists ra' ta rb' tb,
       (if on_train c && ((t_step b + 1) mod evs =? 0) then summarize ra (train_res a) else Ok (ra, train_res a)) = Ok (ra', ta) /\
       (if on_train c && ((t_step b + 1) mod evs =? 0) then summarize rb (train_res b) else Ok (rb, train_res b)) = Ok (rb', tb) /\
       map fst ra' = names c /\ map fst rb' = names c /\ (train_run a = train_run b -> train_res a = train_res b -> ra' = rb' /\ ta = tb)).
    { destruct (on_train c) eqn:OT; cbn [andb].
      - destruct ((t_step b + 1) mod evs =? 0).
        + destruct (@summarize_ok ra (train_res a)) as [ta Ha]; [apply eval_metrics_sums; auto|].
          destruct (@summarize_ok rb (train_res b)) as [tb Hb]; [apply eval_metrics_sums; auto|].
          exists (map (fun kv => (fst kv, [])) ra), ta, (map (fun kv => (fst kv, [])) rb), tb. split; auto. split; auto.
          rewrite !map_map. split; [exact Kra|]. split; [exact Krb|].
          intros E1 E2. assert (ra = rb) by (unfold ra, rb; now rewrite E1). rewrite H in Ha. rewrite H. rewrite E2, Hb in Ha. injection Ha as ->. auto.
        + do 4 eexists. split; [reflexivity|]. split; [reflexivity|]. split; auto. split; auto. intros E1 E2. unfold ra, rb. now rewrite E1.
      - do 4 eexists. split; [reflexivity|]. split; [reflexivity|]. repeat split; auto. }
    destruct SUM as (ra' & ta & rb' & tb & -> & -> & Kra' & Krb' & EQ). cbn [bind].
    match goal with |- rel_res _ (bind ?x _) (bind ?y _) =>
      assert (RV : rel_res (fun s t => alike s t /\ train_run s = ra' /\ train_run t = rb' /\ train_res s = ta /\ train_res t = tb) x y) end.
    { assert (AL : forall tr1 tr2 m1 m2 b1 b2 v1 v2, @alike
        (TS w o r (t_step b + 1) (train_costs a ++ [loss]) (train_epoch_costs a) ta ra' (val_costs a) (val_res a) (val_run a) v1 m1 b1 tr1)
        (TS w o r (t_step b + 1) (train_costs b ++ [loss]) (train_epoch_costs b) tb rb' (val_costs b) (val_res b) (val_run b) v2 m2 b2 tr2)).
      { intros. unfold alike. cbn. rewrite A5, A6, A7, A8, A9. auto 20. }
      destruct (val_data c) as [vd|]; [destruct ((t_step b + 1) mod evs =? 0)|].
      - match goal with |- rel_res _ (validate c epoch vd ?s) (validate c epoch vd ?t) =>
          pose proof (@validate_alike c epoch vd s t (AL _ _ _ _ _ _ _ _)) as RV; destruct (validate c epoch vd s) eqn:Es, (validate c epoch vd t) eqn:Et; cbn in RV |- *; auto end.
        apply validate_run in Es, Et. cbn in Es, Et. split; auto. tauto.
      - cbn. split; [apply AL|auto].
      - cbn. split; [apply AL|auto]. }
    match goal with |- rel_res _ (bind ?x _) (bind ?y _) => destruct x as [s|], y as [t|]; cbn [bind rel_res] in *; try contradiction; [|auto] end.
    destruct RV as (AL & R1 & R2 & R3 & R4). pose proof AL as (B1 & B2 & B3 & B4 & B5 & B6 & B7 & B8 & B9). rewrite B7, B8.
    destruct (criterion_vals c (val_costs t) (val_res t)) as [cv|]; cbn [bind]; [|reflexivity].
    destruct (early_stop c cv); cbn; [|reflexivity]. split; auto. split; auto. split; auto.
    rewrite R1, R2, R3, R4. auto.
  Qed.

  Lemma batch_loop_alike (c : config) evs epoch bs : forall a b losses, alike a b -> map fst (train_run a) = names c -> map fst (train_run b) = names c ->
    rel_res (fun x y => alike (fst (fst x)) (fst (fst y)) /\ snd (fst x) = snd (fst y) /\ snd x = snd y /\
               map fst (train_run (fst (fst x))) = names c /\ map fst (train_run (fst (fst y))) = names c /\
               (train_run a = train_run b -> train_res a = train_res b -> train_run (fst (fst x)) = train_run (fst (fst y)) /\ train_res (fst (fst x)) = train_res (fst (fst y))))
      (batch_loop c evs epoch bs a losses) (batch_loop c evs epoch bs b losses).
  Proof.
    induction bs as [|bt bs IH]; intros a b losses A Ka Kb; cbn [TrainModel.batch_loop].
    - cbn. repeat (split; auto).
    - pose proof (one_batch_alike evs epoch losses bt A Ka Kb) as H.
      destruct (one_batch c evs epoch a losses bt) as [[[a' l] s]|], (one_batch c evs epoch b losses bt) as [[[b' l'] s']|]; cbn [rel_res bind fst snd] in *; try contradiction; auto.
      destruct H as (A' & <- & <- & Ka' & Kb' & EQ). destruct s; cbn [rel_res fst snd]; [tauto|].
      specialize (IH a' b' l A' Ka' Kb').
      destruct (batch_loop c evs epoch bs a' l) as [[[a2 l2] s2]|], (batch_loop c evs epoch bs b' l) as [[[b2 l2'] s2']|]; cbn [rel_res fst snd] in *; try contradiction; auto.
      destruct IH as (I1 & I2 & I3 & I4 & I5 & I6). split; [exact I1|]. split; [exact I2|]. split; [exact I3|]. split; [exact I4|]. split; [exact I5|]. intros E1 E2. destruct (EQ E1 E2). auto.
  Qed.
  Lemma one_epoch_alike (c : config) evs epoch a b : alike a b -> map fst (train_run a) = names c -> map fst (train_run b) = names c ->
    rel_res (fun x y => alike (fst x) (fst y) /\ snd x = snd y /\
               map fst (train_run (fst x)) = names c /\ map fst (train_run (fst y)) = names c /\
               (train_run a = train_run b -> train_res a = train_res b -> train_run (fst x) = train_run (fst y) /\ train_res (fst x) = train_res (fst y)))
      (one_epoch c evs epoch a) (one_epoch c evs epoch b).
  Proof.
    intros A Ka Kb. unfold TrainModel.one_epoch. pose proof A as (A1 & A2 & A3 & A4 & A5 & A6 & A7 & A8 & A9). rewrite A3.
    destruct (train_data c (t_rng b)) as [bs r].
    match goal with |- context [batch_loop c evs epoch bs ?s []] => match goal with |- context [batch_loop c evs epoch bs ?t []] => assert_fails (constr_eq s t);
      assert (AL : alike s t) by (unfold alike; cbn; auto 20); pose proof (@batch_loop_alike c evs epoch bs s t [] AL Ka Kb) as H;
      destruct (batch_loop c evs epoch bs s []) as [[[a' l] st]|], (batch_loop c evs epoch bs t []) as [[[b' l'] st']|] end end;
      cbn [rel_res bind fst snd] in *; try contradiction; auto.
    destruct H as (A' & <- & <- & Ka' & Kb' & EQ). destruct (weighted_mean l); cbn [bind rel_res]; auto.
    destruct A' as (B1 & B2 & B3 & B4 & B5 & B6 & B7 & B8 & B9). cbn [fst snd]. split; [unfold alike; cbn; rewrite B6; auto 20|]. cbn in *. auto.
  Qed.
  Lemma epoch_loop_alike (c : config) evs es : forall a b, alike a b -> map fst (train_run a) = names c -> map fst (train_run b) = names c ->
    rel_res (fun x y => alike (fst x) (fst y) /\ snd x = snd y /\
               (train_run a = train_run b -> train_res a = train_res b -> train_run (fst x) = train_run (fst y) /\ train_res (fst x) = train_res (fst y)))
      (epoch_loop c evs es a) (epoch_loop c evs es b).
  Proof.
    induction es as [|e es IH]; intros a b A Ka Kb; cbn [TrainModel.epoch_loop].
    - cbn. repeat (split; auto).
    - pose proof (one_epoch_alike evs e A Ka Kb) as H.
      destruct (one_epoch c evs e a) as [[a' s]|], (one_epoch c evs e b) as [[b' s']|]; cbn [rel_res bind fst snd] in *; try contradiction; auto.
      destruct H as (A' & <- & Ka' & Kb' & EQ). destruct s; cbn [rel_res fst snd]; [tauto|].
      specialize (IH a' b' A' Ka' Kb').
      destruct (epoch_loop c evs es a') as [[a2 s2]|], (epoch_loop c evs es b') as [[b2 s2']|]; cbn [rel_res fst snd] in *; try contradiction; auto.
      destruct IH as (I1 & I2 & I6). split; auto. split; auto. intros E1 E2. apply I6; apply EQ; auto.
  Qed.
  Lemma epoch_loop_app (c : config) evs es1 es2 : forall st,
    epoch_loop c evs (es1 ++ es2) st = do (st', stop) <- epoch_loop c evs es1 st; if stop then Ok (st', true) else epoch_loop c evs es2 st'.
  Proof.
    induction es1 as [|e es1 IH]; intro st; cbn [TrainModel.epoch_loop app bind]; auto.
    destruct (one_epoch c evs e st) as [[s []]|]; cbn [bind]; auto.
  Qed.

  Definition with_epochs (c : config) (n : nat) : config :=
    Config n (train_data c) (bpe c) (val_data c) (eval_interval c) (mode c) (metrics c) (on_train c) (es_criterion c) (es_interval c) (minimize c).
  Lemma epoch_loop_epochs (c : config) n evs es st : epoch_loop (with_epochs c n) evs es st = epoch_loop c evs es st.
  Proof.
    assert (VL : forall bs w r run l, val_loop bsize val_step (with_epochs c n) bs w r run l = val_loop bsize val_step c bs w r run l).
    { induction bs; intros; cbn [val_loop]; auto. destruct (val_step a w r) as [[[? ?] ?]|]; cbn [bind]; auto. }
    assert (VA : forall e vd s, validate (with_epochs c n) e vd s = validate c e vd s).
    { intros. unfold TrainModel.validate. destruct (vd (t_rng s)). now rewrite VL. }
    assert (OB : forall e s l b, one_batch (with_epochs c n) evs e s l b = one_batch c evs e s l b).
    { intros. unfold TrainModel.one_batch. destruct (train_step b (t_w s, t_opt s, t_rng s)) as [[[y loss] [[w o] r]]|]; cbn [bind]; auto.
      change (on_train (with_epochs c n)) with (on_train c). change (val_data (with_epochs c n)) with (val_data c).
      destruct ((evs =? 0) && _); auto. change (@eval_metrics R B Y bsize (with_epochs c n)) with (@eval_metrics R B Y bsize c).
      match goal with |- bind ?x _ = _ => destruct x as [[? ?]|]; cbn [bind]; auto end.
      destruct (val_data c); [destruct (_ =? 0)|]; [rewrite VA| |]; reflexivity. }
    assert (BL : forall e bs s l, batch_loop (with_epochs c n) evs e bs s l = batch_loop c evs e bs s l).
    { induction bs; intros; cbn [TrainModel.batch_loop]; auto. rewrite OB. destruct (one_batch c evs e s l a) as [[[? ?] []]|]; cbn [bind]; auto. }
    revert st. induction es; intro st; cbn [TrainModel.epoch_loop]; auto. unfold TrainModel.one_epoch.
    change (train_data (with_epochs c n)) with (train_data c). destruct (train_data c (t_rng st)). rewrite BL.
    destruct (batch_loop c evs a l _ []) as [[[? ?] ?]|]; cbn [bind]; auto. destruct (weighted_mean l0); cbn [bind]; auto. destruct b; auto.
  Qed.

  Hypothesis opt_roundtrip : forall o, opt_load opt_new (opt_save o) = o.

  (** at an evaluation step (or without train metrics) nothing is pending in the running lists *)
  Lemma one_batch_pending (c : config) evs epoch st losses b st' losses' stop : one_batch c evs epoch st losses b = Ok (st', losses', stop) ->
    map fst (train_run st) = names c -> (on_train c = true -> t_step st' mod evs = 0) -> (on_train c = false -> train_run st = empty_dict c) ->
    train_run st' = empty_dict c.
  Proof.
    intros H K D E0. unfold TrainModel.one_batch in H. ib H. destruct x as [[y loss] [[w o] r]].
    destruct ((evs =? 0) && _); [discriminate|]. ib H. destruct x as [run' tres]. ib H. ib H. ib H. injection H as -> <- ->.
    assert (T : t_step st' = t_step st + 1 /\ train_run st' = run').
    { destruct (val_data c) as [vd|]; [destruct ((t_step st + 1) mod evs =? 0)|].
      - pose proof (validate_run E2) as (-> & _ & ->). auto.
      - injection E2 as <-. auto.
      - injection E2 as <-. auto. }
    destruct T as [T1 ->]. rewrite T1 in D. destruct (on_train c); cbn [andb] in E1.
    - rewrite (D eq_refl) in E1. cbn [Nat.eqb] in E1. apply summarize_spec in E1. destruct E1 as [-> _]. apply empty_of_keys. now rewrite eval_metrics_keys.
    - injection E1 as <- <-. auto.
  Qed.
  Lemma batch_loop_pending (c : config) evs epoch : NoDup (names c) -> forall bs st losses st' losses' stop, well_keyed c st ->
    batch_loop c evs epoch bs st losses = Ok (st', losses', stop) ->
    (bs <> [] -> on_train c = true -> t_step st' mod evs = 0) -> (bs = [] \/ on_train c = false -> train_run st = empty_dict c) -> train_run st' = empty_dict c.
  Proof.
    intros ND. induction bs as [|b bs IH]; intros st losses st' losses' stop WK H D Z; cbn [TrainModel.batch_loop] in H.
    - injection H as <- <- <-. auto.
    - ib H. destruct x as [[st1 l1] stop1]. destruct (one_batch_stretch ND WK E) as (new1 & X1 & _).
      assert (OF : on_train c = false -> train_run st1 = empty_dict c).
      { intro OF. eapply one_batch_pending; [exact E|apply WK|congruence|auto]. }
      destruct stop1; [injection H as <- <- <-; eapply one_batch_pending; [exact E|apply WK|intro; apply D; auto; discriminate|auto]|].
      eapply (IH _ _ _ _ _ (x_keys X1) H).
      + intros _. apply D. discriminate.
      + intros [->|OF']; auto. cbn [TrainModel.batch_loop] in H. injection H as <- <- <-.
        eapply one_batch_pending; [exact E|apply WK|intro; apply D; auto; discriminate|auto].
  Qed.
  Lemma epoch_loop_pending (c : config) evs : NoDup (names c) -> (forall r, fst (train_data c r) <> []) -> forall es st st' stop, well_keyed c st ->
    epoch_loop c evs es st = Ok (st', stop) -> (on_train c = true -> t_step st' mod evs = 0) -> (es = [] \/ on_train c = false -> train_run st = empty_dict c) ->
    train_run st' = empty_dict c.
  Proof.
    intros ND NB. induction es as [|e es IH]; intros st st' stop WK H D Z; cbn [TrainModel.epoch_loop] in H.
    - injection H as <- <-. auto.
    - ib H. destruct x as [st1 stop1]. destruct (one_epoch_stretch ND WK E) as (r & bs1 & bs2 & new1 & ER & S1 & X1 & _).
      assert (P1 : (on_train c = true -> t_step st1 mod evs = 0) -> train_run st1 = empty_dict c).
      { intros D1. unfold TrainModel.one_epoch in E. specialize (NB (t_rng st)). destruct (train_data c (t_rng st)) as [bs r0]. ib E. destruct x as [[s1 l1] stop2]. ib E. injection E as <- <-.
        cbn [train_run t_step] in *. eapply batch_loop_pending; [exact ND| |exact E0| |]; [exact WK|auto|]. intros [->|OF]; [cbn in NB; congruence|cbn; auto]. }
      destruct stop1; [injection H as <- <-; auto|].
      eapply (IH _ _ _ (x_keys X1) H D). intros [->|OF].
      + cbn in H. injection H as <- <-. auto.
      + apply P1. congruence.
  Qed.

  (** ** C55 *)
  Lemma resume_ok (c : config) w r m n st1 s :
    NoDup (names c) -> (forall r, List.length (fst (train_data c r)) = bpe c) -> 0 < bpe c -> 1 <= m <= n ->
    fit (with_epochs c m) 1 (new_trainer c w r) = Ok (st1, false) ->
    model_lt st1 = Some s ->
    let '(se, st2) := resume c s (model_lt st1) (best_lt st1) in
    se = m + 1 /\
    rel_res (fun x y => snd x = snd y /\ alike (fst x) (fst y) /\
               (forall evs, evaluation_step c = Ok evs -> on_train c = false \/ (m * bpe c) mod evs = 0 -> train_res (fst x) = train_res (fst y)))
      (fit (with_epochs c n) se st2) (fit (with_epochs c n) 1 (new_trainer c w r)).
  Proof.
    intros ND LB B0 MN F ML. unfold TrainModel.resume.
    assert (WK : well_keyed c (new_trainer c w r)).
    { unfold well_keyed, TrainModel.new_trainer; cbn. rewrite !empty_dict_keys. auto. }
    destruct (evaluation_step c) as [evs|e] eqn:EV; [|unfold TrainModel.fit in F; change (evaluation_step (with_epochs c m)) with (evaluation_step c) in F; rewrite EV in F; discriminate].
    assert (SPEC := F). apply (fit_spec (evs := evs) (c := with_epochs c m) ND LB B0 WK EV) in SPEC. cbn zeta in SPEC.
    destruct SPEC as (bs & rest & new & rs & X & _ & _ & BR & LR & SF & MD & (l & TC & LC)). cbn [epochs with_epochs] in *.
    destruct (SF eq_refl) as [-> Lrs]. destruct (MD ltac:(lia)) as (e & Ee & Em & EM). specialize (Em eq_refl). subst e.
    rewrite ML in EM. injection EM as EM. subst s. cbn [snap_of s_epoch s_w s_opt s_rng s_step s_train_costs s_train_epoch_costs s_train_res s_val_costs s_val_res].
    split; auto. rewrite opt_roundtrip.
    assert (Step : t_step st1 = m * bpe c).
    { rewrite (x_step X). cbn. rewrite app_nil_r in BR. rewrite BR. clear -LB Lrs. replace m with (List.length rs) by lia. clear Lrs.
      induction rs; cbn [map List.concat List.length Nat.mul]; auto. cbn [train_data with_epochs] in *. rewrite app_length, LB, IHrs. reflexivity. }
    unfold TrainModel.fit in F |- *. change (evaluation_step (with_epochs c m)) with (evaluation_step c) in F.
    change (evaluation_step (with_epochs c n)) with (evaluation_step c). rewrite EV in *. cbn [bind] in *.
    change (es_criterion (with_epochs c m)) with (es_criterion c) in F. change (metrics (with_epochs c m)) with (metrics c) in F.
    change (es_criterion (with_epochs c n)) with (es_criterion c). change (metrics (with_epochs c n)) with (metrics c).
    destruct (match es_criterion c with Some _ => _ | None => _ end); cbn [bind] in *; [|discriminate].
    ib F. destruct x as [s1 stop1]. assert (s1 = st1 /\ stop1 = false) as [-> ->] by (destruct (train_epoch_costs s1); [discriminate|injection F as -> ->; auto]).
    rewrite epoch_loop_epochs in E. rewrite !epoch_loop_epochs. cbn [epochs with_epochs] in *.
    replace (n + 1 - 1) with (m + (n - m)) by lia. rewrite (seq_app m (n - m) 1), epoch_loop_app. replace (m + 1 - 1) with m in E by lia. rewrite E. cbn [bind].
    replace (n + 1 - (m + 1)) with (n - m) by lia. replace (1 + m) with (m + 1) by lia.
    destruct (x_keys X) as (KX1 & KX2 & KX3 & KX4). change (empty_dict (with_epochs c m)) with (@empty_dict R B Y (nat * Q) c) in KX1.
    match goal with |- rel_res _ (bind (epoch_loop c evs _ ?a) _) _ => assert (AL : alike a st1) by (unfold alike; cbn; auto 20);
      pose proof (@epoch_loop_alike c evs (seq (m + 1) (n - m)) a st1 AL (empty_dict_keys _ _) KX3) as H;
      set (A := a) in * end.
    assert (PEND : on_train c = false \/ (m * bpe c) mod evs = 0 -> train_run A = train_run st1 /\ train_res A = train_res st1).
    { intro Hm. split; [|reflexivity]. symmetry. eapply epoch_loop_pending; [exact ND|intro r0; specialize (LB r0); destruct (fst (train_data c r0)); [cbn in LB; lia|discriminate]|exact WK|exact E| |].
      - intro OT. destruct Hm; [congruence|]. now rewrite Step.
      - intros _. reflexivity. }
    destruct (epoch_loop c evs (seq (m + 1) (n - m)) A) as [[ra s]|] eqn:EA, (epoch_loop c evs (seq (m + 1) (n - m)) st1) as [[rb s2]|] eqn:EBB; cbn [rel_res bind fst snd] in *; try contradiction; auto.
    destruct H as (AB & <- & Hr). pose proof AB as (_ & _ & _ & _ & _ & B6 & _).
    rewrite B6. destruct (train_epoch_costs rb); cbn [rel_res]; auto. cbn [fst snd]. split; auto. split; auto.
    intros evs' [= <-] Hm. destruct (PEND Hm) as [P1 P2]. exact (proj2 (Hr P1 P2)).
  Qed.

End Tr.

(** ** the statements of the property file *)
Section Pub.
  Variables W O P R B Y : Type.
  Variable bsize : B -> nat.
  Variable opt_new : O.
  Variable opt_save : O -> P.
  Variable opt_load : O -> P -> O.
  Variable train_step : B -> W * O * R -> res (Y * Q * (W * O * R)).
  Variable val_step : B -> W -> R -> res (Y * Q * R).
  Variable c : config R B Y.
  Notation names c := (map fst (metric_list c)).
  Notation fit := (fit bsize opt_save train_step val_step).

  Lemma concat_len rs : (forall r, List.length (fst (train_data c r)) = bpe c) -> List.length (List.concat (map (fun r => fst (train_data c r)) rs)) = List.length rs * bpe c.
  Proof. intro L. induction rs; cbn [map List.concat List.length Nat.mul]; auto. now rewrite app_length, L, IHrs. Qed.

  Lemma fit_evs se st x : fit c se st = Ok x -> exists evs, evaluation_step c = Ok evs.
  Proof. unfold TrainModel.fit. intro H. ib H. eauto. Qed.

  Lemma fit_schedule se st st' stop evs : NoDup (names c) -> (forall r, List.length (fst (train_data c r)) = bpe c) -> 0 < bpe c ->
    well_keyed c st -> evaluation_step c = Ok evs -> fit c se st = Ok (st', stop) ->
    exists n new,
    n <= (epochs c + 1 - se) * bpe c /\ (stop = false -> n = (epochs c + 1 - se) * bpe c) /\
    trace st' = trace st ++ new /\ map (@tag_of W P R B) new = schedule c evs (t_step st) n /\ t_step st' = t_step st + n /\
    List.length (train_costs st') = List.length (train_costs st) + n /\
    List.length (val_costs st') = List.length (val_costs st) + List.length (filter (due c evs) (seq (t_step st + 1) n)) /\
    (exists rs rest, flat_map (@batch_of W P R B) new ++ rest = List.concat (map (fun r => fst (train_data c r)) rs) /\ (stop = false -> rest = []) /\
       List.length (train_epoch_costs st') = List.length (train_epoch_costs st) + List.length rs).
  Proof.
    intros ND LB B0 WK EV H. destruct (fit_spec ND LB B0 WK EV H) as (bs & rest & new & rs & X & _ & _ & BR & LR & SF & _ & (l & TC & LC)).
    exists (List.length bs), new. pose proof (f_equal (@List.length _) BR) as LL. rewrite app_length, concat_len in LL by auto.
    assert (List.length rs * bpe c <= (epochs c + 1 - se) * bpe c) by (apply Nat.mul_le_mono_r; lia).
    split; [lia|]. split; [intro Z; destruct (SF Z) as [-> E]; cbn in LL; rewrite <- E; lia|].
    destruct (x_vals X) as (vl & V1 & V2). destruct X. cbn [t_step trace train_costs val_costs] in *.
    split; auto. split; auto. split; auto. split; auto. split; [rewrite V1, app_length, V2; reflexivity|].
    exists rs, rest. rewrite x_batches. split; auto. split; [intro Z; apply (SF Z)|]. rewrite TC, app_length. lia.
  Qed.

  Lemma fit_early se st st' stop cv : NoDup (names c) -> (forall r, List.length (fst (train_data c r)) = bpe c) -> 0 < bpe c ->
    well_keyed c st -> se <= epochs c -> criterion_vals c (val_costs st) (val_res st) = Ok cv -> fit c se st = Ok (st', stop) ->
    exists vs, criterion_vals c (val_costs st') (val_res st') = Ok (cv ++ vs) /\
    (stop = true <-> exists k, es_interval c = Some k /\ stalled (minimize c) k (cv ++ vs)) /\
    (forall p q k, vs = p ++ q -> p <> [] -> q <> [] -> es_interval c = Some k -> ~ stalled (minimize c) k (cv ++ p)).
  Proof.
    intros ND LB B0 WK LE CV H. destruct (fit_evs H) as [evs EV].
    destruct (fit_spec ND LB B0 WK EV H) as (bs & rest & new & rs & X & Qt & V & _).
    destruct (V LE) as (cv' & C1 & S1).
    assert (C2 : crit c st' = Ok (cv ++ map fst (vals_of new))).
    { destruct (x_crit X) as [[V0 C0]|(cv0 & C0 & C2)].
      - rewrite V0. cbn. rewrite app_nil_r. unfold crit in *. cbn [val_costs val_res] in C0. congruence.
      - unfold crit in *. cbn [val_costs val_res] in C0. congruence. }
    exists (map fst (vals_of new)). split; [exact C2|]. rewrite C2 in C1. injection C1 as <-. split.
    - destruct (early_stop_spec c (cv ++ map fst (vals_of new))) as (d & D1 & D2). rewrite D1 in S1. injection S1 as ->. exact D2.
    - intros p q k E Np Nq K ST. destruct (early_stop_spec c (cv ++ p)) as (d & D1 & D2).
      rewrite (Qt cv p q CV E Np Nq) in D1. injection D1 as <-. assert (false = true) by (apply D2; eauto). discriminate.
  Qed.
  Lemma fit_not_early se st st' cv' : NoDup (names c) -> (forall r, List.length (fst (train_data c r)) = bpe c) -> 0 < bpe c ->
    well_keyed c st -> se <= epochs c -> criterion_vals c (val_costs st') (val_res st') = Ok cv' -> fit c se st = Ok (st', true) ->
    exists k, es_interval c = Some k /\ 0 < k /\ k + 1 <= List.length cv'.
  Proof.
    intros ND LB B0 WK LE CV H. destruct (fit_evs H) as [evs EV].
    destruct (fit_spec ND LB B0 WK EV H) as (bs & rest & new & rs & X & Qt & V & _).
    destruct (V LE) as (cv2 & C1 & S1). unfold crit in C1. rewrite CV in C1. injection C1 as <-.
    destruct (early_stop_spec c cv') as (d & D1 & D2). rewrite D1 in S1. injection S1 as ->.
    destruct (proj1 D2 eq_refl) as (k & K & pre & r & last & E & L & K0 & _). exists k. split; auto. split; auto. rewrite E, app_length. cbn. lia.
  Qed.
  Lemma fit_best se st st' stop : NoDup (names c) -> (forall r, List.length (fst (train_data c r)) = bpe c) -> 0 < bpe c ->
    well_keyed c st -> fit c se st = Ok (st', stop) ->
    exists new, trace st' = trace st ++ new /\
    match vals_of new with
    | [] => best_lt st' = best_lt st
    | _ => exists x, first_best (minimize c) (vals_of new) x /\ best_lt st' = Some (snd x)
    end.
  Proof using Type.
    intros ND LB B0 WK H. destruct (fit_evs H) as [evs EV].
    destruct (fit_spec ND LB B0 WK EV H) as (bs & rest & new & rs & X & _).
    exists new. split; [exact (x_trace X)|].
    assert (I := x_best X (b0 := best_lt st) (seen := []) (conj eq_refl eq_refl)). cbn [app] in I. unfold best_inv in I.
    destruct (vals_of new); [exact (proj2 I)|]. destruct I as (x & F & _ & L). eauto.
  Qed.
  Lemma fit_model_lt se st st' stop : NoDup (names c) -> (forall r, List.length (fst (train_data c r)) = bpe c) -> 0 < bpe c ->
    well_keyed c st -> se <= epochs c -> fit c se st = Ok (st', stop) ->
    exists e, se <= e <= epochs c /\ (stop = false -> e = epochs c) /\ model_lt st' = Some (snap_of opt_save e st').
  Proof.
    intros ND LB B0 WK LE H. destruct (fit_evs H) as [evs EV].
    destruct (fit_spec ND LB B0 WK EV H) as (bs & rest & new & rs & X & _ & _ & _ & _ & _ & M & _). auto.
  Qed.
  Lemma states_ok : NoDup (names c) -> (forall r, List.length (fst (train_data c r)) = bpe c) -> 0 < bpe c ->
    (forall w r, well_keyed c (new_trainer P opt_new c w r : tstate W O P R B)) /\
    (forall se st st' stop, well_keyed c st -> fit c se st = Ok (st', stop) ->
     well_keyed c st' /\
     forall s, model_lt st' = Some s -> se <= epochs c -> well_keyed c (snd (resume opt_new opt_load c s (model_lt st') (best_lt st') : nat * tstate W O P R B))).
  Proof.
    intros ND LB B0. split.
    - intros. unfold well_keyed, new_trainer; cbn. rewrite !empty_dict_keys. auto.
    - intros se st st' stop WK H. destruct (fit_evs H) as [evs EV].
      destruct (fit_spec ND LB B0 WK EV H) as (bs & rest & new & rs & X & _ & _ & _ & _ & _ & M & _).
      pose proof (x_keys X) as K. split; auto. intros s E LE. destruct (M LE) as (e & _ & _ & E'). rewrite E in E'. injection E' as ->.
      destruct K as (K1 & K2 & K3 & K4). unfold well_keyed, resume. cbn. rewrite empty_dict_keys. auto.
  Qed.
End Pub.
