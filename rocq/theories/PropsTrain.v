(** Property theorems C52-C55 (Trainer).  Specification vocabulary, defined in TrainFacts.v:
    [schedule] lists optimiser steps and validations in order, [stalled] is the early stopping
    criterion, [first_best] the first validation with the best value, [alike] equality of weights,
    optimiser, generators, counters and cost/validation histories. *)
From Coq Require Import QArith.
From Verif Require Import PyBase DataModel TrainModel TrainFacts TrainResume TrainCosts.

(** ** A concrete trainer used by the examples: the weight grows by 1 per step, the training loss is
    the weight, the validation loss is a table lookup, batches are lists of numbers. *)
Definition demo_train (b : list nat) (x : nat * nat * unit) : res (Q * Q * (nat * nat * unit)) :=
  let '(w, o, r) := x in Ok (inject_Z (Z.of_nat w), inject_Z (Z.of_nat w), (S w, S o, r)).
Definition demo_val (tbl : list Q) (b : list nat) (w : nat) (r : unit) : res (Q * Q * unit) := Ok (nth w tbl 0%Q, nth w tbl 0%Q, r).
Definition demo_cfg (n : nat) (ei k : option nat) (ms : option (list (string * (Q -> list nat -> Q)))) : config unit (list nat) Q :=
  Config n (fun r => ([[1; 2]; [3; 4]; [5]], r)) 3 (Some (fun r => ([[7]; [8; 9]], r))) ei EpochMode ms true None k true.
Definition demo_fit tbl c se st := fit (@List.length nat) (fun o : nat => o) demo_train (demo_val tbl) c se st.
Definition demo_new (c : config unit (list nat) Q) : tstate nat nat nat unit (list nat) := new_trainer nat 0 c 0 tt.

(** ** C52 *)
Theorem C52_schedule : forall W O P R B Y (bsize : B -> nat) (opt_save : O -> P)
  (train_step : B -> W * O * R -> res (Y * Q * (W * O * R))) (val_step : B -> W -> R -> res (Y * Q * R))
  (c : config R B Y) start_epoch st st' stop evs,
  NoDup (map fst (metric_list c)) -> (forall r, List.length (fst (train_data c r)) = bpe c) -> 0 < bpe c ->
  well_keyed c st -> evaluation_step c = Ok evs ->
  fit bsize opt_save train_step val_step c start_epoch st = Ok (st', stop) ->
  exists n new,
    n <= (epochs c + 1 - start_epoch) * bpe c /\ (stop = false -> n = (epochs c + 1 - start_epoch) * bpe c) /\
    trace st' = trace st ++ new /\ map (@tag_of W P R B) new = schedule c evs (t_step st) n /\ t_step st' = t_step st + n /\
    List.length (train_costs st') = List.length (train_costs st) + n /\
    List.length (val_costs st') = List.length (val_costs st) + List.length (filter (due c evs) (seq (t_step st + 1) n)) /\
    (exists rs rest, flat_map (@batch_of W P R B) new ++ rest = List.concat (map (fun r => fst (train_data c r)) rs) /\ (stop = false -> rest = []) /\
       List.length (train_epoch_costs st') = List.length (train_epoch_costs st) + List.length rs).
Proof. intros. eapply fit_schedule; eassumption. Qed.
Print Assumptions C52_schedule.

(** the evaluation step, in both modes *)
Theorem C52_evaluation_step : forall R B Y (c : config R B Y) e, eval_interval c = Some e ->
  (mode c = EpochMode -> evaluation_step c = Ok (e * bpe c)) /\ (mode c = StepMode -> evaluation_step c = Ok e) /\
  (mode c = OtherMode -> evaluation_step c = Err ValueError).
Proof. intros R B Y c e H. unfold evaluation_step. rewrite H. repeat split; intros ->; reflexivity. Qed.
Print Assumptions C52_evaluation_step.

(** every state fit can start from satisfies [well_keyed] *)
Theorem C52_states : forall W O P R B Y (bsize : B -> nat) (opt_new : O) (opt_save : O -> P) (opt_load : O -> P -> O)
  (train_step : B -> W * O * R -> res (Y * Q * (W * O * R))) (val_step : B -> W -> R -> res (Y * Q * R)) (c : config R B Y),
  NoDup (map fst (metric_list c)) -> (forall r, List.length (fst (train_data c r)) = bpe c) -> 0 < bpe c ->
  (forall (w : W) (r : R), well_keyed c (new_trainer P opt_new c w r)) /\
  (forall se st st' stop, well_keyed c st -> fit bsize opt_save train_step val_step c se st = Ok (st', stop) ->
     well_keyed c st' /\
     forall s, model_lt st' = Some s -> se <= epochs c -> well_keyed c (snd (resume opt_new opt_load c s (model_lt st') (best_lt st') : nat * tstate W O P R B))).
Proof. exact states_ok. Qed.
Print Assumptions C52_states.

(** The documented [eval_interval=None] ("validation at the end of each epoch") raises instead. *)
Theorem C52_none_interval_refuted : forall W O P R B Y (bsize : B -> nat) (opt_save : O -> P)
  (train_step : B -> W * O * R -> res (Y * Q * (W * O * R))) (val_step : B -> W -> R -> res (Y * Q * R))
  (c : config R B Y) se st, eval_interval c = None -> mode c <> OtherMode ->
  fit bsize opt_save train_step val_step c se st = Err TypeError.
Proof. intros. unfold fit, evaluation_step. rewrite H. destruct (mode c); [reflexivity|reflexivity|congruence]. Qed.
Print Assumptions C52_none_interval_refuted.

Example C52_nonvacuous : exists st', demo_fit [5; 4; 3; 2; 1; 1; 1]%Q (demo_cfg 2 (Some 1) None None) 1 (demo_new (demo_cfg 2 (Some 1) None None)) = Ok (st', false) /\
  map (@tag_of nat nat unit (list nat)) (trace st') = [Train 1; Train 2; Train 3; Valid 3; Train 4; Train 5; Train 6; Valid 6] /\
  List.length (train_costs st') = 6 /\ List.length (val_costs st') = 2.
Proof. eexists. split; [vm_compute; reflexivity|]. repeat split. Qed.

(** ** C53 *)
(** the criterion itself, on any history *)
Theorem C53_criterion : forall R B Y (c : config R B Y) vals,
  exists d, early_stop c vals = Ok d /\ (d = true <-> exists k, es_interval c = Some k /\ stalled (minimize c) k vals).
Proof. exact early_stop_spec. Qed.
Print Assumptions C53_criterion.

(** a run stops exactly at the first validation whose history meets the criterion; [vs] are the
    criterion values this run added to the history [cv] it started from *)
Theorem C53_run : forall W O P R B Y (bsize : B -> nat) (opt_save : O -> P)
  (train_step : B -> W * O * R -> res (Y * Q * (W * O * R))) (val_step : B -> W -> R -> res (Y * Q * R))
  (c : config R B Y) start_epoch st st' stop cv,
  NoDup (map fst (metric_list c)) -> (forall r, List.length (fst (train_data c r)) = bpe c) -> 0 < bpe c ->
  well_keyed c st -> start_epoch <= epochs c -> criterion_vals c (val_costs st) (val_res st) = Ok cv ->
  fit bsize opt_save train_step val_step c start_epoch st = Ok (st', stop) ->
  exists vs, criterion_vals c (val_costs st') (val_res st') = Ok (cv ++ vs) /\
    (stop = true <-> exists k, es_interval c = Some k /\ stalled (minimize c) k (cv ++ vs)) /\
    (forall p q k, vs = p ++ q -> p <> [] -> q <> [] -> es_interval c = Some k -> ~ stalled (minimize c) k (cv ++ p)).
Proof. intros. eapply fit_early; eassumption. Qed.
Print Assumptions C53_run.

(** hence never without an interval, and never before interval + 1 validations *)
Theorem C53_not_early : forall W O P R B Y (bsize : B -> nat) (opt_save : O -> P)
  (train_step : B -> W * O * R -> res (Y * Q * (W * O * R))) (val_step : B -> W -> R -> res (Y * Q * R))
  (c : config R B Y) start_epoch st st' cv',
  NoDup (map fst (metric_list c)) -> (forall r, List.length (fst (train_data c r)) = bpe c) -> 0 < bpe c ->
  well_keyed c st -> start_epoch <= epochs c -> criterion_vals c (val_costs st') (val_res st') = Ok cv' ->
  fit bsize opt_save train_step val_step c start_epoch st = Ok (st', true) ->
  exists k, es_interval c = Some k /\ 0 < k /\ k + 1 <= List.length cv'.
Proof. intros. eapply fit_not_early; eassumption. Qed.
Print Assumptions C53_not_early.

Example C53_nonvacuous : exists st', demo_fit [5; 4; 3; 2; 1; 1; 1; 0; 0; 3; 0; 0; 4; 0; 0; 5]%Q (demo_cfg 9 (Some 1) (Some 2) None) 1 (demo_new (demo_cfg 9 (Some 1) (Some 2) None)) = Ok (st', true) /\
  map Qred (val_costs st') = [2; 1; 3; 4]%Q /\ stalled true 2 (map Qred (val_costs st')).
Proof. eexists. split; [vm_compute; reflexivity|]. split; [reflexivity|]. exists [2%Q], 1%Q, [3%Q; 4%Q]. repeat split; auto. repeat constructor. Qed.

(** ** C54 *)
(** within one call of fit: best_model.lt holds the snapshot taken at the first validation that
    attains the best value of this call, and is untouched when nothing was validated *)
Theorem C54_best_model_partial : forall W O P R B Y (bsize : B -> nat) (opt_save : O -> P)
  (train_step : B -> W * O * R -> res (Y * Q * (W * O * R))) (val_step : B -> W -> R -> res (Y * Q * R))
  (c : config R B Y) start_epoch st st' stop,
  NoDup (map fst (metric_list c)) -> (forall r, List.length (fst (train_data c r)) = bpe c) -> 0 < bpe c ->
  well_keyed c st ->
  fit bsize opt_save train_step val_step c start_epoch st = Ok (st', stop) ->
  exists new, trace st' = trace st ++ new /\
    match vals_of new with
    | [] => best_lt st' = best_lt st
    | _ => exists x, first_best (minimize c) (vals_of new) x /\ best_lt st' = Some (snd x)
    end.
Proof. intros. eapply fit_best; eassumption. Qed.
Print Assumptions C54_best_model_partial.

(** Across a resume the best value is forgotten: best_model.lt is overwritten by a worse model. *)
Theorem C54_resume_refuted :
  let tbl := [0; 0; 0; 1; 0; 0; 5]%Q in
  exists st1 s st2 st2',
    demo_fit tbl (demo_cfg 1 (Some 1) None None) 1 (demo_new (demo_cfg 1 (Some 1) None None)) = Ok (st1, false) /\
    model_lt st1 = Some s /\ map Qred (val_costs st1) = [1]%Q /\ option_map (@s_epoch _ _ _) (best_lt st1) = Some 1 /\
    demo_fit tbl (demo_cfg 2 (Some 1) None None) 2 (snd (resume 0 (fun _ p => p) (demo_cfg 2 (Some 1) None None) s (model_lt st1) (best_lt st1))) = Ok (st2, false) /\
    map Qred (val_costs st2) = [1; 5]%Q /\ option_map (@s_epoch _ _ _) (best_lt st2) = Some 2 /\
    demo_fit tbl (demo_cfg 2 (Some 1) None None) 1 (demo_new (demo_cfg 2 (Some 1) None None)) = Ok (st2', false) /\
    option_map (@s_epoch _ _ _) (best_lt st2') = Some 1.
Proof. do 4 eexists. do 8 (split; [vm_compute; reflexivity|]). vm_compute; reflexivity. Qed.
Print Assumptions C54_resume_refuted.

Example C54_nonvacuous : exists st', demo_fit [0; 0; 0; 7; 0; 0; 2; 0; 0; 3; 0; 0; 2]%Q (demo_cfg 4 (Some 1) None None) 1 (demo_new (demo_cfg 4 (Some 1) None None)) = Ok (st', false) /\
  map Qred (val_costs st') = [7; 2; 3; 2]%Q /\ option_map (@s_epoch _ _ _) (best_lt st') = Some 2 /\ option_map (@s_w _ _ _) (best_lt st') = Some 6.
Proof. eexists. split; [vm_compute; reflexivity|]. repeat split. Qed.

(** ** C55 *)
(** Train m epochs, reload model.lt into a fresh trainer, train up to n: same outcome (including
    the same exception or the same stop flag), same weights, optimiser state, generators, step
    counter and training/validation histories as training n epochs at once.  The training-set
    metrics agree too when the break falls on an evaluation step. *)
Theorem C55_resume_partial : forall W O P R B Y (bsize : B -> nat) (opt_new : O) (opt_save : O -> P) (opt_load : O -> P -> O)
  (train_step : B -> W * O * R -> res (Y * Q * (W * O * R))) (val_step : B -> W -> R -> res (Y * Q * R)),
  (forall b, 0 < bsize b) -> (forall o, opt_load opt_new (opt_save o) = o) ->
  forall (c : config R B Y) w r m n st1 s,
  NoDup (map fst (metric_list c)) -> (forall r, List.length (fst (train_data c r)) = bpe c) -> 0 < bpe c -> 1 <= m <= n ->
  fit bsize opt_save train_step val_step (with_epochs c m) 1 (new_trainer P opt_new c w r) = Ok (st1, false) ->
  model_lt st1 = Some s ->
  let '(se, st2) := resume opt_new opt_load c s (model_lt st1) (best_lt st1) in
  se = m + 1 /\
  rel_res (fun x y => snd x = snd y /\ alike (fst x) (fst y) /\
             (forall evs, evaluation_step c = Ok evs -> on_train c = false \/ (m * bpe c) mod evs = 0 -> train_res (fst x) = train_res (fst y)))
    (fit bsize opt_save train_step val_step (with_epochs c n) se st2)
    (fit bsize opt_save train_step val_step (with_epochs c n) 1 (new_trainer P opt_new c w r)).
Proof. exact resume_ok. Qed.
Print Assumptions C55_resume_partial.

(** a completed run always leaves the model.lt the theorem reloads *)
Theorem C55_checkpoint_exists : forall W O P R B Y (bsize : B -> nat) (opt_save : O -> P)
  (train_step : B -> W * O * R -> res (Y * Q * (W * O * R))) (val_step : B -> W -> R -> res (Y * Q * R))
  (c : config R B Y) start_epoch st st' stop,
  NoDup (map fst (metric_list c)) -> (forall r, List.length (fst (train_data c r)) = bpe c) -> 0 < bpe c ->
  well_keyed c st -> start_epoch <= epochs c ->
  fit bsize opt_save train_step val_step c start_epoch st = Ok (st', stop) ->
  exists e, start_epoch <= e <= epochs c /\ (stop = false -> e = epochs c) /\ model_lt st' = Some (snap_of opt_save e st').
Proof. intros. eapply fit_model_lt; eassumption. Qed.
Print Assumptions C55_checkpoint_exists.

(** With a break between evaluation steps the pending training metrics are lost. *)
Theorem C55_train_metrics_refuted :
  let c n := demo_cfg n (Some 2) None (Some [("m", fun y _ => y)]%string) in
  let tbl := [0; 0; 0; 0; 0; 0; 0]%Q in
  exists st1 s st2 st2',
    demo_fit tbl (c 1) 1 (demo_new (c 1)) = Ok (st1, false) /\ model_lt st1 = Some s /\
    demo_fit tbl (c 2) 2 (snd (resume 0 (fun _ p => p) (c 2) s (model_lt st1) (best_lt st1))) = Ok (st2, false) /\
    demo_fit tbl (c 2) 1 (demo_new (c 2)) = Ok (st2', false) /\
    map (fun kv => map Qred (snd kv)) (train_res st2) = [[19 # 5]]%Q /\ map (fun kv => map Qred (snd kv)) (train_res st2') = [[23 # 10]]%Q.
Proof. do 4 eexists. do 5 (split; [vm_compute; reflexivity|]). vm_compute; reflexivity. Qed.
Print Assumptions C55_train_metrics_refuted.

(** A run that stopped early takes one more optimiser step after a reload (the criterion is only
    looked at after a step), while one call with more epochs would not. *)
Theorem C55_early_stopped_refuted :
  let c n := demo_cfg n (Some 1) (Some 1) None in
  let tbl := [0; 0; 0; 1; 0; 0; 2; 0; 0; 0]%Q in
  exists st1 s st2 st2',
    demo_fit tbl (c 2) 1 (demo_new (c 2)) = Ok (st1, true) /\ model_lt st1 = Some s /\
    demo_fit tbl (c 3) 3 (snd (resume 0 (fun _ p => p) (c 3) s (model_lt st1) (best_lt st1))) = Ok (st2, true) /\
    demo_fit tbl (c 3) 1 (demo_new (c 3)) = Ok (st2', true) /\ t_step st2 = 7 /\ t_step st2' = 6.
Proof. do 4 eexists. do 5 (split; [vm_compute; reflexivity|]). vm_compute; reflexivity. Qed.
Print Assumptions C55_early_stopped_refuted.

Example C55_nonvacuous : let c n := demo_cfg n (Some 1) None (Some [("m", fun y _ => y)]%string) in
  let tbl := [0; 0; 0; 3; 0; 0; 2]%Q in
  exists st1 s, demo_fit tbl (c 1) 1 (demo_new (c 1)) = Ok (st1, false) /\ model_lt st1 = Some s /\ s_step s = 3 /\
    (1 * bpe (c 2)) mod 3 = 0 /\ List.length (s_train_costs s) = 3.
Proof. do 2 eexists. do 4 (split; [vm_compute; reflexivity|]). reflexivity. Qed.

(** ** C74 *)
(** [is_mean sizes values m]: m times the sum of the sizes is the sum of the size-weighted values *)
Theorem C74_epoch_cost : forall W O P R B Y (bsize : B -> nat) (opt_save : O -> P)
  (train_step : B -> W * O * R -> res (Y * Q * (W * O * R))) (val_step : B -> W -> R -> res (Y * Q * R))
  (c : config R B Y) evs epoch st st' stop,
  one_epoch bsize opt_save train_step val_step c evs epoch st = Ok (st', stop) ->
  exists bs1 bs2 qs m, fst (train_data c (t_rng st)) = bs1 ++ bs2 /\ (stop = false -> bs2 = []) /\
    train_costs st' = train_costs st ++ qs /\ train_epoch_costs st' = train_epoch_costs st ++ [m] /\ is_mean (map bsize bs1) qs m.
Proof. intros. eapply one_epoch_costs; eassumption. Qed.
Print Assumptions C74_epoch_cost.
Theorem C74_validation_cost : forall W O P R B Y (bsize : B -> nat) (opt_save : O -> P) (val_step : B -> W -> R -> res (Y * Q * R))
  (c : config R B Y) epoch vd (st st' : tstate W O P R B), validate bsize opt_save val_step c epoch vd st = Ok st' ->
  train_costs st' = train_costs st /\ train_epoch_costs st' = train_epoch_costs st /\
  exists qs m, val_costs st' = val_costs st ++ [m] /\ is_mean (map bsize (fst (vd (t_rng st)))) qs m.
Proof. intros. eapply validate_costs; eassumption. Qed.
Print Assumptions C74_validation_cost.
Example C74_ok : is_mean [2; 2; 1] [1; 2; 4]%Q 2%Q.
Proof. repeat split; discriminate. Qed.
