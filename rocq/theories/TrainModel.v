(** Model of [lambeq/training/trainer.py] (class Trainer) with the training and validation steps of
    [quantum_trainer.py].  Durations, tensorboard, tqdm and console output are not modelled: they do
    not feed back into training.  Floats are exact rationals. *)
From Coq Require Import QArith.
From Verif Require Import PyBase DataModel.
Set Implicit Arguments.

Inductive eval_mode := EpochMode | StepMode | OtherMode.

Section Trainer.
  (** W weights, O live optimiser, P optimiser state_dict, R random generators, B batch, Y prediction *)
  Variables W O P R B Y : Type.
  (** [len(batch[0])] *)
  Variable bsize : B -> nat.
  (** optimiser state_dict / load_state_dict into the optimiser built by the constructor *)
  Variable opt_new : O.
  Variable opt_save : O -> P.
  Variable opt_load : O -> P -> O.
  (** QuantumTrainer.training_step, quantum_trainer.py 146-168: backward and optimiser step *)
  Variable train_step : B -> W * O * R -> res (Y * Q * (W * O * R)).
  (** QuantumTrainer.validation_step, 170-189: weights unchanged, may draw random numbers *)
  Variable val_step : B -> W -> R -> res (Y * Q * R).

  (** arguments of the constructor and of [fit] *)
  Record config := Config {
    epochs : nat;
    train_data : R -> list B * R;                      (* iter(train_dataset) *)
    bpe : nat;                                         (* train_dataset.batches_per_epoch *)
    val_data : option (R -> list B * R);               (* iter(val_dataset), None if absent *)
    eval_interval : option nat;
    mode : eval_mode;
    metrics : option (list (string * (Y -> B -> Q)));  (* evaluate_functions *)
    on_train : bool;                                   (* evaluate_on_train *)
    es_criterion : option string;
    es_interval : option nat;
    minimize : bool }.

  (** contents of a checkpoint file: model, training history, counters, generator and optimiser
      states (trainer.py 693-708, 778-791; quantum_trainer.py 127-129) *)
  Record snapshot := Snap {
    s_w : W; s_opt : P; s_rng : R; s_epoch : nat; s_step : nat;
    s_train_costs : list Q; s_train_epoch_costs : list Q; s_train_res : dict (list Q);
    s_val_costs : list Q; s_val_res : dict (list Q) }.

  (** ghost observations: one optimiser step, one validation pass with the criterion value and the
      weights it was measured on *)
  Inductive event :=
  | ETrain (step : nat) (b : B)
  | EVal (step : nat) (criterion : Q) (snap : snapshot).

  Record tstate := TS {
    t_w : W; t_opt : O; t_rng : R; t_step : nat;
    train_costs : list Q; train_epoch_costs : list Q;
    train_res : dict (list Q); train_run : dict (list (nat * Q));
    val_costs : list Q; val_res : dict (list Q); val_run : dict (list (nat * Q));
    best_val : option Q;                     (* best_val_criterion, None = inf *)
    model_lt : option snapshot;              (* file model.lt *)
    best_lt : option snapshot;               (* file best_model.lt *)
    trace : list event }.

  (** [_get_weighted_mean], trainer.py 371-378 *)
  Definition weighted_mean (l : list (nat * Q)) : res Q :=
    let total := fold_left (fun a (x : nat * Q) => a + inject_Z (Z.of_nat (fst x)) * snd x)%Q l 0%Q in
    let batches := fold_left (fun a (x : nat * Q) => a + fst x) l 0 in
    if batches =? 0 then Err ZeroDivisionError else Ok (total / inject_Z (Z.of_nat batches))%Q.

  (** dict[k] = f(dict[k]) for a key that is present; the dicts get their keys in the constructor *)
  Definition dict_upd {V} (d : dict V) (k : string) (f : V -> V) : dict V :=
    map (fun kv => if String.eqb k (fst kv) then (fst kv, f (snd kv)) else kv) d.

  Definition metric_list (c : config) := match metrics c with Some l => l | None => [] end.

  (** the metric part of [_step_and_eval], trainer.py 392-398 *)
  Definition eval_metrics (c : config) (y : Y) (b : B) (run : dict (list (nat * Q))) : dict (list (nat * Q)) :=
    fold_left (fun d nf => dict_upd d (fst nf) (fun l => l ++ [(bsize b, snd nf y b)])) (metric_list c) run.

  (** [_summarize_metric], trainer.py 403-427: append the mean, reset the running lists *)
  Definition summarize (run : dict (list (nat * Q))) (results : dict (list Q)) : res (dict (list (nat * Q)) * dict (list Q)) :=
    do results' <- foldM (fun r kv => do m <- weighted_mean (snd kv); Ok (dict_upd r (fst kv) (fun l => l ++ [m]))) run results;
    Ok (map (fun kv => (fst kv, [])) run, results').

  (** [criterion_vals], trainer.py 456-460 and 682-686 *)
  Definition criterion_vals (c : config) (vc : list Q) (vr : dict (list Q)) : res (list Q) :=
    match es_criterion c with
    | None => Ok vc
    | Some n => match dict_get vr n with Some l => Ok l | None => Err KeyError end
    end.

  Definition factor (c : config) (q : Q) : Q := (if minimize c then q else - q)%Q.

  Definition list_min (x : Q) (l : list Q) : Q := fold_left (fun a b => if Qle_bool a b then a else b) l x.
  Definition qlt_bool (a b : Q) : bool := negb (Qle_bool b a).

  (** [_check_early_stopping], trainer.py 429-471, on the criterion values *)
  Definition early_stop (c : config) (vals : list Q) : res bool :=
    match es_interval c with
    | None => Ok false
    | Some k =>
        if k <? List.length vals then
          do ref <- py_index vals (- Z.of_nat k - 1);
          (* [-k:] with k = 0 is the whole list *)
          match map (factor c) (py_slice vals (Some (- Z.of_nat k)%Z) None) with
          | [] => Err ValueError
          | x :: l => Ok (qlt_bool (factor c ref) (list_min x l))
          end
        else Ok false
    end.

  (** evaluation_step, trainer.py 528-534; None times an int is a TypeError.  In step mode the None
      is only used in line 550 ([log_interval * evaluation_step]), also a TypeError. *)
  Definition evaluation_step (c : config) : res nat :=
    match mode c, eval_interval c with
    | OtherMode, _ => Err ValueError
    | _, None => Err TypeError
    | EpochMode, Some e => Ok (e * bpe c)
    | StepMode, Some e => Ok e
    end.

  (** what save_checkpoint writes (trainer.py 287-306) *)
  Definition snap_of (epoch : nat) (st : tstate) : snapshot :=
    Snap (t_w st) (opt_save (t_opt st)) (t_rng st) epoch (t_step st)
         (train_costs st) (train_epoch_costs st) (train_res st) (val_costs st) (val_res st).

  (** the validation pass over the batches, trainer.py 626-649 *)
  Fixpoint val_loop (c : config) (bs : list B) (w : W) (r : R) (run : dict (list (nat * Q))) (losses : list (nat * Q))
    : res (R * dict (list (nat * Q)) * list (nat * Q)) :=
    match bs with
    | [] => Ok (r, run, losses)
    | b :: bs' =>
        do (y, loss, r') <- val_step b w r;
        val_loop c bs' w r' (eval_metrics c y b run) (losses ++ [(bsize b, loss)])
    end.

  (** trainer.py 625-708: validate, record, keep the best model *)
  Definition validate (c : config) (epoch : nat) (vd : R -> list B * R) (st : tstate) : res tstate :=
    let '(bs, r1) := vd (t_rng st) in
    do (r2, run, losses) <- val_loop c bs (t_w st) r1 (val_run st) [];
    do m <- weighted_mean losses;
    do (run', vres) <- summarize run (val_res st);
    let vc := val_costs st ++ [m] in
    let st1 := TS (t_w st) (t_opt st) r2 (t_step st) (train_costs st) (train_epoch_costs st) (train_res st) (train_run st)
                  vc vres run' (best_val st) (model_lt st) (best_lt st) (trace st) in
    do cv <- criterion_vals c vc vres;
    do last <- py_index cv (-1);
    let v := factor c last in
    let st2 := TS (t_w st) (t_opt st) r2 (t_step st) (train_costs st) (train_epoch_costs st) (train_res st) (train_run st)
                  vc vres run' (best_val st) (model_lt st) (best_lt st) (trace st ++ [EVal (t_step st) last (snap_of epoch st1)]) in
    if match best_val st with None => true | Some b => qlt_bool v b end
    then Ok (TS (t_w st2) (t_opt st2) (t_rng st2) (t_step st2) (train_costs st2) (train_epoch_costs st2) (train_res st2) (train_run st2)
                (val_costs st2) (val_res st2) (val_run st2) (Some v) (model_lt st2) (Some (snap_of epoch st2)) (trace st2))
    else Ok st2.

  (** trainer.py 587-762: one training batch; the boolean says to break *)
  Definition one_batch (c : config) (evs : nat) (epoch : nat) (st : tstate) (losses : list (nat * Q)) (b : B)
    : res (tstate * list (nat * Q) * bool) :=
    do (y, loss, wor) <- train_step b (t_w st, t_opt st, t_rng st);
    let '(w, o, r) := wor in
    let step := t_step st + 1 in
    let run := if on_train c then eval_metrics c y b (train_run st) else train_run st in
    (* [step % evaluation_step] is only evaluated behind [on_train] or a validation set *)
    if (evs =? 0) && (on_train c || match val_data c with Some _ => true | None => false end) then Err ZeroDivisionError else
    do (run', tres) <- (if on_train c && (step mod evs =? 0) then summarize run (train_res st) else Ok (run, train_res st));
    let st1 := TS w o r step (train_costs st ++ [loss]) (train_epoch_costs st) tres run'
                  (val_costs st) (val_res st) (val_run st) (best_val st) (model_lt st) (best_lt st) (trace st ++ [ETrain step b]) in
    do st2 <- match val_data c with
              | Some vd => if step mod evs =? 0 then validate c epoch vd st1 else Ok st1
              | None => Ok st1
              end;
    do cv <- criterion_vals c (val_costs st2) (val_res st2);
    do stop <- early_stop c cv;
    Ok (st2, losses ++ [(bsize b, loss)], stop).

  Fixpoint batch_loop (c : config) (evs epoch : nat) (bs : list B) (st : tstate) (losses : list (nat * Q))
    : res (tstate * list (nat * Q) * bool) :=
    match bs with
    | [] => Ok (st, losses, false)
    | b :: bs' =>
        do (st', losses', stop) <- one_batch c evs epoch st losses b;
        if stop then Ok (st', losses', true) else batch_loop c evs epoch bs' st' losses'
    end.

  (** trainer.py 578-791: one epoch; model.lt is written at its end.  [early_stopping] keeps its
      value from the last batch (the dataset of a trainer is never empty). *)
  Definition one_epoch (c : config) (evs epoch : nat) (st : tstate) : res (tstate * bool) :=
    let '(bs, r) := train_data c (t_rng st) in
    let st0 := TS (t_w st) (t_opt st) r (t_step st) (train_costs st) (train_epoch_costs st) (train_res st) (train_run st)
                  (val_costs st) (val_res st) (val_run st) (best_val st) (model_lt st) (best_lt st) (trace st) in
    do (st1, losses, stop) <- batch_loop c evs epoch bs st0 [];
    do m <- weighted_mean losses;
    let st2 := TS (t_w st1) (t_opt st1) (t_rng st1) (t_step st1) (train_costs st1) (train_epoch_costs st1 ++ [m]) (train_res st1) (train_run st1)
                  (val_costs st1) (val_res st1) (val_run st1) (best_val st1) (model_lt st1) (best_lt st1) (trace st1) in
    Ok (TS (t_w st2) (t_opt st2) (t_rng st2) (t_step st2) (train_costs st2) (train_epoch_costs st2) (train_res st2) (train_run st2)
           (val_costs st2) (val_res st2) (val_run st2) (best_val st2) (Some (snap_of epoch st2)) (best_lt st2) (trace st2), stop).

  (** [for epoch in trange(start_epoch, epochs + 1)] with the outer break *)
  Fixpoint epoch_loop (c : config) (evs : nat) (es : list nat) (st : tstate) : res (tstate * bool) :=
    match es with
    | [] => Ok (st, false)
    | e :: es' =>
        do (st', stop) <- one_epoch c evs e st;
        if stop then Ok (st', true) else epoch_loop c evs es' st'
    end.

  (** [fit], trainer.py 525-800; [best_val_criterion] starts at inf in every call (line 570).  The
      timing summary divides by the number of epochs recorded (line 807). *)
  Definition fit (c : config) (start_epoch : nat) (st : tstate) : res (tstate * bool) :=
    do evs <- evaluation_step c;
    do _ <- match es_criterion c, metrics c with
            | Some n, Some l => if existsb (fun nf => String.eqb n (fst nf)) l then Ok tt else Err ValueError
            | _, _ => Ok tt
            end;
    let st0 := TS (t_w st) (t_opt st) (t_rng st) (t_step st) (train_costs st) (train_epoch_costs st) (train_res st) (train_run st)
                  (val_costs st) (val_res st) (val_run st) None (model_lt st) (best_lt st) (trace st) in
    do (st', stop) <- epoch_loop c evs (seq start_epoch (epochs c + 1 - start_epoch)) st0;
    match train_epoch_costs st' with [] => Err ZeroDivisionError | _ => Ok (st', stop) end.

  (** constructor, trainer.py 131-168, without a checkpoint *)
  Definition empty_dict {V} (c : config) : dict (list V) := map (fun nf => (fst nf, [])) (metric_list c).
  Definition new_trainer (c : config) (w : W) (r : R) : tstate :=
    TS w opt_new r 0 [] [] (empty_dict c) (empty_dict c) [] (empty_dict c) (empty_dict c) None None None [].

  (** constructor with from_checkpoint=True and the start of fit (trainer.py 243-285, 525-526;
      quantum_trainer.py 131-144), with a seed; the files are those of the log directory *)
  Definition resume (c : config) (s : snapshot) (model best : option snapshot) : nat * tstate :=
    (s_epoch s + 1,
     TS (s_w s) (opt_load opt_new (s_opt s)) (s_rng s) (s_step s) (s_train_costs s) (s_train_epoch_costs s)
        (s_train_res s) (empty_dict c) (s_val_costs s) (s_val_res s) (empty_dict c) None model best []).
End Trainer.
Arguments ETrain {W P R B} _ _.
Arguments EVal {W P R B} _ _ _.
