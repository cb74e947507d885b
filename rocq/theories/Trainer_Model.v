(** The trainer (src/fairseq2/trainer.py).

    One process is modelled. What the trainer calls (the unit, the model, the optimizer, the schedule, the data reader, the
    validator, the early stopper) is the parameter [env]; the loss scaler is the one of [LossScale_Model]. Metric values are
    kept by name, the heap of metric objects is in [MetricBag_Model]; saving a checkpoint is one event, its crash behaviour is
    in [Ckpt_Model]. Stopwatches, progress bars, profilers, garbage collection, gradient checking, hooks and the Hugging Face
    export are left out; so is the deletion of stale checkpoints, which is in [Ckpt_Model]. *)

From Coq Require Import String ZArith QArith List Bool.
From Verif Require Import LossScale_Model.
Import ListNotations.
Local Open Scope Z_scope.

(** The arguments of the constructor, trainer.py:108-152. One [period] for each of validation, checkpoints and metrics. *)
Record period := {
  after_n_steps : Z; every_n_steps : option Z;
  after_n_data_epochs : Z; every_n_data_epochs : option Z }.

(** [save_model_only]: [False], [True] or ["all"], ["all_but_last"]. *)
Inductive save_mode := SaveAll | SaveModelOnly | SaveAllButLast.

Record config := {
  max_num_steps : option Z;
  max_num_data_epochs : option Z;
  validate_at_start : bool;
  validation : period;
  checkpoint : period;
  publication : period;
  save_model_only : save_mode;
  keep_last_n : option Z; keep_best_n : option Z; keep_every_n_steps : option Z;
  has_validator : bool;             (* the validator is not [NOOP_VALIDATOR] *)
  has_early_stopper : bool;         (* the early stopper is not [NOOP_EARLY_STOPPER] *)
  fp16 : option scaler_cfg          (* [None]: the loss scaler is [NOOP_FP16_LOSS_SCALER] *)
}.

(** *** The checks of the constructor, trainer.py:165-276 *)
Inductive error := ValueError | ZeroDivisionError | InternalError | InvalidOperationError | MinimumLossScaleReachedError.

Inductive check := Accept | Reject (e : error).
Definition and_then (a b : check) : check := match a with Accept => b | r => r end.

Definition given {A} (o : option A) (f : A -> check) : check := match o with Some x => f x | None => Accept end.
Definition positive (x : Z) : check := if x <=? 0 then Reject ValueError else Accept.
(** [x % y != 0] raises [ZeroDivisionError] for [y = 0]. *)
Definition multiple (x y : Z) : check :=
  if y =? 0 then Reject ZeroDivisionError else if negb (x mod y =? 0) then Reject ValueError else Accept.
Definition not_zero (x : Z) : check := if x =? 0 then Reject ValueError else Accept.

Definition check_config (c : config) : check :=
  let v := validation c in let k := checkpoint c in let p := publication c in
  and_then (given (max_num_steps c) positive)
  (and_then (given (max_num_data_epochs c) positive)
  (and_then (given (every_n_steps v) (fun x => and_then (positive x) (given (every_n_steps p) (multiple x))))
  (and_then (given (every_n_data_epochs v) (fun x => and_then (positive x) (given (every_n_data_epochs p) (multiple x))))
  (and_then (given (every_n_steps k) (fun x => and_then (positive x) (given (every_n_steps p) (multiple x))))
  (and_then (given (every_n_data_epochs k) (fun x => and_then (positive x) (given (every_n_data_epochs p) (multiple x))))
  (and_then (given (keep_last_n c) positive)
  (and_then (given (keep_best_n c) (fun x => and_then (positive x)
      (given (every_n_steps k) (fun y => match every_n_steps v with None => Reject ValueError | Some z => multiple y z end))))
  (and_then (given (keep_every_n_steps c) (fun x => and_then (positive x) (given (every_n_steps k) (multiple x))))
  (and_then (given (every_n_steps p) not_zero)
  (given (every_n_data_epochs p) not_zero)))))))))).

(** *** The environment *)
Record env := {
  Batch : Type; Model : Type; Optim : Type; Lr : Type; Rng : Type; Grad : Type; Metric : Type; Score : Type; Stopper : Type;
  Reader : Type; ReaderState : Type;
  init_model : Model; init_optim : Optim; init_lr : Lr; init_rng : Rng; init_scale : Q; init_stopper : Stopper;
  init_bag : list (string * Metric);         (* the metrics added by the constructor and [prepare_metric_bag], 159-163 *)
  mreset : Metric -> Metric;
  (** The data reader: [next] ([None]: [StopIteration]), [reset], [state_dict], [load_state_dict]. *)
  init_reader : Reader;
  reader_next : Reader -> option (list Batch) * Reader;
  reader_reset : Reader -> Reader;
  reader_save : Reader -> ReaderState;
  reader_load : ReaderState -> Reader -> Reader;
  (** [TrainUnit.process_batch] in training step [step] of epoch [epoch], and [backward] with loss scale [scale]: from the
      gradients accumulated so far to the new gradients; the number of targets; the updates of the metrics. The division of
      the loss by the number of batches (581-584) is part of it: [nb] is that number. The forward pass does not change the model. *)
  zero_grad : Grad;
  forward_backward : forall (step epoch : Z) (scale : Q) (nb : nat), Model -> Rng -> Batch -> Grad ->
                     Grad * Rng * option Z * (string -> Metric -> Metric);
  normalize : Z -> Grad -> Grad;
  unscale : Q -> Grad -> Grad;
  has_inf : Grad -> bool;
  clip : Grad -> Grad;
  norm_metric : Grad -> Metric -> Metric;    (* [Mean.update(grad_norm)] *)
  opt_step : Grad -> Model -> Optim -> Model * Optim;
  lr_step : Lr -> Optim -> Lr * Optim;       (* [LRScheduler.step] writes the new rate to the optimizer *)
  validate : Z -> Model -> option Score;     (* [Validator.run]; it leaves the generators as they were *)
  should_stop : Z -> Score -> Stopper -> bool * Stopper
}.

Section Trainer.
  Variable c : config.
  Variable E : env.

  (** [_TrainerState], 1142-1155, without NOT_STARTED. *)
  Inductive phase :=
    PRE_VALIDATION | DATA_LOAD | STEP | POST_STEP | END_OF_DATA_EPOCH | END_OF_TRAINING | END_OF_DATA | GRAD_OVERFLOW |
    EARLY_STOP | STOP_REQUESTED | STOPPED.

  Definition metrics := list (string * Metric E).

  (** What a checkpoint holds: [_TrainerProxy.state_dict] (1165-1181), the model, the optimizer and the data reader. *)
  Record snapshot := Snap {
    sn_step : Z; sn_epoch : Z; sn_lr : Lr E; sn_scaler : grad_scaler; sn_rng : Rng E; sn_bag : metrics;
    sn_model : Model E; sn_optim : Optim E; sn_reader : ReaderState E }.

  Inductive end_kind := EndOfTraining | EndOfData | EarlyStop | StopRequested | EmptyData.

  Inductive event :=
  | EvUpdate (n e : Z) (bs : list (Batch E)) (m : Model E) (o : Optim E) (l : Lr E)  (* step [n] in epoch [e], and its result *)
  | EvOverflow (n : Z)
  | EvEpochEnd (e n : Z)
  | EvSave (s : snapshot)
  | EvSaveModel (n : Z) (m : Model E)
  | EvPublish (n e : Z) (b : metrics)
  | EvValidate (n : Z) (m : Model E)
  | EvScore (n : Z) (s : Score E)
  | EvEnd (k : end_kind)
  | EvRequest.                                         (* the caller calls [request_stop] *)

  (** The attributes of the trainer, 278-338. *)
  Record st := St {
    ph : phase; step_nr : Z; epoch : Z; model : Model E; optim : Optim E; lr : Lr E; scaler : grad_scaler; rng : Rng E;
    bag : metrics; orig : option metrics; reader : Reader E; batches : option (list (Batch E)); stop_requested : bool;
    stopper : Stopper E }.

  Definition set_ph p s := St p (step_nr s) (epoch s) (model s) (optim s) (lr s) (scaler s) (rng s) (bag s) (orig s) (reader s) (batches s) (stop_requested s) (stopper s).
  Definition set_step n s := St (ph s) n (epoch s) (model s) (optim s) (lr s) (scaler s) (rng s) (bag s) (orig s) (reader s) (batches s) (stop_requested s) (stopper s).
  Definition set_epoch e s := St (ph s) (step_nr s) e (model s) (optim s) (lr s) (scaler s) (rng s) (bag s) (orig s) (reader s) (batches s) (stop_requested s) (stopper s).
  Definition set_bag b s := St (ph s) (step_nr s) (epoch s) (model s) (optim s) (lr s) (scaler s) (rng s) b (orig s) (reader s) (batches s) (stop_requested s) (stopper s).
  Definition set_reader r bs s := St (ph s) (step_nr s) (epoch s) (model s) (optim s) (lr s) (scaler s) (rng s) (bag s) (orig s) r bs (stop_requested s) (stopper s).
  Definition set_stop b s := St (ph s) (step_nr s) (epoch s) (model s) (optim s) (lr s) (scaler s) (rng s) (bag s) (orig s) (reader s) (batches s) b (stopper s).
  Definition set_stopper x s := St (ph s) (step_nr s) (epoch s) (model s) (optim s) (lr s) (scaler s) (rng s) (bag s) (orig s) (reader s) (batches s) (stop_requested s) x.

  Definition init_st : st :=
    St (if validate_at_start c then PRE_VALIDATION else DATA_LOAD) 0 1 (init_model E) (init_optim E) (init_lr E)
       (gs_init (init_scale E)) (init_rng E) (init_bag E) None (init_reader E) None false (init_stopper E).

  (** [_should_do], 1048-1101, in phase [p]. [should_do_at_step] is lines 1058-1064. *)
  Definition should_do_at_step (d : period) (n : Z) : bool :=
    match every_n_steps d with
    | Some k => if after_n_steps d <? n then n mod k =? 0 else false
    | None => false
    end.

  Definition should_do (d : period) (p : phase) (n e : Z) : bool :=
    match p with
    | PRE_VALIDATION => false
    | POST_STEP => should_do_at_step d n
    | END_OF_TRAINING => true
    | END_OF_DATA => negb (should_do_at_step d n)
    | END_OF_DATA_EPOCH =>
        match every_n_data_epochs d with
        | Some k => if after_n_data_epochs d <? e then if e mod k =? 0 then negb (should_do_at_step d n) else false else false
        | None => false
        end
    | STOP_REQUESTED => true
    | EARLY_STOP => negb (should_do_at_step d n)
    | DATA_LOAD | STEP | GRAD_OVERFLOW | STOPPED => false   (* [InternalError]; not called in these states *)
    end.

  Definition should_save s := should_do (checkpoint c) (ph s) (step_nr s) (epoch s).                       (* 741-747 *)
  Definition should_publish s := should_do (publication c) (ph s) (step_nr s) (epoch s).                   (* 852-858 *)
  Definition should_validate s := has_validator c && should_do (validation c) (ph s) (step_nr s) (epoch s). (* 949-958 *)

  Definition snap s : snapshot :=
    Snap (step_nr s) (epoch s) (lr s) (scaler s) (rng s) (bag s) (model s) (optim s) (reader_save E (reader s)).

  (** [_save_checkpoint], 749-797. *)
  Definition save s : list event :=
    match save_model_only c with
    | SaveModelOnly => [EvSaveModel (step_nr s) (model s)]
    | SaveAll | SaveAllButLast => [EvSave (snap s)]
    end.

  Definition maybe_save s : list event := if should_save s then save s else [].                            (* 736-739 *)

  (** [_reset_non_total_metrics], 931-934. *)
  Definition is_total (name : string) : bool := String.prefix "total_" name.
  Definition reset_non_total (b : metrics) : metrics :=
    map (fun nv => if is_total (fst nv) then nv else (fst nv, mreset E (snd nv))) b.

  (** [_maybe_publish_metrics], 847-850, with [_publish_metrics], 860-929. *)
  Definition maybe_publish s : list event * st :=
    if should_publish s then ([EvPublish (step_nr s) (epoch s) (bag s)], set_bag (reset_non_total (bag s)) s) else ([], s).

  (** [_validate], 960-988, with [_save_score], 990-994. [None]: [InternalError]. *)
  Definition do_validate s : option (list event * option (Score E)) :=
    if has_validator c then
      let sc := validate E (step_nr s) (model s) in
      Some (EvValidate (step_nr s) (model s) ::
              match sc with Some x => if should_save s then [EvScore (step_nr s) x] else [] | None => [] end, sc)
    else None.

  Inductive result := Next (s : st) (evs : list event) | Raised (e : error).

  (** [_run_post_step], 681-702, with [_maybe_validate] (936-947) and [_maybe_request_early_stop] (996-1007). *)
  Definition run_post_step s : result :=
    let go (_ : unit) :=
      let ev1 := maybe_save s in
      let (ev2, s2) := maybe_publish s in
      if should_validate s2 then
        match do_validate s2 with
        | None => Raised InternalError
        | Some (ev3, sc) =>
            match sc with
            | Some x =>
                if has_early_stopper c then
                  let (b, sp) := should_stop E (step_nr s2) x (stopper s2) in
                  Next (set_ph (if b then EARLY_STOP else DATA_LOAD) (set_stopper sp s2)) (ev1 ++ ev2 ++ ev3)
                else Next (set_ph DATA_LOAD s2) (ev1 ++ ev2 ++ ev3)
            | None => Next (set_ph DATA_LOAD s2) (ev1 ++ ev2 ++ ev3)
            end
        end
      else Next (set_ph DATA_LOAD s2) (ev1 ++ ev2) in
    match max_num_steps c with
    | Some m => if m <=? step_nr s then Next (set_ph END_OF_TRAINING s) [] else go tt
    | None => if stop_requested s then Next (set_ph STOP_REQUESTED s) [] else go tt
    end.

  (** [_stop], 704-719. *)
  Definition stop (k : end_kind) s : result :=
    let (ev1, s1) := maybe_publish s in
    if should_validate s1 then
      match do_validate s1 with
      | None => Raised InternalError
      | Some (ev3, _) => Next (set_ph STOPPED s1) (ev1 ++ maybe_save s1 ++ ev3 ++ [EvEnd k])
      end
    else Next (set_ph STOPPED s1) (ev1 ++ maybe_save s1 ++ [EvEnd k]).

  (** [_early_stop], 721-734. *)
  Definition early_stop s : result := Next (set_ph STOPPED (set_stop true s)) (maybe_save s ++ [EvEnd EarlyStop]).

  (** The batches of a step, 559-598. *)
  Fixpoint accumulate (step ep : Z) (scale : Q) (nb : nat) (m : Model E) (bs : list (Batch E))
      (g : Grad E) (r : Rng E) (nt : Z) (b : metrics) : Grad E * Rng E * Z * metrics :=
    match bs with
    | [] => (g, r, nt, b)
    | x :: bs' =>
        let '(g', r', t, f) := forward_backward E step ep scale nb m r x g in
        accumulate step ep scale nb m bs' g' r' (match t with Some k => nt + k | None => nt end)
                   (map (fun nv => (fst nv, f (fst nv) (snd nv))) b)
    end.

  Definition update_metric (name : string) (f : Metric E -> Metric E) (b : metrics) : metrics :=
    map (fun nv => if String.eqb (fst nv) name then (fst nv, f (snd nv)) else nv) b.

  (** [_run_step] and [_do_run_step], 508-637, with [_inspect_fp16_scale_result], 658-667. *)
  Definition run_step s : result :=
    let n := step_nr s + 1 in
    match batches s with
    | None => Raised InternalError
    | Some bs =>
        match fp16 c with
        | None =>
            let '(g, r, nt, b) := accumulate n (epoch s) 1%Q (length bs) (model s) bs (zero_grad E) (rng s) 0 (bag s) in
            let g1 := if 0 <? nt then normalize E nt g else g in
            let g2 := clip E g1 in
            let (m', o') := opt_step E g2 (model s) (optim s) in
            let (l', o'') := lr_step E (lr s) o' in
            Next (St POST_STEP n (epoch s) m' o'' l' (scaler s) r (update_metric "grad_norm" (norm_metric E g1) b) (orig s)
                     (reader s) None (stop_requested s) (stopper s))
                 [EvUpdate n (epoch s) bs m' o'' l']
        | Some sc =>
            match orig s with
            | Some _ => Raised InvalidOperationError                              (* [begin_updates] in a transaction *)
            | None =>
                let scale := gs_scale (scaler s) in
                let '(g, r, nt, b) := accumulate n (epoch s) scale (length bs) (model s) bs (zero_grad E) (rng s) 0 (bag s) in
                let g1 := if 0 <? nt then normalize E nt g else g in
                let g2 := unscale E scale g1 in
                let g3 := clip E g2 in
                let '(rep, stepped, sc') := run_optimizer_step sc (has_inf E g2) (scaler s) in
                let (m', o') := if stepped then opt_step E g3 (model s) (optim s) else (model s, optim s) in
                if exploded rep then Raised MinimumLossScaleReachedError
                else if overflowed rep then
                  Next (St GRAD_OVERFLOW n (epoch s) m' o' (lr s) sc' r (bag s) None (reader s) None (stop_requested s) (stopper s))
                       [EvOverflow n]
                else
                  let (l', o'') := lr_step E (lr s) o' in
                  Next (St POST_STEP n (epoch s) m' o'' l' sc' r (update_metric "grad_norm" (norm_metric E g2) b) None
                           (reader s) None (stop_requested s) (stopper s))
                       [EvUpdate n (epoch s) bs m' o'' l']
            end
        end
    end.

  (** One iteration of the loop of [_do_run], 418-466. *)
  Definition trans s : result :=
    match ph s with
    | PRE_VALIDATION =>                                                            (* 468-472 *)
        match do_validate s with
        | None => Raised InternalError
        | Some (ev, _) => Next (set_ph DATA_LOAD s) ev
        end
    | DATA_LOAD =>                                                                 (* 474-491 *)
        match reader_next E (reader s) with
        | (Some bs, r) => Next (set_ph STEP (set_reader r (Some bs) s)) []
        | (None, r) =>
            let s' := set_reader (reader_reset E r) None s in
            if step_nr s =? 0 then Next (set_ph STOPPED s') [EvEnd EmptyData]
            else Next (set_ph END_OF_DATA_EPOCH s') []
        end
    | END_OF_DATA_EPOCH =>                                                         (* 493-506 *)
        let at_end := match max_num_data_epochs c with Some m => m <=? epoch s | None => false end in
        if at_end then Next (set_ph END_OF_DATA s) [EvEpochEnd (epoch s) (step_nr s)]
        else match run_post_step s with
             | Next s' evs => Next (set_epoch (epoch s' + 1) s') (EvEpochEnd (epoch s) (step_nr s) :: evs)
             | r => r
             end
    | STEP => run_step s
    | POST_STEP => run_post_step s
    | GRAD_OVERFLOW =>                                                             (* 669-679 *)
        if stop_requested s then Next (set_ph STOP_REQUESTED s) []
        else Next (set_ph DATA_LOAD (set_step (step_nr s - 1) s)) []
    | END_OF_TRAINING => stop EndOfTraining s
    | END_OF_DATA => stop EndOfData s
    | EARLY_STOP => early_stop s
    | STOP_REQUESTED => stop StopRequested s
    | STOPPED => Next s []
    end.

  (** [_maybe_restore_state], 363-416, with [_TrainerProxy.load_state_dict], 1183-1224: a new trainer that finds a checkpoint. *)
  Definition restore (x : snapshot) : st :=
    let p := if match max_num_steps c with Some m => m <=? sn_step x | None => false end then STOPPED
             else if match max_num_data_epochs c with Some m => m <=? sn_epoch x | None => false end then STOPPED
             else DATA_LOAD in
    St p (sn_step x) (sn_epoch x) (sn_model x) (sn_optim x) (sn_lr x) (sn_scaler x) (sn_rng x) (reset_non_total (sn_bag x)) None
       (reader_load E (sn_reader x) (init_reader E)) None false (init_stopper E).

  (** [run], 340-361, up to some point: any number of iterations, with calls of [request_stop] (1103-1104) in between. *)
  Inductive exec : st -> list event -> st -> Prop :=
  | exec_nil s : exec s [] s
  | exec_step s s1 s2 ev t : trans s = Next s1 ev -> exec s1 t s2 -> exec s (ev ++ t) s2
  | exec_request s s2 t : exec (set_stop true s) t s2 -> exec s (EvRequest :: t) s2.

  (** The uninterrupted run: [k] iterations without a call of [request_stop]; it stays where it is when an error is raised. *)
  Fixpoint iter (k : nat) s : list event * st :=
    match k with
    | O => ([], s)
    | Datatypes.S k' =>
        match trans s with
        | Next s1 ev => let (t, s2) := iter k' s1 in (ev ++ t, s2)
        | Raised _ => ([], s)
        end
    end.
End Trainer.
