(** Vocabulary of the theorems about the trainer. *)

From Coq Require Import String ZArith QArith List Bool.
From Verif Require Import LossScale_Model Trainer_Model.
Import ListNotations.
Local Open Scope Z_scope.

(** *** When a periodic action is due *)
Definition due_at_step (d : period) (n : Z) : Prop := exists k, every_n_steps d = Some k /\ after_n_steps d < n /\ (k | n).
Definition due_at_epoch (d : period) (e : Z) : Prop :=
  exists k, every_n_data_epochs d = Some k /\ after_n_data_epochs d < e /\ (k | e).

(** The same as computations. *)
Definition due (d : period) (n : Z) : bool :=
  match every_n_steps d with Some k => (after_n_steps d <? n) && (n mod k =? 0) | None => false end.
Definition due_epoch (d : period) (n e : Z) : bool :=
  match every_n_data_epochs d with Some k => (after_n_data_epochs d <? e) && (e mod k =? 0) && negb (due d n) | None => false end.

(** *** What a run does *)
Inductive act :=
| AUpdate (n e : Z)          (* optimizer update number [n], in epoch [e] *)
| AOverflow (n : Z)          (* gradient overflow in the attempt at update [n] *)
| AEpochEnd (e n : Z)        (* epoch [e] ended, after update [n] *)
| ASave (n : Z)
| APublish (n : Z)
| AValidate (n : Z)
| AScore (n : Z)             (* the score of step [n] is written to the checkpoint *)
| AEnd (k : end_kind).

Definition act_of {E} (v : event E) : list act :=
  match v with
  | EvUpdate _ n e _ _ _ _ => [AUpdate n e]
  | EvOverflow _ n => [AOverflow n]
  | EvEpochEnd _ e n => [AEpochEnd e n]
  | EvSave _ s => [ASave (sn_step _ s)]
  | EvSaveModel _ n _ => [ASave n]
  | EvPublish _ n _ _ => [APublish n]
  | EvValidate _ n _ => [AValidate n]
  | EvScore _ n _ => [AScore n]
  | EvEnd _ k => [AEnd k]
  | EvRequest _ => []
  end.
Definition acts {E} (t : list (event E)) : list act := flat_map act_of t.

Definition updates (t : list act) : list Z := flat_map (fun a => match a with AUpdate n _ => [n] | _ => [] end) t.

(** The three kinds of periodic actions. *)
Inductive kind := Checkpoint | Publication | Validation.
Definition period_of (c : config) (k : kind) : period :=
  match k with Checkpoint => checkpoint c | Publication => publication c | Validation => validation c end.
Definition act_for (k : kind) (n : Z) : act :=
  match k with Checkpoint => ASave n | Publication => APublish n | Validation => AValidate n end.
Definition enabled (c : config) (k : kind) : Prop := k = Validation -> has_validator c = true.

(** Points of a run at which no action is pending. *)
Definition settled (p : phase) : Prop := p = DATA_LOAD \/ p = STEP \/ p = STOPPED.

Definition each {A} (o : option A) (P : A -> Prop) : Prop := forall x, o = Some x -> P x.

(** *** The grammar of runs: what can happen after [n] updates, in epoch [e] *)
Section Grammar.
  Variable c : config.

  (** Checkpoint, metrics, validation in this order; the score is written if there is one ([scored]) and a checkpoint. *)
  Definition periodic (sv pb vl scored : bool) (n : Z) : list act :=
    (if sv then [ASave n] else []) ++ (if pb then [APublish n] else []) ++
    (if vl then AValidate n :: (if scored && sv then [AScore n] else []) else []).

  (** At the end of the run the metrics come first. *)
  Definition final (sv pb vl scored : bool) (n : Z) (k : end_kind) : list act :=
    (if pb then [APublish n] else []) ++ (if sv then [ASave n] else []) ++
    (if vl then AValidate n :: (if scored && sv then [AScore n] else []) else []) ++ [AEnd k].

  Definition at_step (scored : bool) (n : Z) : list act :=
    periodic (due (checkpoint c) n) (due (publication c) n) (has_validator c && due (validation c) n) scored n.
  Definition at_epoch (scored : bool) (n e : Z) : list act :=
    periodic (due_epoch (checkpoint c) n e) (due_epoch (publication c) n e) (has_validator c && due_epoch (validation c) n e) scored n.
  Definition at_end (scored : bool) (n : Z) (k : end_kind) : list act := final true true (has_validator c) scored n k.
  (** What was done at this step already is not done again. *)
  Definition at_data_end (scored : bool) (n : Z) : list act :=
    final (negb (due (checkpoint c) n)) (negb (due (publication c) n)) (has_validator c && negb (due (validation c) n)) scored n EndOfData.
  Definition at_early_stop (n : Z) : list act := (if due (checkpoint c) n then [] else [ASave n]) ++ [AEnd EarlyStop].

  Definition more_steps (n : Z) : Prop := forall m, max_num_steps c = Some m -> n < m.
  Definition more_epochs (e : Z) : Prop := forall m, max_num_data_epochs c = Some m -> e < m.

  Inductive history : Z -> Z -> list act -> Prop :=
  | H_cut n e : history n e []
  | H_overflow n e t : fp16 c <> None -> history n e t -> history n e (AOverflow (n + 1) :: t)
  | H_update n e sc t : more_steps (n + 1) -> history (n + 1) e t ->
      history n e (AUpdate (n + 1) e :: at_step sc (n + 1) ++ t)
  | H_epoch n e sc t : n <> 0 -> more_epochs e -> history n (e + 1) t ->
      history n e (AEpochEnd e n :: at_epoch sc n e ++ t)
  | H_last n e sc : max_num_steps c = Some (n + 1) -> history n e (AUpdate (n + 1) e :: at_end sc (n + 1) EndOfTraining)
  | H_data_end n e sc : n <> 0 -> (exists m, max_num_data_epochs c = Some m /\ m <= e) ->
      history n e (AEpochEnd e n :: at_data_end sc n)
  | H_empty e : history 0 e [AEnd EmptyData]
  | H_stop_update n e sc : max_num_steps c = None -> history n e (AUpdate (n + 1) e :: at_end sc (n + 1) StopRequested)
  | H_stop_epoch n e sc : n <> 0 -> max_num_steps c = None -> more_epochs e ->
      history n e (AEpochEnd e n :: at_end sc n StopRequested)
  | H_stop_overflow n e sc : fp16 c <> None -> history n e (AOverflow (n + 1) :: at_end sc (n + 1) StopRequested)
  | H_early_update n e : has_early_stopper c = true -> has_validator c = true -> due (validation c) (n + 1) = true -> more_steps (n + 1) ->
      history n e (AUpdate (n + 1) e :: at_step true (n + 1) ++ at_early_stop (n + 1))
  | H_early_epoch n e : n <> 0 -> has_early_stopper c = true -> has_validator c = true -> due_epoch (validation c) n e = true -> more_epochs e ->
      history n e (AEpochEnd e n :: at_epoch true n e ++ at_early_stop n).

  Definition run_history (t : list act) : Prop :=
    if validate_at_start c then has_validator c = true /\ (t = [] \/ exists t', t = AValidate 0 :: t' /\ history 0 1 t')
    else history 0 1 t.
End Grammar.

(** *** Resuming *)
Section Resume.
  Context {E : env}.

  (** Two data readers that nobody can tell apart. *)
  Definition bisimulation (R : Reader E -> Reader E -> Prop) : Prop :=
    forall r r', R r r' ->
      fst (reader_next E r) = fst (reader_next E r') /\ R (snd (reader_next E r)) (snd (reader_next E r')) /\
      R (reader_reset E r) (reader_reset E r').
  (** A reader that loads the state of another continues like it. *)
  Definition resumable : Prop :=
    exists R, bisimulation R /\ (forall r, R r r) /\ (forall r1 r2 r3, R r1 r2 -> R r2 r3 -> R r1 r3) /\
      forall r r0, R (reader_load E (reader_save E r) r0) r.

  (** The metrics whose values survive a restart. *)
  Definition totals (b : metrics E) : metrics E := filter (fun nv => is_total (fst nv)) b.

  (** What is compared: everything but the values of other metrics and the representation of the reader's position. *)
  Inductive observed :=
  | OUpdate (n e : Z) (bs : list (Batch E)) (m : Model E) (o : Optim E) (l : Lr E)
  | OOverflow (n : Z)
  | OEpochEnd (e n : Z)
  | OSave (n e : Z) (l : Lr E) (g : grad_scaler) (r : Rng E) (b : metrics E) (m : Model E) (o : Optim E)
  | OSaveModel (n : Z) (m : Model E)
  | OPublish (n e : Z) (b : metrics E)
  | OValidate (n : Z) (m : Model E)
  | OScore (n : Z) (s : Score E)
  | OEnd (k : end_kind)
  | ORequest.
  Definition observe (v : event E) : observed :=
    match v with
    | EvUpdate _ n e bs m o l => OUpdate n e bs m o l
    | EvOverflow _ n => OOverflow n
    | EvEpochEnd _ e n => OEpochEnd e n
    | EvSave _ s => OSave (sn_step _ s) (sn_epoch _ s) (sn_lr _ s) (sn_scaler _ s) (sn_rng _ s) (totals (sn_bag _ s)) (sn_model _ s) (sn_optim _ s)
    | EvSaveModel _ n m => OSaveModel n m
    | EvPublish _ n e b => OPublish n e (totals b)
    | EvValidate _ n m => OValidate n m
    | EvScore _ n s => OScore n s
    | EvEnd _ k => OEnd k
    | EvRequest _ => ORequest
    end.

  (** The optimizer updates of a trace: number, epoch, batches, and the model, optimizer and schedule after it. *)
  Definition update_list (t : list (event E)) : list (Z * Z * list (Batch E) * Model E * Optim E * Lr E) :=
    flat_map (fun v => match v with EvUpdate _ n e bs m o l => [(n, e, bs, m, o, l)] | _ => [] end) t.
End Resume.

(** The states in which a trainer may start: a new run, or a restart from a checkpoint that an earlier trainer of the same run
    has written, however far that trainer got and whether or not it was asked to stop. Restrictions: the checkpoint was not
    written in the last epoch, and with a loss scaler nobody asked the trainer to stop. *)
Definition usable (c : config) {E} (t : list (event E)) (x : snapshot E) : Prop :=
  more_epochs c (sn_epoch E x) /\ (fp16 c <> None -> ~ In (EvRequest E) t).

Inductive life (c : config) (E : env) : st E -> Prop :=
| life_new : life c E (init_st c E)
| life_restart s t s' x : life c E s -> exec c E s t s' -> In (EvSave E x) t -> usable c t x -> life c E (restore c E x).

(** [1; 2; ...; n] *)
Definition one_to (n : Z) : list Z := map Z.of_nat (seq 1 (Z.to_nat n)).

(** The gradient that the training step in state [s] hands to the optimizer, before clipping. *)
Definition step_gradient {E} (s : st E) (bs : list (Batch E)) : Grad E :=
  let scale := gs_scale (scaler E s) in
  let '(g, _, nt, _) := accumulate E (step_nr E s + 1) (epoch E s) scale (length bs) (model E s) bs (zero_grad E) (rng E s) 0 (bag E s) in
  unscale E scale (if 0 <? nt then normalize E nt g else g).

Definition num_overflows (t : list act) : nat := List.length (filter (fun a => match a with AOverflow _ => true | _ => false end) t).
Definition num_epochs (t : list act) : nat := List.length (filter (fun a => match a with AEpochEnd _ _ => true | _ => false end) t).

(** *** Gradient accumulation *)
(** The forward and backward passes of the batches of a step, one after the other: gradients and generators are handed on; the
    last argument lists the numbers of targets. *)
Inductive passes (E : env) (step ep : Z) (scale : Q) (nb : nat) (m : Model E) :
    Rng E -> Grad E -> list (Batch E) -> Rng E -> Grad E -> list (option Z) -> Prop :=
| passes_nil r g : passes E step ep scale nb m r g [] r g []
| passes_cons r g x bs g1 r1 k f r' g' ks : forward_backward E step ep scale nb m r x g = (g1, r1, k, f) ->
    passes E step ep scale nb m r1 g1 bs r' g' ks -> passes E step ep scale nb m r g (x :: bs) r' g' (k :: ks).
Definition num_targets (ks : list (option Z)) : Z := fold_right Z.add 0 (map (fun k => match k with Some n => n | None => 0 end) ks).
Definition normalized {E} (n : Z) (g : Grad E) : Grad E := if 0 <? n then normalize E n g else g.
