(** C29, C30, C31: what the trainer does at which step, restarting from a checkpoint, and gradient overflows. *)

From Coq Require Import String ZArith QArith List Bool Lia.
From Verif Require Import LossScale_Model LossScale_Spec Trainer_Model Trainer_Spec Trainer_Proofs Trainer_Proofs2 Trainer_Proofs3 Trainer_Proofs4 Trainer_Proofs5.
Import ListNotations.
Local Open Scope Z_scope.

(** ** C29 *)

(** What the constructor accepts. *)
Theorem C29_config : forall c, check_config c = Accept <->
  each (max_num_steps c) (fun x => 1 <= x) /\ each (max_num_data_epochs c) (fun x => 1 <= x) /\
  each (every_n_steps (validation c)) (fun x => 1 <= x /\ each (every_n_steps (publication c)) (fun y => y <> 0 /\ (y | x))) /\
  each (every_n_data_epochs (validation c)) (fun x => 1 <= x /\ each (every_n_data_epochs (publication c)) (fun y => y <> 0 /\ (y | x))) /\
  each (every_n_steps (checkpoint c)) (fun x => 1 <= x /\ each (every_n_steps (publication c)) (fun y => y <> 0 /\ (y | x))) /\
  each (every_n_data_epochs (checkpoint c)) (fun x => 1 <= x /\ each (every_n_data_epochs (publication c)) (fun y => y <> 0 /\ (y | x))) /\
  each (keep_last_n c) (fun x => 1 <= x) /\
  each (keep_best_n c) (fun x => 1 <= x /\ each (every_n_steps (checkpoint c)) (fun y =>
                                   exists z, every_n_steps (validation c) = Some z /\ z <> 0 /\ (z | y))) /\
  each (keep_every_n_steps c) (fun x => 1 <= x /\ each (every_n_steps (checkpoint c)) (fun y => y <> 0 /\ (y | x))) /\
  each (every_n_steps (publication c)) (fun x => x <> 0) /\ each (every_n_data_epochs (publication c)) (fun x => x <> 0).
Proof. exact check_lemma. Qed.
Print Assumptions C29_config.

(** Every run of every accepted configuration, with stop requests at any time, follows the grammar [run_history]; a restarted
    run follows [history] from the step and epoch of its checkpoint, and does nothing if that step is the last one. *)
Theorem C29_history : forall c E t s, check_config c = Accept -> exec c E (init_st c E) t s -> settled (ph E s) -> run_history c (acts t).
Proof. exact run_history_lemma. Qed.
Print Assumptions C29_history.

Theorem C29_history_restart : forall c E x t s, 0 <= sn_step E x -> exec c E (restore c E x) t s -> settled (ph E s) ->
  history c (sn_step E x) (sn_epoch E x) (acts t) /\
  (forall m, max_num_steps c = Some m -> m <= sn_step E x -> acts t = []).
Proof. exact restart_history_lemma. Qed.
Print Assumptions C29_history_restart.

(** The updates are 1, 2, 3, ... without gap or repetition, and at most [max_num_steps]. *)
Theorem C29_updates : forall c E t s, check_config c = Accept -> exec c E (init_st c E) t s -> settled (ph E s) ->
  exists k : nat, updates (acts t) = one_to (Z.of_nat k) /\ (forall m, max_num_steps c = Some m -> Z.of_nat k <= m).
Proof.
  intros c E t s HC HX HS. apply updates_run; [eapply run_history_lemma; eauto|]. apply check_lemma in HC. apply HC.
Qed.
Print Assumptions C29_updates.

(** Between update [j] and the next one a checkpoint (metrics, validation) is made exactly if [j] is due, or an epoch that is
    due ends after update [j]; exactly once if there is no period in epochs. *)
Theorem C29_periodic : forall c E t s k j, check_config c = Accept -> exec c E (init_st c E) t s -> settled (ph E s) ->
  1 <= j -> (exists e, In (AUpdate (j + 1) e) (acts t)) ->
  (In (act_for k j) (acts t) <-> enabled c k /\ (due_at_step (period_of c k) j \/
      exists e, In (AEpochEnd e j) (acts t) /\ due_at_epoch (period_of c k) e)).
Proof. intros c E t s k j HC HX HS. apply periodic_lemma; [assumption|]. eapply run_history_lemma; eauto. Qed.
Print Assumptions C29_periodic.

Theorem C29_periodic_restart : forall c E x t s k j, check_config c = Accept -> 0 <= sn_step E x -> exec c E (restore c E x) t s -> settled (ph E s) ->
  sn_step E x < j -> (exists e, In (AUpdate (j + 1) e) (acts t)) ->
  (In (act_for k j) (acts t) <-> enabled c k /\ (due_at_step (period_of c k) j \/
      exists e, In (AEpochEnd e j) (acts t) /\ due_at_epoch (period_of c k) e)).
Proof. exact periodic_restart. Qed.
Print Assumptions C29_periodic_restart.

Theorem C29_once : forall c E t s k j, check_config c = Accept -> exec c E (init_st c E) t s -> settled (ph E s) ->
  every_n_data_epochs (period_of c k) = None -> 1 <= j -> (exists e, In (AUpdate (j + 1) e) (acts t)) ->
  (enabled c k -> due_at_step (period_of c k) j -> count_occ act_eq_dec (acts t) (act_for k j) = 1%nat) /\
  (~ (enabled c k /\ due_at_step (period_of c k) j) -> count_occ act_eq_dec (acts t) (act_for k j) = 0%nat).
Proof. intros c E t s k j HC HX HS. apply once_lemma; [assumption|]. eapply run_history_lemma; eauto. Qed.
Print Assumptions C29_once.

(** A run that reaches [max_num_steps] ends there, with a checkpoint, metrics and a validation of the last step. *)
Theorem C29_end : forall c E t s k, check_config c = Accept -> exec c E (init_st c E) t s -> settled (ph E s) -> In (AEnd EndOfTraining) (acts t) ->
  exists m, max_num_steps c = Some m /\ (enabled c k -> In (act_for k m) (acts t)) /\ exists t0, acts t = t0 ++ [AEnd EndOfTraining].
Proof. intros c E t s k HC HX HS. apply end_lemma. eapply run_history_lemma; eauto. Qed.
Print Assumptions C29_end.

(** The only errors: the loss scale at its minimum, and [validate_at_start] without a validator. *)
Theorem C29_errors : forall c E t s e, check_config c = Accept -> exec c E (init_st c E) t s -> trans c E s = Raised E e ->
  (e = MinimumLossScaleReachedError /\ ph E s = STEP /\ fp16 c <> None) \/
  (e = InternalError /\ validate_at_start c = true /\ has_validator c = false).
Proof. exact errors_lemma. Qed.
Print Assumptions C29_errors.

(** A requested stop: without [max_num_steps] at most the current update is made. Without a request no run ends that way. *)
Theorem C29_stop : forall c E t s t' s', check_config c = Accept -> max_num_steps c = None ->
  exec c E (init_st c E) t s -> exec c E s (EvRequest E :: t') s' -> (List.length (updates (acts t')) <= 1)%nat.
Proof.
  intros c E t s t' s' HC HM HX HX'. pose proof (inv_exec c E _ _ _ HX (inv_init c E HC)) as HI.
  assert (H : forall s0 tt, exec c E s0 tt s' -> inv c E s0 -> tt = EvRequest E :: t' -> (List.length (updates (acts t')) <= 1)%nat).
  { clear HX HX' HI s. induction 1 as [s|s s1 s2 ev tt HT HX IH|s s2 tt HX IH]; intros HI HE.
    - discriminate.
    - destruct ev as [|v ev]; [apply IH; [eapply inv_step; eauto|assumption]|]. exfalso. injection HE as HE _. subst v.
      clear IH HX. assert (HN : forall w, trans c E s = Next E s1 w -> ~ In (EvRequest E) w); [|eapply HN; [eassumption|left; reflexivity]].
      clear HT. intros w HT HIn.
      assert (HV : forall s0 e3 x, do_validate c E s0 = Some (e3, x) -> ~ In (EvRequest E) e3).
      { unfold do_validate. intros s0 e3 x. destruct (has_validator c); [|discriminate]. intros HQ. injection HQ as <- _. intros [HH|HH]; [discriminate|].
        destruct (validate E (step_nr E s0) (model E s0)); [destruct (should_save c E s0)|]; simpl in HH; intuition discriminate. }
      assert (HSv : forall s0, ~ In (EvRequest E) (maybe_save c E s0)).
      { intros s0. unfold maybe_save, save. destruct (should_save c E s0); [|intros []]. destruct (save_model_only c); intros [HH|[]]; discriminate. }
      assert (HPb : forall s0, ~ In (EvRequest E) (fst (maybe_publish c E s0))).
      { intros s0. unfold maybe_publish. destruct (should_publish c E s0); simpl; intuition discriminate. }
      assert (HPo : forall s0 s2 e2, run_post_step c E s0 = Next E s2 e2 -> ~ In (EvRequest E) e2).
      { intros s0 s3 e2 HQ HH. unfold run_post_step in HQ. specialize (HPb s0). destruct (maybe_publish c E s0) as [ep sp]. simpl in HPb. cbv zeta in HQ.
        destruct (max_num_steps c); [destruct (z <=? step_nr E s0); [injection HQ as _ <-; contradiction|]|destruct (stop_requested E s0); [injection HQ as _ <-; contradiction|]];
        (destruct (should_validate c E sp);
         [destruct (do_validate c E sp) as [[e3 x]|] eqn:ED; [|discriminate]; specialize (HV _ _ _ ED); destruct x;
            [destruct (has_early_stopper c); [destruct (should_stop E _ _ _)|]|]; injection HQ as _ <-;
            apply in_app_or in HH; (destruct HH as [HH|HH]; [apply (HSv s0 HH)|]); apply in_app_or in HH; tauto
         |injection HQ as _ <-; apply in_app_or in HH; (destruct HH as [HH|HH]; [apply (HSv s0 HH)|]); tauto]). }
      assert (HSt : forall k s0 s2 e2, stop c E k s0 = Next E s2 e2 -> ~ In (EvRequest E) e2).
      { intros k s0 s3 e2 HQ HH. unfold stop in HQ. specialize (HPb s0). destruct (maybe_publish c E s0) as [ep sp]. simpl in HPb.
        destruct (should_validate c E sp); [destruct (do_validate c E sp) as [[e3 x]|] eqn:ED; [|discriminate]; specialize (HV _ _ _ ED)|]; injection HQ as _ <-;
        apply in_app_or in HH; (destruct HH as [HH|HH]; [contradiction|]); apply in_app_or in HH; (destruct HH as [HH|HH]; [apply (HSv _ HH)|]).
        - apply in_app_or in HH. destruct HH as [HH|[HH|[]]]; [contradiction|discriminate].
        - destruct HH as [HH|[]]; discriminate. }
      unfold trans in HT. destruct (ph E s).
      + destruct (do_validate c E s) as [[e3 x]|] eqn:ED; inversion HT; subst. eapply HV; eauto.
      + destruct (reader_next E (reader E s)) as [[bs|] r]; [inversion HT; subst; contradiction|].
        destruct (step_nr E s =? 0); inversion HT; subst; [destruct HIn as [HIn|[]]; discriminate|contradiction].
      + unfold run_step in HT. destruct (batches E s); [|discriminate]. destruct (fp16 c).
        * destruct (orig E s); [discriminate|]. destruct (accumulate _ _ _ _ _ _ _ _ _ _ _) as [[[g r] nt] b].
          destruct (run_optimizer_step _ _ _) as [[rep stepped] sc']. destruct (if stepped then _ else _) as [m' o'].
          destruct (exploded rep); [discriminate|]. destruct (overflowed rep); [inversion HT; subst; destruct HIn as [HIn|[]]; discriminate|].
          destruct (lr_step E (lr E s) o'); inversion HT; subst; destruct HIn as [HIn|[]]; discriminate.
        * destruct (accumulate _ _ _ _ _ _ _ _ _ _ _) as [[[g r] nt] b]. destruct (opt_step E _ _ _) as [m' o'].
          destruct (lr_step E _ o') as [l' o'']. inversion HT; subst; destruct HIn as [HIn|[]]; discriminate.
      + eapply HPo; eauto.
      + destruct (match max_num_data_epochs c with Some m => m <=? epoch E s | None => false end); [inversion HT; subst; destruct HIn as [HIn|[]]; discriminate|].
        destruct (run_post_step c E s) as [s' evs|] eqn:ER; [|discriminate]. inversion HT; subst. destruct HIn as [HIn|HIn]; [discriminate|]. eapply HPo; eauto.
      + eapply HSt; eauto.
      + eapply HSt; eauto.
      + destruct (stop_requested E s); inversion HT; subst; contradiction.
      + inversion HT; subst. apply in_app_or in HIn. destruct HIn as [HIn|[HIn|[]]]; [apply (HSv _ HIn)|discriminate].
      + eapply HSt; eauto.
      + inversion HT; subst. contradiction.
    - injection HE as ->. apply (quiet_exec c E _ _ _ HX); [apply inv_request; assumption|reflexivity|assumption]. }
  eapply H; eauto.
Qed.
Print Assumptions C29_stop.

Theorem C29_stop_only_on_request : forall c E t s, exec c E (init_st c E) t s -> In (AEnd StopRequested) (acts t) -> In (EvRequest E) t.
Proof.
  intros c E t s HX. apply (stopped_by_request c E _ _ _ HX); [reflexivity|]. unfold init_st. simpl. destruct (validate_at_start c); discriminate.
Qed.
Print Assumptions C29_stop_only_on_request.

(** A small environment: the data are [0; ...; n-1], one per step; the model is the list of the gradients it was given; the
    gradient of [x] is infinite if [inf x]; the score is the step number and the early stopper stops at 2. *)
Definition toy (n : Z) (inf : Z -> Z -> bool) : env := {|
  Batch := Z; Model := list (list Z); Optim := Z; Lr := Z; Rng := Z; Grad := list Z * bool; Metric := Z; Score := Z; Stopper := unit;
  Reader := Z; ReaderState := Z;
  init_model := []; init_optim := 0; init_lr := 0; init_rng := 0; init_scale := 4; init_stopper := tt;
  init_bag := [("total_num_examples"%string, 0); ("loss"%string, 0)];
  mreset := fun _ => 0;
  init_reader := 0;
  reader_next := fun p => if p <? n then (Some [p], p + 1) else (None, p);
  reader_reset := fun _ => 0; reader_save := fun p => p; reader_load := fun p _ => p;
  zero_grad := ([], false);
  forward_backward := fun step ep sc nb m r x g => ((fst g ++ [x], snd g || inf step r), r + 1, Some 1, fun _ v => v + 1);
  normalize := fun _ g => g; unscale := fun _ g => g; has_inf := snd; clip := fun g => g; norm_metric := fun _ v => v;
  opt_step := fun g m o => (m ++ [fst g], o + 1); lr_step := fun l o => (l + 1, o);
  validate := fun n _ => Some n; should_stop := fun n s _ => (2 <=? s, tt) |}.
Definition no_inf : Z -> Z -> bool := fun _ _ => false.

Definition no_period : period := {| after_n_steps := 0; every_n_steps := None; after_n_data_epochs := 0; every_n_data_epochs := None |}.
Definition steps (a k : Z) : period := {| after_n_steps := a; every_n_steps := Some k; after_n_data_epochs := 0; every_n_data_epochs := None |}.
Definition epochs (k : Z) : period := {| after_n_steps := 0; every_n_steps := None; after_n_data_epochs := 0; every_n_data_epochs := Some k |}.
Definition conf (max maxe : option Z) (v k p : period) (sc : option scaler_cfg) : config := {|
  max_num_steps := max; max_num_data_epochs := maxe; validate_at_start := false; validation := v; checkpoint := k; publication := p;
  save_model_only := SaveAll; keep_last_n := None; keep_best_n := None; keep_every_n_steps := None; has_validator := true;
  has_early_stopper := false; fp16 := sc |}.

(** Six steps over epochs of four batches; checkpoints and validation every second step after step 2, metrics every step. *)
Definition c29 : config := conf (Some 6) None (steps 2 2) (steps 0 2) (steps 0 1) None.
Example C29_example : check_config c29 = Accept /\ ph _ (snd (iter c29 (toy 4 no_inf) 30 (init_st c29 (toy 4 no_inf)))) = STOPPED /\
  acts (fst (iter c29 (toy 4 no_inf) 30 (init_st c29 (toy 4 no_inf)))) =
    [AUpdate 1 1; APublish 1; AUpdate 2 1; ASave 2; APublish 2; AUpdate 3 1; APublish 3; AUpdate 4 1; ASave 4; APublish 4; AValidate 4; AScore 4;
     AEpochEnd 1 4; AUpdate 5 2; APublish 5; AUpdate 6 2; APublish 6; ASave 6; AValidate 6; AScore 6; AEnd EndOfTraining].
Proof. vm_compute. auto. Qed.

(** *** What does not hold *)

(** A metric period of 0 next to a checkpoint period is not rejected with the [ValueError] it gets alone, and a negative one is accepted. *)
Theorem C29_publish_period_refuted :
  check_config (conf None None no_period no_period (steps 0 0) None) = Reject ValueError /\
  check_config (conf None None no_period (steps 0 2) (steps 0 0) None) = Reject ZeroDivisionError /\
  check_config (conf None None no_period (steps 0 2) (steps 0 (-2)) None) = Accept.
Proof. repeat split. Qed.
Print Assumptions C29_publish_period_refuted.

(** With [max_num_steps] a requested stop is ignored. *)
Theorem C29_stop_ignored_refuted : exists t s, check_config c29 = Accept /\ exec c29 (toy 4 no_inf) (init_st c29 (toy 4 no_inf)) (EvRequest _ :: t) s /\
  List.length (updates (acts t)) = 6%nat /\ ~ In (AEnd StopRequested) (acts t).
Proof.
  exists (fst (iter c29 (toy 4 no_inf) 30 (set_stop _ true (init_st c29 (toy 4 no_inf))))), (snd (iter c29 (toy 4 no_inf) 30 (set_stop _ true (init_st c29 (toy 4 no_inf))))).
  split; [reflexivity|]. split; [constructor; apply iter_exec|]. split; [reflexivity|]. vm_compute. intuition discriminate.
Qed.
Print Assumptions C29_stop_ignored_refuted.

(** A checkpoint can be written twice for the same step: at a step that is due, and when the run is stopped at the end of the epoch. *)
Definition c29_twice : config := conf None None no_period (steps 0 4) no_period None.
Theorem C29_saved_twice_refuted : exists t s, check_config c29_twice = Accept /\ exec c29_twice (toy 4 no_inf) (init_st c29_twice (toy 4 no_inf)) t s /\
  count_occ act_eq_dec (acts t) (ASave 4) = 2%nat.
Proof.
  set (E := toy 4 no_inf). set (a := iter c29_twice E 13 (init_st c29_twice E)).
  exists (fst a ++ EvRequest E :: fst (iter c29_twice E 3 (set_stop E true (snd a)))), (snd (iter c29_twice E 3 (set_stop E true (snd a)))).
  split; [reflexivity|]. split; [|vm_compute; reflexivity]. eapply exec_app; [apply iter_exec|]. constructor. apply iter_exec.
Qed.
Print Assumptions C29_saved_twice_refuted.

(** [validate_at_start] without a validator is accepted by the constructor and ends in an internal error. *)
Definition c29_noop : config := {|
  max_num_steps := Some 6; max_num_data_epochs := None; validate_at_start := true; validation := no_period; checkpoint := no_period; publication := no_period;
  save_model_only := SaveAll; keep_last_n := None; keep_best_n := None; keep_every_n_steps := None; has_validator := false;
  has_early_stopper := false; fp16 := None |}.
Theorem C29_validate_at_start_refuted : check_config c29_noop = Accept /\ forall E, trans c29_noop E (init_st c29_noop E) = Raised E InternalError.
Proof. split; reflexivity. Qed.
Print Assumptions C29_validate_at_start_refuted.

(** If the reader has no more data after the first epoch the trainer runs for ever without making a step. *)
Definition once : env := {|
  Batch := unit; Model := unit; Optim := unit; Lr := unit; Rng := unit; Grad := unit; Metric := unit; Score := unit; Stopper := unit;
  Reader := bool; ReaderState := bool; init_model := tt; init_optim := tt; init_lr := tt; init_rng := tt; init_scale := 1; init_stopper := tt;
  init_bag := []; mreset := fun x => x; init_reader := true;
  reader_next := fun b => (if b then Some [tt] else None, false); reader_reset := fun b => b; reader_save := fun b => b; reader_load := fun b _ => b;
  zero_grad := tt; forward_backward := fun _ _ _ _ _ _ _ _ => (tt, tt, None, fun _ x => x); normalize := fun _ x => x; unscale := fun _ x => x;
  has_inf := fun _ => false; clip := fun x => x; norm_metric := fun _ x => x; opt_step := fun _ m o => (m, o); lr_step := fun l o => (l, o);
  validate := fun _ _ => None; should_stop := fun _ _ _ => (false, tt) |}.
Definition c29_loop : config := conf (Some 6) None no_period no_period no_period None.
Theorem C29_endless_refuted : check_config c29_loop = Accept /\ forall j,
  ph _ (snd (iter c29_loop once j (init_st c29_loop once))) <> STOPPED /\ (List.length (updates (acts (fst (iter c29_loop once j (init_st c29_loop once))))) <= 1)%nat.
Proof.
  split; [reflexivity|].
  assert (HL : forall n e, let s := St once DATA_LOAD 1 e tt tt tt (gs_init 1) tt [] None false None false tt in
    forall j, (j <= 2 * n)%nat -> ph _ (snd (iter c29_loop once j s)) <> STOPPED /\ updates (acts (fst (iter c29_loop once j s))) = []).
  { induction n as [|n IH]; intros e s j Hj.
    - replace j with 0%nat by lia. split; [discriminate|reflexivity].
    - destruct j as [|[|j]]; [split; [discriminate|reflexivity]|split; [discriminate|reflexivity]|].
      specialize (IH (e + 1) j ltac:(lia)). cbv zeta in IH. unfold s.
      change (iter c29_loop once (Datatypes.S (Datatypes.S j)) (St once DATA_LOAD 1 e tt tt tt (gs_init 1) tt [] None false None false tt))
        with (let (t, s2) := let (t, s2) := iter c29_loop once j (St once DATA_LOAD 1 (e + 1) tt tt tt (gs_init 1) tt [] None false None false tt) in
                             ([EvEpochEnd once e 1] ++ t, s2) in ([] ++ t, s2)).
      destruct (iter c29_loop once j _) as [t s2]. exact IH. }
  intros j. destruct j as [|[|[|j]]]; try (split; [discriminate|simpl; lia]).
  specialize (HL j 1 j ltac:(lia)). cbv zeta in HL.
  change (iter c29_loop once (Datatypes.S (Datatypes.S (Datatypes.S j))) (init_st c29_loop once))
    with (let (t, s2) := let (t, s2) := let (t, s2) := iter c29_loop once j (St once DATA_LOAD 1 1 tt tt tt (gs_init 1) tt [] None false None false tt) in
            ([] ++ t, s2) in ([EvUpdate once 1 1 [tt] tt tt tt] ++ t, s2) in ([] ++ t, s2)).
  destruct (iter c29_loop once j _) as [t s2]. destruct HL as [H1 H2]. split; [exact H1|]. simpl fst in H2.
  change (List.length (updates (AUpdate 1 1 :: acts t)) <= 1)%nat. rewrite updates_up, H2. simpl. lia.
Qed.
Print Assumptions C29_endless_refuted.

(** ** C30 *)

(** Every life of a training run: trainers that are interrupted at any point and restarted, any number of times, from any of the
    checkpoints they have written. The state after a restart agrees with the state of the uninterrupted run that has made the
    same number of updates, and from there on both do the same: updates (data, model, optimizer, schedule), epochs, checkpoints,
    validations, scores, and the values of the total metrics.

    Missing: an early stopper, checkpoints at the end of epochs, checkpoints written in the last epoch, and those written after a
    requested stop in a run with a loss scaler; for each the claim is refuted below. *)
Theorem C30_resume_partial : forall c E s, check_config c = Accept -> has_early_stopper c = false -> every_n_data_epochs (checkpoint c) = None ->
  @resumable E -> life c E s -> exists k,
  let t0 := fst (iter c E k (init_st c E)) in let u := snd (iter c E k (init_st c E)) in
  updates (acts t0) = one_to (step_nr E s) /\
  (step_nr E s = step_nr E u /\ epoch E s = epoch E u /\ model E s = model E u /\ optim E s = optim E u /\ lr E s = lr E u /\ scaler E s = scaler E u /\
   rng E s = rng E u /\ totals (bag E s) = totals (bag E u)) /\
  forall j, fst (iter c E (k + j) (init_st c E)) = t0 ++ fst (iter c E j u) /\ map observe (fst (iter c E j s)) = map observe (fst (iter c E j u)).
Proof. exact resume_final. Qed.
Print Assumptions C30_resume_partial.

(** In particular: the updates made before the checkpoint and those made after the restart are those of the uninterrupted run. *)
Theorem C30_updates_partial : forall c E s, check_config c = Accept -> has_early_stopper c = false -> every_n_data_epochs (checkpoint c) = None ->
  @resumable E -> life c E s -> exists k, let t0 := fst (iter c E k (init_st c E)) in
  updates (acts t0) = one_to (step_nr E s) /\
  forall j, update_list (fst (iter c E (k + j) (init_st c E))) = update_list t0 ++ update_list (fst (iter c E j s)).
Proof. exact resume_updates. Qed.
Print Assumptions C30_updates_partial.

Lemma toy_resumable n inf : @resumable (toy n inf).
Proof. exists eq. split; [intros r r' ->; auto|]. split; [reflexivity|]. split; [congruence|]. reflexivity. Qed.

(** A life: interrupted after the checkpoint of step 2, restarted, interrupted at step 5, restarted from step 4. *)
Definition saves {E} (t : list (event E)) : list (snapshot E) := flat_map (fun v => match v with EvSave _ x => [x] | _ => [] end) t.
Lemma in_saves {E} (t : list (event E)) x : In x (saves t) -> In (EvSave E x) t.
Proof. intros H. apply in_flat_map in H. destruct H as (v & Hv & H). destruct v; try contradiction. destruct H as [<-|[]]. assumption. Qed.
Definition first_save {E} (c : config) (k : nat) (s : st E) : snapshot E := nth 0 (saves (fst (iter c E k s))) (snap E s).
Lemma in_first_save {E} c k (s : st E) : (0 < List.length (saves (fst (iter c E k s))))%nat -> In (EvSave E (first_save c k s)) (fst (iter c E k s)).
Proof. intros H. apply in_saves. apply nth_In. assumption. Qed.

Definition x30_1 : snapshot (toy 4 no_inf) := first_save c29 8 (init_st c29 (toy 4 no_inf)).
Definition x30_2 : snapshot (toy 4 no_inf) := first_save c29 10 (restore c29 (toy 4 no_inf) x30_1).
Example C30_example : check_config c29 = Accept /\ has_early_stopper c29 = false /\ every_n_data_epochs (checkpoint c29) = None /\
  @resumable (toy 4 no_inf) /\ life c29 (toy 4 no_inf) (restore c29 (toy 4 no_inf) x30_2) /\
  sn_step _ x30_1 = 2 /\ sn_step _ x30_2 = 4 /\ sn_model _ x30_2 = [[0]; [1]; [2]; [3]] /\
  acts (fst (iter c29 (toy 4 no_inf) 30 (restore c29 (toy 4 no_inf) x30_2))) =
    [AEpochEnd 1 4; AUpdate 5 2; APublish 5; AUpdate 6 2; APublish 6; ASave 6; AValidate 6; AScore 6; AEnd EndOfTraining].
Proof.
  split; [reflexivity|]. split; [reflexivity|]. split; [reflexivity|]. split; [apply toy_resumable|]. split.
  - apply life_restart with (s := restore c29 (toy 4 no_inf) x30_1) (t := fst (iter c29 (toy 4 no_inf) 10 (restore c29 (toy 4 no_inf) x30_1)))
      (s' := snd (iter c29 (toy 4 no_inf) 10 (restore c29 (toy 4 no_inf) x30_1))).
    + apply life_restart with (s := init_st c29 (toy 4 no_inf)) (t := fst (iter c29 (toy 4 no_inf) 8 (init_st c29 (toy 4 no_inf))))
        (s' := snd (iter c29 (toy 4 no_inf) 8 (init_st c29 (toy 4 no_inf)))).
      * constructor.
      * apply iter_exec.
      * apply in_first_save. vm_compute. lia.
      * split; [intros m Hm; discriminate|]. intros HF. exfalso. apply HF. reflexivity.
    + apply iter_exec.
    + apply in_first_save. vm_compute. lia.
    + split; [intros m Hm; discriminate|]. intros HF. exfalso. apply HF. reflexivity.
  - vm_compute. auto.
Qed.

(** A checkpoint of the last step: the restarted trainer does nothing. *)
Theorem C30_finished : forall c E x t s m, max_num_steps c = Some m -> m <= sn_step E x -> exec c E (restore c E x) t s -> acts t = [].
Proof.
  intros c E x t s m Hm HL HX. apply (stopped_exec c E _ _ _ HX). unfold restore. simpl. rewrite Hm.
  replace (m <=? sn_step E x) with true by (symmetry; apply Z.leb_le; assumption). reflexivity.
Qed.
Print Assumptions C30_finished.

(** *** What does not hold *)
Definition restart_acts (c : config) (E : env) (k j i : nat) : option (list act) :=
  match nth_error (saves (fst (iter c E k (init_st c E)))) i with
  | Some x => Some (acts (fst (iter c E j (restore c E x))))
  | None => None
  end.

(** A checkpoint of the last epoch: the restarted trainer stops at once, although updates are missing. *)
Definition c30_last : config := conf None (Some 1) no_period (steps 0 2) no_period None.
Theorem C30_last_epoch_refuted : check_config c30_last = Accept /\
  updates (acts (fst (iter c30_last (toy 4 no_inf) 30 (init_st c30_last (toy 4 no_inf))))) = [1; 2; 3; 4] /\
  exists x, In (EvSave _ x) (fst (iter c30_last (toy 4 no_inf) 30 (init_st c30_last (toy 4 no_inf)))) /\ sn_step _ x = 2 /\
    forall t s, exec c30_last (toy 4 no_inf) (restore c30_last (toy 4 no_inf) x) t s -> acts t = [].
Proof.
  split; [reflexivity|]. split; [vm_compute; reflexivity|]. exists (first_save c30_last 30 (init_st c30_last (toy 4 no_inf))).
  split; [apply in_first_save; vm_compute; lia|]. split; [vm_compute; reflexivity|].
  intros t s HX. apply (stopped_exec _ _ _ _ _ HX). vm_compute. reflexivity.
Qed.
Print Assumptions C30_last_epoch_refuted.

(** A checkpoint written at the end of an epoch holds the number of that epoch: the next one is counted again under the same number. *)
Definition c30_epoch : config := conf None (Some 3) no_period (epochs 1) no_period None.
Theorem C30_epoch_end_refuted : check_config c30_epoch = Accept /\
  updates (acts (fst (iter c30_epoch (toy 2 no_inf) 50 (init_st c30_epoch (toy 2 no_inf))))) = [1; 2; 3; 4; 5; 6] /\
  option_map updates (restart_acts c30_epoch (toy 2 no_inf) 50 50 0) = Some [3; 4; 5; 6; 7; 8] /\
  option_map (fun t => match t with a :: _ => Some a | [] => None end) (restart_acts c30_epoch (toy 2 no_inf) 50 50 0) = Some (Some (AUpdate 3 1)) /\
  In (AUpdate 3 2) (acts (fst (iter c30_epoch (toy 2 no_inf) 50 (init_st c30_epoch (toy 2 no_inf))))).
Proof. do 4 (split; [vm_compute; reflexivity|]). vm_compute. auto 10. Qed.
Print Assumptions C30_epoch_end_refuted.

(** A stop requested while a step overflows: the checkpoint counts the step that was not made, and its number is skipped. *)
Definition sc30 : scaler_cfg := {| scale_factor := 2; scale_window := 3; min_scale := 1 # 10000 |}.
Definition c30_over : config := conf None None no_period no_period no_period (Some sc30).
Definition second_inf : Z -> Z -> bool := fun _ r => r =? 1.
Theorem C30_overflow_stop_refuted : exists t0 s0 t s x, check_config c30_over = Accept /\
  exec c30_over (toy 4 second_inf) (init_st c30_over (toy 4 second_inf)) t0 s0 /\
  exec c30_over (toy 4 second_inf) s0 (EvRequest _ :: t) s /\ In (EvSave _ x) t /\
  updates (acts (t0 ++ t)) = [1] /\ updates (acts (fst (iter c30_over (toy 4 second_inf) 6 (restore c30_over (toy 4 second_inf) x)))) = [3; 4].
Proof.
  exists (fst (iter c30_over (toy 4 second_inf) 4 (init_st c30_over (toy 4 second_inf)))), (snd (iter c30_over (toy 4 second_inf) 4 (init_st c30_over (toy 4 second_inf)))),
    (fst (iter c30_over (toy 4 second_inf) 10 (set_stop _ true (snd (iter c30_over (toy 4 second_inf) 4 (init_st c30_over (toy 4 second_inf))))))),
    (snd (iter c30_over (toy 4 second_inf) 10 (set_stop _ true (snd (iter c30_over (toy 4 second_inf) 4 (init_st c30_over (toy 4 second_inf))))))),
    (first_save c30_over 10 (set_stop _ true (snd (iter c30_over (toy 4 second_inf) 4 (init_st c30_over (toy 4 second_inf)))))).
  split; [reflexivity|]. split; [apply iter_exec|]. split; [constructor; apply iter_exec|]. split; [apply in_first_save; vm_compute; lia|]. split; vm_compute; reflexivity.
Qed.
Print Assumptions C30_overflow_stop_refuted.

(** The checkpoint of the step at which the early stopper decides to stop is written before the decision: a trainer that is
    interrupted there and restarted goes on. *)
Definition c30_early : config := {|
  max_num_steps := Some 6; max_num_data_epochs := None; validate_at_start := false; validation := steps 0 2; checkpoint := steps 0 2; publication := no_period;
  save_model_only := SaveAll; keep_last_n := None; keep_best_n := None; keep_every_n_steps := None; has_validator := true;
  has_early_stopper := true; fp16 := None |}.
Theorem C30_early_stop_refuted : check_config c30_early = Accept /\
  updates (acts (fst (iter c30_early (toy 9 no_inf) 50 (init_st c30_early (toy 9 no_inf))))) = [1; 2] /\
  option_map updates (restart_acts c30_early (toy 9 no_inf) 50 50 0) = Some [3; 4].
Proof. do 2 (split; [vm_compute; reflexivity|]). vm_compute; reflexivity. Qed.
Print Assumptions C30_early_stop_refuted.

(** ** C31 *)

(** A training step in any reachable state. Infinite or NaN gradients: the step is not made (model, optimizer, schedule, metrics,
    step number and epoch stay, the data go on) and the scale is divided by the factor; or, if that would be less than the
    minimum, training fails. Otherwise: the optimizer is called once with the clipped gradient, then the schedule. *)
Theorem C31_step : forall c E t s bs sc, check_config c = Accept -> fp16 c = Some sc -> visible sc -> (min_scale sc <= init_scale E)%Q ->
  exec c E (init_st c E) t s -> ph E s = STEP -> batches E s = Some bs ->
  (min_scale sc <= gs_scale (scaler E s))%Q /\
  (has_inf E (step_gradient s bs) = true ->
    ((gs_scale (scaler E s) / scale_factor sc < min_scale sc)%Q -> trans c E s = Raised E MinimumLossScaleReachedError) /\
    ((min_scale sc <= gs_scale (scaler E s) / scale_factor sc)%Q ->
      exists s1 g r, trans c E s = Next E s1 [EvOverflow E (step_nr E s + 1)] /\ (gs_scale g == gs_scale (scaler E s) / scale_factor sc)%Q /\
        (stop_requested E s = false ->
          trans c E s1 = Next E (St E DATA_LOAD (step_nr E s) (epoch E s) (model E s) (optim E s) (lr E s) g r (bag E s) None (reader E s)
                                   None false (stopper E s)) []))) /\
  (has_inf E (step_gradient s bs) = false ->
    exists s1 o, opt_step E (clip E (step_gradient s bs)) (model E s) (optim E s) = (model E s1, o) /\ lr_step E (lr E s) o = (lr E s1, optim E s1) /\
      trans c E s = Next E s1 [EvUpdate E (step_nr E s + 1) (epoch E s) bs (model E s1) (optim E s1) (lr E s1)] /\ ph E s1 = POST_STEP).
Proof. exact reachable_step. Qed.
Print Assumptions C31_step.

(** Any part of a run, however many overflows, epochs and checkpoints it has, that makes no update leaves the model, the
    optimizer, the schedule and the step number as they are, and the metrics too if they are not published. *)
Theorem C31_run : forall c E t0 t s s', check_config c = Accept -> (forall sc, fp16 c = Some sc -> visible sc /\ (min_scale sc <= init_scale E)%Q) ->
  exec c E (init_st c E) t0 s -> exec c E s t s' -> ph E s = DATA_LOAD -> ph E s' = DATA_LOAD -> updates (acts t) = [] ->
  model E s' = model E s /\ optim E s' = optim E s /\ lr E s' = lr E s /\ step_nr E s' = step_nr E s /\
  ((forall n, ~ In (APublish n) (acts t)) -> bag E s' = bag E s).
Proof. exact no_update_run. Qed.
Print Assumptions C31_run.

Example C31_example : check_config c30_over = Accept /\ visible sc30 /\ (min_scale sc30 <= init_scale (toy 4 second_inf))%Q /\
  acts (fst (iter c30_over (toy 4 second_inf) 8 (init_st c30_over (toy 4 second_inf)))) = [AUpdate 1 1; AOverflow 2; AUpdate 2 1] /\
  Qeq_bool (gs_scale (scaler _ (snd (iter c30_over (toy 4 second_inf) 8 (init_st c30_over (toy 4 second_inf)))))) 2 = true.
Proof.
  split; [reflexivity|]. split; [|split; [vm_compute; discriminate|split; vm_compute; reflexivity]].
  repeat split; try (vm_compute; reflexivity). simpl; lia.
Qed.

(** Below the resolution of the scaler's comparison (see C46_small_scale_refuted) an overflow is counted as an update. *)
Definition sc31 : scaler_cfg := {| scale_factor := 2; scale_window := 3; min_scale := 1 # 1000000 |}.
Definition c31_small : config := conf (Some 6) None no_period no_period no_period (Some sc31).
Definition tiny (E : env) : env := {|
  Batch := Batch E; Model := Model E; Optim := Optim E; Lr := Lr E; Rng := Rng E; Grad := Grad E; Metric := Metric E; Score := Score E; Stopper := Stopper E;
  Reader := Reader E; ReaderState := ReaderState E; init_model := init_model E; init_optim := init_optim E; init_lr := init_lr E; init_rng := init_rng E;
  init_scale := 2 # 100000; init_stopper := init_stopper E; init_bag := init_bag E; mreset := mreset E; init_reader := init_reader E;
  reader_next := reader_next E; reader_reset := reader_reset E; reader_save := reader_save E; reader_load := reader_load E; zero_grad := zero_grad E;
  forward_backward := forward_backward E; normalize := normalize E; unscale := unscale E; has_inf := has_inf E; clip := clip E; norm_metric := norm_metric E;
  opt_step := opt_step E; lr_step := lr_step E; validate := validate E; should_stop := should_stop E |}.
Theorem C31_small_scale_refuted : check_config c31_small = Accept /\ exists k, let E := tiny (toy 4 (fun _ _ => true)) in
  acts (fst (iter c31_small E k (init_st c31_small E))) = [AUpdate 1 1] /\ model E (snd (iter c31_small E k (init_st c31_small E))) = [] /\
  lr E (snd (iter c31_small E k (init_st c31_small E))) = 1.
Proof. split; [reflexivity|]. exists 2%nat. vm_compute. auto. Qed.
Print Assumptions C31_small_scale_refuted.

(** ** C55: gradient accumulation *)

(** The step of several batches: the gradients of all its batches, taken in order with the model as it was before the step, are
    summed, divided by the total number of targets if there are any, clipped, and given to the optimizer in one call. *)
Theorem C55_accumulation : forall c E s bs, fp16 c = None -> ph E s = STEP -> batches E s = Some bs -> exists r g ks s1 o,
  passes E (step_nr E s + 1) (epoch E s) 1%Q (length bs) (model E s) (rng E s) (zero_grad E) bs r g ks /\
  opt_step E (clip E (normalized (num_targets ks) g)) (model E s) (optim E s) = (model E s1, o) /\ lr_step E (lr E s) o = (lr E s1, optim E s1) /\
  trans c E s = Next E s1 [EvUpdate E (step_nr E s + 1) (epoch E s) bs (model E s1) (optim E s1) (lr E s1)] /\
  ph E s1 = POST_STEP /\ step_nr E s1 = step_nr E s + 1 /\ epoch E s1 = epoch E s /\ rng E s1 = r /\ reader E s1 = reader E s.
Proof. intros c E. apply plain_step_lemma. Qed.
Print Assumptions C55_accumulation.

(** With a loss scaler the gradient of C31_step is the same one, unscaled. *)
Theorem C55_accumulation_fp16 : forall E (s : st E) bs, exists r g ks,
  passes E (step_nr E s + 1) (epoch E s) (gs_scale (scaler E s)) (length bs) (model E s) (rng E s) (zero_grad E) bs r g ks /\
  step_gradient s bs = unscale E (gs_scale (scaler E s)) (normalized (num_targets ks) g).
Proof. exact step_gradient_lemma. Qed.
Print Assumptions C55_accumulation_fp16.

Theorem C55_deterministic : forall E st ep sc nb m bs r g r1 g1 k1 r2 g2 k2,
  passes E st ep sc nb m r g bs r1 g1 k1 -> passes E st ep sc nb m r g bs r2 g2 k2 -> r1 = r2 /\ g1 = g2 /\ k1 = k2.
Proof. exact passes_fun. Qed.
Print Assumptions C55_deterministic.

Example C55_example : let E := toy 4 no_inf in let s := set_reader E 3 (Some [0; 1; 2]) (set_ph E STEP (init_st c29 E)) in
  passes E 1 1 1%Q 3 [] 0 ([], false) [0; 1; 2] 3 ([0; 1; 2], false) [Some 1; Some 1; Some 1] /\ num_targets [Some 1; Some 1; Some 1] = 3 /\
  match trans c29 E s with Next _ s1 _ => model E s1 = [[0; 1; 2]] | _ => False end.
Proof. split; [|split; reflexivity]. repeat (eapply passes_cons; [reflexivity|]). apply passes_nil. Qed.
