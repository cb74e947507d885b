From Coq Require Import String ZArith QArith List Bool Lia Qminmax.
From Verif Require Import LossScale_Model LossScale_Spec LossScale_Proofs Trainer_Model Trainer_Spec Trainer_Proofs Trainer_Proofs2.
Import ListNotations.
Local Open Scope Z_scope.

Section Run.
  Variable c : config.
  Variable E : env.
  Implicit Types s u : st E.

  Lemma inv_init : check_config c = Accept -> inv c E (init_st c E).
  Proof.
    intros HC. apply check_lemma in HC. destruct HC as [HM _]. unfold each in HM.
    unfold inv, init_st, more_steps. simpl. split; [lia|]. split; [reflexivity|].
    destruct (validate_at_start c); (split; [discriminate|]); (split; [intros [?|?]; discriminate|]); (split; [intros; try discriminate; auto|]);
      (split; [discriminate|]); intros m Hm; specialize (HM m Hm); lia.
  Qed.

  Lemma inv_restore x : 0 <= sn_step E x -> inv c E (restore c E x).
  Proof.
    intros H0. unfold inv, restore. simpl. split; [assumption|]. split; [reflexivity|].
    destruct (match max_num_steps c with Some m => m <=? sn_step E x | None => false end) eqn:EM.
    - repeat split; try discriminate. intros [?|?]; discriminate.
    - destruct (match max_num_data_epochs c with Some m => m <=? sn_epoch E x | None => false end).
      + repeat split; try discriminate. intros [?|?]; discriminate.
      + repeat split; try discriminate; [intros [?|?]; discriminate|]. intros m Hm. rewrite Hm in EM. apply Z.leb_gt in EM. assumption.
  Qed.

  Lemma run_history_lemma t s : check_config c = Accept -> exec c E (init_st c E) t s -> settled (ph E s) -> run_history c (acts t).
  Proof.
    intros HC HX HS. pose proof (rest_lemma c E _ _ _ HX (inv_init HC)) as HR. unfold run_history.
    unfold init_st in HR. simpl in HR. destruct (validate_at_start c); simpl in HR.
    - apply HR; auto.
    - apply HR; [right; discriminate|auto].
  Qed.

  Lemma restart_history_lemma x t s : 0 <= sn_step E x -> exec c E (restore c E x) t s -> settled (ph E s) ->
    history c (sn_step E x) (sn_epoch E x) (acts t) /\
    (forall m, max_num_steps c = Some m -> m <= sn_step E x -> acts t = []).
  Proof.
    intros H0 HX HS. pose proof (rest_lemma c E _ _ _ HX (inv_restore x H0)) as HR.
    unfold restore in HR, HX. simpl in HR.
    destruct (match max_num_steps c with Some m => m <=? sn_step E x | None => false end) eqn:EM.
    - simpl in HR. rewrite HR; auto; [|right; discriminate]. split; [constructor|auto].
    - split.
      + destruct (match max_num_data_epochs c with Some m => m <=? sn_epoch E x | None => false end); simpl in HR.
        * rewrite HR; auto; [constructor|right; discriminate].
        * apply HR; auto. right; discriminate.
      + intros m Hm HL. rewrite Hm in EM. apply Z.leb_gt in EM. lia.
  Qed.

  Lemma updates_run t : run_history c t -> (forall m, max_num_steps c = Some m -> 1 <= m) ->
    exists k : nat, updates t = one_to (Z.of_nat k) /\ (forall m, max_num_steps c = Some m -> Z.of_nat k <= m).
  Proof.
    intros HR HM. assert (HM' : forall m, max_num_steps c = Some m -> 0 < m) by (intros m Hm; specialize (HM m Hm); lia).
    assert (HG : forall t', history c 0 1 t' -> exists k : nat, updates t' = one_to (Z.of_nat k) /\ (forall m, max_num_steps c = Some m -> Z.of_nat k <= m)).
    { intros t' HH. destruct (hist_updates c _ _ _ HH HM') as (k & Hk & HB). exists k. rewrite one_to_map. split; [assumption|].
      intros m Hm. specialize (HB m Hm). lia. }
    unfold run_history in HR. destruct (validate_at_start c); [|auto]. destruct HR as [_ [->|(t' & -> & HH)]].
    - exists 0%nat. split; [reflexivity|]. intros m Hm. specialize (HM m Hm). lia.
    - exact (HG t' HH).
  Qed.

  (** From the trace of a run to the history without the validation at the start. *)
  Lemma strip t k j : run_history c t -> 1 <= j -> exists t', history c 0 1 t' /\
    (In (act_for k j) t <-> In (act_for k j) t') /\ (forall e, In (AUpdate (j + 1) e) t <-> In (AUpdate (j + 1) e) t') /\
    (forall e, In (AEpochEnd e j) t <-> In (AEpochEnd e j) t') /\ (In (AEnd EndOfTraining) t <-> In (AEnd EndOfTraining) t') /\
    (exists t0, t = t0 ++ t') /\ count_occ act_eq_dec t (act_for k j) = count_occ act_eq_dec t' (act_for k j).
  Proof.
    unfold run_history. intros HR Hj. destruct (validate_at_start c).
    - destruct HR as [_ [->|(t' & -> & HH)]].
      + exists []. split; [constructor|]. repeat split; auto. exists []. reflexivity.
      + exists t'. split; [assumption|]. repeat split; try (intros; right; assumption); try (intros H; destruct H as [H|H]; [|assumption]; try discriminate).
        * destruct k; try discriminate. simpl in H. inversion H. lia.
        * exists [AValidate 0]. reflexivity.
        * apply count_occ_cons_neq. destruct k; try discriminate. intros H. inversion H. lia.
    - exists t. split; [assumption|]. repeat split; auto. exists []. reflexivity.
  Qed.

  Lemma periodic_lemma t k j : check_config c = Accept -> run_history c t -> 1 <= j -> (exists e, In (AUpdate (j + 1) e) t) ->
    (In (act_for k j) t <-> enabled c k /\ (due_at_step (period_of c k) j \/
        exists e, In (AEpochEnd e j) t /\ due_at_epoch (period_of c k) e)).
  Proof.
    intros HC HR Hj [e Hu]. destruct (check_nonzero c k HC) as [Z1 Z2].
    destruct (strip t k j HR Hj) as (t' & HH & E1 & E2 & E3 & _).
    rewrite E1. apply E2 in Hu. rewrite (hist_periodic c _ _ _ HH k j ltac:(lia) (ex_intro _ e Hu)). rewrite on_enabled.
    rewrite (due_iff _ _ Z1). setoid_rewrite E3. setoid_rewrite (due_epoch_iff _ j _ Z2). split.
    - intros (A & [[_ B]|(e' & B & C & D)]); (split; [assumption|]); [left; assumption|right; eauto].
    - intros (A & [B|(e' & B & C)]); (split; [assumption|]).
      + left. split; [lia|assumption].
      + destruct (due (period_of c k) j) eqn:ED.
        * left. split; [lia|]. apply (due_iff _ _ Z1). assumption.
        * right. eauto.
  Qed.

  Lemma once_lemma t k j : check_config c = Accept -> run_history c t -> every_n_data_epochs (period_of c k) = None -> 1 <= j ->
    (exists e, In (AUpdate (j + 1) e) t) ->
    (enabled c k -> due_at_step (period_of c k) j -> count_occ act_eq_dec t (act_for k j) = 1%nat) /\
    (~ (enabled c k /\ due_at_step (period_of c k) j) -> count_occ act_eq_dec t (act_for k j) = 0%nat).
  Proof.
    intros HC HR HN Hj [e Hu]. destruct (check_nonzero c k HC) as [Z1 Z2].
    destruct (strip t k j HR Hj) as (t' & HH & _ & E2 & _ & _ & _ & EC). apply E2 in Hu.
    rewrite EC, (hist_once c _ _ _ HH k j HN ltac:(lia) (ex_intro _ e Hu)).
    replace (0 <? j) with true by (symmetry; apply Z.ltb_lt; lia). rewrite andb_true_r.
    rewrite <- on_enabled, <- (due_iff _ _ Z1). split.
    - intros -> ->. reflexivity.
    - intros H. destruct (on c k); simpl; [|reflexivity]. destruct (due (period_of c k) j); [|reflexivity]. exfalso. auto.
  Qed.

  Lemma end_lemma t k : run_history c t -> In (AEnd EndOfTraining) t -> exists m, max_num_steps c = Some m /\ (enabled c k -> In (act_for k m) t) /\
    exists t0, t = t0 ++ [AEnd EndOfTraining].
  Proof.
    intros HR HE. destruct (strip t k 1 HR ltac:(lia)) as (t' & HH & _ & _ & _ & E4 & (t0 & ->) & _). apply E4 in HE.
    destruct (hist_end c _ _ _ HH HE) as (m & sc & t1 & Hm & ->). exists m. split; [assumption|]. split.
    - intros HEn. apply in_or_app. right. apply in_or_app. right. unfold at_end, final. destruct k; simpl.
      + right. left. reflexivity.
      + left. reflexivity.
      + right. right. rewrite (HEn eq_refl). left. reflexivity.
    - unfold at_end, final. exists (t0 ++ t1 ++ [APublish m] ++ [ASave m] ++ (if has_validator c then AValidate m :: (if sc && true then [AScore m] else []) else [])).
      rewrite <- !app_assoc. reflexivity.
  Qed.

  (** *** Errors *)
  Definition inv_b s : Prop := (ph E s = STEP -> batches E s <> None) /\ (ph E s = PRE_VALIDATION -> validate_at_start c = true).

  Lemma inv_b_step s s1 ev : trans c E s = Next E s1 ev -> inv_b s -> inv_b s1.
  Proof.
    intros H [B1 B2]. unfold trans in H. destruct (ph E s) eqn:EP.
    - destruct (do_validate c E s) as [[? ?]|]; inversion H; subst. split; discriminate.
    - destruct (reader_next E (reader E s)) as [[bs|] r]; [inversion H; subst; split; simpl; discriminate|].
      destruct (step_nr E s =? 0); inversion H; subst; split; simpl; discriminate.
    - unfold run_step in H. destruct (batches E s); [|discriminate]. destruct (fp16 c).
      + destruct (orig E s); [discriminate|]. destruct (accumulate _ _ _ _ _ _ _ _ _ _ _) as [[[g r] nt] b].
        destruct (run_optimizer_step _ _ _) as [[rep stepped] sc']. destruct (if stepped then _ else _) as [m' o'].
        destruct (exploded rep); [discriminate|]. destruct (overflowed rep); [inversion H; subst; split; simpl; discriminate|].
        destruct (lr_step E (lr E s) o'); inversion H; subst; split; simpl; discriminate.
      + destruct (accumulate _ _ _ _ _ _ _ _ _ _ _) as [[[g r] nt] b]. destruct (opt_step E _ _ _) as [m' o'].
        destruct (lr_step E _ o') as [l' o'']. inversion H; subst; split; simpl; discriminate.
    - apply post_cases in H. destruct H as [(-> & -> & _)|[(-> & -> & _)|(HM & b & sp & scd & p & -> & _ & HP)]];
        [split; simpl; discriminate|split; simpl; discriminate|destruct HP as [->|(-> & _)]; split; simpl; discriminate].
    - destruct (match max_num_data_epochs c with Some m => m <=? epoch E s | None => false end); [inversion H; subst; split; simpl; discriminate|].
      destruct (run_post_step c E s) as [s' evs|] eqn:ER; [|discriminate]. inversion H; subst.
      apply post_cases in ER. destruct ER as [(-> & -> & _)|[(-> & -> & _)|(HM & b & sp & scd & p & -> & _ & HP)]];
        [split; simpl; discriminate|split; simpl; discriminate|destruct HP as [->|(-> & _)]; split; simpl; discriminate].
    - apply stop_cases in H. destruct H as [P _]. split; rewrite P; discriminate.
    - apply stop_cases in H. destruct H as [P _]. split; rewrite P; discriminate.
    - destruct (stop_requested E s); inversion H; subst; split; simpl; discriminate.
    - inversion H; subst; split; simpl; discriminate.
    - apply stop_cases in H. destruct H as [P _]. split; rewrite P; discriminate.
    - inversion H; subst. split; rewrite EP; discriminate.
  Qed.

  Lemma inv_b_exec s t s' : exec c E s t s' -> inv_b s -> inv_b s'.
  Proof. induction 1; intros HI; auto. apply IHexec. eapply inv_b_step; eauto. Qed.

  Lemma do_validate_some s : has_validator c = true -> exists x, do_validate c E s = Some x.
  Proof. unfold do_validate. intros ->. eauto. Qed.

  Lemma post_ok s e : run_post_step c E s <> Raised E e.
  Proof.
    unfold run_post_step. intros H.
    assert (HG : (let ev1 := maybe_save c E s in let (ev2, s2) := maybe_publish c E s in
       if should_validate c E s2 then match do_validate c E s2 with
        | None => Raised E InternalError
        | Some (ev3, sc) => match sc with
            | Some x => if has_early_stopper c then let (b, sp) := should_stop E (step_nr E s2) x (stopper E s2) in
                  Next E (set_ph E (if b then EARLY_STOP else DATA_LOAD) (set_stopper E sp s2)) (ev1 ++ ev2 ++ ev3)
                else Next E (set_ph E DATA_LOAD s2) (ev1 ++ ev2 ++ ev3)
            | None => Next E (set_ph E DATA_LOAD s2) (ev1 ++ ev2 ++ ev3) end end
       else Next E (set_ph E DATA_LOAD s2) (ev1 ++ ev2)) <> Raised E e).
    { cbv zeta. destruct (maybe_publish c E s) as [ev2 s2]. destruct (should_validate c E s2) eqn:EV; [|discriminate].
      unfold should_validate in EV. apply andb_prop in EV. destruct EV as [EV _]. destruct (do_validate_some s2 EV) as [[ev3 sc] ->].
      destruct sc; [|discriminate]. destruct (has_early_stopper c); [|discriminate]. destruct (should_stop E _ _ _). discriminate. }
    destruct (max_num_steps c); [destruct (z <=? step_nr E s); [discriminate|contradiction]|].
    destruct (stop_requested E s); [discriminate|contradiction].
  Qed.

  Lemma stop_ok k s e : stop c E k s <> Raised E e.
  Proof.
    unfold stop. destruct (maybe_publish c E s) as [ev s1]. destruct (should_validate c E s1) eqn:EV; [|discriminate].
    unfold should_validate in EV. apply andb_prop in EV. destruct EV as [EV _]. destruct (do_validate_some s1 EV) as [[ev3 sc] ->]. discriminate.
  Qed.

  Lemma errors_lemma t s e : check_config c = Accept -> exec c E (init_st c E) t s -> trans c E s = Raised E e ->
    (e = MinimumLossScaleReachedError /\ ph E s = STEP /\ fp16 c <> None) \/
    (e = InternalError /\ validate_at_start c = true /\ has_validator c = false).
  Proof.
    intros HC HX H. pose proof (inv_exec c E _ _ _ HX (inv_init HC)) as (_ & HO & _).
    assert (HB : inv_b s).
    { apply (inv_b_exec _ _ _ HX). unfold inv_b, init_st. simpl. destruct (validate_at_start c); split; auto; discriminate. }
    destruct HB as [B1 B2]. unfold trans in H. destruct (ph E s) eqn:EP.
    - right. unfold do_validate in H. destruct (has_validator c); [discriminate|]. inversion H; subst. auto.
    - destruct (reader_next E (reader E s)) as [[bs|] r]; [discriminate|]. destruct (step_nr E s =? 0); discriminate.
    - left. unfold run_step in H. destruct (batches E s); [|exfalso; apply B1; reflexivity]. destruct (fp16 c).
      + rewrite HO in H. destruct (accumulate _ _ _ _ _ _ _ _ _ _ _) as [[[g r] nt] b].
        destruct (run_optimizer_step _ _ _) as [[rep stepped] sc']. destruct (if stepped then _ else _) as [m' o'].
        destruct (exploded rep); [inversion H; subst; repeat split; discriminate|]. destruct (overflowed rep); [discriminate|].
        destruct (lr_step E (lr E s) o'); discriminate.
      + destruct (accumulate _ _ _ _ _ _ _ _ _ _ _) as [[[g r] nt] b]. destruct (opt_step E _ _ _) as [m' o'].
        destruct (lr_step E _ o') as [l' o'']. discriminate.
    - exfalso. eapply post_ok; eauto.
    - destruct (match max_num_data_epochs c with Some m => m <=? epoch E s | None => false end); [discriminate|].
      destruct (run_post_step c E s) as [s' evs|e'] eqn:ER; [discriminate|]. exfalso. eapply post_ok; eauto.
    - exfalso. eapply stop_ok; eauto.
    - exfalso. eapply stop_ok; eauto.
    - destruct (stop_requested E s); discriminate.
    - discriminate.
    - exfalso. eapply stop_ok; eauto.
    - discriminate.
  Qed.

  (** *** Stop requests *)
  Definition quiet (p : phase) : Prop := match p with PRE_VALIDATION | DATA_LOAD | STEP => False | _ => True end.

  Lemma flag_step s s1 ev : trans c E s = Next E s1 ev -> stop_requested E s = true -> stop_requested E s1 = true.
  Proof.
    intros H HF. unfold trans in H. destruct (ph E s) eqn:EP.
    - destruct (do_validate c E s) as [[? ?]|]; inversion H; subst. assumption.
    - destruct (reader_next E (reader E s)) as [[bs|] r]; [inversion H; subst; assumption|].
      destruct (step_nr E s =? 0); inversion H; subst; assumption.
    - unfold run_step in H. destruct (batches E s); [|discriminate]. destruct (fp16 c).
      + destruct (orig E s); [discriminate|]. destruct (accumulate _ _ _ _ _ _ _ _ _ _ _) as [[[g r] nt] b].
        destruct (run_optimizer_step _ _ _) as [[rep stepped] sc']. destruct (if stepped then _ else _) as [m' o'].
        destruct (exploded rep); [discriminate|]. destruct (overflowed rep); [inversion H; subst; assumption|].
        destruct (lr_step E (lr E s) o'); inversion H; subst; assumption.
      + destruct (accumulate _ _ _ _ _ _ _ _ _ _ _) as [[[g r] nt] b]. destruct (opt_step E _ _ _) as [m' o'].
        destruct (lr_step E _ o') as [l' o'']. inversion H; subst; assumption.
    - apply post_cases in H. destruct H as [(-> & -> & _)|[(-> & -> & _)|(HM & b & sp & scd & p & -> & _ & HP)]]; assumption.
    - destruct (match max_num_data_epochs c with Some m => m <=? epoch E s | None => false end); [inversion H; subst; assumption|].
      destruct (run_post_step c E s) as [s' evs|] eqn:ER; [|discriminate]. inversion H; subst.
      apply post_cases in ER. destruct ER as [(-> & -> & _)|[(-> & -> & _)|(HM & b & sp & scd & p & -> & _ & HP)]]; assumption.
    - unfold stop in H. destruct (publish_cases c E s) as [b Hb]. rewrite Hb in H. cbv beta iota in H.
      destruct (should_validate c E (set_bag E b s)); [destruct (do_validate c E (set_bag E b s)) as [[? ?]|]; [|discriminate]|]; inversion H; subst; assumption.
    - unfold stop in H. destruct (publish_cases c E s) as [b Hb]. rewrite Hb in H. cbv beta iota in H.
      destruct (should_validate c E (set_bag E b s)); [destruct (do_validate c E (set_bag E b s)) as [[? ?]|]; [|discriminate]|]; inversion H; subst; assumption.
    - rewrite HF in H. inversion H; subst; assumption.
    - inversion H; subst. reflexivity.
    - unfold stop in H. destruct (publish_cases c E s) as [b Hb]. rewrite Hb in H. cbv beta iota in H.
      destruct (should_validate c E (set_bag E b s)); [destruct (do_validate c E (set_bag E b s)) as [[? ?]|]; [|discriminate]|]; inversion H; subst; assumption.
    - inversion H; subst. assumption.
  Qed.

  (** After a request, without a maximal number of steps: no update after the current one. *)
  Lemma quiet_step s s1 ev : trans c E s = Next E s1 ev -> stop_requested E s = true -> max_num_steps c = None -> orig E s = None ->
    (quiet (ph E s) -> quiet (ph E s1) /\ updates (acts ev) = []) /\
    (~ quiet (ph E s) -> updates (acts ev) = [] \/ quiet (ph E s1) /\ List.length (updates (acts ev)) = 1%nat).
  Proof.
    intros H HF HM HO. unfold trans in H. destruct (ph E s) eqn:EP; simpl.
    - split; [contradiction|]. intros _. left. destruct (do_validate c E s) as [[ev0 sc]|] eqn:ED; inversion H; subst.
      apply validate_acts in ED. destruct ED as [_ ->]. destruct (_ && _); reflexivity.
    - split; [contradiction|]. intros _. left. destruct (reader_next E (reader E s)) as [[bs|] r]; [inversion H; subst; reflexivity|].
      destruct (step_nr E s =? 0); inversion H; subst; reflexivity.
    - split; [contradiction|]. intros _. apply step_cases in H; [|assumption]. destruct H as (_ & _ & _ & _ & [(P & _ & ->)|(P & ->)]).
      + left. reflexivity.
      + right. rewrite P. split; [exact Logic.I|reflexivity].
    - split; [|tauto]. intros _. unfold run_post_step in H. rewrite HM, HF in H. inversion H; subst. split; [exact Logic.I|reflexivity].
    - split; [|tauto]. intros _.
      destruct (match max_num_data_epochs c with Some m => m <=? epoch E s | None => false end); [inversion H; subst; split; [exact Logic.I|reflexivity]|].
      unfold run_post_step in H. rewrite HM, HF in H. inversion H; subst. split; [exact Logic.I|reflexivity].
    - split; [|tauto]. intros _. apply stop_cases in H. destruct H as [P [sc ->]]. rewrite P. split; [exact Logic.I|apply updates_final].
    - split; [|tauto]. intros _. apply stop_cases in H. destruct H as [P [sc ->]]. rewrite P. split; [exact Logic.I|apply updates_final].
    - split; [|tauto]. intros _. rewrite HF in H. inversion H; subst. split; [exact Logic.I|reflexivity].
    - split; [|tauto]. intros _. inversion H; subst. split; [exact Logic.I|]. rewrite acts_app, updates_app, acts_maybe_save. destruct (should_save c E s); reflexivity.
    - split; [|tauto]. intros _. apply stop_cases in H. destruct H as [P [sc ->]]. rewrite P. split; [exact Logic.I|apply updates_final].
    - split; [|tauto]. intros _. inversion H; subst. rewrite EP. split; [exact Logic.I|reflexivity].
  Qed.

  Lemma acts_cons_request (t : list (event E)) : acts (EvRequest E :: t) = acts t.
  Proof. reflexivity. Qed.

  Lemma quiet_exec s t s' : exec c E s t s' -> inv c E s -> stop_requested E s = true -> max_num_steps c = None ->
    (quiet (ph E s) -> updates (acts t) = []) /\ (List.length (updates (acts t)) <= 1)%nat.
  Proof.
    induction 1 as [s|s s1 s2 ev t HT HX IH|s s2 t HX IH]; intros HI HF HM.
    - split; [reflexivity|simpl; lia].
    - destruct (quiet_step _ _ _ HT HF HM (proj1 (proj2 HI))) as [Q1 Q2].
      destruct (IH (inv_step c E _ _ _ HT HI) (flag_step _ _ _ HT HF) HM) as [J1 J2]. rewrite acts_app, updates_app. split.
      + intros HQ. destruct (Q1 HQ) as [Q3 ->]. apply J1. assumption.
      + destruct (ph E s) eqn:EP; try (destruct (Q1 Logic.I) as [Q3 ->]; exact J2);
          (destruct (Q2 (fun x => x)) as [->|[Q3 Q4]]; [exact J2|rewrite (J1 Q3), app_nil_r; lia]).
    - rewrite acts_cons_request. apply IH; auto.
  Qed.

  Lemma stopped_by_request s t s' : exec c E s t s' -> stop_requested E s = false -> ph E s <> STOP_REQUESTED ->
    In (AEnd StopRequested) (acts t) -> In (EvRequest E) t.
  Proof.
    intros HX. induction HX as [s|s s1 s2 ev t HT HX IH|s s2 t HX IH]; intros HF HP HE.
    - contradiction.
    - apply in_or_app. rewrite acts_app in HE. apply in_app_or in HE.
      assert (HS : ~ In (AEnd StopRequested) (acts ev) /\ (In (AEnd StopRequested) (acts t) -> stop_requested E s1 = false /\ ph E s1 <> STOP_REQUESTED)).
      { unfold trans in HT. destruct (ph E s) eqn:EP.
        - destruct (do_validate c E s) as [[ev0 sc]|] eqn:ED; inversion HT; subst. apply validate_acts in ED. destruct ED as [_ ->]. split.
          + intros [HH|HH]; [discriminate|]. destruct (_ && _) in HH; [destruct HH as [HH|[]]; discriminate|contradiction].
          + intros _. split; [assumption|discriminate].
        - destruct (reader_next E (reader E s)) as [[bs|] r]; [inversion HT; subst; split; [intros []|split; [assumption|discriminate]]|].
          destruct (step_nr E s =? 0); inversion HT; subst.
          + split; [intros [HH|[]]; discriminate|split; [assumption|discriminate]].
          + split; [intros []|split; [assumption|discriminate]].
        - unfold run_step in HT. destruct (batches E s); [|discriminate]. destruct (fp16 c).
          + destruct (orig E s); [discriminate|]. destruct (accumulate _ _ _ _ _ _ _ _ _ _ _) as [[[g r] nt] b].
            destruct (run_optimizer_step _ _ _) as [[rep stepped] sc']. destruct (if stepped then _ else _) as [m' o'].
            destruct (exploded rep); [discriminate|].
            destruct (overflowed rep); [inversion HT; subst; split; [intros [HH|[]]; discriminate|split; [assumption|discriminate]]|].
            destruct (lr_step E (lr E s) o'); inversion HT; subst; split; [intros [HH|[]]; discriminate|split; [assumption|discriminate]].
          + destruct (accumulate _ _ _ _ _ _ _ _ _ _ _) as [[[g r] nt] b]. destruct (opt_step E _ _ _) as [m' o'].
            destruct (lr_step E _ o') as [l' o'']. inversion HT; subst. split; [intros [HH|[]]; discriminate|split; [assumption|discriminate]].
        - apply post_cases in HT. destruct HT as [(-> & -> & _)|[(-> & -> & _ & HB)|(HM & b & sp & scd & p & -> & HA & HQ)]]; [|congruence|].
          + split; [intros []|split; [assumption|discriminate]].
          + rewrite HA. split; [apply end_in_periodic|]. split; [assumption|]. destruct HQ as [->|(-> & _)]; discriminate.
        - destruct (match max_num_data_epochs c with Some m => m <=? epoch E s | None => false end);
            [inversion HT; subst; split; [intros [HH|[]]; discriminate|split; [assumption|discriminate]]|].
          destruct (run_post_step c E s) as [s' evs|] eqn:ER; [|discriminate]. inversion HT; subst.
          apply post_cases in ER. destruct ER as [(-> & -> & _)|[(-> & -> & _ & HB)|(HM & b & sp & scd & p & -> & HA & HQ)]]; [|congruence|].
          + split; [intros [HH|[]]; discriminate|split; [assumption|discriminate]].
          + split; [|split; [assumption|destruct HQ as [->|(-> & _)]; discriminate]].
            intros [HH|HH]; [discriminate|]. change (In (AEnd StopRequested) (acts evs)) in HH. rewrite HA in HH. apply end_in_periodic in HH. assumption.
        - apply stop_cases in HT. destruct HT as [P [sc ->]]. split; [intros HH; apply end_in_final in HH; discriminate|].
          intros HH. rewrite (stopped_exec c E _ _ _ HX P) in HH. contradiction.
        - apply stop_cases in HT. destruct HT as [P [sc ->]]. split; [intros HH; apply end_in_final in HH; discriminate|].
          intros HH. rewrite (stopped_exec c E _ _ _ HX P) in HH. contradiction.
        - rewrite HF in HT. inversion HT; subst. split; [intros []|split; [assumption|discriminate]].
        - inversion HT; subst. split.
          + rewrite acts_app, acts_maybe_save. destruct (should_save c E s); simpl; intuition discriminate.
          + intros HH. rewrite (stopped_exec c E _ _ _ HX eq_refl) in HH. contradiction.
        - contradiction.
        - inversion HT; subst. split; [intros []|]. split; [assumption|rewrite EP; discriminate]. }
      destruct HS as [S1 S2]. destruct HE as [HE|HE]; [contradiction|]. right. destruct (S2 HE). apply IH; auto.
    - left. reflexivity.
  Qed.

  (** *** Overflow *)
  Section Overflow.
    Variable sc : scaler_cfg.
    Hypothesis HC : fp16 c = Some sc.
    Hypothesis HV : visible sc.

    Lemma overflow_lemma s bs : ph E s = STEP -> batches E s = Some bs -> orig E s = None -> (min_scale sc <= gs_scale (scaler E s))%Q ->
      (has_inf E (step_gradient s bs) = true ->
        ((gs_scale (scaler E s) / scale_factor sc < min_scale sc)%Q -> trans c E s = Raised E MinimumLossScaleReachedError) /\
        ((min_scale sc <= gs_scale (scaler E s) / scale_factor sc)%Q ->
          exists s1 g r, trans c E s = Next E s1 [EvOverflow E (step_nr E s + 1)] /\ (gs_scale g == gs_scale (scaler E s) / scale_factor sc)%Q /\
            (stop_requested E s = false ->
              trans c E s1 = Next E (St E DATA_LOAD (step_nr E s) (epoch E s) (model E s) (optim E s) (lr E s) g r (bag E s) None (reader E s)
                                       None false (stopper E s)) []))) /\
      (has_inf E (step_gradient s bs) = false ->
        exists s1 o, opt_step E (clip E (step_gradient s bs)) (model E s) (optim E s) = (model E s1, o) /\ lr_step E (lr E s) o = (lr E s1, optim E s1) /\
          trans c E s = Next E s1 [EvUpdate E (step_nr E s + 1) (epoch E s) bs (model E s1) (optim E s1) (lr E s1)] /\ ph E s1 = POST_STEP).
    Proof.
      intros HP HB HO HS. unfold trans. rewrite HP. unfold run_step. rewrite HB, HC, HO. unfold step_gradient.
      destruct (accumulate _ _ _ _ _ _ _ _ _ _ _) as [[[g r] nt] b].
      set (g2 := unscale E (gs_scale (scaler E s)) (if 0 <? nt then normalize E nt g else g)). split.
      - intros Hinf. rewrite Hinf. unfold run_optimizer_step.
        destruct (update_true sc (scaler E s) HV HS) as (rep & g' & EU & _ & _ & R1 & _ & _ & R2 & R3). rewrite EU. simpl. split.
        + intros HL. apply R2 in HL. rewrite HL. reflexivity.
        + intros HG. destruct (exploded rep) eqn:EX.
          * exfalso. assert (H : (gs_scale (scaler E s) / scale_factor sc < min_scale sc)%Q) by (apply R2; reflexivity).
            apply Qlt_not_le in H. contradiction.
          * rewrite R1. eexists. exists g', r. split; [reflexivity|]. split.
            -- rewrite R3. apply Q.max_l. assumption.
            -- intros HF. simpl. rewrite HF. unfold set_ph, set_step. simpl. rewrite Z.add_simpl_r. reflexivity.
      - intros Hinf. rewrite Hinf. unfold run_optimizer_step.
        destruct (update_false sc (scaler E s) HV HS) as (rep & g' & EU & _ & _ & R1 & R2 & _ & _ & R3). rewrite EU. simpl. rewrite R1, R2.
        destruct (opt_step E (clip E g2) (model E s) (optim E s)) as [m' o'] eqn:EO. destruct (lr_step E (lr E s) o') as [l' o''] eqn:EL.
        eexists (St E POST_STEP _ _ m' o'' l' _ _ _ _ _ _ _ _), o'. simpl. split; [reflexivity|]. split; [assumption|]. split; reflexivity.
    Qed.

    Lemma scale_step s s1 ev : trans c E s = Next E s1 ev -> (min_scale sc <= gs_scale (scaler E s))%Q -> orig E s = None ->
      (min_scale sc <= gs_scale (scaler E s1))%Q.
    Proof.
      intros H HS HO. unfold trans in H. destruct (ph E s) eqn:EP.
      - destruct (do_validate c E s) as [[? ?]|]; inversion H; subst. assumption.
      - destruct (reader_next E (reader E s)) as [[bs|] r]; [inversion H; subst; assumption|].
        destruct (step_nr E s =? 0); inversion H; subst; assumption.
      - unfold run_step in H. destruct (batches E s); [|discriminate]. rewrite HC, HO in H.
        destruct (accumulate _ _ _ _ _ _ _ _ _ _ _) as [[[g r] nt] b]. unfold run_optimizer_step in H.
        destruct (has_inf E _).
        + destruct (update_true sc (scaler E s) HV HS) as (rep & g' & EU & _ & _ & R1 & _ & _ & R2 & R3). rewrite EU in H. simpl in H.
          destruct (exploded rep); [discriminate|]. rewrite R1 in H. inversion H; subst. simpl. rewrite R3. apply Q.le_max_r.
        + destruct (update_false sc (scaler E s) HV HS) as (rep & g' & EU & _ & _ & R1 & R2 & _ & _ & R3). rewrite EU in H. simpl in H.
          rewrite R1, R2 in H. destruct (opt_step E _ _ _) as [m' o']. destruct (lr_step E _ o') as [l' o'']. inversion H; subst. simpl. rewrite R3.
          destruct (scaled rep); [|assumption]. destruct HV as (V1 & V2 & V3 & _). pose proof (inv_bounds _ V1) as (I1 & I2 & I3).
          set (i := (1 / scale_factor sc)%Q) in *. apply Qle_trans with (gs_scale (scaler E s)); [assumption|].
          clearbody i. revert HS V1 V2 V3 I1 I2 I3. generalize (gs_scale (scaler E s)) (min_scale sc) (scale_factor sc). intros a m f HS V1 V2 V3 I1 I2 I3.
          assert (Hm : (0 < m)%Q) by Lqa.nra. assert (Ha : (0 < a)%Q) by Lqa.lra. Lqa.nra.
      - apply post_cases in H. destruct H as [(-> & -> & _)|[(-> & -> & _)|(HM & b & sp & scd & p & -> & _ & _)]]; assumption.
      - destruct (match max_num_data_epochs c with Some m => m <=? epoch E s | None => false end); [inversion H; subst; assumption|].
        destruct (run_post_step c E s) as [s' evs|] eqn:ER; [|discriminate]. inversion H; subst.
        apply post_cases in ER. destruct ER as [(-> & -> & _)|[(-> & -> & _)|(HM & b & sp & scd & p & -> & _ & _)]]; assumption.
      - unfold stop in H. destruct (publish_cases c E s) as [b Hb]. rewrite Hb in H. cbv beta iota in H.
        destruct (should_validate c E (set_bag E b s)); [destruct (do_validate c E (set_bag E b s)) as [[? ?]|]; [|discriminate]|]; inversion H; subst; assumption.
      - unfold stop in H. destruct (publish_cases c E s) as [b Hb]. rewrite Hb in H. cbv beta iota in H.
        destruct (should_validate c E (set_bag E b s)); [destruct (do_validate c E (set_bag E b s)) as [[? ?]|]; [|discriminate]|]; inversion H; subst; assumption.
      - destruct (stop_requested E s); inversion H; subst; assumption.
      - inversion H; subst. assumption.
      - unfold stop in H. destruct (publish_cases c E s) as [b Hb]. rewrite Hb in H. cbv beta iota in H.
        destruct (should_validate c E (set_bag E b s)); [destruct (do_validate c E (set_bag E b s)) as [[? ?]|]; [|discriminate]|]; inversion H; subst; assumption.
      - inversion H; subst. assumption.
    Qed.

    Lemma scale_exec s t s' : exec c E s t s' -> inv c E s -> (min_scale sc <= gs_scale (scaler E s))%Q -> (min_scale sc <= gs_scale (scaler E s'))%Q.
    Proof.
      induction 1; intros HI HS; auto. apply IHexec; [eapply inv_step; eauto|]. eapply scale_step; eauto. apply HI.
    Qed.
  End Overflow.
End Run.
