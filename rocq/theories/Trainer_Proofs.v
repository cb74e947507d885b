From Coq Require Import String ZArith QArith List Bool Lia Znumtheory.
From Verif Require Import LossScale_Model Trainer_Model Trainer_Spec.
Import ListNotations.
Local Open Scope Z_scope.

Lemma due_eq d n : should_do_at_step d n = due d n.
Proof. unfold should_do_at_step, due. destruct (every_n_steps d); [|reflexivity]. destruct (after_n_steps d <? n); reflexivity. Qed.

Lemma due_epoch_eq d n e : should_do d END_OF_DATA_EPOCH n e = due_epoch d n e.
Proof.
  unfold should_do, due_epoch. rewrite due_eq. destruct (every_n_data_epochs d); [|reflexivity].
  destruct (after_n_data_epochs d <? e); [|reflexivity]. destruct (e mod z =? 0); reflexivity.
Qed.

Lemma acts_app {E} (a b : list (event E)) : acts (a ++ b) = acts a ++ acts b.
Proof. unfold acts. apply flat_map_app. Qed.

Section P.
  Variable c : config.
  Variable E : env.
  Implicit Types s u : st E.

  Definition sv s := should_save c E s.

  Lemma acts_save s : acts (save c E s) = [ASave (step_nr E s)].
  Proof. unfold save. destruct (save_model_only c); reflexivity. Qed.
  Lemma acts_maybe_save s : acts (maybe_save c E s) = if should_save c E s then [ASave (step_nr E s)] else [].
  Proof. unfold maybe_save. destruct (should_save c E s); [apply acts_save|reflexivity]. Qed.

  Lemma publish_cases s : exists b, maybe_publish c E s = ((if should_publish c E s then [EvPublish E (step_nr E s) (epoch E s) (bag E s)] else []), set_bag E b s).
  Proof.
    unfold maybe_publish. destruct (should_publish c E s); [eauto|]. exists (bag E s). destruct s. reflexivity.
  Qed.

  Lemma validate_acts s ev sc : do_validate c E s = Some (ev, sc) ->
    has_validator c = true /\ acts ev = AValidate (step_nr E s) :: (if (match sc with Some _ => true | None => false end) && should_save c E s then [AScore (step_nr E s)] else []).
  Proof.
    unfold do_validate. destruct (has_validator c); [|discriminate]. intros H. inversion H; subst. split; [reflexivity|].
    destruct (validate E (step_nr E s) (model E s)); simpl; [|reflexivity]. destruct (should_save c E s); reflexivity.
  Qed.

  (** What [run_post_step] can do. *)
  Lemma post_cases s s1 ev : run_post_step c E s = Next E s1 ev ->
    (ev = [] /\ s1 = set_ph E END_OF_TRAINING s /\ exists m, max_num_steps c = Some m /\ m <= step_nr E s) \/
    (ev = [] /\ s1 = set_ph E STOP_REQUESTED s /\ max_num_steps c = None /\ stop_requested E s = true) \/
    ((forall m, max_num_steps c = Some m -> step_nr E s < m) /\ exists b sp scored p,
       s1 = set_ph E p (set_stopper E sp (set_bag E b s)) /\
       acts ev = periodic (should_save c E s) (should_publish c E s) (should_validate c E s) scored (step_nr E s) /\
       (p = DATA_LOAD \/ p = EARLY_STOP /\ scored = true /\ should_validate c E s = true /\ has_early_stopper c = true)).
  Proof.
    intros H. unfold run_post_step in H.
    assert (HG : (forall m, max_num_steps c = Some m -> step_nr E s < m) ->
      (let ev1 := maybe_save c E s in let (ev2, s2) := maybe_publish c E s in
       if should_validate c E s2 then match do_validate c E s2 with
        | None => Raised E InternalError
        | Some (ev3, sc) => match sc with
            | Some x => if has_early_stopper c then let (b, sp) := should_stop E (step_nr E s2) x (stopper E s2) in
                  Next E (set_ph E (if b then EARLY_STOP else DATA_LOAD) (set_stopper E sp s2)) (ev1 ++ ev2 ++ ev3)
                else Next E (set_ph E DATA_LOAD s2) (ev1 ++ ev2 ++ ev3)
            | None => Next E (set_ph E DATA_LOAD s2) (ev1 ++ ev2 ++ ev3) end end
       else Next E (set_ph E DATA_LOAD s2) (ev1 ++ ev2)) = Next E s1 ev ->
      exists b sp scored p,
       s1 = set_ph E p (set_stopper E sp (set_bag E b s)) /\
       acts ev = periodic (should_save c E s) (should_publish c E s) (should_validate c E s) scored (step_nr E s) /\
       (p = DATA_LOAD \/ p = EARLY_STOP /\ scored = true /\ should_validate c E s = true /\ has_early_stopper c = true)).
    { intros _ HH. cbv zeta in HH. destruct (publish_cases s) as [b Hb]. rewrite Hb in HH. cbv beta iota in HH.
      change (should_validate c E (set_bag E b s)) with (should_validate c E s) in HH.
      assert (HP : acts (if should_publish c E s then [EvPublish E (step_nr E s) (epoch E s) (bag E s)] else []) =
                   if should_publish c E s then [APublish (step_nr E s)] else []) by (destruct (should_publish c E s); reflexivity).
      destruct (should_validate c E s) eqn:EV.
      - destruct (do_validate c E (set_bag E b s)) as [[ev3 sc]|] eqn:ED; [|discriminate].
        apply validate_acts in ED. destruct ED as [HV HA]. simpl in HA.
        assert (HE : acts (maybe_save c E s ++ (if should_publish c E s then [EvPublish E (step_nr E s) (epoch E s) (bag E s)] else []) ++ ev3) =
                     periodic (should_save c E s) (should_publish c E s) true (match sc with Some _ => true | None => false end) (step_nr E s)).
        { rewrite !acts_app, HP, HA, acts_maybe_save. reflexivity. }
        destruct sc as [x|].
        + destruct (has_early_stopper c) eqn:ES.
          * destruct (should_stop E (step_nr E (set_bag E b s)) x (stopper E (set_bag E b s))) as [bb sp].
            inversion HH; subst. exists b, sp, true, (if bb then EARLY_STOP else DATA_LOAD). split; [reflexivity|]. split; [assumption|].
            destruct bb; [right; auto|left; reflexivity].
          * inversion HH; subst. exists b, (stopper E s), true, DATA_LOAD. split; [destruct s; reflexivity|]. split; [assumption|left; reflexivity].
        + inversion HH; subst. exists b, (stopper E s), false, DATA_LOAD. split; [destruct s; reflexivity|]. split; [assumption|left; reflexivity].
      - inversion HH; subst. exists b, (stopper E s), false, DATA_LOAD. split; [destruct s; reflexivity|]. split; [|left; reflexivity].
        rewrite !acts_app, HP, acts_maybe_save. unfold periodic. rewrite !app_nil_r. reflexivity. }
    destruct (max_num_steps c) as [m|] eqn:EM.
    - destruct (Z.leb_spec m (step_nr E s)).
      + inversion H; subst. left. eauto.
      + right. right. split; [intros m' Hm; inversion Hm; subst; assumption|]. apply HG; [|assumption]. intros m' Hm; inversion Hm; subst; assumption.
    - destruct (stop_requested E s) eqn:ES.
      + inversion H; subst. right. left. auto.
      + right. right. split; [discriminate|]. apply HG; [discriminate|assumption].
  Qed.

  Lemma stop_cases k s s1 ev : stop c E k s = Next E s1 ev ->
    ph E s1 = STOPPED /\ exists scored,
      acts ev = final (should_save c E s) (should_publish c E s) (should_validate c E s) scored (step_nr E s) k.
  Proof.
    intros H. unfold stop in H. destruct (publish_cases s) as [b Hb]. rewrite Hb in H. cbv beta iota in H.
    change (should_validate c E (set_bag E b s)) with (should_validate c E s) in H.
    assert (HP : acts (if should_publish c E s then [EvPublish E (step_nr E s) (epoch E s) (bag E s)] else []) =
                 if should_publish c E s then [APublish (step_nr E s)] else []) by (destruct (should_publish c E s); reflexivity).
    destruct (should_validate c E s) eqn:EV.
    - destruct (do_validate c E (set_bag E b s)) as [[ev3 sc]|] eqn:ED; [|discriminate].
      apply validate_acts in ED. destruct ED as [HV HA]. inversion H; subst. split; [reflexivity|].
      exists (match sc with Some _ => true | None => false end). rewrite !acts_app, HP, HA, acts_maybe_save. reflexivity.
    - inversion H; subst. split; [reflexivity|]. exists false. rewrite !acts_app, HP, acts_maybe_save. reflexivity.
  Qed.

  (** What a training step can do. *)
  Lemma step_cases s s1 ev : run_step c E s = Next E s1 ev -> orig E s = None ->
    step_nr E s1 = step_nr E s + 1 /\ epoch E s1 = epoch E s /\ orig E s1 = None /\ stop_requested E s1 = stop_requested E s /\
    ((ph E s1 = GRAD_OVERFLOW /\ fp16 c <> None /\ acts ev = [AOverflow (step_nr E s + 1)]) \/
     (ph E s1 = POST_STEP /\ acts ev = [AUpdate (step_nr E s + 1) (epoch E s)])).
  Proof.
    intros H HO. unfold run_step in H. destruct (batches E s) as [bs|]; [|discriminate].
    destruct (fp16 c) as [sc|] eqn:EF.
    - rewrite HO in H. destruct (accumulate _ _ _ _ _ _ _ _ _ _ _) as [[[g r] nt] b].
      destruct (run_optimizer_step _ _ _) as [[rep stepped] sc'].
      destruct (if stepped then _ else _) as [m' o']. destruct (exploded rep); [discriminate|]. destruct (overflowed rep).
      + inversion H; subst. simpl. repeat split. left. repeat split. discriminate.
      + destruct (lr_step E (lr E s) o') as [l' o'']. inversion H; subst. simpl. repeat split. right. split; reflexivity.
    - destruct (accumulate _ _ _ _ _ _ _ _ _ _ _) as [[[g r] nt] b].
      destruct (opt_step E _ _ _) as [m' o']. destruct (lr_step E _ o') as [l' o'']. inversion H; subst. simpl. repeat split; auto.
  Qed.

  (** Invariant. *)
  Definition inv s : Prop :=
    0 <= step_nr E s /\ orig E s = None /\
    (ph E s = END_OF_DATA_EPOCH -> step_nr E s <> 0) /\
    (ph E s = POST_STEP \/ ph E s = GRAD_OVERFLOW -> 1 <= step_nr E s) /\
    (ph E s = PRE_VALIDATION -> step_nr E s = 0 /\ epoch E s = 1) /\
    (ph E s = GRAD_OVERFLOW -> fp16 c <> None) /\
    match ph E s with
    | PRE_VALIDATION | DATA_LOAD | STEP | END_OF_DATA_EPOCH => more_steps c (step_nr E s)
    | POST_STEP | GRAD_OVERFLOW => forall m, max_num_steps c = Some m -> step_nr E s <= m
    | _ => True
    end.

  Ltac sol := try solve [assumption | reflexivity | discriminate | lia | tauto | intros; discriminate | intros; lia
                        | intros [?|?]; discriminate | intros; tauto | intros; auto].

  Lemma inv_step s s1 ev : trans c E s = Next E s1 ev -> inv s -> inv s1.
  Proof.
    intros H (I1 & I2 & I3 & I4 & I6 & I7 & I5). unfold trans in H. destruct (ph E s) eqn:EP; simpl in I5, I3, I4, I6, I7.
    - destruct (do_validate c E s) as [[ev0 sc]|]; inversion H; subst. repeat split; simpl; sol.
    - destruct (reader_next E (reader E s)) as [[bs|] r].
      + inversion H; subst. repeat split; simpl; sol.
      + destruct (Z.eqb_spec (step_nr E s) 0); inversion H; subst; repeat split; simpl; sol.
    - apply step_cases in H; [|assumption]. destruct H as (H1 & H2 & H3 & H4 & H5).
      unfold inv. rewrite H1. split; [lia|]. split; [assumption|].
      destruct H5 as [(P & F & _)|(P & _)]; rewrite P; (split; [intros ?; discriminate|]); (split; [intros; lia|]); (split; [intros ?; discriminate|]).
      + split; [auto|]. intros m Hm. specialize (I5 m Hm). lia.
      + split; [intros ?; discriminate|]. intros m Hm. specialize (I5 m Hm). lia.
    - apply post_cases in H. destruct H as [(-> & -> & _)|[(-> & -> & _)|(HM & b & sp & scd & p & -> & _ & HP)]].
      + repeat split; simpl; sol.
      + repeat split; simpl; sol.
      + destruct HP as [->|(-> & _)]; repeat split; simpl; sol.
    - destruct (match max_num_data_epochs c with Some m => m <=? epoch E s | None => false end).
      + inversion H; subst. repeat split; simpl; sol.
      + destruct (run_post_step c E s) as [s' evs|] eqn:ER; [|discriminate]. inversion H; subst.
        apply post_cases in ER. destruct ER as [(-> & -> & m & Hm & HL)|[(-> & -> & _)|(HM & b & sp & scd & p & -> & _ & HP)]].
        * repeat split; simpl; sol.
        * repeat split; simpl; sol.
        * destruct HP as [->|(-> & _)]; repeat split; simpl; sol.
    - pose proof H as HS. apply stop_cases in HS. destruct HS as [P _].
      unfold stop in H. destruct (publish_cases s) as [b Hb]. rewrite Hb in H. cbv beta iota in H.
      destruct (should_validate c E (set_bag E b s)); [destruct (do_validate c E (set_bag E b s)) as [[? ?]|]; [|discriminate]|]; inversion H; subst; repeat split; simpl; sol.
    - unfold stop in H. destruct (publish_cases s) as [b Hb]. rewrite Hb in H. cbv beta iota in H.
      destruct (should_validate c E (set_bag E b s)); [destruct (do_validate c E (set_bag E b s)) as [[? ?]|]; [|discriminate]|]; inversion H; subst; repeat split; simpl; sol.
    - pose proof (I4 (or_intror eq_refl)) as I4'. destruct (stop_requested E s); inversion H; subst; repeat split; simpl; sol.
      unfold more_steps. intros m Hm. specialize (I5 m Hm). lia.
    - inversion H; subst. repeat split; simpl; sol.
    - unfold stop in H. destruct (publish_cases s) as [b Hb]. rewrite Hb in H. cbv beta iota in H.
      destruct (should_validate c E (set_bag E b s)); [destruct (do_validate c E (set_bag E b s)) as [[? ?]|]; [|discriminate]|]; inversion H; subst; repeat split; simpl; sol.
    - inversion H; subst. unfold inv. rewrite EP. repeat split; sol.
  Qed.

  Lemma inv_request s : inv s -> inv (set_stop E true s).
  Proof. intros H. exact H. Qed.

  Lemma inv_exec s t s' : exec c E s t s' -> inv s -> inv s'.
  Proof. induction 1; intros HI; auto. apply IHexec. eapply inv_step; eauto. Qed.

  (** The traces that are left in each phase. *)
  Definition rest (p : phase) (n e : Z) (t : list act) : Prop :=
    match p with
    | PRE_VALIDATION => has_validator c = true /\ (t = [] \/ exists t', t = AValidate 0 :: t' /\ history c n e t')
    | DATA_LOAD | STEP | END_OF_DATA_EPOCH => history c n e t
    | POST_STEP => history c (n - 1) e (AUpdate n e :: t)
    | GRAD_OVERFLOW => history c (n - 1) e (AOverflow n :: t)
    | END_OF_TRAINING => exists sc, t = at_end c sc n EndOfTraining
    | STOP_REQUESTED => exists sc, t = at_end c sc n StopRequested
    | END_OF_DATA => exists sc, t = at_data_end c sc n
    | EARLY_STOP => t = at_early_stop c n
    | STOPPED => t = []
    end.

  Lemma stopped_exec s t s' : exec c E s t s' -> ph E s = STOPPED -> acts t = [].
  Proof.
    induction 1; intros HP; simpl; auto.
    unfold trans in H. rewrite HP in H. inversion H; subst. simpl. auto.
  Qed.

  Lemma at_step_eq s : ph E s = POST_STEP -> forall sc,
    periodic (should_save c E s) (should_publish c E s) (should_validate c E s) sc (step_nr E s) = at_step c sc (step_nr E s).
  Proof. intros HP sc. unfold at_step, should_save, should_publish, should_validate. rewrite HP. simpl. rewrite !due_eq. reflexivity. Qed.
  Lemma at_epoch_eq s : ph E s = END_OF_DATA_EPOCH -> forall sc,
    periodic (should_save c E s) (should_publish c E s) (should_validate c E s) sc (step_nr E s) = at_epoch c sc (step_nr E s) (epoch E s).
  Proof. intros HP sc. unfold at_epoch, should_save, should_publish, should_validate. rewrite HP, !due_epoch_eq. reflexivity. Qed.

  (** The end of data epoch test. *)
  Lemma at_end_test s :
    (match max_num_data_epochs c with Some m => m <=? epoch E s | None => false end) = true ->
    exists m, max_num_data_epochs c = Some m /\ m <= epoch E s.
  Proof. destruct (max_num_data_epochs c) as [m|]; [|discriminate]. intros H. apply Z.leb_le in H. eauto. Qed.
  Lemma not_at_end_test s :
    (match max_num_data_epochs c with Some m => m <=? epoch E s | None => false end) = false -> more_epochs c (epoch E s).
  Proof. intros H m Hm. rewrite Hm in H. apply Z.leb_gt in H. assumption. Qed.

  Lemma rest_lemma s t s' : exec c E s t s' -> inv s -> (validate_at_start c = true \/ ph E s <> PRE_VALIDATION) ->
    settled (ph E s') \/ (s' = s /\ ph E s = PRE_VALIDATION /\ has_validator c = true /\ t = []) ->
    rest (ph E s) (step_nr E s) (epoch E s) (acts t).
  Proof.
    intros HX. induction HX as [s|s s1 s2 ev t HT HX IH|s s2 t HX IH]; intros HI HV HS.
    - destruct HS as [HS|(_ & HP & HV' & _)].
      + destruct HS as [-> |[-> | ->]]; simpl; try constructor.
      + rewrite HP. simpl. auto.
    - destruct HS as [HS|(-> & HP & _ & Ht)].
      2: { simpl. rewrite HP. simpl. apply app_eq_nil in Ht. destruct Ht as [-> ->].
           unfold trans in HT. rewrite HP in HT. destruct (do_validate c E s) as [[ev0 sc]|] eqn:ED; inversion HT; subst.
           unfold do_validate in ED. destruct (has_validator c); discriminate. }
      pose proof (inv_step _ _ _ HT HI) as HI1.
      assert (IH1 : ph E s1 <> PRE_VALIDATION -> rest (ph E s1) (step_nr E s1) (epoch E s1) (acts t)) by (intros; apply IH; auto).
      clear IH. rewrite acts_app. destruct HI as (I1 & I2 & I3 & I4 & I6 & I7 & I5).
      unfold trans in HT. destruct (ph E s) eqn:EP; simpl in I5, I3, I4, I6, I7; unfold rest; fold rest.
      + destruct (do_validate c E s) as [[ev0 sc]|] eqn:ED; inversion HT; subst. apply validate_acts in ED.
        destruct ED as [HV1 HA]. split; [assumption|]. right.
        exists (acts t). split; [|apply IH1; discriminate]. rewrite HA. unfold should_save. rewrite EP. simpl.
        rewrite andb_false_r. destruct (I6 eq_refl) as [-> _]. reflexivity.
      + destruct (reader_next E (reader E s)) as [[bs|] r].
        * inversion HT; subst. apply IH1. discriminate.
        * destruct (Z.eqb_spec (step_nr E s) 0) as [E0|E0]; inversion HT; subst.
          -- rewrite (stopped_exec _ _ _ HX eq_refl), E0. constructor.
          -- apply IH1. discriminate.
      + apply step_cases in HT; [|assumption]. destruct HT as (H1 & H2 & H3 & H4 & H5). rewrite H1, H2 in IH1.
        destruct H5 as [(P & F & ->)|(P & ->)]; rewrite P in IH1; specialize (IH1 ltac:(discriminate)); simpl in IH1;
          replace (step_nr E s + 1 - 1) with (step_nr E s) in IH1 by lia; exact IH1.
      + pose proof (I4 (or_introl eq_refl)) as I4'. apply post_cases in HT.
        destruct HT as [(-> & -> & m & Hm & HL)|[(-> & -> & HN & _)|(HM & b & sp & scd & p & -> & HA & HP)]].
        * destruct (IH1 ltac:(discriminate)) as [sc Hsc]. simpl in Hsc |- *. rewrite Hsc.
          specialize (I5 m Hm). assert (m = step_nr E s) by lia. subst m.
          pose proof (H_last c (step_nr E s - 1) (epoch E s) sc) as HH. replace (step_nr E s - 1 + 1) with (step_nr E s) in HH by lia. auto.
        * destruct (IH1 ltac:(discriminate)) as [sc Hsc]. simpl in Hsc |- *. rewrite Hsc.
          pose proof (H_stop_update c (step_nr E s - 1) (epoch E s) sc) as HH. replace (step_nr E s - 1 + 1) with (step_nr E s) in HH by lia. auto.
        * rewrite HA, at_step_eq by assumption. destruct HP as [->|(-> & -> & HSV & HES)].
          -- pose proof (H_update c (step_nr E s - 1) (epoch E s) scd (acts t)) as HH. replace (step_nr E s - 1 + 1) with (step_nr E s) in HH by lia.
             apply HH; [exact HM|]. apply IH1. discriminate.
          -- assert (IH1' : acts t = at_early_stop c (step_nr E s)) by (apply IH1; discriminate). rewrite IH1'.
             pose proof (H_early_update c (step_nr E s - 1) (epoch E s)) as HH. replace (step_nr E s - 1 + 1) with (step_nr E s) in HH by lia.
             unfold should_validate in HSV. rewrite EP in HSV. simpl in HSV. rewrite due_eq in HSV. apply andb_prop in HSV.
             apply HH; tauto.
      + destruct (match max_num_data_epochs c with Some m => m <=? epoch E s | None => false end) eqn:ET.
        * inversion HT; subst. destruct (IH1 ltac:(discriminate)) as [sc Hsc]. simpl in Hsc |- *. rewrite Hsc. constructor; [auto|].
          apply at_end_test. assumption.
        * destruct (run_post_step c E s) as [s' evs|] eqn:ER; [|discriminate]. inversion HT; subst.
          apply not_at_end_test in ET.
          apply post_cases in ER. destruct ER as [(-> & -> & m & Hm & HL)|[(-> & -> & HN & _)|(HM & b & sp & scd & p & -> & HA & HP)]].
          -- specialize (I5 m Hm). lia.
          -- destruct (IH1 ltac:(discriminate)) as [sc Hsc]. simpl in Hsc |- *. rewrite Hsc. constructor; auto.
          -- change (acts (EvEpochEnd E (epoch E s) (step_nr E s) :: evs) ++ acts t) with (AEpochEnd (epoch E s) (step_nr E s) :: acts evs ++ acts t).
             rewrite HA, at_epoch_eq by assumption. destruct HP as [->|(-> & -> & HSV & HES)].
             ++ constructor; auto. apply IH1. discriminate.
             ++ assert (IH1' : acts t = at_early_stop c (step_nr E s)) by (apply IH1; discriminate). rewrite IH1'.
                unfold should_validate in HSV. rewrite EP, due_epoch_eq in HSV. apply andb_prop in HSV. constructor; tauto.
      + pose proof (stop_cases _ _ _ _ HT) as [P [sc HA]]. rewrite (stopped_exec _ _ _ HX P), app_nil_r, HA. exists sc.
        unfold at_end, should_save, should_publish, should_validate. rewrite EP. simpl. rewrite andb_true_r. reflexivity.
      + pose proof (stop_cases _ _ _ _ HT) as [P [sc HA]]. rewrite (stopped_exec _ _ _ HX P), app_nil_r, HA. exists sc.
        unfold at_data_end, should_save, should_publish, should_validate. rewrite EP. simpl. rewrite !due_eq. reflexivity.
      + pose proof (I4 (or_intror eq_refl)) as I4'.
        destruct (stop_requested E s); inversion HT; subst.
        * destruct (IH1 ltac:(discriminate)) as [sc Hsc]. simpl in Hsc |- *. rewrite Hsc.
          pose proof (H_stop_overflow c (step_nr E s - 1) (epoch E s) sc) as HH. replace (step_nr E s - 1 + 1) with (step_nr E s) in HH by lia. auto.
        * pose proof (H_overflow c (step_nr E s - 1) (epoch E s) (acts t)) as HH. replace (step_nr E s - 1 + 1) with (step_nr E s) in HH by lia.
          apply HH; auto. apply IH1. discriminate.
      + inversion HT; subst. rewrite (stopped_exec _ _ _ HX eq_refl), app_nil_r. unfold at_early_stop.
        rewrite acts_app, acts_maybe_save. unfold should_save. rewrite EP. simpl. rewrite due_eq. destruct (due (checkpoint c) (step_nr E s)); reflexivity.
      + pose proof (stop_cases _ _ _ _ HT) as [P [sc HA]]. rewrite (stopped_exec _ _ _ HX P), app_nil_r, HA. exists sc.
        unfold at_end, should_save, should_publish, should_validate. rewrite EP. simpl. rewrite andb_true_r. reflexivity.
      + inversion HT; subst. simpl. apply (stopped_exec _ _ _ HX). assumption.
    - simpl. apply (IH HI HV). destruct HS as [HS|(HE & HP & HV' & Ht)]; [left; assumption|discriminate].
  Qed.
End P.
