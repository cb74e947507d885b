From Coq Require Import String ZArith QArith List Bool Lia.
From Verif Require Import LossScale_Model LossScale_Spec LossScale_Proofs Trainer_Model Trainer_Spec Trainer_Proofs Trainer_Proofs2 Trainer_Proofs3.
Import ListNotations.
Local Open Scope Z_scope.

(** *** Metrics *)
Section Totals.
  Variable E : env.

  Lemma totals_map (f : string * Metric E -> string * Metric E) (b : metrics E) : (forall nv, fst (f nv) = fst nv) -> totals (E := E) (map f b) = map f (totals b).
  Proof.
    intros H. unfold totals. induction b as [|x b IH]; [reflexivity|]. cbn [map filter]. rewrite H. destruct (is_total (fst x)); cbn [map]; rewrite IH; reflexivity.
  Qed.

  Lemma totals_reset (b : metrics E) : totals (reset_non_total E b) = totals b.
  Proof.
    unfold totals, reset_non_total. induction b as [|x b IH]; [reflexivity|]. cbn [map filter]. destruct (is_total (fst x)) eqn:ET; cbn [fst filter].
    - rewrite ET, IH. reflexivity.
    - rewrite ET. assumption.
  Qed.

  Lemma totals_update name f (b b' : metrics E) : totals b = totals b' -> totals (update_metric E name f b) = totals (update_metric E name f b').
  Proof.
    intros H. unfold update_metric. rewrite !totals_map, H; [reflexivity| |]; intros nv; destruct (String.eqb (fst nv) name); reflexivity.
  Qed.

  Lemma accumulate_totals st ep sc nb m bs : forall g r nt (b b' : metrics E), totals b = totals b' ->
    fst (accumulate E st ep sc nb m bs g r nt b) = fst (accumulate E st ep sc nb m bs g r nt b') /\
    totals (snd (accumulate E st ep sc nb m bs g r nt b)) = totals (snd (accumulate E st ep sc nb m bs g r nt b')).
  Proof.
    induction bs as [|x bs IH]; intros g r nt b b' H; simpl; [auto|].
    destruct (forward_backward E st ep sc nb m r x g) as [[[g' r'] t] f]. apply IH. rewrite !totals_map, H by reflexivity. reflexivity.
  Qed.
End Totals.

Section Sim.
  Variable c : config.
  Variable E : env.
  Implicit Types s u : st E.

  Lemma publish_eq s : maybe_publish c E s = ((if should_publish c E s then [EvPublish E (step_nr E s) (epoch E s) (bag E s)] else []),
     set_bag E (if should_publish c E s then reset_non_total E (bag E s) else bag E s) s).
  Proof. unfold maybe_publish. destruct (should_publish c E s); [reflexivity|]. destruct s; reflexivity. Qed.

  Definition go s : result E :=
    let ev1 := maybe_save c E s in
    let (ev2, s2) := maybe_publish c E s in
    if should_validate c E s2 then
      match do_validate c E s2 with
      | None => Raised E InternalError
      | Some (ev3, sc) =>
          match sc with
          | Some x =>
              if has_early_stopper c then
                let (b, sp) := should_stop E (step_nr E s2) x (stopper E s2) in
                Next E (set_ph E (if b then EARLY_STOP else DATA_LOAD) (set_stopper E sp s2)) (ev1 ++ ev2 ++ ev3)
              else Next E (set_ph E DATA_LOAD s2) (ev1 ++ ev2 ++ ev3)
          | None => Next E (set_ph E DATA_LOAD s2) (ev1 ++ ev2 ++ ev3)
          end
      end
    else Next E (set_ph E DATA_LOAD s2) (ev1 ++ ev2).

  Lemma post_eq s : run_post_step c E s =
    match max_num_steps c with
    | Some m => if m <=? step_nr E s then Next E (set_ph E END_OF_TRAINING s) [] else go s
    | None => if stop_requested E s then Next E (set_ph E STOP_REQUESTED s) [] else go s
    end.
  Proof. reflexivity. Qed.

  (** *** No update: nothing that training computes changes. *)
  Definition active (p : phase) : Prop :=
    match p with DATA_LOAD | STEP | POST_STEP | GRAD_OVERFLOW | END_OF_DATA_EPOCH => True | _ => False end.
  Definition eff s : Z := match ph E s with GRAD_OVERFLOW => step_nr E s - 1 | _ => step_nr E s end.

  Lemma post_frame s s1 ev : run_post_step c E s = Next E s1 ev ->
    model E s1 = model E s /\ optim E s1 = optim E s /\ lr E s1 = lr E s /\ scaler E s1 = scaler E s /\ rng E s1 = rng E s /\
    step_nr E s1 = step_nr E s /\ epoch E s1 = epoch E s /\ (forall n, ~ In (AUpdate n (epoch E s)) (acts ev)) /\
    ((forall n, ~ In (APublish n) (acts ev)) -> bag E s1 = bag E s) /\ totals (bag E s1) = totals (bag E s) /\ ph E s1 <> GRAD_OVERFLOW.
  Proof.
    intros H. rewrite post_eq in H.
    assert (HG : go s = Next E s1 ev ->
     model E s1 = model E s /\ optim E s1 = optim E s /\ lr E s1 = lr E s /\ scaler E s1 = scaler E s /\ rng E s1 = rng E s /\
     step_nr E s1 = step_nr E s /\ epoch E s1 = epoch E s /\ (forall n, ~ In (AUpdate n (epoch E s)) (acts ev)) /\
     ((forall n, ~ In (APublish n) (acts ev)) -> bag E s1 = bag E s) /\ totals (bag E s1) = totals (bag E s) /\ ph E s1 <> GRAD_OVERFLOW).
    { unfold go. cbv zeta. rewrite publish_eq.
      set (b := if should_publish c E s then _ else _). change (should_validate c E (set_bag E b s)) with (should_validate c E s).
      assert (HB : totals b = totals (bag E s)) by (unfold b; destruct (should_publish c E s); [apply totals_reset|reflexivity]).
      assert (HU : forall n, ~ In (AUpdate n (epoch E s)) (acts (maybe_save c E s ++ (if should_publish c E s then [EvPublish E (step_nr E s) (epoch E s) (bag E s)] else [])))).
      { intros n. rewrite acts_app, acts_maybe_save. destruct (should_save c E s), (should_publish c E s); simpl; intuition discriminate. }
      assert (HP : (forall n, ~ In (APublish n) (acts (maybe_save c E s ++ (if should_publish c E s then [EvPublish E (step_nr E s) (epoch E s) (bag E s)] else [])))) -> b = bag E s).
      { intros HN. unfold b. destruct (should_publish c E s); [|reflexivity]. exfalso. apply (HN (step_nr E s)). rewrite acts_app. apply in_or_app. right. left. reflexivity. }
      assert (HW : forall w p sp, (forall n, ~ In (AUpdate n (epoch E s)) (acts w)) -> p <> GRAD_OVERFLOW ->
          Next E (set_ph E p (set_stopper E sp (set_bag E b s))) ((maybe_save c E s ++ (if should_publish c E s then [EvPublish E (step_nr E s) (epoch E s) (bag E s)] else [])) ++ w) = Next E s1 ev ->
          model E s1 = model E s /\ optim E s1 = optim E s /\ lr E s1 = lr E s /\ scaler E s1 = scaler E s /\ rng E s1 = rng E s /\
          step_nr E s1 = step_nr E s /\ epoch E s1 = epoch E s /\ (forall n, ~ In (AUpdate n (epoch E s)) (acts ev)) /\
          ((forall n, ~ In (APublish n) (acts ev)) -> bag E s1 = bag E s) /\ totals (bag E s1) = totals (bag E s) /\ ph E s1 <> GRAD_OVERFLOW).
      { intros w p sp Hw Hp HQ. injection HQ as H1 H2. rewrite <- H1, <- H2. repeat (split; [reflexivity|]). split.
        { intros n HI. rewrite acts_app in HI. apply in_app_or in HI. destruct HI as [HI|HI]; [eapply HU; eauto|eapply Hw; eauto]. }
        split; [|split; [exact HB|exact Hp]].
        intros HN. apply HP. intros n HI. apply (HN n). rewrite acts_app. apply in_or_app. left. assumption. }
      destruct (should_validate c E s).
      - destruct (do_validate c E (set_bag E b s)) as [[ev3 sc]|] eqn:ED; [|discriminate]. apply validate_acts in ED. destruct ED as [_ HA].
        assert (Hw : forall n, ~ In (AUpdate n (epoch E s)) (acts ev3)).
        { intros n. rewrite HA. destruct (_ && _); simpl; intuition discriminate. }
        destruct sc as [x|]; [destruct (has_early_stopper c); [destruct (should_stop E _ _ _) as [bb sp]|]|]; rewrite app_assoc.
        + apply HW; [assumption|destruct bb; discriminate].
        + apply (HW _ _ (stopper E s)); [assumption|discriminate].
        + apply (HW _ _ (stopper E s)); [assumption|discriminate].
      - intros HQ. apply (HW [] DATA_LOAD (stopper E s)); [intros n []|discriminate|]. rewrite app_nil_r. exact HQ. }
    assert (HD : forall p, p <> GRAD_OVERFLOW -> Next E (set_ph E p s) [] = Next E s1 ev ->
     model E s1 = model E s /\ optim E s1 = optim E s /\ lr E s1 = lr E s /\ scaler E s1 = scaler E s /\ rng E s1 = rng E s /\
     step_nr E s1 = step_nr E s /\ epoch E s1 = epoch E s /\ (forall n, ~ In (AUpdate n (epoch E s)) (acts ev)) /\
     ((forall n, ~ In (APublish n) (acts ev)) -> bag E s1 = bag E s) /\ totals (bag E s1) = totals (bag E s) /\ ph E s1 <> GRAD_OVERFLOW).
    { intros p Hp HQ. injection HQ as H1 H2. rewrite <- H1, <- H2. repeat (split; [reflexivity|]). split; [intros n []|]. split; [reflexivity|]. split; [reflexivity|exact Hp]. }
    destruct (max_num_steps c); [destruct (z <=? step_nr E s)|destruct (stop_requested E s)]; auto; eapply HD; eauto; discriminate.
  Qed.

  Lemma stop_frame k s s1 ev : stop c E k s = Next E s1 ev ->
    model E s1 = model E s /\ optim E s1 = optim E s /\ lr E s1 = lr E s /\ ((forall n, ~ In (APublish n) (acts ev)) -> bag E s1 = bag E s).
  Proof.
    unfold stop. rewrite publish_eq. set (b := if should_publish c E s then _ else _).
    assert (HP : forall w, (forall n, ~ In (APublish n) (acts ((if should_publish c E s then [EvPublish E (step_nr E s) (epoch E s) (bag E s)] else []) ++ w))) -> b = bag E s).
    { intros w HN. unfold b. destruct (should_publish c E s); [|reflexivity]. exfalso. apply (HN (step_nr E s)). left. reflexivity. }
    destruct (should_validate c E (set_bag E b s)); [destruct (do_validate c E (set_bag E b s)) as [[? ?]|]; [|discriminate]|]; intros HQ; injection HQ as H1 H2;
      rewrite <- H1, <- H2; repeat (split; [reflexivity|]); apply HP.
  Qed.

  Lemma no_update_nil t : updates t = [] <-> forall n e, ~ In (AUpdate n e) t.
  Proof.
    split.
    - intros H n e HI. assert (HN : In n (updates t)); [|rewrite H in HN; contradiction]. revert HI. clear H. induction t as [|a t IH]; [auto|].
      intros [->|HI]; [left; reflexivity|]. change (updates (a :: t)) with (updates ([a] ++ t)). rewrite updates_app. apply in_or_app. right. auto.
    - induction t as [|a t IH]; [reflexivity|]. intros H. change (a :: t) with ([a] ++ t). rewrite updates_app, IH; [|intros n e HI; apply (H n e); right; assumption].
      destruct a; try reflexivity. exfalso. eapply H. left. reflexivity.
  Qed.

  Definition scale_ok s : Prop := forall sc, fp16 c = Some sc -> visible sc /\ (min_scale sc <= gs_scale (scaler E s))%Q.

  Lemma no_update_step s s1 ev : trans c E s = Next E s1 ev -> inv c E s -> scale_ok s -> updates (acts ev) = [] ->
    model E s1 = model E s /\ optim E s1 = optim E s /\ lr E s1 = lr E s /\
    (active (ph E s1) -> (ph E s = PRE_VALIDATION \/ active (ph E s)) /\ eff s1 = eff s) /\ ((forall n, ~ In (APublish n) (acts ev)) -> bag E s1 = bag E s).
  Proof.
    intros H HI HS HU. unfold trans in H. unfold eff. destruct (ph E s) eqn:EP.
    - destruct (do_validate c E s) as [[? ?]|]; inversion H; subst. simpl. auto 10.
    - destruct (reader_next E (reader E s)) as [[bs|] r]; [inversion H; subst; simpl; auto 10|].
      destruct (step_nr E s =? 0); inversion H; subst; simpl; (repeat (split; [reflexivity|])); (split; [tauto|reflexivity]).
    - unfold run_step in H. destruct (batches E s); [|discriminate]. destruct (fp16 c) as [sc|] eqn:EF.
      + rewrite (proj1 (proj2 HI)) in H. destruct (HS sc EF) as [HV HSc].
        destruct (accumulate _ _ _ _ _ _ _ _ _ _ _) as [[[g r] nt] b]. unfold run_optimizer_step in H.
        destruct (has_inf E _).
        * destruct (update_true sc (scaler E s) HV HSc) as (rep & g' & EU & _ & _ & R1 & _ & _ & R2 & R3). rewrite EU in H. simpl in H.
          destruct (exploded rep); [discriminate|]. rewrite R1 in H. inversion H; subst. simpl. repeat (split; [reflexivity|]). split; [|reflexivity]. intros _. split; [right; exact Logic.I|lia].
        * destruct (update_false sc (scaler E s) HV HSc) as (rep & g' & EU & _ & _ & R1 & R2 & _ & _ & R3). rewrite EU in H. simpl in H.
          rewrite R1, R2 in H. destruct (opt_step E _ _ _) as [m' o']. destruct (lr_step E _ o') as [l' o'']. inversion H; subst. discriminate.
      + destruct (accumulate _ _ _ _ _ _ _ _ _ _ _) as [[[g r] nt] b]. destruct (opt_step E _ _ _) as [m' o'].
        destruct (lr_step E _ o') as [l' o'']. inversion H; subst. discriminate.
    - apply post_frame in H. destruct H as (-> & -> & -> & _ & _ & -> & _ & _ & HB & _ & HP). repeat (split; [reflexivity|]). split; [|assumption].
      intros _. split; [right; exact Logic.I|]. destruct (ph E s1); try reflexivity. exfalso. apply HP. reflexivity.
    - destruct (match max_num_data_epochs c with Some m => m <=? epoch E s | None => false end); [inversion H; subst; simpl; repeat (split; [reflexivity|]); split; [intros []|reflexivity]|].
      destruct (run_post_step c E s) as [s' evs|] eqn:ER; [|discriminate]. inversion H; subst. apply post_frame in ER.
      destruct ER as (E1 & E2 & E3 & _ & _ & E4 & _ & _ & HB & _ & HP). simpl. rewrite E1, E2, E3, E4. repeat (split; [reflexivity|]). split.
      + intros _. split; [right; exact Logic.I|]. destruct (ph E s'); try reflexivity. exfalso. apply HP. reflexivity.
      + intros HN. apply HB. intros n HH. apply (HN n). right. assumption.
    - pose proof (stop_cases c E _ _ _ _ H) as [P _]. apply stop_frame in H. destruct H as (-> & -> & -> & HB). rewrite P. repeat (split; [reflexivity|]). split; [intros []|assumption].
    - pose proof (stop_cases c E _ _ _ _ H) as [P _]. apply stop_frame in H. destruct H as (-> & -> & -> & HB). rewrite P. repeat (split; [reflexivity|]). split; [intros []|assumption].
    - destruct (stop_requested E s); inversion H; subst; simpl; repeat (split; [reflexivity|]); (split; [|reflexivity]); [intros []|intros _; split; [right; exact Logic.I|reflexivity]].
    - inversion H; subst. simpl. repeat (split; [reflexivity|]). split; [intros []|reflexivity].
    - pose proof (stop_cases c E _ _ _ _ H) as [P _]. apply stop_frame in H. destruct H as (-> & -> & -> & HB). rewrite P. repeat (split; [reflexivity|]). split; [intros []|assumption].
    - inversion H; subst. rewrite EP. repeat (split; [reflexivity|]). split; [intros []|reflexivity].
  Qed.

  Lemma scale_ok_step s s1 ev : trans c E s = Next E s1 ev -> inv c E s -> scale_ok s -> scale_ok s1.
  Proof. intros H HI HS sc EF. destruct (HS sc EF) as [HV HSc]. split; [assumption|]. eapply scale_step; eauto. apply HI. Qed.

  Lemma no_update_exec s t s' : exec c E s t s' -> inv c E s -> scale_ok s -> updates (acts t) = [] ->
    model E s' = model E s /\ optim E s' = optim E s /\ lr E s' = lr E s /\
    (active (ph E s') -> (ph E s = PRE_VALIDATION \/ active (ph E s)) /\ eff s' = eff s) /\ ((forall n, ~ In (APublish n) (acts t)) -> bag E s' = bag E s).
  Proof.
    induction 1 as [s|s s1 s2 ev t HT HX IH|s s2 t HX IH]; intros HI HS HU.
    - repeat (split; [reflexivity|]). split; [intros HA; auto|reflexivity].
    - rewrite acts_app, updates_app in HU. apply app_eq_nil in HU. destruct HU as [U1 U2].
      destruct (no_update_step _ _ _ HT HI HS U1) as (A1 & A2 & A3 & A4 & A5).
      destruct (IH (inv_step c E _ _ _ HT HI) (scale_ok_step _ _ _ HT HI HS) U2) as (B1 & B2 & B3 & B4 & B5).
      rewrite B1, B2, B3. repeat (split; [assumption|]). split.
      + intros HA. destruct (B4 HA) as [C1 C2]. destruct C1 as [C1|C1].
        * exfalso. clear -HT C1. unfold trans in HT. destruct (ph E s) eqn:EP.
          -- destruct (do_validate c E s) as [[? ?]|]; inversion HT; subst; discriminate.
          -- destruct (reader_next E (reader E s)) as [[bs|] r]; [inversion HT; subst; discriminate|]. destruct (step_nr E s =? 0); inversion HT; subst; discriminate.
          -- unfold run_step in HT. destruct (batches E s); [|discriminate]. destruct (fp16 c).
             ++ destruct (orig E s); [discriminate|]. destruct (accumulate _ _ _ _ _ _ _ _ _ _ _) as [[[g r] nt] b].
                destruct (run_optimizer_step _ _ _) as [[rep stepped] sc']. destruct (if stepped then _ else _) as [m' o'].
                destruct (exploded rep); [discriminate|]. destruct (overflowed rep); [inversion HT; subst; discriminate|].
                destruct (lr_step E (lr E s) o'); inversion HT; subst; discriminate.
             ++ destruct (accumulate _ _ _ _ _ _ _ _ _ _ _) as [[[g r] nt] b]. destruct (opt_step E _ _ _) as [m' o'].
                destruct (lr_step E _ o') as [l' o'']. inversion HT; subst; discriminate.
          -- apply post_cases in HT. destruct HT as [(-> & -> & _)|[(-> & -> & _)|(HM & b & sp & scd & p & -> & _ & HP)]]; try discriminate.
             destruct HP as [->|(-> & _)]; discriminate.
          -- destruct (match max_num_data_epochs c with Some m => m <=? epoch E s | None => false end); [inversion HT; subst; discriminate|].
             destruct (run_post_step c E s) as [s' evs|] eqn:ER; [|discriminate]. inversion HT; subst.
             apply post_cases in ER. destruct ER as [(-> & -> & _)|[(-> & -> & _)|(HM & b & sp & scd & p & -> & _ & HP)]]; try discriminate.
             destruct HP as [->|(-> & _)]; discriminate.
          -- apply stop_cases in HT. destruct HT as [P _]. congruence.
          -- apply stop_cases in HT. destruct HT as [P _]. congruence.
          -- destruct (stop_requested E s); inversion HT; subst; discriminate.
          -- inversion HT; subst; discriminate.
          -- apply stop_cases in HT. destruct HT as [P _]. congruence.
          -- inversion HT; subst. congruence.
        * destruct (A4 C1) as [D1 D2]. split; [assumption|]. rewrite C2. assumption.
      + intros HN. rewrite B5; [apply A5|]; intros n HH; apply (HN n); rewrite acts_app; apply in_or_app; auto.
    - apply IH; assumption.
  Qed.

  (** *** Resuming *)
  Variable R : Reader E -> Reader E -> Prop.
  Hypothesis HR : bisimulation R.

  Definition same s u : Prop :=
    step_nr E s = step_nr E u /\ epoch E s = epoch E u /\ model E s = model E u /\ optim E s = optim E u /\ lr E s = lr E u /\
    scaler E s = scaler E u /\ rng E s = rng E u /\ totals (bag E s) = totals (bag E u) /\ R (reader E s) (reader E u) /\
    orig E s = None /\ orig E u = None.
  Definition sim s u : Prop :=
    ph E s = ph E u /\ same s u /\ (ph E s = STEP -> batches E s = batches E u) /\ stop_requested E s = stop_requested E u /\
    (has_early_stopper c = true -> stopper E s = stopper E u).

  Definition res_sim (a b : result E) : Prop :=
    match a, b with
    | Next _ s1 e1, Next _ u1 e2 => sim s1 u1 /\ map observe e1 = map observe e2
    | Raised _ e1, Raised _ e2 => e1 = e2
    | _, _ => False
    end.

  Ltac spl := repeat (split; [first [assumption | reflexivity | congruence | auto]|]).

  Lemma save_sim s u : same s u -> map observe (save c E s) = map observe (save c E u).
  Proof.
    intros (H1 & H2 & H3 & H4 & H5 & H6 & H7 & H8 & _). unfold save, snap. destruct (save_model_only c); simpl; congruence.
  Qed.

  Lemma same_bag s u b b' : same s u -> totals b = totals b' -> same (set_bag E b s) (set_bag E b' u).
  Proof. unfold same. simpl. tauto. Qed.

  Lemma publish_sim s u : ph E s = ph E u -> same s u ->
    map observe (fst (maybe_publish c E s)) = map observe (fst (maybe_publish c E u)) /\
    exists b b', snd (maybe_publish c E s) = set_bag E b s /\ snd (maybe_publish c E u) = set_bag E b' u /\ totals b = totals b'.
  Proof.
    intros HP HS. pose proof HS as (H1 & H2 & H3 & H4 & H5 & H6 & H7 & H8 & _). rewrite !publish_eq. simpl.
    assert (EQ : should_publish c E s = should_publish c E u) by (unfold should_publish; congruence). rewrite EQ.
    destruct (should_publish c E u); simpl.
    - split; [congruence|]. eexists _, _. split; [reflexivity|]. split; [reflexivity|]. rewrite !totals_reset. assumption.
    - split; [reflexivity|]. eexists _, _. split; [reflexivity|]. split; [reflexivity|]. assumption.
  Qed.

  Lemma maybe_save_sim s u : ph E s = ph E u -> same s u -> map observe (maybe_save c E s) = map observe (maybe_save c E u).
  Proof.
    intros HP HS. unfold maybe_save. assert (EQ : should_save c E s = should_save c E u).
    { unfold should_save. destruct HS as (H1 & H2 & _). congruence. }
    rewrite EQ. destruct (should_save c E u); [apply save_sim; assumption|reflexivity].
  Qed.

  Lemma validate_sim s u : ph E s = ph E u -> same s u ->
    match do_validate c E s, do_validate c E u with
    | Some (e1, x1), Some (e2, x2) => map observe e1 = map observe e2 /\ x1 = x2
    | None, None => True
    | _, _ => False
    end.
  Proof.
    intros HP (H1 & H2 & H3 & _). unfold do_validate. destruct (has_validator c); [|exact Logic.I].
    assert (EQ : should_save c E s = should_save c E u) by (unfold should_save; congruence). rewrite EQ, H1, H3. split; [|reflexivity].
    simpl. destruct (validate E (step_nr E u) (model E u)); [destruct (should_save c E u)|]; reflexivity.
  Qed.

  Lemma should_validate_sim s u : ph E s = ph E u -> same s u -> should_validate c E s = should_validate c E u.
  Proof. intros HP (H1 & H2 & _). unfold should_validate. congruence. Qed.

  Lemma sim_ph p s u : same s u -> p <> STEP -> stop_requested E s = stop_requested E u ->
    (has_early_stopper c = true -> stopper E s = stopper E u) -> sim (set_ph E p s) (set_ph E p u).
  Proof. intros H HP HF HT. split; [reflexivity|]. split; [exact H|]. split; [simpl; intros HQ; contradiction|]. split; assumption. Qed.

  Lemma go_sim s u : sim s u -> ph E s <> STEP -> res_sim (go s) (go u).
  Proof.
    intros (HP & HS & _ & HF & HT) HN. pose proof (maybe_save_sim _ _ HP HS) as HM. destruct (publish_sim _ _ HP HS) as (HPub & b & b' & Es & Eu & HB).
    unfold go. destruct (maybe_publish c E s) as [e2 s2], (maybe_publish c E u) as [e2' u2]. simpl in HPub, Es, Eu. subst s2 u2. cbv zeta beta iota.
    assert (HS2 : same (set_bag E b s) (set_bag E b' u)) by (apply same_bag; assumption).
    rewrite (should_validate_sim (set_bag E b s) (set_bag E b' u) HP HS2). destruct (should_validate c E (set_bag E b' u)).
    - pose proof (validate_sim (set_bag E b s) (set_bag E b' u) HP HS2) as HV.
      destruct (do_validate c E (set_bag E b s)) as [[e3 x]|], (do_validate c E (set_bag E b' u)) as [[e3' x']|]; try contradiction; [|reflexivity].
      destruct HV as [HV <-].
      assert (HE : map observe (maybe_save c E s ++ e2 ++ e3) = map observe (maybe_save c E u ++ e2' ++ e3')) by (rewrite !map_app; congruence).
      destruct x as [x|]; [destruct (has_early_stopper c) eqn:ES|].
      + simpl. rewrite <- (proj1 HS), <- (HT eq_refl). destruct (should_stop E (step_nr E s) x (stopper E s)) as [bb sp]. split; [|assumption].
        split; [reflexivity|]. split; [exact HS2|]. split; [simpl; destruct bb; intros; discriminate|]. split; [exact HF|]. reflexivity.
      + split; [|assumption]. apply sim_ph; auto; [discriminate|]. intros ?; congruence.
      + split; [|assumption]. apply sim_ph; auto; discriminate.
    - split; [|rewrite !map_app; congruence]. apply sim_ph; auto; discriminate.
  Qed.

  Lemma post_sim s u : sim s u -> ph E s <> STEP -> res_sim (run_post_step c E s) (run_post_step c E u).
  Proof.
    intros H HN. pose proof H as (HP & HS & _ & HF & HT). rewrite !post_eq. rewrite <- (proj1 HS), <- HF.
    assert (HD : forall p, p <> STEP -> res_sim (Next E (set_ph E p s) []) (Next E (set_ph E p u) [])).
    { intros p Hp. split; [apply sim_ph; auto|reflexivity]. }
    destruct (max_num_steps c); [destruct (z <=? step_nr E s)|destruct (stop_requested E s)]; try (apply go_sim; assumption); apply HD; discriminate.
  Qed.

  Lemma stop_sim k s u : sim s u -> res_sim (stop c E k s) (stop c E k u).
  Proof.
    intros (HP & HS & _ & HF & HT). destruct (publish_sim _ _ HP HS) as (HPub & b & b' & Es & Eu & HB).
    unfold stop. destruct (maybe_publish c E s) as [e2 s2], (maybe_publish c E u) as [e2' u2]. simpl in HPub, Es, Eu. subst s2 u2. cbv zeta beta iota.
    assert (HS2 : same (set_bag E b s) (set_bag E b' u)) by (apply same_bag; assumption).
    pose proof (maybe_save_sim (set_bag E b s) (set_bag E b' u) HP HS2) as HM.
    rewrite (should_validate_sim (set_bag E b s) (set_bag E b' u) HP HS2). destruct (should_validate c E (set_bag E b' u)).
    - pose proof (validate_sim (set_bag E b s) (set_bag E b' u) HP HS2) as HV.
      destruct (do_validate c E (set_bag E b s)) as [[e3 x]|], (do_validate c E (set_bag E b' u)) as [[e3' x']|]; try contradiction; [|reflexivity].
      destruct HV as [HV <-]. split; [apply sim_ph; auto; discriminate|]. rewrite !map_app. congruence.
    - split; [apply sim_ph; auto; discriminate|]. rewrite !map_app. congruence.
  Qed.

  Lemma step_sim s u : sim s u -> ph E s = STEP -> res_sim (run_step c E s) (run_step c E u).
  Proof.
    intros (HP & HS & HBt & HF & HT) HQ. pose proof HS as (H1 & H2 & H3 & H4 & H5 & H6 & H7 & H8 & H9 & H10 & H11).
    unfold run_step. rewrite (HBt HQ), <- H1, <- H2, <- H3, <- H4, <- H5, <- H6, <- H7, H10, H11, <- HF. destruct (batches E u) as [bs|]; [|reflexivity].
    destruct (fp16 c) as [sc|].
    - destruct (accumulate_totals E (step_nr E s + 1) (epoch E s) (gs_scale (scaler E s)) (length bs) (model E s) bs (zero_grad E) (rng E s) 0 _ _ H8) as [A1 A2].
      destruct (accumulate _ _ _ _ _ _ _ _ _ _ (bag E s)) as [[[g r] nt] b], (accumulate _ _ _ _ _ _ _ _ _ _ (bag E u)) as [[[g' r'] nt'] b']. simpl in A1, A2.
      injection A1 as <- <- <-. destruct (run_optimizer_step _ _ _) as [[rep stepped] sc'].
      destruct (if stepped then _ else _) as [m' o']. destruct (exploded rep); [reflexivity|]. destruct (overflowed rep).
      + split; [|reflexivity]. split; [reflexivity|]. split; [unfold same; simpl; auto 15|]. split; [intros ?; discriminate|]. split; [reflexivity|exact HT].
      + destruct (lr_step E (lr E s) o') as [l' o'']. split; [|reflexivity]. split; [reflexivity|]. split; [|split; [intros ?; discriminate|split; [reflexivity|exact HT]]].
        unfold same. simpl. repeat (split; [reflexivity|]). split; [apply totals_update; assumption|]. auto.
    - destruct (accumulate_totals E (step_nr E s + 1) (epoch E s) 1%Q (length bs) (model E s) bs (zero_grad E) (rng E s) 0 _ _ H8) as [A1 A2].
      destruct (accumulate _ _ _ _ _ _ _ _ _ _ (bag E s)) as [[[g r] nt] b], (accumulate _ _ _ _ _ _ _ _ _ _ (bag E u)) as [[[g' r'] nt'] b']. simpl in A1, A2.
      injection A1 as <- <- <-. destruct (opt_step E _ _ _) as [m' o']. destruct (lr_step E (lr E s) o') as [l' o''].
      split; [|reflexivity]. split; [reflexivity|]. split; [|split; [intros ?; discriminate|split; [reflexivity|exact HT]]].
      unfold same. simpl. repeat (split; [reflexivity|]). split; [apply totals_update; assumption|]. auto.
  Qed.

  Lemma trans_sim s u : sim s u -> res_sim (trans c E s) (trans c E u).
  Proof.
    intros H. pose proof H as (HP & HS & HBt & HF & HT). unfold trans. rewrite <- HP.
    assert (HD : forall p, p <> STEP -> sim (set_ph E p s) (set_ph E p u)) by (intros p Hp; apply sim_ph; auto).
    destruct (ph E s) eqn:EP.
    - pose proof (validate_sim s u ltac:(congruence) HS) as HV.
      destruct (do_validate c E s) as [[e3 x]|], (do_validate c E u) as [[e3' x']|]; try contradiction; [|reflexivity].
      destruct HV as [HV _]. split; [apply HD; discriminate|assumption].
    - destruct HS as (H1 & H2 & H3 & H4 & H5 & H6 & H7 & H8 & H9 & H10 & H11). destruct (HR _ _ H9) as (N1 & N2 & N3).
      destruct (reader_next E (reader E s)) as [o r], (reader_next E (reader E u)) as [o' r']. simpl in N1, N2. subst o'. destruct o as [bs|].
      + split; [|reflexivity]. split; [reflexivity|]. split; [unfold same; simpl; auto 15|]. split; [reflexivity|]. split; [exact HF|exact HT].
      + assert (N4 : R (reader_reset E r) (reader_reset E r')) by (apply HR; assumption). rewrite <- H1. destruct (step_nr E s =? 0);
          (split; [|reflexivity]); (split; [reflexivity|]); (split; [unfold same; simpl; auto 15|]); (split; [intros ?; discriminate|]); (split; [exact HF|exact HT]).
    - apply step_sim; assumption.
    - apply post_sim; [assumption|congruence].
    - pose proof (post_sim s u H ltac:(congruence)) as HQ. rewrite <- (proj1 (proj2 HS)), <- (proj1 HS).
      destruct (match max_num_data_epochs c with Some m => m <=? epoch E s | None => false end).
      { split; [apply HD; discriminate|reflexivity]. }
      pose proof (post_cases c E s) as HPC. destruct (run_post_step c E s) as [s1 e1|], (run_post_step c E u) as [u1 e2|]; try contradiction; [|assumption].
      destruct HQ as [(Q1 & Q2 & Q3 & Q4 & Q5) HQ]. split; [|simpl; congruence]. split; [exact Q1|]. split; [|split; [exact Q3|split; [exact Q4|exact Q5]]].
      unfold same in *. simpl. destruct Q2 as (? & ? & Q2). split; [assumption|]. split; [congruence|]. exact Q2.
    - apply stop_sim. assumption.
    - apply stop_sim. assumption.
    - rewrite <- HF. destruct (stop_requested E s) eqn:EF.
      + split; [apply HD; discriminate|reflexivity].
      + split; [|reflexivity]. rewrite <- (proj1 HS). split; [reflexivity|]. split; [|split; [intros ?; discriminate|split; [simpl; congruence|exact HT]]].
        unfold same in *. simpl. split; [reflexivity|]. apply HS.
    - unfold early_stop. split; [|rewrite !map_app, (maybe_save_sim s u) by (congruence || assumption); reflexivity].
      split; [reflexivity|]. split; [exact HS|]. split; [intros ?; discriminate|]. split; [reflexivity|exact HT].
    - apply stop_sim. assumption.
    - split; [|reflexivity]. split; [congruence|]. split; [exact HS|]. split; [congruence|]. split; [exact HF|exact HT].
  Qed.

  Lemma iter_sim j : forall s u, sim s u -> map observe (fst (iter c E j s)) = map observe (fst (iter c E j u)) /\ sim (snd (iter c E j s)) (snd (iter c E j u)).
  Proof.
    induction j as [|j IH]; intros s u H; [split; [reflexivity|assumption]|]. simpl. pose proof (trans_sim s u H) as HT.
    destruct (trans c E s) as [s1 e1|], (trans c E u) as [u1 e2|]; try contradiction; [|split; [reflexivity|assumption]].
    destruct HT as [HT1 HT2]. specialize (IH _ _ HT1). destruct (iter c E j s1), (iter c E j u1). simpl in *. rewrite !map_app. destruct IH. split; [congruence|assumption].
  Qed.

  Lemma iter_add i : forall j s, iter c E (i + j) s = (fst (iter c E i s) ++ fst (iter c E j (snd (iter c E i s))), snd (iter c E j (snd (iter c E i s)))).
  Proof.
    induction i as [|i IH]; intros j s; simpl.
    - destruct (iter c E j s); reflexivity.
    - destruct (trans c E s) as [s1 e1|] eqn:ET.
      + rewrite IH. destruct (iter c E i s1) as [t s2]. simpl. rewrite app_assoc. reflexivity.
      + simpl. destruct j; simpl; [reflexivity|]. rewrite ET. reflexivity.
  Qed.

  Lemma iter_exec j : forall s, exec c E s (fst (iter c E j s)) (snd (iter c E j s)).
  Proof.
    induction j as [|j IH]; intros s; simpl; [constructor|]. destruct (trans c E s) as [s1 e1|] eqn:ET; [|constructor].
    specialize (IH s1). destruct (iter c E j s1). simpl in *. econstructor; eauto.
  Qed.

  (** *** Saved checkpoints *)
  Hypothesis HRr : forall r, R r r.
  Hypothesis HRt : forall r1 r2 r3, R r1 r2 -> R r2 r3 -> R r1 r3.
  Hypothesis HRl : forall r r0, R (reader_load E (reader_save E r) r0) r.
  Hypothesis HEs : has_early_stopper c = false.
  Hypothesis HCe : every_n_data_epochs (checkpoint c) = None.

  Definition aux s : Prop :=
    ph E s <> EARLY_STOP /\ (ph E s = END_OF_TRAINING -> exists m, max_num_steps c = Some m /\ m <= step_nr E s) /\
    (ph E s = END_OF_DATA -> exists m, max_num_data_epochs c = Some m /\ m <= epoch E s).

  Lemma aux_step s s1 ev : trans c E s = Next E s1 ev -> aux s -> aux s1.
  Proof.
    intros H (A1 & A2 & A3). unfold trans in H. destruct (ph E s) eqn:EP.
    - destruct (do_validate c E s) as [[? ?]|]; inversion H; subst. repeat split; discriminate.
    - destruct (reader_next E (reader E s)) as [[bs|] r]; [inversion H; subst; repeat split; discriminate|].
      destruct (step_nr E s =? 0); inversion H; subst; repeat split; discriminate.
    - unfold run_step in H. destruct (batches E s); [|discriminate]. destruct (fp16 c).
      + destruct (orig E s); [discriminate|]. destruct (accumulate _ _ _ _ _ _ _ _ _ _ _) as [[[g r] nt] b].
        destruct (run_optimizer_step _ _ _) as [[rep stepped] sc']. destruct (if stepped then _ else _) as [m' o'].
        destruct (exploded rep); [discriminate|]. destruct (overflowed rep); [inversion H; subst; repeat split; discriminate|].
        destruct (lr_step E (lr E s) o'); inversion H; subst; repeat split; discriminate.
      + destruct (accumulate _ _ _ _ _ _ _ _ _ _ _) as [[[g r] nt] b]. destruct (opt_step E _ _ _) as [m' o'].
        destruct (lr_step E _ o') as [l' o'']. inversion H; subst; repeat split; discriminate.
    - apply post_cases in H. destruct H as [(-> & -> & HM)|[(-> & -> & _)|(HM & b & sp & scd & p & -> & _ & HP)]].
      + split; [discriminate|]. split; [intros _; exact HM|discriminate].
      + repeat split; discriminate.
      + destruct HP as [->|(-> & _ & _ & HH)]; [repeat split; discriminate|congruence].
    - destruct (max_num_data_epochs c) as [m|] eqn:EM; [destruct (m <=? epoch E s) eqn:EL|].
      + inversion H; subst. apply Z.leb_le in EL. split; [discriminate|]. split; [discriminate|]. intros _. exists m. auto.
      + destruct (run_post_step c E s) as [s' evs|] eqn:ER; [|discriminate]. inversion H; subst.
        apply post_cases in ER. destruct ER as [(-> & -> & HM)|[(-> & -> & _)|(HM & b & sp & scd & p & -> & _ & HP)]].
        * split; [discriminate|]. split; [intros _; exact HM|discriminate].
        * repeat split; discriminate.
        * destruct HP as [->|(-> & _ & _ & HH)]; [repeat split; discriminate|congruence].
      + destruct (run_post_step c E s) as [s' evs|] eqn:ER; [|discriminate]. inversion H; subst.
        apply post_cases in ER. destruct ER as [(-> & -> & HM)|[(-> & -> & _)|(HM & b & sp & scd & p & -> & _ & HP)]].
        * split; [discriminate|]. split; [intros _; exact HM|discriminate].
        * repeat split; discriminate.
        * destruct HP as [->|(-> & _ & _ & HH)]; [repeat split; discriminate|congruence].
    - apply stop_cases in H. destruct H as [P _]. unfold aux. rewrite P. repeat split; discriminate.
    - apply stop_cases in H. destruct H as [P _]. unfold aux. rewrite P. repeat split; discriminate.
    - destruct (stop_requested E s); inversion H; subst; repeat split; discriminate.
    - contradiction.
    - apply stop_cases in H. destruct H as [P _]. unfold aux. rewrite P. repeat split; discriminate.
    - inversion H; subst. unfold aux. rewrite EP. repeat split; discriminate.
  Qed.

  Lemma in_validate s ev sc x : do_validate c E s = Some (ev, sc) -> ~ In (EvSave E x) ev.
  Proof.
    unfold do_validate. destruct (has_validator c); [|discriminate]. intros H. inversion H; subst. intros [HH|HH]; [discriminate|].
    destruct (validate E (step_nr E s) (model E s)); [destruct (should_save c E s)|]; simpl in HH; intuition discriminate.
  Qed.

  Lemma in_maybe_save s x : In (EvSave E x) (maybe_save c E s) -> x = snap E s /\ should_save c E s = true.
  Proof.
    unfold maybe_save, save. destruct (should_save c E s); [|contradiction]. destruct (save_model_only c); intros [H|[]]; try discriminate; inversion H; auto.
  Qed.

  Lemma in_publish s x : ~ In (EvSave E x) (fst (maybe_publish c E s)).
  Proof. rewrite publish_eq. simpl. destruct (should_publish c E s); simpl; intuition discriminate. Qed.

  Lemma go_save s s1 ev x : go s = Next E s1 ev -> In (EvSave E x) ev -> x = snap E s /\ should_save c E s = true.
  Proof.
    unfold go. pose proof (in_publish s x) as HP. destruct (maybe_publish c E s) as [e2 s2]. simpl in HP. cbv zeta. intros H HI.
    assert (HW : forall w, ~ In (EvSave E x) w -> In (EvSave E x) (maybe_save c E s ++ e2 ++ w) -> x = snap E s /\ should_save c E s = true).
    { intros w Hw Hi. apply in_app_or in Hi. destruct Hi as [Hi|Hi]; [apply in_maybe_save; assumption|]. apply in_app_or in Hi. tauto. }
    destruct (should_validate c E s2).
    - destruct (do_validate c E s2) as [[e3 sc]|] eqn:ED; [|discriminate]. pose proof (in_validate _ _ _ x ED) as Hw.
      destruct sc as [y|]; [destruct (has_early_stopper c); [destruct (should_stop E _ _ _)|]|]; inversion H; subst; eapply HW; eauto.
    - inversion H; subst. apply (HW []); [intros []|]. rewrite app_nil_r. assumption.
  Qed.

  Lemma post_save s s1 ev x : run_post_step c E s = Next E s1 ev -> In (EvSave E x) ev -> x = snap E s /\ should_save c E s = true.
  Proof.
    rewrite post_eq. intros H HI. destruct (max_num_steps c); [destruct (z <=? step_nr E s)|destruct (stop_requested E s)];
      try (inversion H; subst; contradiction); eapply go_save; eauto.
  Qed.

  Lemma stop_save k s s1 ev x : stop c E k s = Next E s1 ev -> In (EvSave E x) ev -> exists b, totals b = totals (bag E s) /\ x = snap E (set_bag E b s).
  Proof.
    unfold stop. pose proof (in_publish s x) as HP. rewrite publish_eq in *. simpl fst in HP. set (b := if should_publish c E s then _ else _).
    assert (HB : totals b = totals (bag E s)) by (unfold b; destruct (should_publish c E s); [apply totals_reset|reflexivity]).
    intros H HI. exists b. split; [assumption|].
    assert (HW : forall w, ~ In (EvSave E x) w -> In (EvSave E x) ((if should_publish c E s then [EvPublish E (step_nr E s) (epoch E s) (bag E s)] else []) ++ maybe_save c E (set_bag E b s) ++ w) ->
       x = snap E (set_bag E b s)).
    { intros w Hw Hi. apply in_app_or in Hi. destruct Hi as [Hi|Hi]; [contradiction|]. apply in_app_or in Hi. destruct Hi as [Hi|Hi]; [|contradiction].
      apply in_maybe_save in Hi. tauto. }
    destruct (should_validate c E (set_bag E b s)).
    - destruct (do_validate c E (set_bag E b s)) as [[e3 sc]|] eqn:ED; [|discriminate]. pose proof (in_validate _ _ _ x ED) as Hw.
      injection H as _ H2. rewrite <- H2 in HI. eapply HW; [|exact HI]. intros Hi. apply in_app_or in Hi. destruct Hi as [Hi|[Hi|[]]]; [contradiction|discriminate].
    - injection H as _ H2. rewrite <- H2 in HI. eapply HW; [|exact HI]. intros [Hi|[]]. discriminate.
  Qed.

  Lemma restore_same s u b : same s u -> totals b = totals (bag E s) -> same (restore c E (snap E (set_bag E b s))) u.
  Proof.
    intros (H1 & H2 & H3 & H4 & H5 & H6 & H7 & H8 & H9 & H10 & H11) HB. unfold same, restore. simpl. repeat (split; [assumption|]).
    split; [rewrite totals_reset; congruence|]. split; [eapply HRt; [apply HRl|assumption]|]. auto.
  Qed.

  Lemma snap_bag s : snap E s = snap E (set_bag E (bag E s) s).
  Proof. reflexivity. Qed.

  Definition clear s : st E := set_stop E false s.

  (** [s]: the trainer that writes the checkpoint; [u]: the uninterrupted run. *)
  Definition Rel s u : Prop :=
    (sim (clear s) u /\ ph E s <> STOP_REQUESTED) \/
    (ph E s = STOP_REQUESTED /\ ph E u = DATA_LOAD /\ max_num_steps c = None /\ same s u /\ stop_requested E u = false) \/
    ph E s = STOPPED.

  Lemma no_request s s1 ev : trans c E s = Next E s1 ev -> stop_requested E s = false -> ph E s1 <> STOP_REQUESTED \/ ph E s = STOP_REQUESTED.
  Proof.
    intros H HF. left. unfold trans in H. destruct (ph E s) eqn:EP.
    - destruct (do_validate c E s) as [[? ?]|]; inversion H; subst. discriminate.
    - destruct (reader_next E (reader E s)) as [[bs|] r]; [inversion H; subst; discriminate|].
      destruct (step_nr E s =? 0); inversion H; subst; discriminate.
    - unfold run_step in H. destruct (batches E s); [|discriminate]. destruct (fp16 c).
      + destruct (orig E s); [discriminate|]. destruct (accumulate _ _ _ _ _ _ _ _ _ _ _) as [[[g r] nt] b].
        destruct (run_optimizer_step _ _ _) as [[rep stepped] sc']. destruct (if stepped then _ else _) as [m' o'].
        destruct (exploded rep); [discriminate|]. destruct (overflowed rep); [inversion H; subst; discriminate|].
        destruct (lr_step E (lr E s) o'); inversion H; subst; discriminate.
      + destruct (accumulate _ _ _ _ _ _ _ _ _ _ _) as [[[g r] nt] b]. destruct (opt_step E _ _ _) as [m' o'].
        destruct (lr_step E _ o') as [l' o'']. inversion H; subst; discriminate.
    - apply post_cases in H. destruct H as [(-> & -> & HM)|[(-> & -> & _ & HB)|(HM & b & sp & scd & p & -> & _ & HP)]]; [discriminate|congruence|].
      destruct HP as [->|(-> & _ & _ & HH)]; discriminate.
    - destruct (match max_num_data_epochs c with Some m => m <=? epoch E s | None => false end); [inversion H; subst; discriminate|].
      destruct (run_post_step c E s) as [s' evs|] eqn:ER; [|discriminate]. inversion H; subst.
      apply post_cases in ER. destruct ER as [(-> & -> & HM)|[(-> & -> & _ & HB)|(HM & b & sp & scd & p & -> & _ & HP)]]; [discriminate|congruence|].
      destruct HP as [->|(-> & _ & _ & HH)]; discriminate.
    - apply stop_cases in H. destruct H as [P _]. congruence.
    - apply stop_cases in H. destruct H as [P _]. congruence.
    - rewrite HF in H. inversion H; subst. discriminate.
    - inversion H; subst. discriminate.
    - apply stop_cases in H. destruct H as [P _]. congruence.
    - inversion H; subst. congruence.
  Qed.

  (** The flag matters only after an update, at the end of an epoch and after an overflow. *)
  Lemma go_clear s : go (clear s) = match go s with Next _ s1 ev => Next E (clear s1) ev | r => r end.
  Proof.
    unfold go. rewrite !publish_eq. unfold clear.
    change (should_publish c E (set_stop E false s)) with (should_publish c E s). change (bag E (set_stop E false s)) with (bag E s). set (b := if should_publish c E s then _ else _).
    change (should_validate c E (set_bag E b (set_stop E false s)))
      with (should_validate c E (set_bag E b s)).
    change (do_validate c E (set_bag E b (set_stop E false s)))
      with (do_validate c E (set_bag E b s)).
    change (maybe_save c E (set_stop E false s)) with (maybe_save c E s).
    destruct (should_validate c E (set_bag E b s)); [|reflexivity]. destruct (do_validate c E (set_bag E b s)) as [[e3 [x|]]|]; try reflexivity.
    destruct (has_early_stopper c); [|reflexivity]. simpl. destruct (should_stop E (step_nr E s) x (stopper E s)). reflexivity.
  Qed.

  Lemma stop_clear k s : stop c E k (clear s) = match stop c E k s with Next _ s1 ev => Next E (clear s1) ev | r => r end.
  Proof.
    unfold stop. rewrite !publish_eq. unfold clear.
    change (should_publish c E (set_stop E false s)) with (should_publish c E s). change (bag E (set_stop E false s)) with (bag E s). set (b := if should_publish c E s then _ else _).
    change (should_validate c E (set_bag E b (set_stop E false s)))
      with (should_validate c E (set_bag E b s)).
    change (do_validate c E (set_bag E b (set_stop E false s)))
      with (do_validate c E (set_bag E b s)).
    change (maybe_save c E (set_bag E b (set_stop E false s)))
      with (maybe_save c E (set_bag E b s)).
    destruct (should_validate c E (set_bag E b s)); [|reflexivity]. destruct (do_validate c E (set_bag E b s)) as [[e3 [x|]]|]; reflexivity.
  Qed.

  Lemma step_clear s : run_step c E (clear s) = match run_step c E s with Next _ s1 ev => Next E (clear s1) ev | r => r end.
  Proof.
    unfold run_step, clear. simpl. destruct (batches E s); [|reflexivity]. destruct (fp16 c).
    - destruct (orig E s); [reflexivity|]. destruct (accumulate _ _ _ _ _ _ _ _ _ _ _) as [[[g r] nt] b].
      destruct (run_optimizer_step _ _ _) as [[rep stepped] sc']. destruct (if stepped then _ else _) as [m' o'].
      destruct (exploded rep); [reflexivity|]. destruct (overflowed rep); [reflexivity|]. destruct (lr_step E (lr E s) o'); reflexivity.
    - destruct (accumulate _ _ _ _ _ _ _ _ _ _ _) as [[[g r] nt] b]. destruct (opt_step E _ _ _) as [m' o'].
      destruct (lr_step E _ o') as [l' o'']. reflexivity.
  Qed.

  Definition stops s : Prop :=
    stop_requested E s = true /\ max_num_steps c = None /\
    (ph E s = POST_STEP \/ ph E s = END_OF_DATA_EPOCH /\ match max_num_data_epochs c with Some m => m <=? epoch E s | None => false end = false).

  Lemma post_clear s : stop_requested E s = false \/ max_num_steps c <> None ->
    run_post_step c E (clear s) = match run_post_step c E s with Next _ s1 ev => Next E (clear s1) ev | r => r end.
  Proof.
    intros HS. rewrite !post_eq. change (stop_requested E (clear s)) with false. change (step_nr E (clear s)) with (step_nr E s).
    destruct (max_num_steps c) as [m|] eqn:EM.
    - destruct (m <=? step_nr E s); [reflexivity|apply go_clear].
    - destruct HS as [->|HS]; [apply go_clear|contradiction].
  Qed.

  Lemma trans_clear s : ph E s <> EARLY_STOP -> (ph E s = GRAD_OVERFLOW -> stop_requested E s = false) -> ~ stops s ->
    trans c E (clear s) = match trans c E s with Next _ s1 ev => Next E (clear s1) ev | r => r end.
  Proof.
    intros HE HG HS. unfold trans. change (ph E (clear s)) with (ph E s). destruct (ph E s) eqn:EP.
    - change (do_validate c E (clear s)) with (do_validate c E s). destruct (do_validate c E s) as [[? ?]|]; reflexivity.
    - change (reader E (clear s)) with (reader E s). destruct (reader_next E (reader E s)) as [[bs|] r]; [reflexivity|].
      change (step_nr E (clear s)) with (step_nr E s). destruct (step_nr E s =? 0); reflexivity.
    - apply step_clear.
    - apply post_clear. unfold stops in HS. destruct (stop_requested E s); [|auto]. right. intros EM. apply HS. auto.
    - change (epoch E (clear s)) with (epoch E s). change (step_nr E (clear s)) with (step_nr E s).
      destruct (match max_num_data_epochs c with Some m => m <=? epoch E s | None => false end) eqn:EL; [reflexivity|].
      rewrite post_clear.
      + destruct (run_post_step c E s); reflexivity.
      + unfold stops in HS. destruct (stop_requested E s); [|auto]. right. intros EM. apply HS. auto.
    - apply stop_clear.
    - apply stop_clear.
    - rewrite (HG eq_refl). reflexivity.
    - contradiction.
    - apply stop_clear.
    - reflexivity.
  Qed.

  Lemma go_next s : has_early_stopper c = false -> exists b ev, go s = Next E (set_ph E DATA_LOAD (set_bag E b s)) ev /\ totals b = totals (bag E s).
  Proof.
    intros HN. unfold go. rewrite publish_eq. set (b := if should_publish c E s then _ else _).
    assert (HB : totals b = totals (bag E s)) by (unfold b; destruct (should_publish c E s); [apply totals_reset|reflexivity]).
    exists b. cbv zeta. destruct (should_validate c E (set_bag E b s)) eqn:EV; [|eexists; split; [reflexivity|assumption]].
    unfold should_validate in EV. apply andb_prop in EV. destruct (do_validate_some c E (set_bag E b s) (proj1 EV)) as [[e3 sc] ->].
    destruct sc; [rewrite HN|]; eexists; (split; [reflexivity|assumption]).
  Qed.

  Lemma clear_same s u : same (clear s) u <-> same s u.
  Proof. reflexivity. Qed.

  Lemma restore_ph x : (forall m, max_num_steps c = Some m -> sn_step E x < m) -> more_epochs c (sn_epoch E x) -> ph E (restore c E x) = DATA_LOAD.
  Proof.
    intros H1 H2. unfold restore, more_epochs in *. simpl. destruct (max_num_steps c) as [m|].
    - specialize (H1 m eq_refl). replace (m <=? sn_step E x) with false by (symmetry; apply Z.leb_gt; lia).
      destruct (max_num_data_epochs c) as [k|]; [|reflexivity]. specialize (H2 k eq_refl). replace (k <=? sn_epoch E x) with false by (symmetry; apply Z.leb_gt; lia). reflexivity.
    - destruct (max_num_data_epochs c) as [k|]; [|reflexivity]. specialize (H2 k eq_refl). replace (k <=? sn_epoch E x) with false by (symmetry; apply Z.leb_gt; lia). reflexivity.
  Qed.

  Lemma rel_step s u s1 ev : trans c E s = Next E s1 ev -> Rel s u -> aux s -> (ph E s = GRAD_OVERFLOW -> stop_requested E s = false) ->
    (exists j, Rel s1 (snd (iter c E j u))) /\
    (forall x, In (EvSave E x) ev -> more_epochs c (sn_epoch E x) -> exists j, sim (restore c E x) (snd (iter c E j u))).
  Proof.
    intros HT [[HS HN]|[(HP & HU & HM & HS & HF)|HP]] HA HG.
    - destruct (proj2 (proj2 HS)) as (_ & HFu & _). change (stop_requested E (clear s)) with false in HFu.
      assert (Hph : ph E u = ph E s) by (symmetry; apply HS).
      assert (HD : stops s \/ ~ stops s).
      { unfold stops. destruct (stop_requested E s); [|right; intros [? _]; discriminate]. destruct (max_num_steps c); [right; intros (_ & ? & _); discriminate|].
        destruct (ph E s); try (right; intros (_ & _ & [?|[? _]]); discriminate); auto.
        destruct (match max_num_data_epochs c with Some m => m <=? epoch E s | None => false end); [right; intros (_ & _ & [?|[_ ?]]); discriminate|auto 6]. }
      destruct HD as [(D1 & D2 & D3)|HD].
      + destruct (go_next u HEs) as (b & evu & EG & HB).
        assert (EPu : run_post_step c E u = go u) by (rewrite post_eq, D2, <- HFu; reflexivity).
        assert (EPs : run_post_step c E s = Next E (set_ph E STOP_REQUESTED s) []) by (rewrite post_eq, D2, D1; reflexivity).
        destruct HS as (_ & HS & _). destruct D3 as [D3|[D3 D4]].
        * unfold trans in HT. rewrite D3, EPs in HT. inversion HT; subst. split; [|intros x []]. exists 1%nat. simpl. unfold trans. rewrite Hph, D3, EPu, EG. simpl.
          right. left. repeat (split; [first [reflexivity|assumption]|]). split; [|symmetry; assumption]. rewrite clear_same in HS. unfold same in *. simpl. rewrite HB. exact HS.
        * unfold trans in HT. rewrite D3, D4, EPs in HT. inversion HT; subst. split; [|intros x [HH|[]]; discriminate]. exists 1%nat. simpl. unfold trans. rewrite Hph, D3.
          rewrite <- (proj1 (proj2 HS)). change (epoch E (clear s)) with (epoch E s). rewrite D4, EPu, EG. simpl.
          right. left. repeat (split; [first [reflexivity|assumption]|]). split; [|symmetry; assumption]. rewrite clear_same in HS. unfold same in *. simpl. rewrite HB.
          destruct HS as (S1 & S2 & HS). split; [assumption|]. split; [congruence|exact HS].
      + pose proof (trans_sim _ _ HS) as HQ. rewrite (trans_clear s (proj1 HA) HG HD), HT in HQ.
        destruct (trans c E u) as [u1 e2|] eqn:ETu; [|contradiction]. destruct HQ as [HQ1 HQ2].
        assert (Hit : snd (iter c E 1 u) = u1) by (simpl; rewrite ETu; reflexivity).
        assert (Hne : ph E s1 <> STOP_REQUESTED).
        { pose proof (trans_clear s (proj1 HA) HG HD) as HTC. rewrite HT in HTC. destruct (no_request _ _ _ HTC eq_refl) as [HH|HH]; [exact HH|contradiction]. }
        split; [exists 1%nat; rewrite Hit; left; auto|].
        intros x HI HE. exists 1%nat. rewrite Hit.
        assert (HSx : exists b, totals b = totals (bag E s1) /\ x = snap E (set_bag E b s1) /\
           (ph E s1 = DATA_LOAD /\ (forall m, max_num_steps c = Some m -> step_nr E s1 < m) \/ ph E s1 = STOPPED /\ exists m, max_num_steps c = Some m /\ m <= step_nr E s1)).
        { unfold trans in HT. destruct (ph E s) eqn:EP.
          - destruct (do_validate c E s) as [[? ?]|] eqn:ED; inversion HT; subst. exfalso. eapply in_validate; eauto.
          - destruct (reader_next E (reader E s)) as [[bs|] r]; [inversion HT; subst; contradiction|].
            destruct (step_nr E s =? 0); inversion HT; subst; [destruct HI as [HI|[]]; discriminate|contradiction].
          - unfold run_step in HT. destruct (batches E s); [|discriminate]. destruct (fp16 c).
            + destruct (orig E s); [discriminate|]. destruct (accumulate _ _ _ _ _ _ _ _ _ _ _) as [[[g r] nt] b].
              destruct (run_optimizer_step _ _ _) as [[rep stepped] sc']. destruct (if stepped then _ else _) as [m' o'].
              destruct (exploded rep); [discriminate|]. destruct (overflowed rep); [inversion HT; subst; destruct HI as [HI|[]]; discriminate|].
              destruct (lr_step E (lr E s) o'); inversion HT; subst; destruct HI as [HI|[]]; discriminate.
            + destruct (accumulate _ _ _ _ _ _ _ _ _ _ _) as [[[g r] nt] b]. destruct (opt_step E _ _ _) as [m' o'].
              destruct (lr_step E _ o') as [l' o'']. inversion HT; subst; destruct HI as [HI|[]]; discriminate.
          - pose proof (post_save _ _ _ _ HT HI) as [-> _]. pose proof (post_frame _ _ _ HT) as (_ & _ & _ & _ & _ & _ & _ & _ & _ & HB & _).
            exists (bag E s). split; [symmetry; assumption|].
            apply post_cases in HT. destruct HT as [(-> & -> & HM)|[(-> & -> & _ & _)|(HM & b & sp & scd & p & -> & _ & HP)]]; [contradiction|contradiction|].
            split; [reflexivity|]. left. destruct HP as [->|(-> & _ & _ & HH)]; [|congruence]. split; [reflexivity|exact HM].
          - destruct (match max_num_data_epochs c with Some m => m <=? epoch E s | None => false end); [inversion HT; subst; destruct HI as [HI|[]]; discriminate|].
            destruct (run_post_step c E s) as [s' evs|] eqn:ER; [|discriminate]. inversion HT; subst. destruct HI as [HI|HI]; [discriminate|].
            destruct (post_save _ _ _ _ ER HI) as [_ HH]. exfalso. unfold should_save in HH. rewrite EP in HH. simpl in HH. rewrite HCe in HH. discriminate.
          - pose proof (stop_cases c E _ _ _ _ HT) as [P _]. destruct (stop_save _ _ _ _ _ HT HI) as (b & HB & ->).
            destruct HA as (_ & HA & _). destruct (HA EP) as (m & Hm & HL). exists b.
            unfold stop in HT. rewrite publish_eq in HT. set (b0 := if should_publish c E s then _ else _) in HT.
            assert (HB0 : totals b0 = totals (bag E s)) by (unfold b0; destruct (should_publish c E s); [apply totals_reset|reflexivity]).
            destruct (should_validate c E (set_bag E b0 s)); [destruct (do_validate c E (set_bag E b0 s)) as [[? ?]|]; [|discriminate]|]; injection HT as <- _;
              (split; [simpl; congruence|]); (split; [reflexivity|]); right; (split; [reflexivity|]); exists m; auto.
          - destruct (stop_save _ _ _ _ _ HT HI) as (b & HB & ->). destruct HA as (_ & _ & HA). destruct (HA EP) as (m & Hm & HL).
            exfalso. specialize (HE m Hm). simpl in HE. lia.
          - destruct (stop_requested E s); inversion HT; subst; contradiction.
          - exfalso. apply (proj1 HA). assumption.
          - contradiction.
          - inversion HT; subst. contradiction. }
        destruct HSx as (b & HB & -> & HC).
        assert (HSame : same (restore c E (snap E (set_bag E b s1))) u1).
        { apply restore_same; [|assumption]. rewrite <- clear_same. apply HQ1. }
        assert (HPu : ph E s1 = ph E u1) by apply HQ1.
        assert (HFl : false = stop_requested E u1) by (destruct HQ1 as (_ & _ & _ & HQ & _); exact HQ).
        destruct HC as [[HC1 HC2]|[HC1 (m & Hm & HL)]].
        * assert (HPr : ph E (restore c E (snap E (set_bag E b s1))) = DATA_LOAD) by (apply restore_ph; assumption).
          split; [rewrite HPr; congruence|]. split; [assumption|]. split; [rewrite HPr; intros ?; discriminate|]. split; [exact HFl|]. rewrite HEs. discriminate.
        * assert (HPr : ph E (restore c E (snap E (set_bag E b s1))) = STOPPED).
          { unfold restore. simpl. rewrite Hm. replace (m <=? step_nr E s1) with true by (symmetry; apply Z.leb_le; assumption). reflexivity. }
          split; [rewrite HPr; congruence|]. split; [assumption|]. split; [rewrite HPr; intros ?; discriminate|]. split; [exact HFl|]. rewrite HEs. discriminate.
    - unfold trans in HT. rewrite HP in HT. pose proof (stop_cases c E _ _ _ _ HT) as [P _]. split.
      + exists 0%nat. right. right. assumption.
      + intros x HI HE. destruct (stop_save _ _ _ _ _ HT HI) as (b & HB & ->). exists 0%nat. simpl.
        assert (HPr : ph E (restore c E (snap E (set_bag E b s))) = DATA_LOAD) by (apply restore_ph; [intros m Hm; congruence|assumption]).
        split; [rewrite HPr; congruence|]. split; [apply restore_same; assumption|]. split; [rewrite HPr; intros ?; discriminate|]. split; [symmetry; exact HF|]. rewrite HEs. discriminate.
    - unfold trans in HT. rewrite HP in HT. inversion HT; subst. split; [exists 0%nat; right; right; assumption|intros x []].
  Qed.

  Lemma stop_flag k s s1 ev : stop c E k s = Next E s1 ev -> stop_requested E s1 = stop_requested E s.
  Proof.
    unfold stop. rewrite publish_eq. set (b := if should_publish c E s then _ else _).
    destruct (should_validate c E (set_bag E b s)); [destruct (do_validate c E (set_bag E b s)) as [[? ?]|]; [|discriminate]|]; intros HQ; injection HQ as <- _; reflexivity.
  Qed.

  Lemma flag_false s s1 ev : trans c E s = Next E s1 ev -> ph E s <> EARLY_STOP -> stop_requested E s = false -> stop_requested E s1 = false.
  Proof.
    intros H HN HF. unfold trans in H. destruct (ph E s) eqn:EP.
    - destruct (do_validate c E s) as [[? ?]|]; inversion H; subst. assumption.
    - destruct (reader_next E (reader E s)) as [[bs|] r]; [inversion H; subst; assumption|].
      destruct (step_nr E s =? 0); inversion H; subst; assumption.
    - unfold run_step in H. destruct (batches E s); [|discriminate]. destruct (fp16 c).
      + destruct (orig E s); [discriminate|]. destruct (accumulate _ _ _ _ _ _ _ _ _ _ _) as [[[g r] nt] b].
        destruct (run_optimizer_step _ _ _) as [[rep stepped] sc']. destruct (if stepped then _ else _) as [m' o'].
        destruct (exploded rep); [discriminate|]. destruct (overflowed rep); [inversion H; subst; assumption|].
        destruct (lr_step E (lr E s) o'); inversion H; subst; assumption.
      + destruct (accumulate _ _ _ _ _ _ _ _ _ _ _) as [[[g r] nt] b]. destruct (opt_step E _ _ _) as [m' o'].
        destruct (lr_step E _ o') as [l' o'']. inversion H; subst; assumption.
    - apply post_cases in H. destruct H as [(-> & -> & HM)|[(-> & -> & _ & HB)|(HM & b & sp & scd & p & -> & _ & HP)]]; assumption.
    - destruct (match max_num_data_epochs c with Some m => m <=? epoch E s | None => false end); [inversion H; subst; assumption|].
      destruct (run_post_step c E s) as [s' evs|] eqn:ER; [|discriminate]. inversion H; subst.
      apply post_cases in ER. destruct ER as [(-> & -> & HM)|[(-> & -> & _ & HB)|(HM & b & sp & scd & p & -> & _ & HP)]]; assumption.
    - apply stop_flag in H. congruence.
    - apply stop_flag in H. congruence.
    - rewrite HF in H. inversion H; subst. assumption.
    - contradiction.
    - apply stop_flag in H. congruence.
    - inversion H; subst. assumption.
  Qed.

  Lemma rel_exec s t s' : exec c E s t s' -> forall u, Rel s u -> inv c E s -> aux s -> (fp16 c <> None -> stop_requested E s = false /\ ~ In (EvRequest E) t) ->
    forall x, In (EvSave E x) t -> more_epochs c (sn_epoch E x) -> exists j, sim (restore c E x) (snd (iter c E j u)).
  Proof.
    induction 1 as [s|s s1 s2 ev t HT HX IH|s s2 t HX IH]; intros u HRel HI HA HF x HIn HE.
    - contradiction.
    - assert (HG : ph E s = GRAD_OVERFLOW -> stop_requested E s = false).
      { intros HP. apply HF. destruct HI as (_ & _ & _ & _ & _ & HI & _). auto. }
      destruct (rel_step s u s1 ev HT HRel HA HG) as [[j HRel1] HSv].
      apply in_app_or in HIn. destruct HIn as [HIn|HIn]; [apply HSv; assumption|].
      destruct (IH (snd (iter c E j u)) HRel1 (inv_step c E _ _ _ HT HI) (aux_step _ _ _ HT HA)) with (x := x) as [k Hk]; auto.
      + intros HN. destruct (HF HN) as [F1 F2]. split; [eapply flag_false; eauto; apply HA|]. intros HH. apply F2. apply in_or_app. auto.
      + exists (j + k)%nat. rewrite iter_add. assumption.
    - destruct HIn as [HIn|HIn]; [discriminate|]. apply (IH u); auto.
      intros HN. destruct (HF HN) as [_ F2]. exfalso. apply F2. left. reflexivity.
  Qed.

  (** *** Steps are counted. *)
  Definition steps_between (a b : Z) : list Z := map (fun i => a + Z.of_nat i) (seq 1 (Z.to_nat (b - a))).

  Lemma between_nil a : steps_between a a = [].
  Proof. unfold steps_between. rewrite Z.sub_diag. reflexivity. Qed.

  Lemma between_one a : steps_between a (a + 1) = [a + 1].
  Proof. unfold steps_between. replace (a + 1 - a) with 1 by lia. reflexivity. Qed.

  Lemma between_app a b d : a <= b -> b <= d -> steps_between a b ++ steps_between b d = steps_between a d.
  Proof.
    intros H1 H2. unfold steps_between. replace (Z.to_nat (d - a)) with (Z.to_nat (b - a) + Z.to_nat (d - b))%nat by lia.
    rewrite seq_app, map_app. f_equal. replace (1 + Z.to_nat (b - a))%nat with (Z.to_nat (b - a) + 1)%nat by lia.
    generalize (Z.to_nat (d - b)). intros k.
    assert (HH : forall k i j, b + Z.of_nat i = a + Z.of_nat j -> map (fun i => b + Z.of_nat i) (seq i k) = map (fun i => a + Z.of_nat i) (seq j k)).
    { clear k. induction k as [|k IHk]; intros i j Hij; [reflexivity|]. simpl. rewrite Hij. f_equal. apply IHk. lia. }
    apply HH. lia.
  Qed.

  Lemma count_step s s1 ev : trans c E s = Next E s1 ev -> orig E s = None -> stop_requested E s = false ->
    eff s <= eff s1 /\ updates (acts ev) = steps_between (eff s) (eff s1).
  Proof.
    intros H HO HF. unfold trans in H. unfold eff. destruct (ph E s) eqn:EP.
    - destruct (do_validate c E s) as [[e x]|] eqn:ED; inversion H; subst. apply validate_acts in ED. destruct ED as [_ ->]. simpl. rewrite between_nil.
      split; [lia|]. destruct (_ && _); reflexivity.
    - destruct (reader_next E (reader E s)) as [[bs|] r]; [inversion H; subst; simpl; rewrite between_nil; split; [lia|reflexivity]|].
      destruct (step_nr E s =? 0); inversion H; subst; simpl; rewrite between_nil; (split; [lia|reflexivity]).
    - destruct (step_cases c E _ _ _ H HO) as (-> & _ & _ & _ & [(-> & _ & ->)|(-> & ->)]).
      + replace (step_nr E s + 1 - 1) with (step_nr E s) by lia. rewrite between_nil. split; [lia|reflexivity].
      + rewrite between_one. split; [lia|reflexivity].
    - pose proof (post_frame _ _ _ H) as (_ & _ & _ & _ & _ & -> & _ & _ & _ & _ & HP).
      apply post_cases in H. destruct H as [(-> & -> & HM)|[(-> & -> & _ & HB)|(HM & b & sp & scd & p & -> & HA & HQ)]]; simpl;
        try (rewrite between_nil; split; [lia|reflexivity]).
      rewrite HA, updates_periodic. destruct HQ as [->|(-> & _)]; rewrite between_nil; (split; [lia|reflexivity]).
    - destruct (match max_num_data_epochs c with Some m => m <=? epoch E s | None => false end); [inversion H; subst; simpl; rewrite between_nil; split; [lia|reflexivity]|].
      destruct (run_post_step c E s) as [s' evs|] eqn:ER; [|discriminate]. inversion H; subst.
      apply post_cases in ER. destruct ER as [(-> & -> & HM)|[(-> & -> & _ & HB)|(HM & b & sp & scd & p & -> & HA & HQ)]]; simpl;
        try (rewrite between_nil; split; [lia|reflexivity]).
      change (updates (acts (EvEpochEnd E (epoch E s) (step_nr E s) :: evs))) with (updates (acts evs)).
      rewrite HA, updates_periodic. destruct HQ as [->|(-> & _)]; rewrite between_nil; (split; [lia|reflexivity]).
    - assert (HS : step_nr E s1 = step_nr E s).
      { clear -H. unfold stop in H. rewrite publish_eq in H. set (b := if should_publish c E s then _ else _) in H.
        destruct (should_validate c E (set_bag E b s)); [destruct (do_validate c E (set_bag E b s)) as [[? ?]|]; [|discriminate]|]; injection H as <- _; reflexivity. }
      apply stop_cases in H. destruct H as [-> [sc ->]]. rewrite HS, between_nil, updates_final. split; [lia|reflexivity].
    - assert (HS : step_nr E s1 = step_nr E s).
      { clear -H. unfold stop in H. rewrite publish_eq in H. set (b := if should_publish c E s then _ else _) in H.
        destruct (should_validate c E (set_bag E b s)); [destruct (do_validate c E (set_bag E b s)) as [[? ?]|]; [|discriminate]|]; injection H as <- _; reflexivity. }
      apply stop_cases in H. destruct H as [-> [sc ->]]. rewrite HS, between_nil, updates_final. split; [lia|reflexivity].
    - rewrite HF in H. inversion H; subst. simpl. rewrite between_nil. split; [lia|reflexivity].
    - inversion H; subst. simpl. rewrite between_nil, acts_app, updates_app, acts_maybe_save. split; [lia|]. destruct (should_save c E s); reflexivity.
    - assert (HS : step_nr E s1 = step_nr E s).
      { clear -H. unfold stop in H. rewrite publish_eq in H. set (b := if should_publish c E s then _ else _) in H.
        destruct (should_validate c E (set_bag E b s)); [destruct (do_validate c E (set_bag E b s)) as [[? ?]|]; [|discriminate]|]; injection H as <- _; reflexivity. }
      apply stop_cases in H. destruct H as [-> [sc ->]]. rewrite HS, between_nil, updates_final. split; [lia|reflexivity].
    - inversion H; subst. rewrite EP, between_nil. split; [lia|reflexivity].
  Qed.

  Lemma count_iter j : forall s, inv c E s -> aux s -> stop_requested E s = false ->
    eff s <= eff (snd (iter c E j s)) /\ updates (acts (fst (iter c E j s))) = steps_between (eff s) (eff (snd (iter c E j s))).
  Proof.
    induction j as [|j IH]; intros s HI HA HF; simpl; [rewrite between_nil; split; [lia|reflexivity]|].
    destruct (trans c E s) as [s1 e1|] eqn:ET; [|simpl; rewrite between_nil; split; [lia|reflexivity]].
    destruct (count_step _ _ _ ET (proj1 (proj2 HI)) HF) as [C1 C2].
    destruct (IH s1 (inv_step c E _ _ _ ET HI) (aux_step _ _ _ ET HA) (flag_false _ _ _ ET (proj1 HA) HF)) as [D1 D2].
    destruct (iter c E j s1) as [t s2]. simpl in *. rewrite acts_app, updates_app, C2, D2. split; [lia|apply between_app; assumption].
  Qed.

  (** *** Whole lives *)
  Lemma iter_inv j s : inv c E s -> aux s -> inv c E (snd (iter c E j s)) /\ aux (snd (iter c E j s)).
  Proof.
    revert s. induction j as [|j IH]; intros s HI HA; simpl; [auto|]. destruct (trans c E s) as [s1 e1|] eqn:ET; [|simpl; auto].
    specialize (IH s1 (inv_step c E _ _ _ ET HI) (aux_step _ _ _ ET HA)). destruct (iter c E j s1). assumption.
  Qed.

  Lemma save_nonneg s t s' x : exec c E s t s' -> inv c E s -> In (EvSave E x) t -> 0 <= sn_step E x.
  Proof.
    induction 1 as [s|s s1 s2 ev t HT HX IH|s s2 t HX IH]; intros HI HIn.
    - contradiction.
    - apply in_app_or in HIn. destruct HIn as [HIn|HIn]; [|apply IH; [eapply inv_step; eauto|assumption]].
      pose proof HI as (H0 & _). unfold trans in HT. destruct (ph E s) eqn:EP.
      + destruct (do_validate c E s) as [[? ?]|] eqn:ED; inversion HT; subst. exfalso. eapply in_validate; eauto.
      + destruct (reader_next E (reader E s)) as [[bs|] r]; [inversion HT; subst; contradiction|].
        destruct (step_nr E s =? 0); inversion HT; subst; [destruct HIn as [HIn|[]]; discriminate|contradiction].
      + unfold run_step in HT. destruct (batches E s); [|discriminate]. destruct (fp16 c).
        * destruct (orig E s); [discriminate|]. destruct (accumulate _ _ _ _ _ _ _ _ _ _ _) as [[[g r] nt] b].
          destruct (run_optimizer_step _ _ _) as [[rep stepped] sc']. destruct (if stepped then _ else _) as [m' o'].
          destruct (exploded rep); [discriminate|]. destruct (overflowed rep); [inversion HT; subst; destruct HIn as [HIn|[]]; discriminate|].
          destruct (lr_step E (lr E s) o'); inversion HT; subst; destruct HIn as [HIn|[]]; discriminate.
        * destruct (accumulate _ _ _ _ _ _ _ _ _ _ _) as [[[g r] nt] b]. destruct (opt_step E _ _ _) as [m' o'].
          destruct (lr_step E _ o') as [l' o'']. inversion HT; subst; destruct HIn as [HIn|[]]; discriminate.
      + destruct (post_save _ _ _ _ HT HIn) as [-> _]. assumption.
      + destruct (match max_num_data_epochs c with Some m => m <=? epoch E s | None => false end); [inversion HT; subst; destruct HIn as [HIn|[]]; discriminate|].
        destruct (run_post_step c E s) as [s' evs|] eqn:ER; [|discriminate]. inversion HT; subst. destruct HIn as [HIn|HIn]; [discriminate|].
        destruct (post_save _ _ _ _ ER HIn) as [-> _]. assumption.
      + destruct (stop_save _ _ _ _ _ HT HIn) as (b & _ & ->). assumption.
      + destruct (stop_save _ _ _ _ _ HT HIn) as (b & _ & ->). assumption.
      + destruct (stop_requested E s); inversion HT; subst; contradiction.
      + inversion HT; subst. apply in_app_or in HIn. destruct HIn as [HIn|[HIn|[]]]; [|discriminate]. apply in_maybe_save in HIn. destruct HIn as [-> _]. assumption.
      + destruct (stop_save _ _ _ _ _ HT HIn) as (b & _ & ->). assumption.
      + inversion HT; subst. contradiction.
    - destruct HIn as [HIn|HIn]; [discriminate|]. apply IH; assumption.
  Qed.

  Lemma aux_init : aux (init_st c E).
  Proof. unfold aux, init_st. simpl. destruct (validate_at_start c); repeat split; discriminate. Qed.

  Lemma aux_restore x : aux (restore c E x).
  Proof.
    unfold aux, restore. simpl. destruct (match max_num_steps c with Some m => m <=? sn_step E x | None => false end); [repeat split; discriminate|].
    destruct (match max_num_data_epochs c with Some m => m <=? sn_epoch E x | None => false end); repeat split; discriminate.
  Qed.

  Lemma life_lemma s : check_config c = Accept -> life c E s ->
    inv c E s /\ aux s /\ stop_requested E s = false /\ ph E s <> STOP_REQUESTED /\ ph E s <> GRAD_OVERFLOW /\ exists k, sim s (snd (iter c E k (init_st c E))).
  Proof.
    intros HC HL. induction HL as [|s t s' x HL IH HX HI HU].
    - split; [apply inv_init; assumption|]. split; [apply aux_init|]. split; [reflexivity|].
      split; [unfold init_st; simpl; destruct (validate_at_start c); discriminate|]. split; [unfold init_st; simpl; destruct (validate_at_start c); discriminate|].
      exists 0%nat. simpl. split; [reflexivity|]. split; [|auto]. unfold same. simpl. auto 15.
    - destruct IH as (I1 & I2 & I3 & I4 & _ & k & Hk). destruct HU as [HU1 HU2].
      assert (HH : exists j, sim (restore c E x) (snd (iter c E j (snd (iter c E k (init_st c E)))))).
      { eapply rel_exec; eauto. left. split; [|assumption]. unfold clear. replace (set_stop E false s) with s; [assumption|].
        destruct s. unfold set_stop. simpl in *. congruence. }
      destruct HH as [j Hj]. split; [apply inv_restore; eapply save_nonneg; eauto|]. split; [apply aux_restore|]. split; [reflexivity|].
      assert (HP : ph E (restore c E x) = STOPPED \/ ph E (restore c E x) = DATA_LOAD).
      { unfold restore. simpl. destruct (match max_num_steps c with Some m => m <=? sn_step E x | None => false end); [auto|].
        destruct (match max_num_data_epochs c with Some m => m <=? sn_epoch E x | None => false end); auto. }
      split; [destruct HP as [-> | ->]; discriminate|]. split; [destruct HP as [-> | ->]; discriminate|].
      exists (k + j)%nat. rewrite iter_add. assumption.
  Qed.

  Lemma resume_lemma s : check_config c = Accept -> life c E s -> exists k,
    let t0 := fst (iter c E k (init_st c E)) in let u := snd (iter c E k (init_st c E)) in
    updates (acts t0) = one_to (step_nr E s) /\
    (step_nr E s = step_nr E u /\ epoch E s = epoch E u /\ model E s = model E u /\ optim E s = optim E u /\ lr E s = lr E u /\ scaler E s = scaler E u /\
     rng E s = rng E u /\ totals (bag E s) = totals (bag E u)) /\
    forall j, fst (iter c E (k + j) (init_st c E)) = t0 ++ fst (iter c E j u) /\ map observe (fst (iter c E j s)) = map observe (fst (iter c E j u)).
  Proof.
    intros HC HL. destruct (life_lemma s HC HL) as (_ & _ & _ & _ & HG & k & Hk). exists k. cbv zeta.
    destruct (count_iter k (init_st c E) (inv_init c E HC) aux_init eq_refl) as [C1 C2].
    assert (E0 : eff (init_st c E) = 0) by (unfold eff, init_st; simpl; destruct (validate_at_start c); reflexivity).
    assert (E1 : eff (snd (iter c E k (init_st c E))) = step_nr E s).
    { unfold eff. destruct Hk as (HP & HS & _). rewrite <- HP, <- (proj1 HS). destruct (ph E s); try reflexivity. contradiction. }
    rewrite E0, E1 in C2. rewrite C2. split.
    - unfold steps_between, one_to. rewrite Z.sub_0_r. reflexivity.
    - split; [destruct Hk as (_ & (S1 & S2 & S3 & S4 & S5 & S6 & S7 & S8 & _) & _); auto 10|].
      intros j. split; [rewrite iter_add; reflexivity|]. apply iter_sim. assumption.
  Qed.
End Sim.
