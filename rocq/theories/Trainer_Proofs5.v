From Coq Require Import String ZArith QArith List Bool Lia.
From Verif Require Import LossScale_Model LossScale_Spec LossScale_Proofs Trainer_Model Trainer_Spec Trainer_Proofs Trainer_Proofs2 Trainer_Proofs3 Trainer_Proofs4.
Import ListNotations.
Local Open Scope Z_scope.

Section Final.
  Variable c : config.
  Variable E : env.

  Lemma periodic_restart x t s k j : check_config c = Accept -> 0 <= sn_step E x -> exec c E (restore c E x) t s -> settled (ph E s) ->
    sn_step E x < j -> (exists e, In (AUpdate (j + 1) e) (acts t)) ->
    (In (act_for k j) (acts t) <-> enabled c k /\ (due_at_step (period_of c k) j \/
        exists e, In (AEpochEnd e j) (acts t) /\ due_at_epoch (period_of c k) e)).
  Proof.
    intros HC H0 HX HS Hj Hu. destruct (check_nonzero c k HC) as [Z1 Z2]. destruct (restart_history_lemma c E x t s H0 HX HS) as [HH _].
    rewrite (hist_periodic c _ _ _ HH k j ltac:(lia) Hu). rewrite on_enabled.
    rewrite (due_iff _ _ Z1). setoid_rewrite (due_epoch_iff _ j _ Z2). split.
    - intros (A & [[_ B]|(e' & B & C & D)]); (split; [assumption|]); [left; assumption|right; eauto].
    - intros (A & [B|(e' & B & C)]); (split; [assumption|]).
      + left. split; [lia|assumption].
      + destruct (due (period_of c k) j) eqn:ED.
        * left. split; [lia|]. apply (due_iff _ _ Z1). assumption.
        * right. eauto.
  Qed.

  Lemma life_scale sc s : (min_scale sc <= init_scale E)%Q -> fp16 c = Some sc -> visible sc -> check_config c = Accept -> forall t, exec c E (init_st c E) t s ->
    inv c E s /\ scale_ok c E s.
  Proof.
    intros HI HF HV HC t HX. pose proof (inv_init c E HC) as HInv. split; [eapply inv_exec; eauto|].
    intros sc' HF'. rewrite HF in HF'. inversion HF'; subst sc'. split; [assumption|]. eapply scale_exec; eauto.
  Qed.

  Lemma exec_app s t s' t' s'' : exec c E s t s' -> exec c E s' t' s'' -> exec c E s (t ++ t') s''.
  Proof.
    induction 1 as [s|s s1 s2 ev t HT HX IH|s s2 t HX IH]; intros H; simpl; [assumption| |].
    - rewrite <- app_assoc. econstructor; eauto.
    - constructor. auto.
  Qed.

  Lemma no_update_run t0 t s s' : check_config c = Accept -> (forall sc, fp16 c = Some sc -> visible sc /\ (min_scale sc <= init_scale E)%Q) ->
    exec c E (init_st c E) t0 s -> exec c E s t s' -> ph E s = DATA_LOAD -> ph E s' = DATA_LOAD -> updates (acts t) = [] ->
    model E s' = model E s /\ optim E s' = optim E s /\ lr E s' = lr E s /\ step_nr E s' = step_nr E s /\
    ((forall n, ~ In (APublish n) (acts t)) -> bag E s' = bag E s).
  Proof.
    intros HC HV HX0 HX HP HP' HU. pose proof (inv_exec c E _ _ _ HX0 (inv_init c E HC)) as HI.
    assert (HS : scale_ok c E s).
    { intros sc HF. destruct (HV sc HF) as [HV1 HV2]. split; [assumption|]. eapply scale_exec; eauto. apply inv_init. assumption. }
    destruct (no_update_exec c E _ _ _ HX HI HS HU) as (A1 & A2 & A3 & A4 & A5). rewrite HP' in A4. destruct (A4 Logic.I) as [_ A6].
    unfold eff in A6. rewrite HP, HP' in A6. auto 10.
  Qed.

  Lemma reachable_step t s bs sc : check_config c = Accept -> fp16 c = Some sc -> visible sc -> (min_scale sc <= init_scale E)%Q ->
    exec c E (init_st c E) t s -> ph E s = STEP -> batches E s = Some bs ->
    (min_scale sc <= gs_scale (scaler E s))%Q /\
    (has_inf E (step_gradient s bs) = true ->
      ((gs_scale (scaler E s) / scale_factor sc < min_scale sc)%Q -> trans c E s = Raised E MinimumLossScaleReachedError) /\
      ((min_scale sc <= gs_scale (scaler E s) / scale_factor sc)%Q ->
        exists s1 g r, trans c E s = Next E s1 [EvOverflow E (step_nr E s + 1)] /\ (gs_scale g == gs_scale (scaler E s) / scale_factor sc)%Q /\
          (stop_requested E s = false ->
            trans c E s1 = Next E (St E DATA_LOAD (step_nr E s) (epoch E s) (model E s) (optim E s) (lr E s) g r (bag E s) None (reader E s)
                                     None false (stopper E s)) []))) /\
    (has_inf E (step_gradient s bs) = false ->
      exists s1 o, opt_step E (clip E (step_gradient s bs)) (model E s) (optim E s) = (model E s1, o) /\ lr_step E (lr E s) o = (lr E s1, optim E s1) /\
        trans c E s = Next E s1 [EvUpdate E (step_nr E s + 1) (epoch E s) bs (model E s1) (optim E s1) (lr E s1)] /\ ph E s1 = POST_STEP).
  Proof.
    intros HC HF HV HM HX HP HB. pose proof (inv_exec c E _ _ _ HX (inv_init c E HC)) as HI.
    assert (HS : (min_scale sc <= gs_scale (scaler E s))%Q) by (eapply scale_exec; eauto; apply inv_init; assumption).
    split; [assumption|]. apply overflow_lemma; auto. apply HI.
  Qed.

  Lemma resume_final s : check_config c = Accept -> has_early_stopper c = false -> every_n_data_epochs (checkpoint c) = None -> @resumable E ->
    life c E s -> exists k,
    let t0 := fst (iter c E k (init_st c E)) in let u := snd (iter c E k (init_st c E)) in
    updates (acts t0) = one_to (step_nr E s) /\
    (step_nr E s = step_nr E u /\ epoch E s = epoch E u /\ model E s = model E u /\ optim E s = optim E u /\ lr E s = lr E u /\ scaler E s = scaler E u /\
     rng E s = rng E u /\ totals (bag E s) = totals (bag E u)) /\
    forall j, fst (iter c E (k + j) (init_st c E)) = t0 ++ fst (iter c E j u) /\ map observe (fst (iter c E j s)) = map observe (fst (iter c E j u)).
  Proof.
    intros HC HE HP (R & HR & H1 & H2 & H3) HL. eapply resume_lemma; eauto.
  Qed.

  Lemma update_observe (t t' : list (event E)) : map observe t = map observe t' -> update_list t = update_list t'.
  Proof.
    revert t'. induction t as [|v t IH]; intros [|w t'] H; try discriminate; [reflexivity|]. simpl in H. injection H as H1 H2.
    unfold update_list in *. simpl. rewrite (IH _ H2). f_equal. destruct v, w; simpl in H1; try discriminate; try reflexivity. congruence.
  Qed.

  Lemma update_list_app (a b : list (event E)) : update_list (a ++ b) = update_list a ++ update_list b.
  Proof. apply flat_map_app. Qed.

  Lemma resume_updates s : check_config c = Accept -> has_early_stopper c = false -> every_n_data_epochs (checkpoint c) = None -> @resumable E ->
    life c E s -> exists k, let t0 := fst (iter c E k (init_st c E)) in
    updates (acts t0) = one_to (step_nr E s) /\
    forall j, update_list (fst (iter c E (k + j) (init_st c E))) = update_list t0 ++ update_list (fst (iter c E j s)).
  Proof.
    intros HC HE HP HR HL. destruct (resume_final s HC HE HP HR HL) as (k & H1 & _ & H3). exists k. cbv zeta in *. split; [assumption|].
    intros j. destruct (H3 j) as [J1 J2]. rewrite J1, update_list_app. f_equal. symmetry. apply update_observe. assumption.
  Qed.
End Final.

Section Accumulate.
  Variable E : env.

  Lemma accumulate_passes st ep sc nb m bs : forall g r nt b, exists r' g' ks,
    passes E st ep sc nb m r g bs r' g' ks /\ fst (accumulate E st ep sc nb m bs g r nt b) = (g', r', nt + num_targets ks).
  Proof.
    induction bs as [|x bs IH]; intros g r nt b.
    - exists r, g, []. split; [constructor|]. simpl. rewrite Z.add_0_r. reflexivity.
    - simpl. destruct (forward_backward E st ep sc nb m r x g) as [[[g1 r1] k] f] eqn:EF.
      destruct (IH g1 r1 (match k with Some n => nt + n | None => nt end) (map (fun nv => (fst nv, f (fst nv) (snd nv))) b)) as (r' & g' & ks & H1 & H2).
      exists r', g', (k :: ks). split; [econstructor; eauto|]. rewrite H2. f_equal. unfold num_targets. simpl. destruct k; lia.
  Qed.

  Lemma step_gradient_lemma (s : st E) bs : exists r g ks,
    passes E (step_nr E s + 1) (epoch E s) (gs_scale (scaler E s)) (length bs) (model E s) (rng E s) (zero_grad E) bs r g ks /\
    step_gradient s bs = unscale E (gs_scale (scaler E s)) (normalized (num_targets ks) g).
  Proof.
    destruct (accumulate_passes (step_nr E s + 1) (epoch E s) (gs_scale (scaler E s)) (length bs) (model E s) bs (zero_grad E) (rng E s) 0 (bag E s)) as (r & g & ks & H1 & H2).
    exists r, g, ks. split; [assumption|]. unfold step_gradient, normalized. destruct (accumulate _ _ _ _ _ _ _ _ _ _ _) as [[[g0 r0] nt] b]. simpl in H2. injection H2 as -> _ ->. reflexivity.
  Qed.

  Lemma plain_step_lemma c (s : st E) bs : fp16 c = None -> ph E s = STEP -> batches E s = Some bs -> exists r g ks s1 o,
    passes E (step_nr E s + 1) (epoch E s) 1%Q (length bs) (model E s) (rng E s) (zero_grad E) bs r g ks /\
    opt_step E (clip E (normalized (num_targets ks) g)) (model E s) (optim E s) = (model E s1, o) /\ lr_step E (lr E s) o = (lr E s1, optim E s1) /\
    trans c E s = Next E s1 [EvUpdate E (step_nr E s + 1) (epoch E s) bs (model E s1) (optim E s1) (lr E s1)] /\
    ph E s1 = POST_STEP /\ step_nr E s1 = step_nr E s + 1 /\ epoch E s1 = epoch E s /\ rng E s1 = r /\ reader E s1 = reader E s.
  Proof.
    intros HF HP HB.
    destruct (accumulate_passes (step_nr E s + 1) (epoch E s) 1%Q (length bs) (model E s) bs (zero_grad E) (rng E s) 0 (bag E s)) as (r & g & ks & H1 & H2).
    unfold trans. rewrite HP. unfold run_step. rewrite HB, HF.
    destruct (accumulate _ _ _ _ _ _ _ _ _ _ _) as [[[g0 r0] nt] b]. simpl in H2. injection H2 as -> -> ->.
    destruct (opt_step E (clip E (normalized (num_targets ks) g)) (model E s) (optim E s)) as [m' o'] eqn:EO. destruct (lr_step E (lr E s) o') as [l' o''] eqn:EL.
    exists r, g, ks. unfold normalized in EO. rewrite EO, EL.
    eexists (St E POST_STEP _ _ m' o'' l' _ _ _ _ _ _ _ _), o'. simpl. unfold normalized. rewrite EO. split; [assumption|]. split; [reflexivity|]. split; [assumption|]. split; [reflexivity|]. auto.
  Qed.

  Lemma passes_fun st ep sc nb m bs : forall r g r1 g1 k1 r2 g2 k2, passes E st ep sc nb m r g bs r1 g1 k1 -> passes E st ep sc nb m r g bs r2 g2 k2 ->
    r1 = r2 /\ g1 = g2 /\ k1 = k2.
  Proof.
    induction bs as [|x bs IH]; intros r g r1 g1 k1 r2 g2 k2 H1 H2.
    - inversion H1; inversion H2; subst; auto.
    - inversion H1 as [|? ? ? ? ga ra ka fa ? ? ksa A1 A2]; inversion H2 as [|? ? ? ? gb rb kb fb ? ? ksb B1 B2]; subst.
      rewrite A1 in B1. injection B1 as -> -> -> _. destruct (IH _ _ _ _ _ _ _ _ A2 B2) as (-> & -> & ->). auto.
  Qed.
End Accumulate.
