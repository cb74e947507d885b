(** Positions saved with [strict=False]: a shuffled pipeline forgets its buffer, so the examples in the buffer are skipped
    after a restart, and nothing is returned twice. *)

From Coq Require Import Lia Permutation.
From Verif Require Import DP_Base DP_Spec DP_Sources_Model DP_Bucketing_Model DP_Laws DP_Sources_Proofs DP_Multi_Lemmas DP_Shuffle_Proofs.

Section NonStrict.
  Variable rnd : Z -> nat -> Z.
  Variable moved : data -> data.
  Variable window : nat.
  Variable seed0 : Z.
  Variable I : source.
  Notation sh := (src_shuffle rnd moved window seed0 I).
  Hypothesis HM : mono I.

  Lemma shuffled_ex B : forall rest, (B = [] -> rest = []) -> exists out, shuffled B rest out.
  Proof.
    assert (HD : forall B, exists out, shuffled B [] out).
    { clear. induction B as [|d B [o H]]; [exists []; constructor|]. exists (d :: o). eapply shuf_drain; [reflexivity|exact H]. }
    intros rest. revert B. induction rest as [|x rest IH]; intros B HB; [apply HD|].
    destruct B as [|d B]; [discriminate (HB eq_refl)|].
    destruct (IH (x :: B)) as [o Ho]; [discriminate|]. exists (d :: o). eapply shuf_next; [reflexivity|exact Ho].
  Qed.

  Definition rep (x : sh_st I) (a : list data * list data) : Prop :=
    if window =? 1 then holds I (sh_in x) (snd a) /\ fst a = []
    else sh_rep window I x a.

  Lemma sh_rep_nil x rest : sh_rep window I x ([], rest) -> rest = [].
  Proof.
    destruct x as [b pos en fl sd g s]. unfold sh_rep. destruct fl.
    - intros (_ & _ & H). destruct (Nat.eqb_spec window 0); [assumption|]. simpl in H. destruct H as [[H _]|H]; [assumption|lia].
    - intros (HP & _ & Hen & Hr & Hp & Hb). apply Permutation_nil in HP. unfold live in HP.
      destruct (Nat.eqb_spec en (length b)); [auto|]. apply Hr. lia.
  Qed.

  Lemma sh_rep_in x B rest : sh_rep window I x (B, rest) -> sh_fill x = false -> holds I (sh_in x) rest.
  Proof. destruct x as [b pos en fl sd g s]. simpl. intros H ->. apply H. Qed.

  Lemma step_rep n x o x' a : rep x a -> next sh n x = Some (o, x') ->
    exists a', rep x' a' /\ match o with
      | Val d => Permutation (fst a ++ snd a) (d :: fst a' ++ snd a')
      | Eod => fst a ++ snd a = [] /\ fst a' ++ snd a' = []
      | Err _ => False
      end.
  Proof.
    unfold rep. destruct (Nat.eqb_spec window 1) as [Hw|Hw].
    - intros [Hh Ha] H. destruct x as [b pos en fl sd g s]. destruct a as [B rest]. simpl in *. subst B.
      unfold sh_next in H. rewrite Hw, Nat.eqb_refl in H.
      destruct (next I n s) as [[o1 s1]|] eqn:En; [|discriminate]. inv H.
      pose proof (holds_step I HM _ _ Hh) as HN. destruct rest as [|d rest]; destruct HN as (m & s' & Hm & Hs');
        pose proof (HM n (n + m) _ _ ltac:(lia) En) as E1; pose proof (HM m (n + m) _ _ ltac:(lia) Hm) as E2;
        rewrite E1 in E2; inv E2; eexists ([], _); simpl; (split; [split; [eassumption|reflexivity]|]); [auto|reflexivity].
    - intros HR H. destruct a as [B rest]. simpl fst. simpl snd.
      assert (HS : match B with
        | [] => rest = [] /\ exists n x' a', sh_next rnd moved window I n x = Some (Eod, x') /\ sh_rep window I x' a' /\ fst a' ++ snd a' = []
        | _ => exists n d x' B' rest', sh_next rnd moved window I n x = Some (Val d, x') /\ sh_rep window I x' (B', rest') /\
             Permutation (B ++ rest) (d :: B' ++ rest')
        end).
      { destruct (sh_fill x) eqn:Ef.
        - destruct x as [b pos en fl sd g s]. simpl in Ef. subst fl. pose proof HR as (Hb & _). subst b.
          destruct (sh_fill_run rnd moved window I pos en sd g s B rest HM Hw HR) as (n0 & s' & Hs' & HR' & HX).
          pose proof (sh_emit_run rnd moved window I (ShSt B 0 (length B) false sd g s') B rest HM eq_refl HR') as HE.
          destruct B as [|d0 B0].
          + destruct HE as (-> & m & Hm). split; [reflexivity|]. exists (n0 + m). eexists _, ([], []).
            rewrite HX by lia. split; [eapply sh_emit_mono; [assumption| |exact Hm]; lia|]. split; [exact HR'|reflexivity].
          + destruct HE as (m & d & x1 & B' & rest' & He & Hrep & _ & Hout). exists (n0 + m), d, x1, B', rest'.
            rewrite HX by lia. split; [eapply sh_emit_mono; [assumption| |exact He]; lia|]. split; [assumption|].
            destruct (shuffled_ex B' rest') as [out Ho]; [intros ->; eapply sh_rep_nil; exact Hrep|].
            pose proof (shuffled_permutation _ _ _ (Hout _ Ho)) as P1. pose proof (shuffled_permutation _ _ _ Ho) as P2.
            rewrite <- P1, P2. reflexivity.
        - pose proof (sh_emit_run rnd moved window I x B rest HM Ef HR) as HE.
          assert (HX : forall n, sh_next rnd moved window I n x = sh_emit rnd moved I n x).
          { intros m. unfold sh_next. destruct x as [b pos en fl sd g s]. simpl in Ef. subst fl.
            destruct (Nat.eqb_spec window 1); [contradiction|reflexivity]. }
          destruct B as [|d0 B0].
          + destruct HE as (-> & m & Hm). split; [reflexivity|]. exists m. eexists _, ([], []).
            rewrite HX. split; [exact Hm|]. split; [exact HR|reflexivity].
          + destruct HE as (m & d & x1 & B' & rest' & He & Hrep & _ & Hout). exists m, d, x1, B', rest'.
            rewrite HX. split; [exact He|]. split; [assumption|].
            destruct (shuffled_ex B' rest') as [out Ho]; [intros ->; eapply sh_rep_nil; exact Hrep|].
            pose proof (shuffled_permutation _ _ _ (Hout _ Ho)) as P1. pose proof (shuffled_permutation _ _ _ Ho) as P2.
            rewrite <- P1, P2. reflexivity. }
      pose proof (shuffle_mono rnd moved window seed0 I HM) as HMS.
      destruct B as [|d0 B0].
      + destruct HS as (-> & m & x1 & a' & Hm & Ha & He).
        pose proof (HMS n (n + m) _ _ ltac:(lia) H) as E1. pose proof (HMS m (n + m) _ _ ltac:(lia) Hm) as E2.
        rewrite E1 in E2. inv E2. exists a'. auto.
      + destruct HS as (m & d & x1 & B' & rest' & Hm & Ha & He).
        pose proof (HMS n (n + m) _ _ ltac:(lia) H) as E1. pose proof (HMS m (n + m) _ _ ltac:(lia) Hm) as E2.
        rewrite E1 in E2. inv E2. exists (B', rest'). auto.
  Qed.

  Lemma run_rep os x x' : yields sh x (map Val os) x' -> forall a, rep x a ->
    exists a', rep x' a' /\ Permutation (fst a ++ snd a) (os ++ fst a' ++ snd a').
  Proof.
    revert x. induction os as [|d os IH]; intros x H a Ha; inversion H as [|n s o s1 os' s2 Hn Hy]; subst.
    - exists a. split; [assumption|reflexivity].
    - destruct (step_rep _ _ _ _ _ Ha Hn) as (a1 & Ha1 & P1).
      destruct (IH _ Hy _ Ha1) as (a2 & Ha2 & P2). exists a2. split; [assumption|]. rewrite P1, P2. reflexivity.
  Qed.

  Lemma init_rep L : holds I (init I) L -> exists a, rep (init sh) a /\ fst a ++ snd a = L.
  Proof.
    intros Hh. unfold rep. destruct (Nat.eqb_spec window 1) as [Hw|Hw]; [exists ([], L); auto|].
    destruct (Nat.eq_dec window 0) as [Hw0|Hw0].
    - exists (L, []). split; [|apply app_nil_r]. simpl. rewrite Hw0, app_nil_r. simpl. auto.
    - exists (firstn window L, skipn window L). split; [|apply firstn_skipn]. simpl. rewrite firstn_skipn.
      split; [reflexivity|]. split; [assumption|]. destruct (Nat.eqb_spec window 0); [contradiction|].
      rewrite firstn_length. destruct (Nat.le_gt_cases window (length L)); [right; lia|left].
      split; [apply skipn_all2; lia|lia].
  Qed.

  (** The buffer never holds more than [window] examples. *)
  Definition small (x : sh_st I) : Prop := window <> 0 -> length (sh_buf x) <= window.

  Lemma sh_read_small k m acc s b e s' : sh_read I m k true acc s = Some (b, e, s') -> length b <= length acc + k.
  Proof.
    revert acc s. induction k as [|k IH]; intros acc s H; simpl in H; [inv H; lia|].
    destruct (next I m s) as [[o s1]|]; [|discriminate]. destruct o; [|inv H; lia|inv H; lia].
    apply IH in H. rewrite app_length in H. simpl in H. lia.
  Qed.

  Lemma emit_small n x o x' : sh_fill x = false -> sh_emit rnd moved I n x = Some (o, x') ->
    sh_end x <= length (sh_buf x) -> length (sh_buf x') = length (sh_buf x) /\ sh_fill x' = false.
  Proof.
    destruct x as [b pos en fl sd g s]. simpl. intros -> H Hen. unfold sh_emit in H. destruct (pos =? en); [inv H; auto|].
    destruct (if pos =? 0 then fisher_yates rnd en g b else (g, b)) as [g1 b1] eqn:Eg.
    assert (HL : length b1 = length b).
    { destruct (pos =? 0); [|inv Eg; auto]. destruct (fisher_yates_spec rnd en g b en ltac:(lia)) as (H1 & _).
      rewrite Eg in H1. exact H1. }
    destruct (nth_error b1 pos); [|inv H; auto].
    destruct (en =? length b1).
    - destruct (next I n s) as [[[d'| |e] s1]|]; inv H; simpl; rewrite ?upd_length; auto.
    - inv H. simpl. rewrite upd_length. auto.
  Qed.

  Definition sized (x : sh_st I) : Prop :=
    (sh_fill x = true -> sh_buf x = []) /\ (window <> 0 -> window <> 1 -> sh_fill x = false -> length (sh_buf x) <= window).

  Lemma step_sized n x o x' a : rep x a -> sized x -> next sh n x = Some (o, x') -> o = Eod \/ (exists d, o = Val d) -> sized x'.
  Proof.
    intros HR HS H Ho. destruct x as [b pos en fl sd g s]. simpl in H. unfold sh_next in H. unfold rep in HR.
    destruct (Nat.eqb_spec window 1) as [Hw|Hw].
    - destruct (next I n s) as [[o1 s1]|]; [|discriminate]. inv H. exact HS.
    - destruct HS as [H0 H1]. simpl in H0, H1. destruct fl.
      + rewrite (H0 eq_refl) in H. destruct (sh_read I n _ _ [] s) as [[[b' e] s']|] eqn:E; [|discriminate].
        destruct e as [e|]; [inv H; destruct Ho as [Ho|[d Ho]]; discriminate|].
        destruct (emit_small n (ShSt b' 0 (length b') false sd g s') o x' eq_refl H) as [E1 E2]; [simpl; lia|]. split; [congruence|].
        intros Hw0 _ _. rewrite E1. simpl. destruct (Nat.eqb_spec window 0); [contradiction|]. simpl in E.
        apply sh_read_small in E. simpl in E. lia.
      + destruct a as [B rest]. destruct HR as (_ & _ & Hen & _).
        destruct (emit_small n (ShSt b pos en false sd g s) o x' eq_refl H) as [E1 E2]; [simpl; lia|]. split; [congruence|].
        intros Hw0 _ _. rewrite E1. simpl. auto.
  Qed.

  Lemma run_sized os x x' : yields sh x (map Val os) x' -> forall a, rep x a -> sized x -> sized x'.
  Proof.
    revert x. induction os as [|d os IH]; intros x H a Ha Hs; inversion H as [|n s o s1 os' s2 Hn Hy]; subst; [assumption|].
    destruct (step_rep _ _ _ _ _ Ha Hn) as (a1 & Ha1 & _). eapply IH; [exact Hy|exact Ha1|].
    eapply step_sized; [exact Ha|exact Hs|exact Hn|eauto].
  Qed.

  Lemma live_length b pos en : pos <= length b -> length (live b pos en) <= length b.
  Proof.
    intros Hp. unfold live. destruct (en =? length b); [lia|]. destruct (Nat.ltb_spec en pos).
    - rewrite app_length, firstn_length, skipn_length. lia.
    - rewrite skipn_length, firstn_length. lia.
  Qed.

  (** What is lost: the examples in the buffer. *)
  Lemma rep_rest x a : rep x a -> sized x -> exists lost rest, holds I (sh_in x) rest /\
    Permutation (fst a ++ snd a) (lost ++ rest) /\ (window <> 0 -> length lost <= window).
  Proof.
    intros HR HS. destruct a as [B rest]. unfold rep in HR. destruct (Nat.eqb_spec window 1) as [Hw|Hw].
    - destruct HR as [Hh He]. simpl in *. subst B. exists [], rest. simpl. auto using Nat.le_0_l.
    - destruct x as [b pos en fl sd g s]. destruct fl.
      + destruct HR as (-> & Hh & _). exists [], (B ++ rest). simpl. auto using Nat.le_0_l.
      + destruct HR as (HP & Hh & Hen & _ & Hpos & _). exists B, rest. simpl. split; [assumption|]. split; [reflexivity|].
        intros Hw0. rewrite (Permutation_length HP). destruct HS as [_ HS]. simpl in HS. specialize (HS Hw0 Hw eq_refl).
        pose proof (live_length b pos en). lia.
  Qed.
End NonStrict.

Section ListSource.
  Variable rnd : Z -> nat -> Z.
  Variable moved : data -> data.
  Variable window : nat.
  Variable seed0 : Z.
  Variable L : list data.
  Hypothesis Hseed : (0 <= seed0 < 2 ^ 63)%Z.
  Notation sh := (src_shuffle rnd moved window seed0 (src_list L)).

  Lemma reach_inv os x : yields sh (init sh) (map Val os) x -> sh_inv seed0 (src_list L) (fun p => p <= length L) x.
  Proof.
    pose proof (shuffle_resumable rnd moved window seed0 (src_list L) true _ _ (list_resumable L) Hseed) as HR.
    assert (G : forall os s s', yields sh s (map Val os) s' ->
      sh_inv seed0 (src_list L) (fun p => p <= length L) s -> sh_inv seed0 (src_list L) (fun p => p <= length L) s').
    { induction os0 as [|d os0 IH]; intros s s' H Hs; inversion H as [|n s0 o s1 os' s2 Hn Hy]; subst; [assumption|].
      eapply IH; [exact Hy|]. exact (rs_next _ _ _ _ HR _ _ _ _ Hs Hn). }
    intros H. eapply G; [exact H|]. exact (rs_init _ _ _ _ HR).
  Qed.

  Lemma nonstrict_shuffle_lemma os x x0 : yields sh (init sh) (map Val os) x ->
    exists t x1, record_pos sh false x = Some t /\ reload_pos sh false x0 t = Some (x1, []) /\
      exists lost os2, holds sh x1 os2 /\ Permutation (os ++ lost ++ os2) L /\ (window <> 0 -> length lost <= window).
  Proof.
    intros Hy. pose proof (reach_inv _ _ Hy) as (Hin & Hsd & _).
    destruct (init_rep rnd moved window seed0 (src_list L) L (list_holds L)) as (a & Ha & HL).
    destruct (run_rep rnd moved window seed0 (src_list L) (list_mono L) _ _ _ Hy _ Ha) as (a' & Ha' & HP).
    assert (HS : sized window (src_list L) x).
    { eapply run_sized; [apply list_mono|exact Hy|exact Ha|]. split; simpl; [reflexivity|discriminate]. }
    destruct (rep_rest window (src_list L) x a' Ha' HS) as (lost & rest & Hh & HP2 & Hl).
    destruct x as [b pos en fl sd g p]. simpl in Hsd, Hin, Hh. subst sd.
    destruct (shuffle_holds rnd moved window seed0 (src_list L) seed0 g 0 0 p rest (list_mono L) Hh) as (os2 & HS2 & Hh2).
    destruct g as [ga gk].
    exists (wr_u64 seed0 ++ wr_gen (ga, gk) ++ wr_size p), (ShSt [] 0 0 true seed0 (ga, gk) p : sh_st (src_list L)).
    split; [reflexivity|]. split.
    - cbn [reload_pos src_shuffle]. unfold sh_reload. rewrite (rd_wr_u64 _ _ Hseed). unfold rd_gen, wr_gen.
      rewrite rd_wr_tensor. cbn [fst snd]. rewrite Nat2Z.id. cbn [reload_pos src_list].
      rewrite <- (app_nil_r (wr_size p)), rd_wr_size. destruct (Nat.leb_spec p (length L)); [reflexivity|lia].
    - exists lost, os2. split; [exact Hh2|]. split; [|exact Hl].
      assert (HP3 : Permutation os2 rest).
      { clear -HS2. unfold shuffle_spec in HS2. destruct (window =? 0).
        - apply shuffled_permutation in HS2. rewrite HS2, app_nil_r. reflexivity.
        - apply shuffled_permutation in HS2. rewrite HS2, firstn_skipn. reflexivity. }
      rewrite <- HL, HP, HP2, HP3. reflexivity.
  Qed.
End ListSource.
