From Coq Require Import String ZArith QArith List Bool Lia Znumtheory.
From Verif Require Import LossScale_Model Trainer_Model Trainer_Spec Trainer_Proofs.
Import ListNotations.
Local Open Scope Z_scope.

Lemma due_iff d n : (forall k, every_n_steps d = Some k -> k <> 0) -> due d n = true <-> due_at_step d n.
Proof.
  intros HZ. unfold due, due_at_step. destruct (every_n_steps d) as [k|].
  - specialize (HZ k eq_refl). rewrite andb_true_iff, Z.ltb_lt, Z.eqb_eq. split.
    + intros [H1 H2]. exists k. split; [reflexivity|]. split; [assumption|]. apply Z.mod_divide; assumption.
    + intros (k' & Hk & H1 & H2). inversion Hk; subst. split; [assumption|]. apply Z.mod_divide; assumption.
  - split; [discriminate|intros (k & H & _); discriminate].
Qed.

Lemma due_epoch_iff d n e : (forall k, every_n_data_epochs d = Some k -> k <> 0) ->
  due_epoch d n e = true <-> due_at_epoch d e /\ due d n = false.
Proof.
  intros HZ. unfold due_epoch, due_at_epoch. destruct (every_n_data_epochs d) as [k|].
  - specialize (HZ k eq_refl). rewrite !andb_true_iff, Z.ltb_lt, Z.eqb_eq, negb_true_iff. split.
    + intros [[H1 H2] H3]. split; [|assumption]. exists k. split; [reflexivity|]. split; [assumption|]. apply Z.mod_divide; assumption.
    + intros [(k' & Hk & H1 & H2) H3]. inversion Hk; subst. split; [split; [assumption|]|assumption]. apply Z.mod_divide; assumption.
  - split; [discriminate|intros [(k & H & _) _]; discriminate].
Qed.

(** Accepted configurations. *)
Lemma and_then_accept a b : and_then a b = Accept <-> a = Accept /\ b = Accept.
Proof. destruct a; simpl; [tauto|]. split; [discriminate|intros [H _]; discriminate]. Qed.
Lemma given_accept {A} (o : option A) f : given o f = Accept <-> forall x, o = Some x -> f x = Accept.
Proof. destruct o; simpl; split; intros H; auto; [intros x Hx; inversion Hx; subst; assumption|intros; discriminate]. Qed.
Lemma positive_accept x : positive x = Accept <-> 1 <= x.
Proof. unfold positive. destruct (Z.leb_spec x 0); split; intros; try discriminate; try reflexivity; lia. Qed.
Lemma not_zero_accept x : not_zero x = Accept <-> x <> 0.
Proof. unfold not_zero. destruct (Z.eqb_spec x 0); split; intros; try discriminate; try reflexivity; auto; contradiction. Qed.
Lemma multiple_accept x y : multiple x y = Accept <-> y <> 0 /\ (y | x).
Proof.
  unfold multiple. destruct (Z.eqb_spec y 0) as [H|H]; [split; [discriminate|tauto]|].
  destruct (Z.eqb_spec (x mod y) 0) as [H2|H2]; simpl.
  - split; [|reflexivity]. intros _. split; [assumption|]. apply Z.mod_divide; assumption.
  - split; [discriminate|]. intros [_ HD]. apply Z.mod_divide in HD; tauto.
Qed.


Lemma check_lemma c : check_config c = Accept <->
  each (max_num_steps c) (fun x => 1 <= x) /\ each (max_num_data_epochs c) (fun x => 1 <= x) /\
  each (every_n_steps (validation c)) (fun x => 1 <= x /\ each (every_n_steps (publication c)) (fun y => y <> 0 /\ (y | x))) /\
  each (every_n_data_epochs (validation c)) (fun x => 1 <= x /\ each (every_n_data_epochs (publication c)) (fun y => y <> 0 /\ (y | x))) /\
  each (every_n_steps (checkpoint c)) (fun x => 1 <= x /\ each (every_n_steps (publication c)) (fun y => y <> 0 /\ (y | x))) /\
  each (every_n_data_epochs (checkpoint c)) (fun x => 1 <= x /\ each (every_n_data_epochs (publication c)) (fun y => y <> 0 /\ (y | x))) /\
  each (keep_last_n c) (fun x => 1 <= x) /\
  each (keep_best_n c) (fun x => 1 <= x /\ each (every_n_steps (checkpoint c)) (fun y =>
                                   exists z, every_n_steps (validation c) = Some z /\ z <> 0 /\ (z | y))) /\
  each (keep_every_n_steps c) (fun x => 1 <= x /\ each (every_n_steps (checkpoint c)) (fun y => y <> 0 /\ (y | x))) /\
  each (every_n_steps (publication c)) (fun x => x <> 0) /\ each (every_n_data_epochs (publication c)) (fun x => x <> 0).
Proof.
  unfold check_config, each. cbv zeta. rewrite !and_then_accept, !given_accept.
  assert (HP : forall o : option Z, (forall x, o = Some x -> positive x = Accept) <-> (forall x, o = Some x -> 1 <= x)).
  { intros o. split; intros H x Hx; specialize (H x Hx); apply positive_accept; assumption. }
  assert (HN : forall o : option Z, (forall x, o = Some x -> not_zero x = Accept) <-> (forall x, o = Some x -> x <> 0)).
  { intros o. split; intros H x Hx; specialize (H x Hx); apply not_zero_accept; assumption. }
  assert (HM : forall o p : option Z, (forall x, o = Some x -> and_then (positive x) (given p (multiple x)) = Accept) <->
     (forall x, o = Some x -> 1 <= x /\ forall y, p = Some y -> y <> 0 /\ (y | x))).
  { intros o p. split; intros H x Hx; specialize (H x Hx).
    - apply and_then_accept in H. rewrite positive_accept, given_accept in H. destruct H as [H1 H2]. split; [assumption|].
      intros y Hy. apply multiple_accept. auto.
    - apply and_then_accept. rewrite positive_accept, given_accept. destruct H as [H1 H2]. split; [assumption|].
      intros y Hy. apply multiple_accept. auto. }
  assert (HB : (forall x, keep_best_n c = Some x -> and_then (positive x) (given (every_n_steps (checkpoint c))
       (fun y => match every_n_steps (validation c) with None => Reject ValueError | Some z => multiple y z end)) = Accept) <->
     (forall x, keep_best_n c = Some x -> 1 <= x /\ (forall y, every_n_steps (checkpoint c) = Some y ->
         exists z, every_n_steps (validation c) = Some z /\ z <> 0 /\ (z | y)))).
  { split; intros H x Hx; specialize (H x Hx).
    - apply and_then_accept in H. rewrite positive_accept, given_accept in H. destruct H as [H1 H2]. split; [assumption|].
      intros y Hy. specialize (H2 y Hy). destruct (every_n_steps (validation c)) as [z|]; [|discriminate].
      apply multiple_accept in H2. eauto.
    - apply and_then_accept. rewrite positive_accept, given_accept. destruct H as [H1 H2]. split; [assumption|].
      intros y Hy. destruct (H2 y Hy) as (z & -> & Hz). apply multiple_accept. assumption. }
  rewrite !HP, !HN, !HM, HB. tauto.
Qed.

Lemma check_nonzero c k : check_config c = Accept ->
  (forall x, every_n_steps (period_of c k) = Some x -> x <> 0) /\ (forall x, every_n_data_epochs (period_of c k) = Some x -> x <> 0).
Proof.
  intros H. apply check_lemma in H. unfold each in H. destruct H as (_ & _ & H1 & H2 & H3 & H4 & _ & _ & _ & H5 & H6).
  destruct k; simpl; split; auto; intros x Hx.
  - destruct (H3 x Hx). lia.
  - destruct (H4 x Hx). lia.
  - destruct (H1 x Hx). lia.
  - destruct (H2 x Hx). lia.
Qed.

(** *** Consequences of the grammar *)
Local Arguments at_end : simpl never. Local Arguments at_step : simpl never. Local Arguments at_epoch : simpl never.
Local Arguments at_data_end : simpl never. Local Arguments at_early_stop : simpl never. Local Arguments final : simpl never.
Local Arguments periodic : simpl never.
Section H.
  Variable c : config.

  Definition a_step (a : act) (n : Z) : Prop :=
    match a with
    | AUpdate k _ | AOverflow k => n < k
    | AEpochEnd _ k | ASave k | APublish k | AValidate k | AScore k => n <= k
    | AEnd _ => True
    end.

  Definition at_n (n : Z) (a : act) : Prop := a = ASave n \/ a = APublish n \/ a = AValidate n \/ a = AScore n \/ exists k, a = AEnd k.

  Lemma periodic_at p q r sc n a : In a (periodic p q r sc n) -> at_n n a.
  Proof. unfold periodic, at_n. destruct p, q, r, sc; simpl; intuition subst; auto. Qed.
  Lemma final_at p q r sc n k a : In a (final p q r sc n k) -> at_n n a.
  Proof. unfold final, at_n. destruct p, q, r, sc; simpl; intuition subst; eauto 8. Qed.
  Lemma at_step_at sc n a : In a (at_step c sc n) -> at_n n a.
  Proof. apply periodic_at. Qed.
  Lemma at_epoch_at sc n e a : In a (at_epoch c sc n e) -> at_n n a.
  Proof. apply periodic_at. Qed.
  Lemma at_end_at sc n k a : In a (at_end c sc n k) -> at_n n a.
  Proof. apply final_at. Qed.
  Lemma at_data_end_at sc n a : In a (at_data_end c sc n) -> at_n n a.
  Proof. apply final_at. Qed.
  Lemma at_early_at n a : In a (at_early_stop c n) -> at_n n a.
  Proof. unfold at_early_stop, at_n. destruct (due (checkpoint c) n); simpl; intuition subst; eauto 8. Qed.

  Lemma at_n_step n m a : at_n n a -> m <= n -> a_step a m.
  Proof. unfold at_n, a_step. intros [->|[->|[->|[->|[k ->]]]]] HL; try lia. Qed.
  Lemma a_step_le a n m : a_step a n -> m <= n -> a_step a m.
  Proof. destruct a; simpl; intros; lia. Qed.

  Lemma hist_steps n e t : history c n e t -> forall a, In a t -> a_step a n.
  Proof.
    induction 1; intros a Ha; cbn [In] in Ha; try contradiction; destruct Ha as [<-|Ha]; cbn [a_step]; try lia; try exact Logic.I; try contradiction.
    - auto.
    - apply in_app_or in Ha. destruct Ha as [Ha|Ha]; [eapply at_n_step; [eapply at_step_at; eauto|lia]|eapply a_step_le; [eauto|lia]].
    - apply in_app_or in Ha. destruct Ha as [Ha|Ha]; [eapply at_n_step; [eapply at_epoch_at; eauto|lia]|auto].
    - eapply at_n_step; [eapply at_end_at; eauto|lia].
    - eapply at_n_step; [eapply at_data_end_at; eauto|lia].
    - eapply at_n_step; [eapply at_end_at; eauto|lia].
    - eapply at_n_step; [eapply at_end_at; eauto|lia].
    - eapply at_n_step; [eapply at_end_at; eauto|lia].
    - apply in_app_or in Ha. destruct Ha as [Ha|Ha]; [eapply at_n_step; [eapply at_step_at; eauto|lia]|eapply at_n_step; [eapply at_early_at; eauto|lia]].
    - apply in_app_or in Ha. destruct Ha as [Ha|Ha]; [eapply at_n_step; [eapply at_epoch_at; eauto|lia]|eapply at_n_step; [eapply at_early_at; eauto|lia]].
  Qed.

  Lemma updates_app a b : updates (a ++ b) = updates a ++ updates b.
  Proof. unfold updates. apply flat_map_app. Qed.
  Lemma updates_periodic p q r sc n : updates (periodic p q r sc n) = [].
  Proof. destruct p, q, r, sc; reflexivity. Qed.
  Lemma updates_final p q r sc n k : updates (final p q r sc n k) = [].
  Proof. destruct p, q, r, sc; reflexivity. Qed.
  Lemma updates_early n : updates (at_early_stop c n) = [].
  Proof. unfold at_early_stop. destruct (due _ _); reflexivity. Qed.

  Lemma updates_up n e t : updates (AUpdate n e :: t) = n :: updates t.
  Proof. reflexivity. Qed.
  Lemma updates_ov n t : updates (AOverflow n :: t) = updates t.
  Proof. reflexivity. Qed.
  Lemma updates_ep n e t : updates (AEpochEnd e n :: t) = updates t.
  Proof. reflexivity. Qed.

  Lemma hist_updates n e t : history c n e t -> (forall m, max_num_steps c = Some m -> n < m) ->
    exists k : nat, updates t = map (fun i => n + Z.of_nat i) (seq 1 k) /\ (forall m, max_num_steps c = Some m -> n + Z.of_nat k <= m).
  Proof.
    assert (L1 : forall n, [n + 1] = map (fun i => n + Z.of_nat i) (seq 1 1)) by reflexivity.
    induction 1; intros HM; rewrite ?updates_up, ?updates_ov, ?updates_ep.
    - exists 0%nat. split; [reflexivity|]. intros m Hm. specialize (HM m Hm). lia.
    - apply IHhistory. assumption.
    - rewrite updates_app. unfold at_step. rewrite updates_periodic. simpl.
      destruct (IHhistory H) as (k & Hk & HB). exists (S k). split.
      + cbn [seq map]. f_equal. rewrite Hk. rewrite <- (seq_shift k 1), map_map. apply map_ext. intros i. lia.
      + intros m Hm. specialize (HB m Hm). lia.
    - rewrite updates_app. unfold at_epoch. rewrite updates_periodic. apply IHhistory. assumption.
    - unfold at_end. rewrite updates_final. exists 1%nat. split; [reflexivity|]. intros m Hm. specialize (HM m Hm). lia.
    - unfold at_data_end. rewrite updates_final. exists 0%nat. split; [reflexivity|]. intros m Hm. specialize (HM m Hm). lia.
    - exists 0%nat. split; [reflexivity|]. intros m Hm. specialize (HM m Hm). lia.
    - unfold at_end. rewrite updates_final. exists 1%nat. split; [reflexivity|]. intros m Hm. specialize (HM m Hm). lia.
    - unfold at_end. rewrite updates_final. exists 0%nat. split; [reflexivity|]. intros m Hm. specialize (HM m Hm). lia.
    - unfold at_end. rewrite updates_final. exists 0%nat. split; [reflexivity|]. intros m Hm. specialize (HM m Hm). lia.
    - rewrite updates_app, updates_early. unfold at_step. rewrite updates_periodic. exists 1%nat. split; [reflexivity|]. intros m Hm. specialize (HM m Hm). lia.
    - rewrite updates_app, updates_early. unfold at_epoch. rewrite updates_periodic. exists 0%nat. split; [reflexivity|]. intros m Hm. specialize (HM m Hm). lia.
  Qed.

  Lemma one_to_map (k : nat) : one_to (Z.of_nat k) = map (fun i => 0 + Z.of_nat i) (seq 1 k).
  Proof. unfold one_to. rewrite Nat2Z.id. apply map_ext. intros. lia. Qed.

  Lemma not_at n m k : at_n n (act_for k m) -> m = n.
  Proof. unfold at_n. intros H. destruct k; simpl in H; destruct H as [H|[H|[H|[H|[k H]]]]]; congruence. Qed.

  Definition on (k : kind) : bool := match k with Validation => has_validator c | _ => true end.
  Lemma on_enabled k : on k = true <-> enabled c k.
  Proof. unfold enabled. destruct k; simpl; intuition discriminate. Qed.

  Lemma in_periodic p q r sc n k : In (act_for k n) (periodic p q r sc n) <-> (match k with Checkpoint => p | Publication => q | Validation => r end) = true.
  Proof. unfold periodic. destruct k, p, q, r, sc; simpl; intuition discriminate. Qed.
  Lemma in_at_step k sc n : In (act_for k n) (at_step c sc n) <-> on k = true /\ due (period_of c k) n = true.
  Proof. unfold at_step. rewrite in_periodic. destruct k; simpl; [tauto|tauto|apply andb_true_iff]. Qed.
  Lemma in_at_epoch k sc n e : In (act_for k n) (at_epoch c sc n e) <-> on k = true /\ due_epoch (period_of c k) n e = true.
  Proof. unfold at_epoch. rewrite in_periodic. destruct k; simpl; [tauto|tauto|apply andb_true_iff]. Qed.

  Lemma act_step k n m : a_step (act_for k n) m -> m <= n.
  Proof. destruct k; simpl; auto. Qed.

  Lemma act_ne_update k n a b : act_for k n = AUpdate a b -> False.
  Proof. destruct k; discriminate. Qed.
  Lemma act_ne_overflow k n a : act_for k n = AOverflow a -> False.
  Proof. destruct k; discriminate. Qed.
  Lemma act_ne_epoch k n a b : act_for k n = AEpochEnd a b -> False.
  Proof. destruct k; discriminate. Qed.

  Lemma at_n_not_update n a b : ~ at_n n (AUpdate a b).
  Proof. unfold at_n. intros [H|[H|[H|[H|[k H]]]]]; discriminate. Qed.
  Lemma at_n_not_epoch n a b : ~ at_n n (AEpochEnd a b).
  Proof. unfold at_n. intros [H|[H|[H|[H|[k H]]]]]; discriminate. Qed.

  Ltac noup := match goal with
    | H : In (AUpdate _ _) (at_end _ _ _ _) |- _ => apply at_end_at, at_n_not_update in H; contradiction
    | H : In (AUpdate _ _) (at_data_end _ _ _) |- _ => apply at_data_end_at, at_n_not_update in H; contradiction
    | H : In (AUpdate _ _) (at_early_stop _ _) |- _ => apply at_early_at, at_n_not_update in H; contradiction
    | H : In (AUpdate _ _) (at_step _ _ _) |- _ => apply at_step_at, at_n_not_update in H; contradiction
    | H : In (AUpdate _ _) (at_epoch _ _ _ _) |- _ => apply at_epoch_at, at_n_not_update in H; contradiction
    end.

  (** A trace that consists of update [n + 1] and of actions at step [n + 1] only. *)
  Lemma only_next n e rest j k : (forall a, In a rest -> at_n (n + 1) a) -> In (AUpdate (j + 1) e) (AUpdate (n + 1) e :: rest) ->
    forall P : Prop, (In (act_for k j) (AUpdate (n + 1) e :: rest) <-> P /\ ((n < j /\ due (period_of c k) j = true) \/
        exists e', In (AEpochEnd e' j) (AUpdate (n + 1) e :: rest) /\ due_epoch (period_of c k) j e' = true)).
  Proof.
    intros HR [HU|HU] P; [|apply HR, at_n_not_update in HU; contradiction].
    inversion HU as [Hj]. assert (j = n) by lia. subst j. clear HU Hj. split.
    - intros [Hx|Hx]; [symmetry in Hx; apply act_ne_update in Hx; contradiction|]. apply HR, not_at in Hx. lia.
    - intros (_ & [[HL _]|(e' & [Hx|Hx] & _)]); [lia|discriminate|apply HR, at_n_not_epoch in Hx; contradiction].
  Qed.

  Lemma hist_periodic n e t : history c n e t -> forall k j, n <= j -> (exists e', In (AUpdate (j + 1) e') t) ->
    (In (act_for k j) t <-> on k = true /\ ((n < j /\ due (period_of c k) j = true) \/
        exists e', In (AEpochEnd e' j) t /\ due_epoch (period_of c k) j e' = true)).
  Proof.
    induction 1; intros kd j Hj [eu Hu].
    - contradiction.
    - destruct Hu as [Hu|Hu]; [discriminate|]. specialize (IHhistory kd j Hj (ex_intro _ eu Hu)). simpl. rewrite IHhistory. split.
      + intros [Hx|Hx]; [symmetry in Hx; apply act_ne_overflow in Hx; contradiction|].
        destruct Hx as (A & [B|(e' & B & C)]); (split; [assumption|]); [left; assumption|right; eauto].
      + intros (A & [B|(e' & [B|B] & C)]); [right; auto|discriminate|right; eauto].
    - destruct (Z.eq_dec j n) as [->|Hjn].
      + split.
        * intros [Hx|Hx]; [symmetry in Hx; apply act_ne_update in Hx; contradiction|]. apply in_app_or in Hx. destruct Hx as [Hx|Hx].
          -- apply at_step_at, not_at in Hx. lia.
          -- apply (hist_steps _ _ _ H0) in Hx. apply act_step in Hx. lia.
        * intros (_ & [[HL _]|(e' & [Hx|Hx] & _)]); [lia|discriminate|]. apply in_app_or in Hx. destruct Hx as [Hx|Hx].
          -- apply at_step_at, at_n_not_epoch in Hx. contradiction.
          -- apply (hist_steps _ _ _ H0) in Hx. simpl in Hx. lia.
      + assert (Hu' : In (AUpdate (j + 1) eu) t).
        { destruct Hu as [Hu|Hu]; [inversion Hu; lia|]. apply in_app_or in Hu. destruct Hu as [Hu|Hu]; [noup|assumption]. }
        specialize (IHhistory kd j ltac:(lia) (ex_intro _ eu Hu')).
        assert (HE : forall e', In (AEpochEnd e' j) (AUpdate (n + 1) e :: at_step c sc (n + 1) ++ t) <-> In (AEpochEnd e' j) t).
        { intros e'. split; [|intros; right; apply in_or_app; auto].
          intros [Hx|Hx]; [discriminate|]. apply in_app_or in Hx. destruct Hx as [Hx|Hx]; [apply at_step_at, at_n_not_epoch in Hx; contradiction|assumption]. }
        setoid_rewrite HE. destruct (Z.eq_dec j (n + 1)) as [->|Hjn1].
        * split.
          -- intros [Hx|Hx]; [symmetry in Hx; apply act_ne_update in Hx; contradiction|]. apply in_app_or in Hx. destruct Hx as [Hx|Hx].
             ++ apply in_at_step in Hx. destruct Hx. split; [assumption|]. left. split; [lia|assumption].
             ++ apply IHhistory in Hx. destruct Hx as (A & [[B _]|B]); [lia|]. tauto.
          -- intros (A & [[_ B]|B]).
             ++ right. apply in_or_app. left. apply in_at_step. auto.
             ++ right. apply in_or_app. right. apply IHhistory. auto.
        * split.
          -- intros [Hx|Hx]; [symmetry in Hx; apply act_ne_update in Hx; contradiction|]. apply in_app_or in Hx. destruct Hx as [Hx|Hx].
             ++ apply at_step_at, not_at in Hx. lia.
             ++ apply IHhistory in Hx. destruct Hx as (A & [[_ B]|B]); (split; [assumption|]); [left; split; [lia|assumption]|right; assumption].
          -- intros (A & [[_ B]|B]); right; apply in_or_app; right; apply IHhistory; (split; [assumption|]); [left; split; [lia|assumption]|right; assumption].
    - assert (Hu' : In (AUpdate (j + 1) eu) t).
      { destruct Hu as [Hu|Hu]; [discriminate|]. apply in_app_or in Hu. destruct Hu as [Hu|Hu]; [noup|assumption]. }
      specialize (IHhistory kd j Hj (ex_intro _ eu Hu')).
      assert (HE : forall e', In (AEpochEnd e' j) (AEpochEnd e n :: at_epoch c sc n e ++ t) <-> (j = n /\ e' = e) \/ In (AEpochEnd e' j) t).
      { intros e'. split.
        - intros [Hx|Hx]; [inversion Hx; auto|]. apply in_app_or in Hx. destruct Hx as [Hx|Hx]; [apply at_epoch_at, at_n_not_epoch in Hx; contradiction|auto].
        - intros [[-> ->]|Hx]; [left; reflexivity|right; apply in_or_app; auto]. }
      setoid_rewrite HE. split.
      + intros [Hx|Hx]; [symmetry in Hx; apply act_ne_epoch in Hx; contradiction|]. apply in_app_or in Hx. destruct Hx as [Hx|Hx].
        * pose proof (at_epoch_at _ _ _ _ Hx) as Hn. apply not_at in Hn. subst j. apply in_at_epoch in Hx. destruct Hx. split; [assumption|].
          right. exists e. auto.
        * apply IHhistory in Hx. destruct Hx as (A & [B|(e' & B & C)]); (split; [assumption|]); [left; assumption|right; eauto].
      + intros (A & [B|(e' & [[-> ->]|B] & C)]); right; apply in_or_app.
        * right. apply IHhistory. auto.
        * left. apply in_at_epoch. auto.
        * right. apply IHhistory. split; [assumption|]. right. eauto.
    - assert (eu = e) by (destruct Hu as [Hu|Hu]; [congruence|noup]). subst eu. apply only_next; [apply at_end_at|assumption].
    - destruct Hu as [Hu|Hu]; [discriminate|noup].
    - destruct Hu as [Hu|[]]; discriminate.
    - assert (eu = e) by (destruct Hu as [Hu|Hu]; [congruence|noup]). subst eu. apply only_next; [apply at_end_at|assumption].
    - destruct Hu as [Hu|Hu]; [discriminate|noup].
    - destruct Hu as [Hu|Hu]; [discriminate|noup].
    - assert (eu = e) by (destruct Hu as [Hu|Hu]; [congruence|apply in_app_or in Hu; destruct Hu as [Hu|Hu]; noup]). subst eu.
      apply only_next; [|assumption]. intros a Ha. apply in_app_or in Ha. destruct Ha; [eapply at_step_at; eauto|apply at_early_at; assumption].
    - destruct Hu as [Hu|Hu]; [discriminate|]. apply in_app_or in Hu; destruct Hu as [Hu|Hu]; noup.
  Qed.

  (** Each action happens once at a step when there are no actions at the end of epochs. *)
  Definition act_eq_dec (a b : act) : {a = b} + {a <> b}.
  Proof. decide equality; try apply Z.eq_dec. decide equality. Defined.

  Lemma count_periodic p q r sc n k j : count_occ act_eq_dec (periodic p q r sc n) (act_for k j) =
    if (j =? n) && (match k with Checkpoint => p | Publication => q | Validation => r end) then 1%nat else 0%nat.
  Proof.
    destruct (Z.eqb_spec j n) as [->|H]; simpl.
    - destruct k, p, q, r, sc; unfold periodic; cbn [app count_occ act_for andb]; repeat (match goal with |- context [act_eq_dec ?x ?y] => destruct (act_eq_dec x y); try congruence end); reflexivity.
    - destruct k, p, q, r, sc; unfold periodic; cbn [app count_occ act_for andb]; repeat (match goal with |- context [act_eq_dec ?x ?y] => destruct (act_eq_dec x y); try congruence end); reflexivity.
  Qed.

  Lemma count_not_in (t : list act) a : ~ In a t -> count_occ act_eq_dec t a = 0%nat.
  Proof. apply count_occ_not_In. Qed.

  Lemma count_cons_ne t a b : a <> b -> count_occ act_eq_dec (a :: t) b = count_occ act_eq_dec t b.
  Proof. intros. apply count_occ_cons_neq. assumption. Qed.

  Lemma due_epoch_none d n e : every_n_data_epochs d = None -> due_epoch d n e = false.
  Proof. unfold due_epoch. intros ->. reflexivity. Qed.

  Lemma hist_once n e t : history c n e t -> forall k j, every_n_data_epochs (period_of c k) = None -> n <= j -> (exists e', In (AUpdate (j + 1) e') t) ->
    count_occ act_eq_dec t (act_for k j) = if on k && (n <? j) && due (period_of c k) j then 1%nat else 0%nat.
  Proof.
    assert (FIN : forall n e eu rest k j, (forall a, In a rest -> at_n (n + 1) a) -> In (AUpdate (j + 1) eu) (AUpdate (n + 1) e :: rest) ->
       count_occ act_eq_dec (AUpdate (n + 1) e :: rest) (act_for k j) = if on k && (n <? j) && due (period_of c k) j then 1%nat else 0%nat).
    { intros n0 e0 eu rest k j HR Hu. destruct Hu as [Hu|Hu]; [|apply HR, at_n_not_update in Hu; contradiction].
      inversion Hu as [[Hj He]]. assert (j = n0) by lia. subst j. rewrite Z.ltb_irrefl, andb_false_r. cbn [andb].
      apply count_not_in. intros [Hx|Hx]; [symmetry in Hx; apply act_ne_update in Hx; contradiction|]. apply HR, not_at in Hx. lia. }
    induction 1; intros kd j HN Hj [eu Hu].
    - contradiction.
    - destruct Hu as [Hu|Hu]; [discriminate|]. rewrite count_cons_ne by (destruct kd; discriminate). eauto.
    - rewrite count_cons_ne by (destruct kd; discriminate). rewrite count_occ_app. unfold at_step at 1. rewrite count_periodic.
      destruct (Z.eq_dec j n) as [->|Hjn].
      + replace (n =? n + 1) with false by (symmetry; apply Z.eqb_neq; lia). rewrite Z.ltb_irrefl, andb_false_r. cbn [andb Nat.add]. apply count_not_in.
        intros Hx. apply (hist_steps _ _ _ H0) in Hx. apply act_step in Hx. lia.
      + assert (Hu' : In (AUpdate (j + 1) eu) t).
        { destruct Hu as [Hu|Hu]; [inversion Hu; lia|]. apply in_app_or in Hu. destruct Hu as [Hu|Hu]; [noup|assumption]. }
        rewrite (IHhistory kd j HN ltac:(lia) (ex_intro _ eu Hu')).
        replace (n <? j) with true by (symmetry; apply Z.ltb_lt; lia). destruct (Z.eqb_spec j (n + 1)) as [->|Hne]; simpl.
        * rewrite Z.ltb_irrefl, andb_false_r, andb_true_r. simpl. rewrite Nat.add_0_r. destruct kd; reflexivity.
        * replace (n + 1 <? j) with true by (symmetry; apply Z.ltb_lt; lia). reflexivity.
    - assert (Hu' : In (AUpdate (j + 1) eu) t).
      { destruct Hu as [Hu|Hu]; [discriminate|]. apply in_app_or in Hu. destruct Hu as [Hu|Hu]; [noup|assumption]. }
      rewrite count_cons_ne by (destruct kd; discriminate). rewrite count_occ_app. unfold at_epoch at 1. rewrite count_periodic.
      rewrite (IHhistory kd j HN Hj (ex_intro _ eu Hu')).
      replace (match kd with Checkpoint => due_epoch (checkpoint c) n e | Publication => due_epoch (publication c) n e
                           | Validation => has_validator c && due_epoch (validation c) n e end) with false; [rewrite andb_false_r; reflexivity|].
      destruct kd; simpl in HN; rewrite (due_epoch_none _ n e HN); [reflexivity|reflexivity|symmetry; apply andb_false_r].
    - apply FIN with eu; [apply at_end_at|assumption].
    - destruct Hu as [Hu|Hu]; [discriminate|noup].
    - destruct Hu as [Hu|[]]; discriminate.
    - apply FIN with eu; [apply at_end_at|assumption].
    - destruct Hu as [Hu|Hu]; [discriminate|noup].
    - destruct Hu as [Hu|Hu]; [discriminate|noup].
    - apply FIN with eu; [|assumption]. intros a Ha. apply in_app_or in Ha. destruct Ha; [eapply at_step_at; eauto|apply at_early_at; assumption].
    - destruct Hu as [Hu|Hu]; [discriminate|]. apply in_app_or in Hu; destruct Hu as [Hu|Hu]; noup.
  Qed.

  (** How a run ends. *)
  Lemma end_in_periodic p q r sc n k : ~ In (AEnd k) (periodic p q r sc n).
  Proof. unfold periodic. destruct p, q, r, sc; simpl; intuition discriminate. Qed.
  Lemma end_in_final p q r sc n k k' : In (AEnd k) (final p q r sc n k') -> k = k'.
  Proof. unfold final. destruct p, q, r, sc; simpl; intuition congruence. Qed.

  Lemma early_end n k : In (AEnd k) (at_early_stop c n) -> k = EarlyStop.
  Proof. unfold at_early_stop. destruct (due (checkpoint c) n); simpl; intuition congruence. Qed.

  Lemma hist_end n e t : history c n e t -> In (AEnd EndOfTraining) t ->
    exists m sc t0, max_num_steps c = Some m /\ t = t0 ++ at_end c sc m EndOfTraining.
  Proof.
    induction 1; intros HE; cbn [In] in HE; try contradiction; destruct HE as [HE|HE]; try discriminate; try contradiction.
    - destruct (IHhistory HE) as (m & sc & t0 & Hm & ->). exists m, sc, (AOverflow (n + 1) :: t0). auto.
    - apply in_app_or in HE. destruct HE as [HE|HE]; [apply end_in_periodic in HE; contradiction|].
      destruct (IHhistory HE) as (m & sc' & t0 & Hm & ->). exists m, sc', (AUpdate (n + 1) e :: at_step c sc (n + 1) ++ t0). split; [assumption|].
      simpl. rewrite <- app_assoc. reflexivity.
    - apply in_app_or in HE. destruct HE as [HE|HE]; [apply end_in_periodic in HE; contradiction|].
      destruct (IHhistory HE) as (m & sc' & t0 & Hm & ->). exists m, sc', (AEpochEnd e n :: at_epoch c sc n e ++ t0). split; [assumption|].
      simpl. rewrite <- app_assoc. reflexivity.
    - exists (n + 1), sc, [AUpdate (n + 1) e]. auto.
    - apply end_in_final in HE. discriminate.
    - apply end_in_final in HE. discriminate.
    - apply end_in_final in HE. discriminate.
    - apply end_in_final in HE. discriminate.
    - apply in_app_or in HE. destruct HE as [HE|HE]; [apply end_in_periodic in HE; contradiction|].
      apply early_end in HE. discriminate.
    - apply in_app_or in HE. destruct HE as [HE|HE]; [apply end_in_periodic in HE; contradiction|].
      apply early_end in HE. discriminate.
  Qed.
End H.
