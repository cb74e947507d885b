From Coq Require Import List Bool Arith Lia Permutation Wf_nat.
Import ListNotations.
From Verif Require Import Amap_Model Amap_Spec Amap_Proofs.

Section L.
  Context {A B : Type}.
  Variable src : nat -> option A.
  Variable f : A -> option B.
  Variable n : nat.
  Notation state := (state A B).
  Notation step := (step src f n).
  Notation reach := (reach src f n).
  Local Arguments inflight : simpl never.
  Local Arguments running : simpl never.
  Local Arguments decrs : simpl never.

  (** A measure every internal step decreases *)
  Definition weigh (t : task A) : nat := match t with Run _ => 5 | Decr => 4 | Notify => 3 end.
  Definition load (l : list (task A)) : nat := list_sum (map weigh l).
  Lemma load_app a b : load (a ++ b) = load a + load b. Proof. unfold load. rewrite map_app, list_sum_app. reflexivity. Qed.
  Lemma load_cons t b : load (t :: b) = weigh t + load b. Proof. reflexivity. Qed.
  Local Arguments load : simpl never.
  Definition pcw (c : pc) : nat :=
    match c with Idle => 0 | Fill i => 5 + 6 * (n - i) | Test1 => 4 | Test2 => 3 | Wait => 2 | Sleep => 0 | DTest => 2 | DHold => 1 | DSleep => 0 end.
  Definition measure (s : state) : nat := pcw (at_ s) + load (tasks s).
  Lemma measure_internal s s' : internal src f n s s' -> measure s' < measure s.
  Proof.
    intros (o & H & N). unfold measure. destruct H; cbn in N |- *; try rewrite H; cbn; try lia; try (rewrite !load_app, !load_cons; cbn; lia).
    - exfalso. exact (N ltac:(discriminate) H).
    - rewrite !load_app, !load_cons. change (load []) with 0. cbn. lia.
    - exfalso. exact (N ltac:(discriminate) H).
    - rewrite !load_app, !load_cons. cbn. destruct (at_ s); cbn; lia.
  Qed.
  Lemma internal_wf : well_founded (fun s' s : state => internal src f n s s').
  Proof. apply (well_founded_lt_compat _ measure). intros s' s. apply measure_internal. Qed.

  (** Where a schedule can end *)
  Lemma stuck_where s : stuck src f n s -> tasks s = [] /\ (at_ s = Sleep \/ at_ s = DSleep).
  Proof.
    intros S.
    assert (C : at_ s = Sleep \/ at_ s = DSleep).
    { destruct (at_ s) eqn:E; auto; exfalso.
      - exact (S _ _ (s_next _ _ _ _ E)).
      - destruct (le_lt_dec n i); [exact (S _ _ (s_full _ _ _ _ _ E l))|]. destruct (src (pos s)) eqn:E0; [exact (S _ _ (s_pull _ _ _ _ _ _ E l E0))|exact (S _ _ (s_exhausted _ _ _ _ _ E l E0))].
      - destruct (finished s) eqn:F; [|exact (S _ _ (s_test1_yes _ _ _ _ E (or_introl F)))].
        destruct (flight s) eqn:F2; [exact (S _ _ (s_test1_no _ _ _ _ E F F2))|]. apply (S None (go s Wait)). apply s_test1_yes; [exact E|right; lia].
      - destruct (queue s) eqn:Q; [exact (S _ _ (s_test2_no _ _ _ _ E Q))|]. apply (S None (go s Wait)). apply s_test2_yes; [exact E|congruence].
      - destruct (exc s) eqn:X; [exact (S _ _ (s_wait_raise _ _ _ _ E X))|]. destruct (queue s) eqn:Q; [exact (S _ _ (s_wait_sleep _ _ _ _ E X Q))|exact (S _ _ (s_wait_pop _ _ _ _ _ _ E X Q))].
      - destruct (exc s) eqn:X; [exact (S _ _ (s_dtest_raise _ _ _ _ E X))|]. destruct (Nat.eq_dec (flight s) 0) as [Z|Z]; [exact (S _ _ (s_dtest_done _ _ _ _ E X Z))|exact (S _ _ (s_dtest_hold _ _ _ _ E X Z))].
      - exact (S _ _ (s_dhold _ _ _ _ E)). }
    split; [|exact C]. destruct (tasks s) as [|[x| |] l] eqn:T; [reflexivity| | |]; exfalso.
    - assert (D : at_ s <> DHold) by (destruct C; congruence). destruct (f x) eqn:F.
      + exact (S _ _ (s_run _ _ _ _ [] _ _ _ T F D)).
      + exact (S _ _ (s_fail _ _ _ _ [] _ _ T F D)).
    - exact (S _ _ (s_decr _ _ _ _ [] _ T)).
    - exact (S _ _ (s_notify _ _ _ _ [] _ T)).
  Qed.

  (** A sleeping next has seen an empty queue; what is pushed afterwards is notified. *)
  Definition tells (t : task A) : Prop := match t with Run _ => False | _ => True end.
  Lemma sleep_inv p q tr s : reach (start p q) tr s -> at_ s = Sleep -> (queue s = [] /\ exc s = false) \/ exists t, In t (tasks s) /\ tells t.
  Proof.
    intros R. remember (start p q) as s0. induction R as [|tr s o s' R IH H|tr s s' R IH H]; subst; cbn; [discriminate| |destruct H; discriminate].
    destruct H; cbn; try discriminate; intros W.
    - auto.
    - right. exists Decr. split; [apply in_or_app; right; left; reflexivity|exact I].
    - right. exists Decr. split; [apply in_or_app; right; left; reflexivity|exact I].
    - right. exists Notify. split; [apply in_or_app; right; left; reflexivity|exact I].
    - destruct (at_ s); discriminate.
  Qed.

  (** Calm schedules *)
  Definition asked (c : pc) : Prop := match c with Fill _ | Test1 | Test2 | Wait | Sleep => True | _ => False end.
  Record cinv (s : state) : Prop := {
    c_flight : flight s = inflight (tasks s);
    c_exc : failed s <> [] -> exc s = true;
    c_decr : asked (at_ s) -> decrs (tasks s) <= length (queue s) + length (failed s);
    c_fill : forall i, at_ s = Fill i -> i <= length (running (tasks s)) + length (queue s) + length (failed s);
    c_some : at_ s = Test1 -> finished s = false -> 0 < length (running (tasks s)) + length (queue s) + length (failed s);
    c_wait : at_ s = Wait \/ at_ s = Sleep -> 0 < length (running (tasks s)) + length (queue s) + length (failed s) }.
  Lemma no_decr l : (forall t, In t l -> ~ @pushed A t) -> decrs l = 0.
  Proof.
    induction l as [|t l IH]; intros H; [reflexivity|]. rewrite decrs_cons, IH by (intros u I; apply H; right; exact I).
    specialize (H t (or_introl eq_refl)). destruct t; cbn in H; tauto.
  Qed.
  Lemma cinv_calm p q s : 0 < n -> calm src f n (start p q) s -> cinv s.
  Proof.
    intros Hn R. induction R as [|s o s' R IH H Q|s s' R IH H].
    - constructor; cbn; try reflexivity; try congruence; try tauto; try discriminate; try (intros [X|X]; discriminate X).
    - destruct IH as [i1 i2 i3 i4 i5 i6]. destruct H.
      + pose proof (no_decr _ (Q _ H eq_refl)) as D. constructor; cbn; auto; try discriminate.
        * lia.
        * intros i E. injection E as <-. rewrite i1, inflight_split. lia.
        * try (intros [X|X]; discriminate X).
      + rewrite H in *. pose proof (i3 I). pose proof (i4 _ eq_refl). constructor; cbn; auto; try discriminate.
        * rewrite inflight_app, inflight_cons, i1. change (inflight []) with 0. lia.
        * intros _. rewrite decrs_app, decrs_cons. change (decrs []) with 0. lia.
        * intros j E. injection E as <-. rewrite running_app, running_cons, !app_length. cbn. lia.
        * try (intros [X|X]; discriminate X).
      + rewrite H in *. constructor; cbn; auto; try discriminate; try (intros [X|X]; discriminate X).
      + rewrite H in *. pose proof (i4 _ eq_refl). constructor; cbn; auto; try discriminate.
        * lia.
        * try (intros [X|X]; discriminate X).
      + rewrite H in *. pose proof (i3 I). constructor; cbn; auto; try discriminate. intros _. destruct H0 as [F|F]; [auto|].
        rewrite i1, inflight_split in F. lia.
      + rewrite H in *. constructor; cbn; auto; try discriminate; try (intros [X|X]; discriminate X).
      + rewrite H in *. constructor; cbn; auto; try discriminate. intros _. destruct (queue s); [congruence|cbn; lia].
      + constructor; cbn; auto; try discriminate; try tauto; try (intros [X|X]; discriminate X).
      + constructor; cbn; auto; try discriminate; try tauto; try (intros [X|X]; discriminate X).
      + constructor; cbn; auto; try discriminate; try tauto; try (intros [X|X]; discriminate X).
      + rewrite H in *. constructor; cbn; auto; try discriminate.
      + constructor; cbn; auto; try discriminate; try tauto; try (intros [X|X]; discriminate X).
      + constructor; cbn; auto; try discriminate; try tauto; try (intros [X|X]; discriminate X).
      + constructor; cbn; auto; try discriminate; try tauto; try (intros [X|X]; discriminate X).
      + constructor; cbn; auto; try discriminate; try tauto; try (intros [X|X]; discriminate X).
      + constructor; cbn; auto; try discriminate; try tauto; try (intros [X|X]; discriminate X).
      + rewrite H in *. rewrite ?inflight_app, ?inflight_cons, ?decrs_app, ?decrs_cons, ?running_app, ?running_cons, ?app_length in *.
        constructor; cbn in *; auto; rewrite ?inflight_app, ?inflight_cons, ?decrs_app, ?decrs_cons, ?running_app, ?running_cons, ?app_length; cbn; try lia;
        solve [intros X; specialize (i3 X); lia | intros i X; specialize (i4 i X); lia | intros X Y; specialize (i5 X Y); lia | intros X; specialize (i6 X); lia].
      + rewrite H in *. rewrite ?inflight_app, ?inflight_cons, ?decrs_app, ?decrs_cons, ?running_app, ?running_cons, ?app_length in *.
        constructor; cbn in *; auto; rewrite ?inflight_app, ?inflight_cons, ?decrs_app, ?decrs_cons, ?running_app, ?running_cons, ?app_length; cbn; try lia;
        solve [intros X; specialize (i3 X); lia | intros i X; specialize (i4 i X); lia | intros X Y; specialize (i5 X Y); lia | intros X; specialize (i6 X); lia].
      + rewrite H in *. rewrite ?inflight_app, ?inflight_cons, ?decrs_app, ?decrs_cons, ?running_app, ?running_cons, ?app_length in *.
        constructor; cbn in *; auto; rewrite ?inflight_app, ?inflight_cons, ?decrs_app, ?decrs_cons, ?running_app, ?running_cons, ?app_length; cbn; try lia;
        solve [intros X; specialize (i3 X); lia | intros i X; specialize (i4 i X); lia | intros X Y; specialize (i5 X Y); lia | intros X; specialize (i6 X); lia].
      + rewrite H in *. rewrite ?inflight_app, ?inflight_cons, ?decrs_app, ?decrs_cons, ?running_app, ?running_cons, ?app_length in *.
        assert (W0 : asked (woken (at_ s)) -> asked (at_ s)) by (destruct (at_ s); cbn; tauto).
        assert (W1 : forall i, woken (at_ s) = Fill i -> at_ s = Fill i) by (intros i; destruct (at_ s); cbn; congruence).
        assert (W2 : woken (at_ s) = Test1 -> at_ s = Test1) by (destruct (at_ s); cbn; congruence).
        assert (W3 : woken (at_ s) = Wait \/ woken (at_ s) = Sleep -> at_ s = Wait \/ at_ s = Sleep) by (destruct (at_ s); cbn; intros [X|X]; auto; discriminate).
        constructor; cbn in *; auto; rewrite ?inflight_app, ?inflight_cons, ?decrs_app, ?decrs_cons, ?running_app, ?running_cons, ?app_length; cbn; auto; try lia.
    - destruct IH as [i1 i2 i3 i4 i5 i6]. destruct H; rewrite H in *; constructor; cbn; auto; try discriminate; try tauto; try (intros [X|X]; discriminate X).
  Qed.
  Lemma calm_reach p q s : calm src f n (start p q) s -> exists tr, reach (start p q) tr s.
  Proof. induction 1 as [|s o s' R (tr & IH) H|s s' R (tr & IH) H]; [exists []; constructor| |]; eexists; [eapply r_step|eapply r_spurious]; eauto. Qed.

  Lemma calm_not_sleep p q s : 0 < n -> calm src f n (start p q) s -> stuck src f n s -> at_ s = DSleep.
  Proof.
    intros Hn R S. destruct (stuck_where s S) as (T & [W|W]); [exfalso|exact W]. pose proof (cinv_calm p q s Hn R) as [i1 i2 i3 i4 i5 i6].
    destruct (calm_reach p q s R) as (tr & R'). destruct (sleep_inv p q tr s R' W) as [(Q & X)|(t & I0 & _)]; [|rewrite T in I0; destruct I0].
    specialize (i6 (or_intror W)). rewrite T, Q in i6. change (running []) with (@nil A) in i6. destruct (failed s); [cbn in i6; lia|]. rewrite i2 in X; discriminate.
  Qed.

  (** After a failure *)
  Lemma exc_stays s o s' : step s o s' -> exc s = true -> exc s' = true. Proof. intros H. destruct H; cbn; auto. Qed.
  Lemma exc_events s o s' : step s o s' -> exc s = true -> o = None \/ o = Some End \/ o = Some Raised. Proof. intros H. destruct H; auto; congruence. Qed.
  Lemma exc_after s0 tr s : reach s0 tr s -> exc s0 = true -> exc s = true /\ Forall (fun e => e = End \/ e = Raised) tr.
  Proof.
    intros R X. induction R as [|tr s o s' R IH H|tr s s' R IH H]; [auto| |].
    - destruct IH as (X1 & F). split; [eapply exc_stays; eauto|]. apply Forall_app. split; [exact F|]. destruct (exc_events _ _ _ H X1) as [-> | [-> | ->]]; auto.
    - destruct IH as (X1 & F). split; [|exact F]. destruct H; exact X1.
  Qed.
End L.
