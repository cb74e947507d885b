(** Background work of the trainer: what is saved is exported, one after the other and before it is deleted; when a run ends nothing is left, but for one case. *)
From Coq Require Import List Bool ZArith Lia Sorted.
From Verif Require Import Trainer_Model Bg_Model Bg_Spec.
Import ListNotations.
Local Open Scope Z_scope.

Definition running_step (r : option Z) (e : ev) : option Z := match e with ExportStart n => Some n | ExportEnd _ _ => None | _ => r end.
Definition running (l : list ev) : option Z := fold_left running_step l None.
Lemma running_snoc : forall l e, running (l ++ [e]) = running_step (running l) e.
Proof. intros. unfold running. now rewrite fold_left_app. Qed.

(** Every event is justified by the events before it *)
Definition valid (P : list ev -> ev -> Prop) (l : list ev) : Prop := forall l1 e l2, l = l1 ++ e :: l2 -> P l1 e.
Lemma valid_nil : forall P, valid P [].
Proof. intros P l1 e l2 H. destruct l1; discriminate. Qed.
Lemma valid_snoc : forall P l e, valid P l -> P l e -> valid P (l ++ [e]).
Proof.
  intros P l e V H l1 e' l2 E. destruct l2 as [|y l2] using rev_ind.
  - apply app_inj_tail in E as [-> ->]. auto.
  - clear IHl2. replace (l1 ++ e' :: l2 ++ [y]) with ((l1 ++ e' :: l2) ++ [y]) in E by now rewrite <- app_assoc. apply app_inj_tail in E as [-> _]. eapply V; eauto.
Qed.
Section P.
  Variables (exporting : bool) (stale : list Z -> list Z) (verdict : list ev -> bool) (c : config) (d0 : list Z).
  Notation complete_export := (complete_export verdict). Notation export := (export verdict).
  Notation on_saved := (on_checkpoint_saved exporting stale verdict). Notation commit := (commit exporting stale verdict).
  Notation complete_save := (complete_save exporting stale verdict). Notation poll_save := (poll_save exporting stale verdict).
  Notation save := (save exporting stale verdict). Notation act := (act exporting stale verdict c). Notation run := (run exporting stale verdict c d0).

  (** *** Events of each kind *)
  Definition P3 (l : list ev) (e : ev) : Prop :=
    match e with
    | ExportStart n => running l = None
    | ExportEnd n _ => running l = Some n
    | _ => True
    end.
  (** [todo]: committed but not exported yet *)
  Record inv (b : bg) (queued todo : list Z) : Prop := {
    i_valid : valid P3 (log b);
    i_run : running (log b) = match export_op b with Some (n, None) => Some n | _ => None end;
    i_begins : begins (log b) = commits (log b) ++ queued;
    i_hooks : exported (log b) = export_hooks (log b) ++ match export_op b with Some (n, Some true) => [n] | _ => [] end;
    i_ends : starts (log b) = ends (log b) ++ match export_op b with Some (n, None) => [n] | _ => [] end;
    i_starts : exporting = true -> commits (log b) = starts (log b) ++ todo;
    i_noop : exporting = false -> starts (log b) = []
  }.
  Definition queue (b : bg) : list Z := match save_op b with Some (n, _) => [n] | None => [] end.
  Ltac proj := unfold begins, commits, starts, ends, exported, export_hooks, save_hooks in *; rewrite ?flat_map_app in *; cbn [flat_map app] in *; rewrite ?app_nil_r in *.
  Ltac fields I := destruct I as [V R B H E S N]; constructor; cbn [log export_op save_op disk emit] in *.

  Lemma inv_quiet : forall b q t e so d, inv b q t -> match e with SaveHook _ | Delete _ => True | _ => False end -> inv (Bg so (export_op b) d (log b ++ [e])) q t.
  Proof.
    intros b q t e so d I K. fields I.
    - apply valid_snoc; auto. destruct e; cbn; auto; contradiction.
    - rewrite running_snoc. destruct e; cbn; auto; contradiction.
    - destruct e; try contradiction; proj; auto.
    - destruct e; try contradiction; proj; auto.
    - destruct e; try contradiction; proj; auto.
    - intros X. specialize (S X). destruct e; try contradiction; proj; auto.
    - intros X. specialize (N X). destruct e; try contradiction; proj; auto.
  Qed.
  Lemma inv_export_end : forall b q t n ok so, inv b q t -> export_op b = Some (n, None) -> inv (Bg so (Some (n, Some ok)) (disk b) (log b ++ [ExportEnd n ok])) q t.
  Proof.
    intros b q t n ok so I X. fields I; rewrite X in *.
    - apply valid_snoc; auto.
    - now rewrite running_snoc.
    - proj; auto.
    - proj. rewrite H. now destruct ok.
    - proj. auto.
    - intros Y. specialize (S Y). proj; auto.
    - intros Y. specialize (N Y). proj. auto.
  Qed.
  Lemma inv_export_commit : forall b q t n ok so, inv b q t -> export_op b = Some (n, Some ok) -> inv (export_commit (Bg so None (disk b) (log b)) n ok) q t.
  Proof.
    intros b q t n ok so I X. unfold export_commit. destruct ok; fields I; rewrite ?X in *; auto.
    all: try (proj; now auto).
    all: try (apply valid_snoc; cbn; now auto).
    all: try (rewrite running_snoc; now auto).
    all: try (intros Y; specialize (S Y); proj; now auto).
    all: try (intros Y; specialize (N Y); proj; now auto).
  Qed.
  Lemma inv_complete_export : forall b q t, inv b q t -> inv (complete_export b) q t /\ export_op (complete_export b) = None /\ save_op (complete_export b) = save_op b /\ disk (complete_export b) = disk b.
  Proof.
    intros b q t I. unfold Bg_Model.complete_export. destruct (export_op b) as [[n [ok|]]|] eqn:X; auto.
    - split; [apply inv_export_commit; auto|]. destruct ok; auto.
    - split; [|destruct (verdict (log b)); auto].
      pose proof (inv_export_end b q t n (verdict (log b)) (save_op b) I X) as I'. apply (inv_export_commit _ q t n (verdict (log b)) (save_op b) I'). reflexivity.
  Qed.
  Lemma inv_poll_export : forall b q t, inv b q t -> inv (poll_export b) q t /\ save_op (poll_export b) = save_op b.
  Proof. intros b q t I. unfold poll_export. destruct (export_op b) as [[n [ok|]]|] eqn:X; auto. split; [now apply inv_export_commit|]. destruct ok; auto. Qed.
  Lemma inv_export : forall b q n blocking, exporting = true -> inv b q [n] -> inv (export b n blocking) q [] /\ save_op (export b n blocking) = save_op b.
  Proof.
    intros b q n blocking X I. unfold Bg_Model.export. destruct (inv_complete_export b q [n] I) as [J [NE [SO D]]]. set (b1 := complete_export b) in *.
    assert (K : inv (Bg (save_op b1) (Some (n, None)) (disk b1) (log b1 ++ [ExportStart n])) q []).
    { fields J; rewrite NE in *; cbn in *.
      - apply valid_snoc; auto.
      - now rewrite running_snoc.
      - proj; auto.
      - proj; auto.
      - proj. rewrite E. auto.
      - intros Y. specialize (S Y). proj. auto.
      - intros Y. rewrite X in Y. discriminate. }
    destruct blocking; cbn [emit]; [|cbn; auto].
    cbn [log emit save_op export_op disk]. set (ok := verdict _). split; [|unfold export_commit; destruct ok; auto].
    pose proof (inv_export_end _ q [] n ok (save_op b1) K eq_refl) as K1. cbn in K1. pose proof (inv_export_commit _ q [] n ok (save_op b1) K1 eq_refl) as K2. cbn in K2.
    unfold emit. cbn. rewrite NE. exact K2.
  Qed.
  Lemma inv_deletes : forall l b q t, inv b q t -> inv (fold_left delete l b) q t /\ export_op (fold_left delete l b) = export_op b /\ save_op (fold_left delete l b) = save_op b.
  Proof. induction l as [|n l IH]; intros b q t I; cbn; auto. apply (IH (delete b n)). unfold delete. apply inv_quiet; auto. Qed.
  Lemma inv_on_saved : forall b q n blocking, inv b q [n] -> inv (on_saved b n blocking) q [] /\ save_op (on_saved b n blocking) = save_op b.
  Proof.
    intros b q n blocking I. unfold on_checkpoint_saved. assert (J : inv (emit b (SaveHook n)) q [n]) by (apply inv_quiet; cbn; auto).
    destruct (inv_complete_export _ _ _ J) as [K [NE [SO D]]]. set (b1 := complete_export (emit b (SaveHook n))) in *.
    destruct (inv_deletes (stale (disk b1)) b1 q [n] K) as [L [NE2 SO2]]. set (b2 := fold_left delete (stale (disk b1)) b1) in *. cbn in SO.
    destruct exporting eqn:X.
    - destruct (inv_export b2 q n blocking X L) as [M SO3]. split; auto. congruence.
    - split; [|congruence]. fields L; auto. rewrite X. discriminate.
  Qed.
  Lemma inv_commit : forall b n q blocking, inv b (n :: q) [] -> inv (commit b n blocking) q [] /\ save_op (commit b n blocking) = save_op b.
  Proof.
    intros b n q blocking I. unfold Bg_Model.commit. set (b1 := Bg _ _ _ _). assert (J : inv b1 q [n]).
    { unfold b1. fields I.
      - apply valid_snoc; cbn; auto.
      - rewrite running_snoc. auto.
      - proj. rewrite B, <- app_assoc. auto.
      - proj; auto.
      - proj; auto.
      - intros X. specialize (S X). proj. now rewrite S.
      - intros X. specialize (N X). proj. auto. }
    apply (inv_on_saved b1 q n blocking J).
  Qed.
  Lemma inv_complete_save : forall b, inv b (queue b) [] -> inv (complete_save b) [] [] /\ save_op (complete_save b) = None.
  Proof.
    intros b I. unfold Bg_Model.complete_save, queue in *. destruct (save_op b) as [[n dn]|] eqn:X; auto.
    apply (inv_commit (Bg None (export_op b) (disk b) (log b)) n [] false). fields I; auto.
  Qed.
  Lemma inv_poll_save : forall b, inv b (queue b) [] -> inv (poll_save b) (queue (poll_save b)) [].
  Proof.
    intros b I. unfold Bg_Model.poll_save. destruct (save_op b) as [[n [|]]|] eqn:X; auto. unfold queue in I. rewrite X in I.
    destruct (inv_commit (Bg None (export_op b) (disk b) (log b)) n [] false) as [J SO]. { fields I; auto. }
    unfold queue. rewrite SO. exact J.
  Qed.
  Lemma inv_save : forall b n blocking, inv b (queue b) [] -> inv (save b n blocking) (queue (save b n blocking)) [] /\ (blocking = true -> save_op (save b n blocking) = None).
  Proof.
    intros b n blocking I. unfold Bg_Model.save. destruct (inv_complete_save b I) as [J SO]. set (b1 := complete_save b) in *.
    set (b2 := if has (disk b1) n then delete b1 n else b1). assert (K : inv b2 [] [] /\ save_op b2 = None).
    { unfold b2. destruct (has (disk b1) n); auto. unfold delete. split; auto. apply inv_quiet; auto. }
    destruct K as [K SO2]. assert (M : inv (emit b2 (Begin n)) [n] []).
    { fields K; auto.
      - apply valid_snoc; cbn; auto.
      - rewrite running_snoc. auto.
      - proj. now rewrite B.
      - proj; auto.
      - proj; auto.
      - intros X. specialize (S X). proj. auto.
      - intros X. specialize (N X). proj. auto. }
    destruct blocking.
    - destruct (inv_commit _ n [] true M) as [O SO3]. cbn in SO3. unfold queue. rewrite SO3, SO2. auto.
    - split; [|discriminate]. cbn. fields M; auto.
  Qed.
  Lemma inv_act : forall b t, inv b (queue b) [] -> inv (act b t) (queue (act b t)) [].
  Proof.
    intros b t I. destruct t; cbn [Bg_Model.act].
    - pose proof (inv_poll_save b I) as J. destruct (inv_poll_export _ _ _ J) as [K SO]. unfold queue in *. now rewrite SO.
    - unfold maybe_save. destruct (should_save c p n e); auto. apply inv_save, I.
    - unfold maybe_save. destruct (should_validate c p n e).
      + assert (J : let b1 := if should_save c p n e then save b n false else b in inv b1 (queue b1) []) by (cbv zeta; destruct (should_save c p n e); auto; apply inv_save, I).
        cbn zeta in J. destruct (inv_complete_save _ J) as [K SO]. destruct (inv_complete_export _ _ _ K) as [L [_ [SO2 _]]]. unfold queue. rewrite SO2, SO. exact L.
      + destruct (should_save c p n e); auto. apply inv_save, I.
    - assert (J : let b1 := if should_save c EARLY_STOP n e then save b n true else complete_save b in inv b1 [] [] /\ save_op b1 = None).
      { cbv zeta. destruct (should_save c EARLY_STOP n e); [|now apply inv_complete_save]. destruct (inv_save b n true I) as [J SO]. specialize (SO eq_refl). unfold queue in J. rewrite SO in J. auto. }
      cbn zeta in J. destruct J as [J SO]. destruct (inv_complete_export _ _ _ J) as [L [_ [SO2 _]]]. unfold queue. rewrite SO2, SO. exact L.
    - unfold queue in *. destruct (save_op b) as [[n dn]|] eqn:X; cbn; auto. { fields I; auto. } rewrite X. auto.
    - destruct (export_op b) as [[n [ok'|]]|] eqn:X; auto. unfold queue in *. cbn [save_op]. now apply inv_export_end.
  Qed.
  Lemma inv_run : forall ts, inv (run ts) (queue (run ts)) [].
  Proof.
    intros ts. unfold Bg_Model.run. assert (G : forall ts b, inv b (queue b) [] -> inv (fold_left act ts b) (queue (fold_left act ts b)) []).
    { clear. induction ts as [|t ts IH]; intros b I; cbn; auto. apply IH, inv_act, I. }
    apply G. constructor; cbn; auto. apply valid_nil.
  Qed.
  Lemma run_snoc : forall ts t, run (ts ++ [t]) = act (run ts) t.
  Proof. intros. unfold Bg_Model.run. now rewrite fold_left_app. Qed.

  (** *** Deletions *)
  Definition P4 (l : list ev) (e : ev) : Prop :=
    match e with
    | ExportStart n => exists l1 l2, l = l1 ++ Commit n :: l2 /\ ~ In (Delete n) l2
    | Delete n => running l <> Some n
    | _ => True
    end.
  Definition plain (e : ev) : Prop := match e with ExportStart _ | Delete _ => False | _ => True end.
  Definition fresh (l : list ev) : Prop := StronglySorted Z.lt (begins l) /\ forall d n, In d d0 -> In n (begins l) -> d < n.
  Hypothesis stale_spec : forall d n, In n (stale d) -> exists m, In m d /\ n < m.
  Record inv4 (b : bg) : Prop := { v4 : valid P4 (log b); d4 : forall d, In d (disk b) -> In d d0 \/ In d (commits (log b)) }.

  Lemma valid_plain : forall x l, valid P4 l -> Forall plain x -> valid P4 (l ++ x).
  Proof.
    induction x as [|e x IH] using rev_ind; intros l V F. { now rewrite app_nil_r. }
    apply Forall_app in F as [F1 F2]. apply Forall_inv in F2. rewrite app_assoc. apply valid_snoc; auto. destruct e; cbn in *; auto; contradiction.
  Qed.
  Lemma commits_app : forall l x d, In d (commits l) -> In d (commits (l ++ x)).
  Proof. intros. unfold commits in *. rewrite flat_map_app. apply in_or_app. auto. Qed.
  Lemma plain4 : forall b so eo x, inv4 b -> Forall plain x -> inv4 (Bg so eo (disk b) (log b ++ x)).
  Proof. intros b so eo x [V D] F. constructor; cbn. { now apply valid_plain. } intros d I. destruct (D d I); auto using commits_app. Qed.
  Lemma plain_emit : forall b e, inv4 b -> plain e -> inv4 (emit b e).
  Proof. intros. unfold emit. apply plain4; auto. Qed.
  Lemma complete_export_log : forall b, exists x, log (complete_export b) = log b ++ x /\ Forall plain x /\ disk (complete_export b) = disk b /\ export_op (complete_export b) = None.
  Proof.
    intros b. unfold Bg_Model.complete_export, export_commit, emit. destruct (export_op b) as [[n [ok|]]|] eqn:X.
    - destruct ok; cbn; [exists [ExportHook n]|exists []]; repeat split; auto. { constructor; cbn; auto. } now rewrite app_nil_r.
    - destruct (verdict (log b)); cbn; [exists [ExportEnd n true; ExportHook n]|exists [ExportEnd n false]]; repeat split; auto; try (now rewrite <- app_assoc); repeat (constructor; cbn; auto).
    - exists []. rewrite app_nil_r. repeat split; auto.
  Qed.
  Lemma inv4_complete_export : forall b, inv4 b -> inv4 (complete_export b).
  Proof.
    intros b [V D]. destruct (complete_export_log b) as [x [E [F [Dk _]]]]. constructor; rewrite E.
    - now apply valid_plain.
    - rewrite Dk. intros d I. destruct (D d I); auto using commits_app.
  Qed.
  Lemma deletes_log : forall l b, log (fold_left delete l b) = log b ++ map Delete l /\ (forall d, In d (disk (fold_left delete l b)) -> In d (disk b)) /\ export_op (fold_left delete l b) = export_op b.
  Proof.
    induction l as [|n l IH]; intros b; cbn. { rewrite app_nil_r. auto. } destruct (IH (delete b n)) as [E [D X]]. rewrite E. cbn. rewrite <- app_assoc. repeat split; auto.
    intros d I. apply D in I. cbn in I. apply filter_In in I. tauto.
  Qed.
  Lemma valid_deletes : forall x l, valid P4 l -> running l = None -> valid P4 (l ++ map Delete x) /\ running (l ++ map Delete x) = None.
  Proof.
    induction x as [|n x IH]; intros l V R; cbn. { rewrite app_nil_r. auto. }
    replace (l ++ Delete n :: map Delete x) with ((l ++ [Delete n]) ++ map Delete x) by now rewrite <- app_assoc.
    apply IH. { apply valid_snoc; auto. cbn. rewrite R. discriminate. } now rewrite running_snoc.
  Qed.
  Lemma sorted_last : forall l n, StronglySorted Z.lt (l ++ [n]) -> forall m, In m l -> m < n.
  Proof.
    induction l as [|a l IH]; intros n H m I; [destruct I|]. cbn in H. apply StronglySorted_inv in H as [H F]. destruct I as [<-|I]; eauto. rewrite Forall_forall in F. apply F, in_or_app. cbn. auto.
  Qed.
  Lemma inv4_commit : forall b n blocking, inv b [n] [] -> inv4 b -> fresh (log b) -> inv4 (commit b n blocking).
  Proof.
    intros b n blocking I [Vb Db] [Fs F0]. unfold Bg_Model.commit. set (b1 := Bg _ _ _ _).
    assert (B1 : forall d, In d (disk b1) -> d <= n).
    { assert (forall d, In d (disk b) -> d < n) as Q.
      { intros d Id. pose proof (i_begins _ _ _ I) as B. destruct (Db d Id) as [H|H]. { apply F0; auto. rewrite B. apply in_or_app. cbn. auto. } rewrite B in Fs. eapply sorted_last; eauto. }
      intros d Id. cbn in Id. destruct (has (disk b) n). { apply Q in Id. lia. } apply in_app_or in Id as [Id | [-> | []]]; [apply Q in Id|]; lia. }
    assert (I1 : inv4 b1).
    { constructor; cbn.
      - apply valid_snoc; cbn; auto.
      - intros d Id. assert (In d (disk b) \/ d = n) as [H | ->]. { destruct (has (disk b) n); auto. apply in_app_or in Id as [? | [? | []]]; auto. }
        + destruct (Db d H); auto using commits_app.
        + right. unfold commits. rewrite flat_map_app. apply in_or_app. cbn. auto. }
    assert (J : inv b1 [] [n]).
    { unfold b1. fields I.
      - apply valid_snoc; cbn; auto.
      - rewrite running_snoc. auto.
      - proj. rewrite B. auto.
      - proj; auto.
      - proj; auto.
      - intros X. specialize (S X). proj. now rewrite S.
      - intros X. specialize (N X). proj. auto. }
    unfold on_checkpoint_saved. set (b2 := emit b1 (SaveHook n)).
    assert (J2 : inv b2 [] [n]) by (apply inv_quiet; cbn; auto).
    assert (I2 : inv4 b2) by (unfold b2, emit; apply plain4; auto; repeat (constructor; cbn; auto)).
    destruct (complete_export_log b2) as [x [E [F [Dk NE]]]]. destruct (inv_complete_export _ _ _ J2) as [J3 _]. pose proof (inv4_complete_export _ I2) as I3. set (b3 := complete_export b2) in *.
    destruct (deletes_log (stale (disk b3)) b3) as [E4 [D4 X4]]. destruct (valid_deletes (stale (disk b3)) (log b3)) as [V4 R4]. { apply I3. } { rewrite (i_run _ _ _ J3), NE. reflexivity. }
    set (b4 := fold_left delete (stale (disk b3)) b3) in *.
    assert (I4 : inv4 b4). { constructor; rewrite E4; auto. intros d Id. apply D4 in Id. destruct I3 as [_ D3]. destruct (D3 d Id); auto using commits_app. }
    destruct exporting; auto. assert (C4 : complete_export b4 = b4) by (unfold Bg_Model.complete_export; rewrite X4, NE; reflexivity).
    unfold Bg_Model.export. rewrite C4.
    assert (I5 : inv4 (emit b4 (ExportStart n))).
    { destruct I4 as [V4' D4']. constructor; cbn.
      - apply valid_snoc; auto. cbn. exists (log b), (SaveHook n :: x ++ map Delete (stale (disk b3))). split.
        + rewrite E4, E. cbn. rewrite <- !app_assoc. reflexivity.
        + intros [H|H]; [discriminate|]. apply in_app_or in H as [H|H]. { rewrite Forall_forall in F. apply (F _ H). }
          apply in_map_iff in H as [m [[= ->] H]]. apply stale_spec in H as [m [H G]]. rewrite Dk in H. cbn [b2 emit disk] in H. apply B1 in H. lia.
      - intros d Id. destruct (D4' d Id); auto using commits_app. }
    destruct blocking.
    - cbv zeta. unfold export_commit. destruct (verdict _); repeat (apply plain_emit; cbn; auto).
    - destruct I5. constructor; auto.
  Qed.
  Lemma begins_commit : forall b n blocking, begins (log (commit b n blocking)) = begins (log b).
  Proof.
    intros b n blocking. unfold Bg_Model.commit, on_checkpoint_saved. set (b1 := Bg _ _ _ _).
    assert (C : forall b, begins (log (complete_export b)) = begins (log b)).
    { intros b'. unfold Bg_Model.complete_export, export_commit, emit. destruct (export_op b') as [[m [ok|]]|]; auto; [destruct ok|destruct (verdict _)]; cbn [log]; proj; auto. }
    set (b2 := complete_export _). assert (E2 : begins (log b2) = begins (log b)). { unfold b2. rewrite C. cbn [emit log b1]. proj. auto. }
    set (b3 := fold_left _ _ _). assert (E3 : begins (log b3) = begins (log b)).
    { unfold b3. destruct (deletes_log (stale (disk b2)) b2) as [-> _]. rewrite <- E2. unfold begins. rewrite flat_map_app. rewrite <- (app_nil_r (flat_map _ (log b2))) at 2. f_equal. induction (stale (disk b2)); auto. }
    destruct exporting; auto. unfold Bg_Model.export, export_commit, emit. destruct blocking; [destruct (verdict _)|]; cbn [log]; rewrite <- E3, <- (C b3); proj; auto.
  Qed.
  Lemma fresh_prefix : forall l x, fresh (l ++ x) -> fresh l.
  Proof.
    intros l x [S F]. unfold fresh, begins in *. rewrite flat_map_app in *. split.
    - clear F. induction (flat_map _ l); [constructor|]. cbn in S. apply StronglySorted_inv in S as [S G]. constructor; auto. apply Forall_app in G. tauto.
    - intros. apply F; auto. apply in_or_app. auto.
  Qed.
  Lemma fresh_eq : forall l l', begins l = begins l' -> fresh l -> fresh l'.
  Proof. unfold fresh. intros l l' ->. auto. Qed.
  Lemma inv4_complete_save : forall b, inv b (queue b) [] -> inv4 b -> fresh (log b) -> inv4 (complete_save b) /\ begins (log (complete_save b)) = begins (log b).
  Proof.
    intros b I J F. unfold Bg_Model.complete_save, queue in *. destruct (save_op b) as [[n dn]|]; auto. split; [|now rewrite begins_commit]. apply inv4_commit; auto.
    - fields I; auto.
    - destruct J; constructor; auto.
  Qed.
  Lemma inv4_save : forall b n blocking, inv b (queue b) [] -> inv4 b -> fresh (log (save b n blocking)) -> inv4 (save b n blocking) /\ exists x, begins (log (save b n blocking)) = begins (log b) ++ x.
  Proof.
    intros b n blocking I J F. unfold Bg_Model.save in *. destruct (inv_complete_save b I) as [K SO].
    assert (EE : forall b', begins (log (emit b' (Begin n))) = begins (log b') ++ [n]) by (intros; cbn; proj; auto).
    set (b1 := complete_save b) in *. set (b2 := if has (disk b1) n then delete b1 n else b1) in *.
    assert (E2 : begins (log b2) = begins (log b1)) by (unfold b2; destruct (has (disk b1) n); cbn; proj; auto).
    assert (F3 : fresh (log (emit b2 (Begin n)))). { destruct blocking; [|exact F]. eapply fresh_eq; [|exact F]. apply begins_commit. }
    assert (F2 : fresh (log b2)) by (apply (fresh_prefix _ [Begin n]), F3). assert (F1 : fresh (log b1)) by (eapply fresh_eq; eauto).
    assert (F0 : fresh (log b)).
    { eapply fresh_eq; [|exact F1]. unfold b1. unfold Bg_Model.complete_save. destruct (save_op b) as [[? ?]|]; auto. rewrite begins_commit. reflexivity. }
    destruct (inv4_complete_save b I J F0) as [J1 EB]. fold b1 in J1, EB.
    assert (NH : has (disk b1) n = false).
    { destruct (has (disk b1) n) eqn:H; auto. exfalso. apply existsb_exists in H as [m [H G]]. apply Z.eqb_eq in G. subst m.
      destruct F3 as [S3 O3]. rewrite EE, E2, (i_begins _ _ _ K), app_nil_r in S3, O3. destruct (d4 _ J1 n H) as [X|X].
      - specialize (O3 n n X). assert (n < n) by (apply O3, in_or_app; cbn; auto). lia.
      - pose proof (sorted_last _ _ S3 n X). lia. }
    unfold b2 in *. clear b2. rewrite NH in *.
    assert (M : inv (emit b1 (Begin n)) [n] []).
    { fields K; auto.
      - apply valid_snoc; cbn; auto.
      - rewrite running_snoc. auto.
      - proj. now rewrite B.
      - proj; auto.
      - proj; auto.
      - intros X. specialize (S X). proj. auto.
      - intros X. specialize (N X). proj. auto. }
    assert (J3 : inv4 (emit b1 (Begin n))) by (unfold emit; apply plain4; auto; repeat (constructor; cbn; auto)).
    destruct blocking.
    - split; [now apply inv4_commit|]. exists [n]. rewrite begins_commit, EE, EB. reflexivity.
    - split; [destruct J3; constructor; auto|]. exists [n]. cbn [log]. rewrite <- EB. apply EE.
  Qed.
  Lemma begins_complete_export : forall b, begins (log (complete_export b)) = begins (log b).
  Proof. intros b. unfold Bg_Model.complete_export, export_commit, emit. destruct (export_op b) as [[m [ok|]]|]; auto; [destruct ok|destruct (verdict _)]; cbn [log]; proj; auto. Qed.
  Lemma begins_complete_save : forall b, begins (log (complete_save b)) = begins (log b).
  Proof. intros b. unfold Bg_Model.complete_save. destruct (save_op b) as [[n dn]|]; auto. now rewrite begins_commit. Qed.
  Lemma inv4_poll_export : forall b, inv4 b -> inv4 (poll_export b) /\ begins (log (poll_export b)) = begins (log b).
  Proof.
    intros b J. unfold poll_export, export_commit, emit. destruct (export_op b) as [[m [ok|]]|]; auto. destruct ok; cbn.
    - split; [|proj; auto]. apply plain4; auto. repeat (constructor; cbn; auto).
    - split; auto. destruct J; constructor; auto.
  Qed.
  Lemma inv4_poll_save : forall b, inv b (queue b) [] -> inv4 b -> fresh (log b) -> inv4 (poll_save b) /\ begins (log (poll_save b)) = begins (log b).
  Proof.
    intros b I J F. unfold Bg_Model.poll_save, queue in *. destruct (save_op b) as [[n [|]]|]; auto. split; [|now rewrite begins_commit]. apply inv4_commit; auto.
    - fields I; auto.
    - destruct J; constructor; auto.
  Qed.
  Lemma begins_poll_save : forall b, begins (log (poll_save b)) = begins (log b).
  Proof. intros b. unfold Bg_Model.poll_save. destruct (save_op b) as [[n [|]]|]; auto. now rewrite begins_commit. Qed.
  Lemma begins_poll_export : forall b, begins (log (poll_export b)) = begins (log b).
  Proof. intros b. unfold poll_export, export_commit, emit. destruct (export_op b) as [[m [[|]|]]|]; auto. cbn. proj. auto. Qed.
  Lemma begins_save : forall b n blocking, begins (log (save b n blocking)) = begins (log b) ++ [n].
  Proof.
    intros b n blocking. unfold Bg_Model.save. set (b1 := complete_save b). assert (E1 : begins (log b1) = begins (log b)) by apply begins_complete_save.
    set (b2 := if has (disk b1) n then delete b1 n else b1). assert (E2 : begins (log b2) = begins (log b1)) by (unfold b2; destruct (has (disk b1) n); cbn; proj; auto).
    assert (E3 : begins (log (emit b2 (Begin n))) = begins (log b) ++ [n]) by (cbn; proj; now rewrite <- E1, <- E2).
    destruct blocking; [rewrite begins_commit|]; auto.
  Qed.
  Lemma begins_act : forall b t, exists x, begins (log (act b t)) = begins (log b) ++ x.
  Proof.
    intros b t. destruct t; cbn [Bg_Model.act].
    - exists []. rewrite begins_poll_export, begins_poll_save. now rewrite app_nil_r.
    - unfold maybe_save. destruct (should_save c p n e); [exists [n]; apply begins_save|exists []; now rewrite app_nil_r].
    - unfold maybe_save. destruct (should_validate c p n e); [rewrite begins_complete_export, begins_complete_save|]; (destruct (should_save c p n e); [exists [n]; apply begins_save|exists []; now rewrite app_nil_r]).
    - rewrite begins_complete_export. destruct (should_save c EARLY_STOP n e); [exists [n]; apply begins_save|exists []]. rewrite begins_complete_save. now rewrite app_nil_r.
    - exists []. destruct (save_op b) as [[? ?]|]; cbn; now rewrite app_nil_r.
    - exists []. destruct (export_op b) as [[? [?|]]|]; cbn [log]; proj; auto.
  Qed.
  Lemma fresh_begins : forall l l' x, begins l' = begins l ++ x -> fresh l' -> fresh l.
  Proof.
    intros l l' x E F. apply (fresh_prefix l (map Begin x)). eapply fresh_eq; [|exact F]. rewrite E. unfold begins. rewrite flat_map_app. f_equal. clear. induction x; cbn; f_equal; auto.
  Qed.
  Lemma inv4_act : forall b t, inv b (queue b) [] -> inv4 b -> fresh (log (act b t)) -> inv4 (act b t).
  Proof.
    intros b t I J F. assert (F0 : fresh (log b)) by (destruct (begins_act b t) as [x E]; eapply fresh_begins; eauto).
    destruct t; cbn [Bg_Model.act] in *.
    - apply inv4_poll_export, inv4_poll_save; auto.
    - unfold maybe_save in *. destruct (should_save c p n e); auto. now apply inv4_save.
    - unfold maybe_save in *. destruct (should_validate c p n e).
      + apply inv4_complete_export. apply inv4_complete_save.
        * destruct (should_save c p n e); auto. now apply inv_save.
        * destruct (should_save c p n e); auto. apply inv4_save; auto. eapply fresh_eq; [|exact F]. now rewrite begins_complete_export, begins_complete_save.
        * eapply fresh_eq; [|exact F]. now rewrite begins_complete_export, begins_complete_save.
      + destruct (should_save c p n e); auto. now apply inv4_save.
    - apply inv4_complete_export. destruct (should_save c EARLY_STOP n e).
      + apply inv4_save; auto. eapply fresh_eq; [|exact F]. now rewrite begins_complete_export.
      + now apply inv4_complete_save.
    - destruct (save_op b) as [[? ?]|]; auto. destruct J; constructor; auto.
    - destruct (export_op b) as [[? [?|]]|]; auto. apply plain4; auto. repeat (constructor; cbn; auto).
  Qed.
  Lemma inv4_run : forall ts, fresh (log (run ts)) -> inv4 (run ts).
  Proof.
    induction ts as [|t ts IH] using rev_ind; intros F.
    - constructor; cbn; auto. apply valid_nil.
    - rewrite run_snoc in *. apply inv4_act; auto. { apply inv_run. } apply IH. destruct (begins_act (run ts) t) as [x E]. eapply fresh_begins; eauto.
  Qed.
End P.

Section T.
  Variables (exporting : bool) (stale : list Z -> list Z) (verdict : list ev -> bool) (c : config) (d0 : list Z).
  Notation complete_export := (complete_export verdict). Notation export := (export verdict).
  Notation on_saved := (on_checkpoint_saved exporting stale verdict). Notation commit := (commit exporting stale verdict).
  Notation complete_save := (complete_save exporting stale verdict). Notation poll_save := (poll_save exporting stale verdict).
  Notation save := (save exporting stale verdict). Notation act := (act exporting stale verdict c). Notation run := (run exporting stale verdict c d0).
  Ltac proj := unfold begins, commits, starts, ends, exported, export_hooks, save_hooks in *; rewrite ?flat_map_app in *; cbn [flat_map app] in *; rewrite ?app_nil_r in *.

  (** *** Hooks of checkpoints *)
  Definition hooked (b : bg) : Prop := save_hooks (log b) = commits (log b).
  Lemma hooked_quiet : forall b so eo d e, hooked b -> match e with Commit _ | SaveHook _ => False | _ => True end -> hooked (Bg so eo d (log b ++ [e])).
  Proof. unfold hooked. intros b so eo d e H K. cbn [log]. destruct e; try contradiction; proj; auto. Qed.
  Lemma hooked_same : forall b so eo d, hooked b -> hooked (Bg so eo d (log b)).
  Proof. auto. Qed.
  Lemma hooked_complete_export : forall b, hooked b -> hooked (complete_export b).
  Proof.
    intros b H. unfold Bg_Model.complete_export, export_commit, emit. destruct (export_op b) as [[m [ok|]]|]; auto.
    - destruct ok; auto. apply hooked_quiet; cbn; auto.
    - destruct (verdict _); cbn; [apply (hooked_quiet (Bg None None [] (log b ++ [ExportEnd m true]))); cbn; auto|]; apply hooked_quiet; cbn; auto.
  Qed.
  Lemma hooked_emit : forall b e, hooked b -> match e with Commit _ | SaveHook _ => False | _ => True end -> hooked (emit b e).
  Proof. intros. now apply hooked_quiet. Qed.
  Lemma hooked_commit : forall b n blocking, hooked b -> hooked (commit b n blocking).
  Proof.
    intros b n blocking H. unfold Bg_Model.commit, on_checkpoint_saved. set (b1 := Bg _ _ _ _).
    assert (H1 : hooked (emit b1 (SaveHook n))) by (unfold hooked in *; cbn; proj; now rewrite H).
    apply hooked_complete_export in H1. set (b2 := complete_export _) in *.
    assert (H2 : forall l b, hooked b -> hooked (fold_left delete l b)). { clear. induction l; intros b H; cbn; auto. apply IHl. unfold delete. apply hooked_quiet; auto. }
    specialize (H2 (stale (disk b2)) b2 H1). destruct exporting; auto. unfold Bg_Model.export. apply hooked_complete_export in H2.
    assert (H3 := hooked_emit _ (ExportStart n) H2 I). destruct blocking; [|now apply hooked_same]. cbv zeta. unfold export_commit. destruct (verdict _); repeat (apply hooked_emit; auto).
  Qed.
  Lemma hooked_complete_save : forall b, hooked b -> hooked (complete_save b).
  Proof. intros b H. unfold Bg_Model.complete_save. destruct (save_op b) as [[n dn]|]; auto. apply hooked_commit. auto. Qed.
  Lemma hooked_save : forall b n blocking, hooked b -> hooked (save b n blocking).
  Proof.
    intros b n blocking H. unfold Bg_Model.save. apply hooked_complete_save in H. set (b1 := complete_save b) in *.
    assert (H2 : hooked (if has (disk b1) n then delete b1 n else b1)) by (destruct (has (disk b1) n); auto; unfold delete; now apply hooked_quiet).
    apply (hooked_emit _ (Begin n)) in H2; auto. destruct blocking; auto. now apply hooked_commit.
  Qed.
  Lemma hooked_run : forall ts, hooked (run ts).
  Proof.
    induction ts as [|t ts IH] using rev_ind; [reflexivity|]. rewrite run_snoc. set (b := run ts) in *. destruct t; cbn [Bg_Model.act].
    - unfold Bg_Model.poll_save, poll_export, export_commit. assert (H : hooked (poll_save b)) by (unfold Bg_Model.poll_save; destruct (save_op b) as [[n [|]]|]; auto; apply hooked_commit; auto).
      fold (poll_save b). destruct (export_op (poll_save b)) as [[n [[|]|]]|]; auto. apply hooked_quiet; auto.
    - unfold maybe_save. destruct (should_save c p n e); auto. now apply hooked_save.
    - unfold maybe_save. destruct (should_validate c p n e).
      + apply hooked_complete_export, hooked_complete_save. destruct (should_save c p n e); auto. now apply hooked_save.
      + destruct (should_save c p n e); auto. now apply hooked_save.
    - apply hooked_complete_export. destruct (should_save c EARLY_STOP n e); [now apply hooked_save|now apply hooked_complete_save].
    - destruct (save_op b) as [[? ?]|]; auto.
    - destruct (export_op b) as [[? [?|]]|]; auto. now apply hooked_quiet.
  Qed.

  (** *** The end of a run *)
  Lemma export_op_commit : forall b n, export_op (commit b n true) = None.
  Proof.
    intros b n. unfold Bg_Model.commit, on_checkpoint_saved. set (b1 := Bg _ _ _ _). destruct (complete_export_log verdict (emit b1 (SaveHook n))) as [x [_ [_ [_ N]]]].
    set (b2 := complete_export _) in *. destruct (deletes_log (stale (disk b2)) b2) as [_ [_ E]]. rewrite N in E. set (b3 := fold_left _ _ _) in *. destruct exporting; auto.
    unfold Bg_Model.export. assert (complete_export b3 = b3) as -> by (unfold Bg_Model.complete_export; now rewrite E). cbv zeta. unfold export_commit, emit. destruct (verdict _); auto.
  Qed.
  Lemma settled_of : forall b, inv exporting b [] [] -> export_op b = None -> settled (log b).
  Proof. intros b I N. destruct I as [V R B H E S X]. rewrite N in *. rewrite app_nil_r in *. repeat split; auto. Qed.
  Lemma save_settled : forall b n, inv exporting b (queue b) [] -> settled (log (save b n true)).
  Proof.
    intros b n I. destruct (inv_save exporting stale verdict b n true I) as [J SO]. specialize (SO eq_refl). unfold queue in J. rewrite SO in J. apply settled_of; auto. apply export_op_commit.
  Qed.
End T.

Definition oz_eq_dec : forall a b : option Z, {a = b} + {a <> b}.
Proof. decide equality. apply Z.eq_dec. Defined.
Lemma must_end : forall l n l2 l1, valid P3 l -> l = l1 ++ ExportStart n :: l2 -> running l <> Some n -> exists ok, In (ExportEnd n ok) l2.
Proof.
  intros l n l2. revert l. induction l2 as [|e l2 IH] using rev_ind; intros l l1 V E R.
  - subst. rewrite running_snoc in R. contradiction R. reflexivity.
  - replace (l1 ++ ExportStart n :: l2 ++ [e]) with ((l1 ++ ExportStart n :: l2) ++ [e]) in E by now rewrite <- app_assoc. subst l. rewrite running_snoc in R.
    pose proof (V _ _ _ eq_refl) as P. assert (V' : valid P3 (l1 ++ ExportStart n :: l2)). { intros a x b E. apply (V a x (b ++ [e])). rewrite E, <- app_assoc. reflexivity. }
    destruct (oz_eq_dec (running (l1 ++ ExportStart n :: l2)) (Some n)) as [Q|Q].
    + destruct e; cbn [P3 running_step] in *; rewrite ?Q in *; try contradiction; try discriminate; try (now destruct R). injection P as <-. exists ok. apply in_or_app. cbn. auto.
    + destruct (IH _ l1 V' eq_refl Q) as [ok I]. exists ok. apply in_or_app. auto.
Qed.

(** *** Theorems *)

(** At any time all checkpoints that were begun are committed, in order, except perhaps the last; the hooks are called once for each *)
Theorem C74_saves : forall exporting stale verdict c d0 ts, let l := log (run exporting stale verdict c d0 ts) in
  all_but_one (commits l) (begins l) /\ save_hooks l = commits l.
Proof.
  intros. split; [|apply hooked_run]. unfold l. rewrite (i_begins _ _ _ _ (inv_run exporting stale verdict c d0 ts)). unfold queue, all_but_one.
  destruct (save_op _) as [[n dn]|]; [right; eauto|left; apply app_nil_r].
Qed.
Print Assumptions C74_saves.

(** Every checkpoint that is committed is exported, in order and once; the hooks are called for exactly the exports that succeeded, in order, except perhaps the last *)
Theorem C74_exports : forall stale verdict c d0 ts,
  (let l := log (run true stale verdict c d0 ts) in starts l = commits l /\ all_but_one (ends l) (starts l) /\ all_but_one (export_hooks l) (exported l)) /\
  starts (log (run false stale verdict c d0 ts)) = [].
Proof.
  intros. split.
  - intros l. destruct (inv_run true stale verdict c d0 ts) as [_ _ _ H E S _]. fold l in H, E, S. specialize (S eq_refl). rewrite app_nil_r in S. unfold all_but_one.
    split; auto. rewrite H, E. destruct (export_op _) as [[n [[|]|]]|]; rewrite ?app_nil_r; split; eauto.
  - apply (i_noop _ _ _ _ (inv_run false stale verdict c d0 ts)). reflexivity.
Qed.
Print Assumptions C74_exports.

(** At most one export runs at any time *)
Theorem C74_one_at_a_time : forall exporting stale verdict c d0 ts l1 n l2 m l3,
  log (run exporting stale verdict c d0 ts) = l1 ++ ExportStart n :: l2 ++ ExportStart m :: l3 -> exists ok, In (ExportEnd n ok) l2.
Proof.
  intros exporting stale verdict c d0 ts l1 n l2 m l3 E. pose proof (i_valid _ _ _ _ (inv_run exporting stale verdict c d0 ts)) as V.
  replace (l1 ++ ExportStart n :: l2 ++ ExportStart m :: l3) with ((l1 ++ ExportStart n :: l2) ++ ExportStart m :: l3) in E by now rewrite <- app_assoc.
  pose proof (V _ _ _ E) as P. cbn in P. apply (must_end (l1 ++ ExportStart n :: l2) n l2 l1); auto.
  - intros a x b X. apply (V a x (b ++ ExportStart m :: l3)). rewrite E, X, <- app_assoc. reflexivity.
  - rewrite P. discriminate.
Qed.
Print Assumptions C74_one_at_a_time.

(** If no step is saved twice, and the checkpoints that were there before are of earlier steps, an export starts while the checkpoint is there, and the checkpoint is not
    deleted before the export has ended. The last checkpoint is never stale (C27_stale). *)
Theorem C74_kept_partial : forall exporting stale verdict c d0 ts, (forall d n, In n (stale d) -> exists m, In m d /\ n < m) ->
  let l := log (run exporting stale verdict c d0 ts) in
  StronglySorted Z.lt (begins l) -> (forall d n, In d d0 -> In n (begins l) -> d < n) ->
  (forall l1 n l2, l = l1 ++ ExportStart n :: l2 -> exists a b, l1 = a ++ Commit n :: b /\ ~ In (Delete n) b) /\
  (forall l1 n l2 l3, l = l1 ++ ExportStart n :: l2 ++ Delete n :: l3 -> exists ok, In (ExportEnd n ok) l2).
Proof.
  intros exporting stale verdict c d0 ts St l S F. pose proof (v4 _ _ (inv4_run exporting stale verdict c d0 St ts (conj S F))) as V4. fold l in V4.
  pose proof (i_valid _ _ _ _ (inv_run exporting stale verdict c d0 ts)) as V. fold l in V. split.
  - intros l1 n l2 E. apply (V4 _ _ _ E).
  - intros l1 n l2 l3 E. replace (l1 ++ ExportStart n :: l2 ++ Delete n :: l3) with ((l1 ++ ExportStart n :: l2) ++ Delete n :: l3) in E by now rewrite <- app_assoc.
    pose proof (V4 _ _ _ E) as P. cbn in P. apply (must_end (l1 ++ ExportStart n :: l2) n l2 l1); auto.
    intros a x b X. apply (V a x (b ++ Delete n :: l3)). rewrite E, X, <- app_assoc. reflexivity.
Qed.
Print Assumptions C74_kept_partial.

(** When training ends because the number of steps is reached, on request or early, and at the end of the data at a step at which no checkpoint was due, all checkpoints are
    committed and exported, and all hooks have been called *)
Theorem C74_end_partial : forall exporting stale verdict c d0 ts n e,
  let l t := log (run exporting stale verdict c d0 (ts ++ [t])) in
  settled (l (Stop END_OF_TRAINING n e)) /\ settled (l (Stop STOP_REQUESTED n e)) /\ settled (l (EarlyStop n e)) /\
  (should_do_at_step (checkpoint c) n = false -> settled (l (Stop END_OF_DATA n e))).
Proof.
  intros exporting stale verdict c d0 ts n e l. pose proof (inv_run exporting stale verdict c d0 ts) as I.
  assert (A : forall b, inv exporting b (queue b) [] -> settled (log (complete_export verdict (complete_save exporting stale verdict b)))).
  { clear. intros b I. destruct (inv_complete_save exporting stale verdict b I) as [J SO]. destruct (inv_complete_export exporting verdict _ _ _ J) as [K [N _]]. now apply settled_of with exporting. }
  assert (G : forall p, should_do (checkpoint c) p n e = true -> settled (l (Stop p n e))).
  { intros p X. unfold l. rewrite run_snoc. cbn [act]. unfold maybe_save, should_save. rewrite X. destruct (should_validate c p n e).
    - apply A; auto. apply inv_save, I.
    - now apply save_settled. }
  split; [now apply G|]. split; [now apply G|]. split.
  - unfold l. rewrite run_snoc. cbn [act]. destruct (should_save c EARLY_STOP n e); [|now apply A].
    destruct (inv_save exporting stale verdict _ n true I) as [J SO]. specialize (SO eq_refl). unfold queue in J. rewrite SO in J.
    destruct (inv_complete_export exporting verdict _ _ _ J) as [K [N _]]. now apply settled_of with exporting.
  - intros D. apply G. cbn. now rewrite D.
Qed.
Print Assumptions C74_end_partial.

(** If a checkpoint is due at the last step of the data, and nothing is validated then, the run ends without committing it, however much time it had: it is never found again *)
Theorem C74_lost_refuted : forall exporting stale verdict c d0 ts n e e', has_validator c = false -> should_do_at_step (checkpoint c) n = true ->
  let l := log (run exporting stale verdict c d0 (ts ++ [PostStep POST_STEP n e; SaveDone; Stop END_OF_DATA n e'])) in
  begins l = commits l ++ [n].
Proof.
  intros exporting stale verdict c d0 ts n e e' V D l. unfold l. replace (ts ++ [PostStep POST_STEP n e; SaveDone; Stop END_OF_DATA n e']) with ((ts ++ [PostStep POST_STEP n e; SaveDone]) ++ [Stop END_OF_DATA n e']) by now rewrite <- app_assoc.
  rewrite run_snoc. cbn [act]. unfold should_validate, maybe_save, should_save. rewrite V. cbn [andb should_do]. rewrite D. cbn [negb].
  rewrite (i_begins _ _ _ _ (inv_run exporting stale verdict c d0 _)). f_equal.
  replace (ts ++ [PostStep POST_STEP n e; SaveDone]) with ((ts ++ [PostStep POST_STEP n e]) ++ [SaveDone]) by now rewrite <- app_assoc.
  rewrite !run_snoc. cbn [act]. unfold maybe_save, should_save. cbn [should_do]. rewrite D. reflexivity.
Qed.
Print Assumptions C74_lost_refuted.

Definition bg_period (k : Z) : period := {| after_n_steps := 0; every_n_steps := Some k; after_n_data_epochs := 0; every_n_data_epochs := None |}.
Definition bg_config : config := {| max_num_steps := None; max_num_data_epochs := None; validate_at_start := false; validation := bg_period 3; checkpoint := bg_period 2; publication := bg_period 1;
  save_model_only := SaveAll; keep_last_n := Some 1; keep_best_n := None; keep_every_n_steps := None; has_validator := false; has_early_stopper := false; fp16 := None |}.
(** All but the greatest *)
Definition keep_last (d : list Z) : list Z := filter (fun n => existsb (Z.ltb n) d) d.

(** A step that is saved twice, as when a stop is requested at the end of an epoch (C29_saved_twice_refuted): the export of the first checkpoint has just started when that
    checkpoint is deleted *)
Theorem C74_saved_twice_refuted : check_config bg_config = Accept /\
  log (run true keep_last (fun _ => true) bg_config [] [RunStep; PostStep POST_STEP 2 1; SaveDone; Stop STOP_REQUESTED 2 1]) =
    [Begin 2; Commit 2; SaveHook 2; ExportStart 2; Delete 2; Begin 2; Commit 2; SaveHook 2; ExportEnd 2 true; ExportHook 2; ExportStart 2; ExportEnd 2 true; ExportHook 2].
Proof. split; reflexivity. Qed.
Print Assumptions C74_saved_twice_refuted.

(** With later checkpoints in the directory, as when training starts again from nothing beside checkpoints of models only, a new checkpoint is deleted as soon as it is saved, and
    then exported *)
Theorem C74_stale_refuted : 
  log (run true keep_last (fun _ => false) bg_config [100] [RunStep; PostStep POST_STEP 2 1; SaveDone; RunStep]) = [Begin 2; Commit 2; SaveHook 2; Delete 2; ExportStart 2].
Proof. reflexivity. Qed.
Print Assumptions C74_stale_refuted.

(** A run in which the first export is slow and fails, and is waited for before its checkpoint is deleted *)
Example C74_case : (forall d n, In n (keep_last d) -> exists m, In m d /\ n < m) /\
  let l := log (run true keep_last (fun _ => false) bg_config [] [RunStep; PostStep POST_STEP 2 1; SaveDone; RunStep; RunStep; PostStep POST_STEP 4 1; SaveDone; RunStep; ExportDone true; RunStep; Stop STOP_REQUESTED 5 1]) in
  StronglySorted Z.lt (begins l) /\
  l = [Begin 2; Commit 2; SaveHook 2; ExportStart 2; Begin 4; Commit 4; SaveHook 4; ExportEnd 2 false; Delete 2; ExportStart 4; ExportEnd 4 true; ExportHook 4; Begin 5; Commit 5; SaveHook 5; Delete 4; ExportStart 5; ExportEnd 5 false].
Proof.
  split. { intros d n I. apply filter_In in I as [I H]. apply existsb_exists in H as [m [Im H]]. exists m. split; auto. now apply Z.ltb_lt. }
  cbv zeta. set (l := log _). vm_compute in l. subst l. split; [|reflexivity]. vm_compute. repeat constructor.
Qed.
