(** Proofs about dynamic_bucket. *)

From Coq Require Import QArith Lia Permutation.
From Verif Require Import DP_Base DP_Spec DP_Sources_Model DP_Bucketing_Model DP_Laws DP_Sources_Proofs DP_Sources_Proofs2
  DP_Multi_Lemmas DP_Shuffle_Proofs.

Section DynP.
  Variable threshold : Q.
  Variable cost : data -> fres Q.
  Variable create : option (list data -> fres (list data * list data)).
  Variables minn maxn : option nat.
  Variable drop : bool.
  Variable I : source.
  Notation db := (src_dynamic_bucket threshold cost create minn maxn drop I).
  Notation loop := (db_loop threshold cost minn maxn I).
  Notation ready := (db_ready threshold minn maxn).

  Lemma db_loop_mono : mono I -> forall n n' m m' c b s r, n <= n' -> m <= m' -> loop m n c b s = Some r -> loop m' n' c b s = Some r.
  Proof.
    intros HM n. induction n as [|n IH]; intros n' m m' c b s r Hn Hm H; [discriminate|].
    destruct n' as [|n']; [lia|]. cbn [db_loop] in *. destruct (ready c b); auto.
    destruct (next I m s) as [[o s']|] eqn:E; [|discriminate]. rewrite (HM _ _ _ _ Hm E).
    destruct o as [d| |e]; auto. destruct (cost d); auto. eapply IH; [| |eassumption]; lia.
  Qed.

  Lemma db_mono : mono I -> mono db.
  Proof.
    intros HM n m x r Hn H. cbn [next src_dynamic_bucket] in *. unfold db_next in *. destruct (db_ret x); auto.
    destruct (loop n n 0%Q (db_buf x) (db_in x)) as [[[[c b] e] s']|] eqn:E; [|discriminate].
    rewrite (db_loop_mono HM _ _ _ _ _ _ _ _ Hn Hn E). assumption.
  Qed.

  Variable costof : data -> Q.
  Hypothesis Hthr : (0 < threshold)%Q.
  Hypothesis Hmax : forall k, maxn = Some k -> 0 < k.
  Notation compl := (complete threshold costof minn maxn).
  Notation tot := (total_cost costof).

  Lemma ready_spec b : ready (tot b) b = true <-> compl b.
  Proof.
    clear Hthr Hmax. unfold db_ready, complete. rewrite orb_true_iff, andb_true_iff, Qle_bool_iff. split.
    - intros [[H1 H2]|H].
      + left. split; [assumption|]. intros k E. rewrite E in H2. apply Nat.leb_le. assumption.
      + destruct maxn as [k|]; [|discriminate]. right. exists k. split; [reflexivity|]. apply Nat.leb_le. assumption.
    - intros [[H1 H2]|(k & E & H)].
      + left. split; [assumption|]. destruct minn as [k|]; [|reflexivity]. apply Nat.leb_le. apply H2; reflexivity.
      + right. rewrite E. apply Nat.leb_le. assumption.
  Qed.

  Lemma tot_snoc b d : tot (b ++ [d]) = Qplus (tot b) (costof d).
  Proof. unfold total_cost. rewrite map_app, fold_left_app. reflexivity. Qed.

  Lemma nil_incomplete : ~ compl [].
  Proof.
    intros [[H _]|(k & E & H)].
    - unfold total_cost in H. simpl in H. apply (Qlt_not_le _ _ Hthr). assumption.
    - specialize (Hmax k E). simpl in H. lia.
  Qed.

  Lemma split_first (P : list data -> bool) L : exists q r, L = q ++ r /\
    (forall a z, q = a ++ z -> z <> [] -> P a = false) /\ (P q = true \/ r = [] /\ P q = false).
  Proof.
    revert P. induction L as [|d L IH]; intros P.
    - exists [], []. split; [reflexivity|]. split; [|destruct (P []); auto].
      intros a z H Hz. symmetry in H. apply app_eq_nil in H. destruct H as [_ ->]. contradiction.
    - destruct (P []) eqn:E0.
      + exists [], (d :: L). split; [reflexivity|]. split; [|auto].
        intros a z H Hz. symmetry in H. apply app_eq_nil in H. destruct H as [_ ->]. contradiction.
      + destruct (IH (fun a => P (d :: a))) as (q & r & H1 & H2 & H3). exists (d :: q), r.
        split; [simpl; congruence|]. split; [|assumption].
        intros [|x a] z H Hz; [assumption|]. simpl in H. inv H. eapply H2; [reflexivity|assumption].
  Qed.

  (** Reading up to the end of a group. *)
  Definition priced (L : list data) : Prop := forall d, In d L -> cost d = FVal (costof d).

  Lemma db_loop_group : mono I -> forall q p0 p r s,
    (forall a z, q = a ++ z -> z <> [] -> ready (tot (p ++ a)) (p0 ++ p ++ a) = false) ->
    holds I s (q ++ r) -> priced q ->
    exists n s', holds I s' r /\ forall n', n <= n' -> forall k,
      loop n' (length q + k) (tot p) (p0 ++ p) s = loop n' k (tot (p ++ q)) (p0 ++ p ++ q) s'.
  Proof.
    intros HM q. induction q as [|d q IH]; intros p0 p r s Hq Hh Hp.
    - exists 0, s. split; [assumption|]. intros n' _ k. rewrite app_nil_r. reflexivity.
    - simpl in Hh. destruct (holds_step I HM _ _ Hh) as (n & s' & Hn & Hs').
      destruct (IH p0 (p ++ [d]) r s') as (n1 & s2 & H2 & HL).
      + intros a z Haz Hz. rewrite <- app_assoc. apply (Hq (d :: a) z); [simpl; congruence|assumption].
      + assumption.
      + intros x Hin. apply Hp. right. assumption.
      + exists (n + n1), s2. split; [assumption|]. intros n' Hn' k. cbn [length plus].
        specialize (HL n' ltac:(lia) k). rewrite <- app_assoc in HL. cbn [app] in HL. rewrite <- HL.
        cbn [db_loop]. specialize (Hq [] (d :: q) eq_refl ltac:(discriminate)). rewrite !app_nil_r in Hq. rewrite Hq.
        rewrite (HM n n' _ _ ltac:(lia) Hn), (Hp d (or_introl eq_refl)), tot_snoc, app_assoc. reflexivity.
  Qed.

  (** What one run of the loop does: it reads [q]. *)
  Lemma db_loop_run : mono I -> forall b L s, holds I s L -> priced L -> exists q r n s', L = q ++ r /\ holds I s' r /\
    (forall a z, q = a ++ z -> z <> [] -> ready (tot a) (b ++ a) = false) /\
    (ready (tot q) (b ++ q) = true \/ r = [] /\ ready (tot q) (b ++ q) = false) /\
    loop n n 0%Q b s = Some (tot q, b ++ q, None, s').
  Proof.
    intros HM b L s Hh Hp. destruct (split_first (fun a => ready (tot a) (b ++ a)) L) as (q & r & -> & Hq & Hr).
    destruct (db_loop_group HM q b [] r s) as (n & s1 & Hs1 & HL); [exact Hq|assumption| |].
    { intros d Hd. apply Hp. apply in_or_app. auto. }
    simpl in HL. rewrite app_nil_r in HL. change (tot []) with 0%Q in HL. destruct Hr as [Hr|[-> Hr]].
    - exists q, r, (n + length q + 1), s1. split; [reflexivity|]. split; [assumption|]. split; [assumption|].
      split; [auto|]. apply (db_loop_mono HM (length q + 1) (n + length q + 1) (n + length q + 1)); [lia|lia|].
      rewrite (HL (n + length q + 1) ltac:(lia) 1). cbn [db_loop]. rewrite Hr. reflexivity.
    - destruct (holds_step I HM _ _ Hs1) as (n2 & s2 & Hn2 & Hs2).
      exists q, [], (n + n2 + length q + 1), s2. split; [reflexivity|]. split; [assumption|]. split; [assumption|].
      split; [auto|]. apply (db_loop_mono HM (length q + 1) (n + n2 + length q + 1) (n + n2 + length q + 1)); [lia|lia|].
      rewrite (HL (n + n2 + length q + 1) ltac:(lia) 1). cbn [db_loop]. rewrite Hr.
      rewrite (HM n2 (n + n2 + length q + 1) _ _ ltac:(lia) Hn2). reflexivity.
  Qed.
End DynP.

(** *** Contents without a bucket creation callback *)
Section DynPlain.
  Variable threshold : Q.
  Variable cost : data -> fres Q.
  Variables minn maxn : option nat.
  Variable drop : bool.
  Variable I : source.
  Notation db := (src_dynamic_bucket threshold cost None minn maxn drop I).
  Variable costof : data -> Q.
  Hypothesis Hthr : (0 < threshold)%Q.
  Hypothesis Hmax : forall k, maxn = Some k -> 0 < k.
  Notation compl := (complete threshold costof minn maxn).
  Notation tot := (total_cost costof).
  Notation groups := (dyn_groups threshold costof minn maxn drop).
  Notation ready := (db_ready threshold minn maxn).

  Lemma ready_false b : ready (tot b) b = false -> ~ compl b.
  Proof. intros H C. apply (ready_spec threshold minn maxn costof) in C. congruence. Qed.

  Lemma db_holds s L : mono I -> holds I s L -> priced cost costof L ->
    exists bs, groups L bs /\ holds db (DbSt [] [] s) (map DList bs).
  Proof.
    intros HM Hh Hp.
    destruct (meas_holds db (list data)
      (fun (x : db_st I) L => db_ret x = [] /\ db_buf x = [] /\ holds I (db_in x) L /\ priced cost costof L)
      (fun (x : db_st I) => db_ret x = [] /\ db_buf x = [] /\ exists L, holds I (db_in x) L /\ priced cost costof L /\
         (forall p q, L = p ++ q -> ~ compl p) /\ (L = [] \/ drop = true))
      (fun L l => exists bs, l = map DList bs /\ groups L bs)
      (@length data)) with (s := DbSt (I := I) [] [] s) (a := L) as (l & (bs & -> & Hg) & Hl);
      [apply db_mono; assumption| | |auto|exists bs; auto].
    - intros [rt bf s1] (E1 & E2 & L1 & Hh1 & Hp1 & Hn & Hd). simpl in E1, E2, Hh1. subst rt bf.
      destruct (db_loop_run threshold cost minn maxn I costof HM [] L1 s1 Hh1 Hp1) as (q & r & n & s' & -> & Hr & _ & Hq & HL).
      simpl in Hq, HL.
      assert (Hrd : ready (tot q) q = false).
      { destruct (ready (tot q) q) eqn:E; [|reflexivity]. apply ready_spec in E. exfalso. eapply Hn; [reflexivity|eassumption]. }
      destruct Hq as [Hq|[-> _]]; [congruence|].
      exists n, (DbSt [] [] s'). split.
      + cbn [next src_dynamic_bucket]. unfold db_next. cbn [db_ret db_buf db_in]. rewrite HL.
        rewrite app_nil_r in Hd. destruct q as [|x q]; [reflexivity|]. rewrite Hrd.
        destruct Hd as [Hd|Hd]; [discriminate|]. rewrite Hd. reflexivity.
      + split; [reflexivity|]. split; [reflexivity|]. exists []. split; [assumption|]. split; [intros d []|].
        split; [|auto]. intros p q0 Hpq. symmetry in Hpq. apply app_eq_nil in Hpq. destruct Hpq as [-> _].
        apply nil_incomplete; assumption.
    - intros [rt bf s1] L1 (E1 & E2 & Hh1 & Hp1). simpl in E1, E2, Hh1. subst rt bf.
      destruct (db_loop_run threshold cost minn maxn I costof HM [] L1 s1 Hh1 Hp1) as (q & r & n & s' & -> & Hr & Hpre & Hq & HL).
      simpl in Hpre, Hq, HL.
      destruct Hq as [Hq|[-> Hq]].
      + right. assert (Hne : q <> []).
        { intros ->. apply ready_spec in Hq. apply (nil_incomplete threshold minn maxn costof Hthr Hmax). assumption. }
        exists n, (DList q), (DbSt [] [] s'), r. split.
        { cbn [next src_dynamic_bucket]. unfold db_next. cbn [db_ret db_buf db_in]. rewrite HL.
          destruct q as [|x q]; [contradiction|]. rewrite Hq. reflexivity. }
        split.
        { split; [reflexivity|]. split; [reflexivity|]. split; [assumption|]. intros d Hd. apply Hp1. apply in_or_app. auto. }
        split; [rewrite app_length; destruct q; [contradiction|simpl; lia]|].
        intros l (bs & -> & Hg). exists (q :: bs). split; [reflexivity|]. apply dyn_group; [|  |assumption].
        * apply ready_spec in Hq. assumption.
        * intros p z Hpz Hz. apply ready_false. eapply Hpre; eassumption.
      + rewrite app_nil_r in *.
        assert (Hnone : forall p z, q = p ++ z -> ~ compl p).
        { intros p z Hpz. destruct z as [|x z].
          - rewrite app_nil_r in Hpz. subst p. apply ready_false. assumption.
          - apply ready_false. eapply Hpre; [eassumption|discriminate]. }
        destruct q as [|x q1] eqn:Eq.
        * left. split; [|exists []; split; [reflexivity|constructor]].
          split; [reflexivity|]. split; [reflexivity|]. exists []. auto.
        * rewrite <- Eq in *. assert (HX : groups q (if drop then [] else [q])) by (apply dyn_last; [congruence|assumption]).
          revert HX. destruct drop; intros HX.
          -- left. split; [|exists []; split; [reflexivity|exact HX]].
             split; [reflexivity|]. split; [reflexivity|]. exists q. auto.
          -- right. exists n, (DList q), (DbSt [] [] s'), []. split.
             { cbn [next src_dynamic_bucket]. unfold db_next. cbn [db_ret db_buf db_in]. rewrite HL.
               rewrite Eq in *. rewrite Hq. reflexivity. }
             split; [split; [reflexivity|]; split; [reflexivity|]; split; [assumption|]; intros d []|].
             split; [rewrite Eq; simpl; lia|].
             intros l (bs & -> & Hg). inversion Hg; subst.
             ++ exists [x :: q1]. split; [reflexivity|exact HX].
             ++ contradiction.
             ++ match goal with H : _ ++ _ = [] |- _ => apply app_eq_nil in H; destruct H as [-> ->] end.
                exfalso. eapply nil_incomplete; eassumption.
  Qed.
End DynPlain.

(** *** Contents with a bucket creation callback *)
Section DynCreate.
  Variable threshold : Q.
  Variable cost : data -> fres Q.
  Variable fn : list data -> fres (list data * list data).
  Variables minn maxn : option nat.
  Variable drop : bool.
  Variable I : source.
  Notation db := (src_dynamic_bucket threshold cost (Some fn) minn maxn drop I).
  Variable costof : data -> Q.
  Hypothesis Hthr : (0 < threshold)%Q.
  Hypothesis Hmax : forall k, maxn = Some k -> 0 < k.
  Notation tot := (total_cost costof).
  Notation ready := (db_ready threshold minn maxn).
  Hypothesis Hfn : forall b, b <> [] -> exists rs nb, fn b = FVal (map DList rs, nb) /\ rs <> [] /\
    (forall r, In r rs -> r <> []) /\ Permutation b (concat rs ++ nb).

  Lemma db_holds_create s L : mono I -> holds I s L -> priced cost costof L ->
    exists bs dr, Permutation L (concat bs ++ dr) /\ (drop = false -> dr = []) /\ ~ In [] bs /\
      holds db (DbSt [] [] s) (map DList bs).
  Proof.
    intros HM Hh Hp.
    destruct (meas_holds db (list (list data) * list data * list data)
      (fun (x : db_st I) a => db_ret x = map DList (fst (fst a)) /\ (forall r, In r (fst (fst a)) -> r <> []) /\
         db_buf x = snd (fst a) /\ holds I (db_in x) (snd a) /\ priced cost costof (snd a))
      (fun (x : db_st I) => db_ret x = [] /\ exists L, holds I (db_in x) L /\ priced cost costof L /\
         (db_buf x ++ L = [] \/ drop = true /\ forall a z, L = a ++ z -> ready (tot a) (db_buf x ++ a) = false))
      (fun a l => exists bs dr, l = map DList bs /\ ~ In [] bs /\
         Permutation (concat (fst (fst a)) ++ snd (fst a) ++ snd a) (concat bs ++ dr) /\ (drop = false -> dr = []))
      (fun a => length (concat (fst (fst a))) + length (snd (fst a)) + length (snd a)))
      with (s := DbSt (I := I) [] [] s) (a := (@nil (list data), @nil data, L)) as (l & (bs & dr & -> & Hne & Hg & Hd) & Hl);
      [apply db_mono; assumption| | | |exists bs, dr; auto].
    - intros [rt bf s1] (E1 & L1 & Hh1 & Hp1 & Hx). simpl in E1, Hh1, Hx. subst rt.
      destruct (db_loop_run threshold cost minn maxn I costof HM bf L1 s1 Hh1 Hp1) as (q & r & n & s' & -> & Hr & _ & Hq & HL).
      exists n, (DbSt [] [] s'). destruct Hx as [Hx|[Hdr Hx]].
      + apply app_eq_nil in Hx. destruct Hx as [-> Hx]. apply app_eq_nil in Hx. destruct Hx as [-> ->].
        split.
        * cbn [next src_dynamic_bucket]. unfold db_next. cbn [db_ret db_buf db_in]. rewrite HL. reflexivity.
        * split; [reflexivity|]. exists []. split; [assumption|]. split; [intros d []|auto].
      + rewrite (Hx q r eq_refl) in Hq. destruct Hq as [Hq|[-> _]]; [discriminate|]. split.
        * cbn [next src_dynamic_bucket]. unfold db_next. cbn [db_ret db_buf db_in]. rewrite HL, (Hx q [] eq_refl), Hdr.
          destruct (bf ++ q); reflexivity.
        * split; [reflexivity|]. exists []. split; [assumption|]. split; [intros d []|auto].
    - intros [rt bf s1] [[rs b] L1] (E1 & Hrs & E2 & Hh1 & Hp1). simpl in E1, E2, Hrs, Hh1, Hp1. subst rt bf.
      destruct rs as [|r0 rs].
      + destruct (db_loop_run threshold cost minn maxn I costof HM b L1 s1 Hh1 Hp1) as (q & r & n & s' & -> & Hr & Hpre & Hq & HL).
        assert (Hpr : priced cost costof r) by (intros d Hd; apply Hp1; apply in_or_app; auto).
        destruct (b ++ q) as [|x0 bq] eqn:Ebq.
        { apply app_eq_nil in Ebq. destruct Ebq as [-> ->]. destruct Hq as [Hq|[-> _]].
          - exfalso. apply ready_spec in Hq. eapply nil_incomplete; eassumption.
          - left. split; [|exists [], []; simpl; auto]. split; [reflexivity|]. exists []. simpl. auto. }
        destruct Hq as [Hq|[-> Hq]].
        * right. destruct (Hfn (x0 :: bq) ltac:(discriminate)) as (rs & nb & F1 & F2 & F3 & F4).
          destruct rs as [|r1 rs]; [contradiction|].
          exists n, (DList r1), (DbSt (map DList rs) nb s'), (rs, nb, r). split.
          { cbn [next src_dynamic_bucket]. unfold db_next. cbn [db_ret db_buf db_in map]. rewrite HL, Hq, F1. reflexivity. }
          split.
          { split; [reflexivity|]. split; [intros y Hy; apply F3; right; assumption|]. auto. }
          simpl. assert (Hr1 : 0 < length r1).
          { specialize (F3 r1 (or_introl eq_refl)). destruct r1; [contradiction|simpl; lia]. }
          split.
          { pose proof (Permutation_length F4) as HX. rewrite <- Ebq in HX. simpl in HX. rewrite !app_length in *. lia. }
          intros l (bs & dr & -> & G0 & G1 & G2). exists (r1 :: bs), dr. split; [reflexivity|]. split.
          { intros [->|Hin]; [simpl in Hr1; lia|auto]. }
          split; [|assumption]. simpl. rewrite <- app_assoc, <- G1. rewrite app_assoc, Ebq, F4. simpl.
          rewrite <- !app_assoc. reflexivity.
        * destruct drop eqn:Ed.
          -- left. split; [|exists [], (x0 :: bq); simpl].
             ++ split; [reflexivity|]. exists q. rewrite app_nil_r in Hh1. split; [assumption|]. 
                split; [rewrite app_nil_r in Hp1; assumption|]. right. split; [reflexivity|].
                intros a z Haz. destruct z as [|y z].
                ** rewrite app_nil_r in Haz. subst a. rewrite <- Ebq in Hq. assumption.
                ** eapply Hpre; [eassumption|discriminate].
             ++ rewrite app_nil_r, Ebq. split; [reflexivity|]. split; [auto|]. split; [reflexivity|discriminate].
          -- right. exists n, (DList (x0 :: bq)), (DbSt [] [] s'), ([], [], []). split.
             { cbn [next src_dynamic_bucket]. unfold db_next. cbn [db_ret db_buf db_in map]. rewrite HL, Hq. reflexivity. }
             split; [simpl; auto|].
             assert (HX : length b + length q = S (length bq)) by (rewrite <- app_length, Ebq; reflexivity).
             simpl. rewrite app_nil_r. split; [lia|].
             intros l (bs & dr & -> & G0 & G1 & G2). exists ((x0 :: bq) :: bs), dr. split; [reflexivity|]. split.
             { intros [HF|Hin]; [discriminate|auto]. }
             split; [|assumption]. simpl in *. rewrite Ebq, <- app_assoc, <- G1, app_nil_r. reflexivity.
      + right. exists 0, (DList r0), (DbSt (map DList rs) b s1), (rs, b, L1). split; [reflexivity|].
        split; [split; [reflexivity|]; split; [intros y Hy; apply Hrs; right; assumption|auto]|].
        assert (Hr1 : 0 < length r0).
        { specialize (Hrs r0 (or_introl eq_refl)). destruct r0; [contradiction|simpl; lia]. }
        simpl. split; [rewrite app_length; lia|].
        intros l (bs & dr & -> & G0 & G1 & G2). exists (r0 :: bs), dr. split; [reflexivity|]. split.
        { intros [->|Hin]; [simpl in Hr1; lia|auto]. }
        split; [|assumption]. simpl. rewrite <- !app_assoc, <- G1. reflexivity.
    - simpl. split; [reflexivity|]. split; [intros r []|]. auto.
  Qed.
End DynCreate.

(** *** Positions *)
Section DynPos.
  Variable threshold : Q.
  Variable cost : data -> fres Q.
  Variable create : option (list data -> fres (list data * list data)).
  Variables minn maxn : option nat.
  Variable drop : bool.
  Variable I : source.
  Notation db := (src_dynamic_bucket threshold cost create minn maxn drop I).
  Notation loop := (db_loop threshold cost minn maxn I).

  Definition db_R (x y : db_st I) : Prop := db_ret x = db_ret y /\ db_buf x = db_buf y /\ equiv I (db_in x) (db_in y).

  Definition db_res (x y : option (Q * list data * option err * St I)) : Prop :=
    match x, y with
    | Some (c, b, e, s), Some (c', b', e', s') => c = c' /\ b = b' /\ e = e' /\ equiv I s s'
    | None, None => True
    | _, _ => False
    end.

  Lemma db_loop_equiv m n : forall c b s s', equiv I s s' -> db_res (loop m n c b s) (loop m n c b s').
  Proof.
    induction n as [|n IH]; intros c b s s' H; [exact Logic.I|]. cbn [db_loop].
    destruct (db_ready threshold minn maxn c b); [simpl; auto|].
    estep I s s' m H; [|exact Logic.I]. destruct o as [d| |e]; [|simpl; auto|simpl; auto].
    destruct (cost d); [apply IH; assumption|simpl; auto|simpl; auto].
  Qed.

  Lemma db_R_bisim : bisim db db_R.
  Proof.
    intros [rt bf s] [rt' bf' s'] (H1 & H2 & H3). simpl in H1, H2, H3. subst rt' bf'. split; [|split].
    - intros n. cbn [next src_dynamic_bucket]. unfold db_next. cbn [db_ret db_buf db_in].
      destruct rt as [|d rt]; [|simpl; repeat split; auto].
      pose proof (db_loop_equiv n n 0%Q bf s s' H3) as HE.
      destruct (loop n n 0%Q bf s) as [[[[c b] e] s1]|]; destruct (loop n n 0%Q bf s') as [[[[c' b'] e'] s1']|];
        simpl in HE; try contradiction; [|exact Logic.I].
      destruct HE as (<- & <- & <- & HE).
      destruct e as [e|]; [simpl; repeat split; auto|]. destruct b as [|x b]; [simpl; repeat split; auto|].
      destruct (db_ready threshold minn maxn c (x :: b)).
      + destruct create as [fn|]; [|simpl; repeat split; auto].
        destruct (fn (x :: b)) as [[[|d r] nb]| |]; simpl; repeat split; auto.
      + destruct drop; simpl; repeat split; auto.
    - intros g. split; [|split]; simpl; auto. apply equiv_reset. assumption.
    - exact (equiv_fin _ _ _ H3).
  Qed.

  Variables Inv Tgt : St I -> Prop.
  Hypothesis HR : resumable true I Inv Tgt.
  Hypothesis Hcost : forall d, match cost d with FVal _ | FThrow Fatal => True | _ => False end.
  Hypothesis Hcr : create = None.

  Definition db_inv (x : db_st I) : Prop := db_ret x = [] /\ db_buf x = [] /\ Inv (db_in x).
  Definition db_tgt (x : db_st I) : Prop := db_ret x = [] /\ db_buf x = [] /\ Tgt (db_in x).

  Lemma db_loop_inv m n : forall c b s c' b' e s', Inv s -> loop m n c b s = Some (c', b', e, s') ->
    match e with None => Inv s' | Some e => e = Fatal end.
  Proof.
    induction n as [|n IH]; intros c b s c' b' e s' HI H; [discriminate|]. cbn [db_loop] in H.
    destruct (db_ready threshold minn maxn c b); [inv H; auto|].
    destruct (next I m s) as [[o s1]|] eqn:E; [|discriminate].
    pose proof (rs_next _ _ _ _ HR _ _ _ _ HI E) as HI'.
    destruct o as [d| |e1].
    - pose proof (Hcost d) as Hq. destruct (cost d) as [q| |[]]; try contradiction; [eapply IH; eassumption|]. inv H. reflexivity.
    - inv H. auto.
    - destruct e1; simpl in HI'; [destruct HI'; discriminate|]. inv H. reflexivity.
  Qed.

  Lemma db_resumable : resumable true db db_inv db_tgt.
  Proof.
    pose proof HR as [R1 R2 R3 R4 R5]. constructor.
    - split; [|split]; simpl; auto.
    - split; [|split]; simpl; auto.
    - intros n [rt bf s] o x' (H1 & H2 & HI) H. simpl in H1, H2, HI. subst rt bf.
      cbn [next src_dynamic_bucket] in H. unfold db_next in H. cbn [db_ret db_buf db_in] in H.
      destruct (loop n n 0%Q [] s) as [[[[c b] e] s1]|] eqn:E; [|discriminate].
      pose proof (db_loop_inv _ _ _ _ _ _ _ _ _ HI E) as HI'. destruct e as [e|].
      { subst e. inv H. exact Logic.I. }
      destruct b as [|x b]; [inv H; split; [|split]; simpl; auto|].
      rewrite Hcr in H.
      destruct (db_ready threshold minn maxn c (x :: b)); [|destruct drop];
        inv H; (split; [|split]; simpl; auto).
    - intros g [rt bf s] (H1 & H2 & HI). simpl in *. split; [|split]; simpl; auto.
    - intros [rt bf s] [rt0 bf0 s0] (H1 & H2 & HI) (H3 & H4 & HT). simpl in *. subst rt bf rt0 bf0.
      pose proof db_R_bisim as HB. rewrite Hcr in *.
      destruct (R5 _ _ HI HT) as (t & Hr & Hl). rewrite Hr. eexists. split; [reflexivity|]. intros rest.
      destruct (Hl rest) as (s1 & E1 & He & Hi). rewrite E1. exists (DbSt [] [] s1). split; [reflexivity|]. split.
      + exists db_R. split; [exact HB|]. split; [|split]; simpl; auto.
      + split; [|split]; simpl; auto.
  Qed.

  Lemma db_restarts g : restarts I Inv g -> restarts db db_inv g.
  Proof.
    intros HG [rt bf s] (H1 & H2 & HI). simpl in *. subst rt bf. exists db_R. split; [apply db_R_bisim|].
    split; [|split]; simpl; auto.
  Qed.
End DynPos.
