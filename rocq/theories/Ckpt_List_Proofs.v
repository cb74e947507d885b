(** Sorting, ranking and expiring checkpoints. *)

From Coq Require Import Lia QArith Sorting.Permutation Sorting.Sorted.
From Verif Require Import Ckpt_Spec.
Local Open Scope nat_scope.

Section Rank.
  Context {A : Type} (bef : A -> A -> bool).
  Variable R : A -> A -> Prop.
  Hypothesis R1 : forall x y, R x y -> bef x y = true.
  Hypothesis R2 : forall x y, R x y -> bef y x = false.
  Hypothesis R3 : forall x, bef x x = false.

  Lemma filter_all {B} (p : B -> bool) l : (forall x, In x l -> p x = true) -> filter p l = l.
  Proof. induction l as [|x l IH]; intros H; simpl; [reflexivity|]. rewrite (H x) by (left; reflexivity). f_equal; apply IH; intros; apply H; right; auto. Qed.
  Lemma filter_none {B} (p : B -> bool) l : (forall x, In x l -> p x = false) -> filter p l = [].
  Proof. induction l as [|x l IH]; intros H; simpl; [reflexivity|]. rewrite (H x) by (left; reflexivity). apply IH; intros; apply H; right; auto. Qed.

  Lemma sorted_split (a b : list A) x : StronglySorted R (a ++ x :: b) -> (forall y, In y a -> R y x) /\ (forall y, In y b -> R x y).
  Proof.
    induction a as [|z a IH]; simpl; intros H; inversion H as [|? ? S F]; subst.
    - split; [intros y []|]. intros y I; rewrite Forall_forall in F; apply F; exact I.
    - destruct (IH S) as [IH1 IH2]; split; [|exact IH2]. intros y [<-|I]; [|auto].
      rewrite Forall_forall in F; apply F, in_or_app; right; left; reflexivity.
  Qed.

  Lemma sorted_filter (a b : list A) x : StronglySorted R (a ++ x :: b) -> filter (fun y => bef y x) (a ++ x :: b) = a.
  Proof.
    intros S; apply sorted_split in S as [S1 S2]. rewrite filter_app; simpl; rewrite R3.
    rewrite (filter_all _ a), (filter_none _ b), app_nil_r; auto.
  Qed.

  Lemma R_irr x : ~ R x x.
  Proof. intros H; pose proof (R1 _ _ H); pose proof (R3 x); congruence. Qed.

  Lemma firstn_rank k (l : list A) x : StronglySorted R l ->
    (In x (firstn k l) <-> In x l /\ length (filter (fun y => bef y x) l) < k).
  Proof.
    intros S; split.
    - intros H. assert (I : In x l) by (rewrite <- (firstn_skipn k l); apply in_or_app; left; exact H).
      split; [exact I|]. apply in_split in H as (a & b & E).
      assert (E2 : l = a ++ x :: (b ++ skipn k l)) by (rewrite <- (firstn_skipn k l) at 1; rewrite E, <- app_assoc; reflexivity).
      rewrite E2 in S. rewrite E2, sorted_filter by exact S.
      assert (length (firstn k l) <= k) by apply firstn_le_length. rewrite E, app_length in H; simpl in H; lia.
    - intros [I L]. apply in_split in I as (a & b & ->). rewrite sorted_filter in L by exact S.
      rewrite firstn_app. apply in_or_app; right. destruct (k - length a) eqn:E; [lia|]. left; reflexivity.
  Qed.
End Rank.

(** Counting with [filter] and [fewer_than]. *)
Lemma fewer_filter {A} (p : A -> Prop) (q : A -> bool) (l : list A) k : NoDup l -> (forall x, In x l -> (q x = true <-> p x)) ->
  (fewer_than k p l <-> length (filter q l) < k).
Proof.
  intros N E; split.
  - intros H; apply H; [apply NoDup_filter; exact N|]. intros x I; apply filter_In in I as [I Q]; split; [exact I|apply E; auto].
  - intros H l' N' I. apply Nat.le_lt_trans with (length (filter q l)); [|exact H].
    apply NoDup_incl_length; [exact N'|]. intros x J; destruct (I x J) as [J1 J2]. apply filter_In; split; [exact J1|apply E; auto].
Qed.

Lemma insert_nat_perm x l : Permutation (insert_nat x l) (x :: l).
Proof. induction l as [|y l IH]; simpl; [reflexivity|]. destruct (x <=? y); [reflexivity|]. rewrite IH; constructor. Qed.
Lemma sort_nat_perm l : Permutation (sort_nat l) l.
Proof. induction l as [|x l IH]; simpl; [reflexivity|]. rewrite insert_nat_perm, IH; reflexivity. Qed.
Lemma insert_nat_sorted x l : StronglySorted le l -> StronglySorted le (insert_nat x l).
Proof.
  induction l as [|y l IH]; simpl; intros S; [repeat constructor|]. inversion S as [|? ? S' F]; subst.
  destruct (Nat.leb_spec x y).
  - constructor; [exact S|]. constructor; [exact H|]. eapply Forall_impl; [|exact F]. simpl; intros; lia.
  - constructor; [auto|]. rewrite Forall_forall in *. intros z Z. apply (Permutation_in _ (insert_nat_perm x l)) in Z.
    destruct Z as [<-|Z]; [lia|auto].
Qed.
Lemma sort_nat_sorted l : StronglySorted le (sort_nat l).
Proof. induction l; simpl; [constructor|apply insert_nat_sorted; exact IHl]. Qed.

Lemma sorted_lt l : NoDup l -> StronglySorted le l -> StronglySorted lt l.
Proof.
  intros N S; induction S as [|x l S IH F]; [constructor|]. inversion N; subst.
  constructor; [auto|]. rewrite Forall_forall in *. intros y Y. specialize (F y Y). assert (x <> y) by congruence. lia.
Qed.

Lemma steps_spec found ht ex : NoDup found ->
  StronglySorted lt (get_step_numbers found ht ex) /\
  forall n, In n (get_step_numbers found ht ex) <-> In n found /\ (ex = true -> ht n = true).
Proof.
  intros N; unfold get_step_numbers. split.
  - apply sorted_lt; [|apply sort_nat_sorted]. eapply Permutation_NoDup; [symmetry; apply sort_nat_perm|].
    destruct ex; [apply NoDup_filter|]; exact N.
  - intros n. rewrite (Permutation_in' eq_refl (sort_nat_perm _)). destruct ex.
    + rewrite filter_In. intuition.
    + intuition discriminate.
Qed.

Lemma sorted_nodup l : StronglySorted lt l -> NoDup l.
Proof.
  induction 1 as [|x l S IH F]; constructor; [|exact IH]. intros I; rewrite Forall_forall in F. specialize (F x I); lia.
Qed.

Lemma sorted_rev l : StronglySorted lt l -> StronglySorted gt (rev l).
Proof.
  intros S; induction S as [|x l S IH F]; simpl; [constructor|].
  assert (H : forall a, StronglySorted gt a -> (forall y, In y a -> y > x) -> StronglySorted gt (a ++ [x])).
  { induction a as [|y a IHa]; simpl; intros Sa Ha; [repeat constructor|]. inversion Sa as [|? ? Sa' Fa]; subst.
    constructor; [apply IHa; auto|]. apply Forall_app; split; [exact Fa|]. constructor; [apply Ha; left; reflexivity|constructor]. }
  apply H; [exact IH|]. intros y Y. apply in_rev in Y. rewrite Forall_forall in F. specialize (F y Y); lia.
Qed.

Lemma last_n_rev {A} k (l : list A) : last_n k l = rev (firstn k (rev l)).
Proof. unfold last_n. rewrite firstn_rev, rev_involutive; reflexivity. Qed.

Lemma last_n_rank k l n : StronglySorted lt l -> (In n (last_n k l) <-> In n l /\ in_last k l n).
Proof.
  intros S. rewrite last_n_rev, <- in_rev.
  rewrite (firstn_rank (fun y x => x <? y) gt) with (1 := fun x y (H : x > y) => proj2 (Nat.ltb_lt y x) H);
    [|intros x y H; apply Nat.ltb_ge; lia|intros; apply Nat.ltb_irrefl|apply sorted_rev; exact S].
  rewrite <- in_rev. unfold in_last.
  rewrite (fewer_filter (fun q => n < q) (fun y => n <? y)); [|apply sorted_nodup; exact S|intros; apply Nat.ltb_lt].
  assert (P : Permutation (rev l) l) by (symmetry; apply Permutation_rev).
  assert (L : length (filter (fun y => n <? y) (rev l)) = length (filter (fun y => n <? y) l)).
  { clear S. apply Permutation_length. revert P. generalize (rev l). induction 1; simpl; auto.
    - destruct (n <? x); [constructor|]; assumption.
    - destruct (n <? x), (n <? y); try constructor; reflexivity.
    - etransitivity; eassumption. }
  rewrite L; reflexivity.
Qed.

(** Scores. *)
Lemma pair_ltb_better a b : pair_ltb a b = true <-> better b a.
Proof.
  unfold pair_ltb, better. destruct (Qcompare_spec (fst a) (fst b)) as [E|E|E].
  - rewrite Nat.ltb_lt. split; [intros; right; split; [symmetry; exact E|exact H]|]. intros [H|[_ H]]; [|exact H].
    exfalso; eapply Qlt_irrefl; rewrite E in H; exact H.
  - split; [intros _; left; exact E|reflexivity].
  - split; [discriminate|]. intros [H|[H _]]; exfalso.
    + eapply Qlt_irrefl, Qlt_trans; eassumption.
    + rewrite H in E; eapply Qlt_irrefl; exact E.
Qed.

Lemma better_trans a b c : better a b -> better b c -> better a c.
Proof.
  unfold better; intros [H|[H1 H2]] [H'|[H1' H2']].
  - left; eapply Qlt_trans; eauto.
  - left; rewrite <- H1'; exact H.
  - left; rewrite H1; exact H'.
  - right; split; [rewrite H1; exact H1'|lia].
Qed.
Lemma better_irr a : ~ better a a.
Proof. intros [H|[_ H]]; [eapply Qlt_irrefl; exact H|lia]. Qed.
Lemma better_asym a b : better a b -> better b a -> False.
Proof. intros H H'; eapply better_irr, better_trans; eauto. Qed.
Lemma better_total a b : snd a <> snd b -> better a b \/ better b a.
Proof.
  intros N. destruct (Qcompare_spec (fst a) (fst b)) as [E|E|E].
  - assert (snd b < snd a \/ snd a < snd b) as [L|L] by lia; [left; right|right; right; symmetry in E]; auto.
  - right; left; exact E.
  - left; left; exact E.
Qed.

Lemma insert_desc_perm x l : Permutation (insert_desc x l) (x :: l).
Proof. induction l as [|y l IH]; simpl; [reflexivity|]. destruct (pair_ltb x y); [rewrite IH; constructor|reflexivity]. Qed.
Lemma sort_desc_perm l : Permutation (sort_desc l) l.
Proof. induction l as [|x l IH]; simpl; [reflexivity|]. rewrite insert_desc_perm, IH; reflexivity. Qed.
Lemma insert_desc_sorted x l : ~ In (snd x) (map snd l) -> StronglySorted better l -> StronglySorted better (insert_desc x l).
Proof.
  induction l as [|y l IH]; simpl; intros N S; [repeat constructor|]. inversion S as [|? ? S' F]; subst.
  destruct (pair_ltb x y) eqn:E.
  - apply pair_ltb_better in E. constructor; [apply IH; auto|]. rewrite Forall_forall in *. intros z Z.
    apply (Permutation_in _ (insert_desc_perm x l)) in Z. destruct Z as [<-|Z]; auto.
  - assert (B : better x y).
    { destruct (better_total x y) as [H|H]; [intros Q; apply N; left; symmetry; exact Q|exact H|].
      apply pair_ltb_better in H; congruence. }
    constructor; [exact S|]. constructor; [exact B|]. eapply Forall_impl; [|exact F]. intros z Z; eapply better_trans; eauto.
Qed.
Lemma sort_desc_sorted l : NoDup (map snd l) -> StronglySorted better (sort_desc l).
Proof.
  induction l as [|x l IH]; simpl; intros N; [constructor|]. inversion N; subst.
  apply insert_desc_sorted; [|auto]. intros I; match goal with H : ~ In _ _ |- _ => apply H end.
  eapply Permutation_in; [|exact I]. apply Permutation_map, sort_desc_perm.
Qed.

Lemma collect_spec score steps l : collect_scores score steps = Some l ->
  (forall q n, In (q, n) l <-> In n steps /\ score n = Some (Some q)) /\ (NoDup steps -> NoDup (map snd l)).
Proof.
  revert l; induction steps as [|n steps IH]; simpl; intros l E.
  - inversion E; subst; split; [simpl; tauto|constructor].
  - destruct (score n) as [[q|]|] eqn:S; [|discriminate|].
    + destruct (collect_scores score steps) as [l'|]; [|discriminate]. inversion E; subst. destruct (IH l' eq_refl) as [IH1 IH2]. split.
      * intros q' n'; simpl; rewrite IH1. split.
        -- intros [H|[H H']]; [inversion H; subst; auto|auto].
        -- intros [[<-|H] H']; [left; congruence|right; auto].
      * intros N; inversion N; subst; simpl; constructor; [|auto]. intros I. apply in_map_iff in I as ((q', n') & Q & I). simpl in Q; subst n'.
        apply IH1 in I as [I _]; contradiction.
    + destruct (IH l E) as [IH1 IH2]; split; [|intros N; inversion N; auto]. intros q n'; rewrite IH1. split; [tauto|].
      intros [[<-|H] H']; [congruence|auto].
Qed.

Lemma collect_raises score steps : collect_scores score steps = None <-> exists n, In n steps /\ score n = Some None.
Proof.
  induction steps as [|n steps IH]; simpl; [split; [discriminate|intros (? & [] & _)]|].
  destruct (score n) as [[q|]|] eqn:S.
  - destruct (collect_scores score steps) eqn:C.
    + split; [discriminate|]. intros (n' & [<-|I] & H); [congruence|]. assert (Some l = None) by (apply IH; eauto); discriminate.
    + split; [|reflexivity]. intros _. destruct (proj1 IH eq_refl) as (n' & I & H); eauto.
  - split; [intros _; eauto|reflexivity].
  - rewrite IH. split; intros (n' & I & H); [eauto|]. destruct I as [<-|I]; [congruence|eauto].
Qed.

Lemma load_scores_spec score steps l : NoDup steps -> load_scores score steps = Some l ->
  StronglySorted better l /\ forall q n, In (q, n) l <-> In n steps /\ score n = Some (Some q).
Proof.
  unfold load_scores; intros N E. destruct (collect_scores score steps) as [l'|] eqn:C; [|discriminate]. inversion E; subst.
  destruct (collect_spec _ _ _ C) as [C1 C2]. split; [apply sort_desc_sorted; auto|].
  intros q n; rewrite <- C1. split; apply Permutation_in; [|symmetry]; apply sort_desc_perm.
Qed.

Lemma load_scores_raises score steps : load_scores score steps = None <-> exists n, In n steps /\ score n = Some None.
Proof. unfold load_scores; rewrite <- collect_raises. destruct (collect_scores score steps); simpl; split; congruence. Qed.

Lemma nodup_snd (l : list (Q * nat)) : StronglySorted better l ->
  (forall q q' n, In (q, n) l -> In (q', n) l -> q = q') -> NoDup (map snd l).
Proof.
  intros S F; induction S as [|x l S IH G]; simpl; constructor.
  - intros I; apply in_map_iff in I as ((q, n) & E & I). destruct x as [q' n']; simpl in E; subst n'.
    rewrite (F q' q n) in G; [|left; reflexivity|right; exact I]. rewrite Forall_forall in G. eapply better_irr, G; exact I.
  - apply IH. intros q q' n H H'; apply (F q q' n); right; assumption.
Qed.

Lemma best_rank k score steps l n : NoDup steps -> load_scores score steps = Some l -> In n steps ->
  (In n (map snd (firstn k l)) <-> in_best k score steps n).
Proof.
  intros N E I. destruct (load_scores_spec _ _ _ N E) as [S M].
  assert (U : NoDup (map snd l)).
  { apply nodup_snd; [exact S|]. intros q q' n' H H'. apply M in H as [_ H]; apply M in H' as [_ H']; congruence. }
  assert (NL : NoDup l) by (eapply NoDup_map_inv; exact U).
  assert (FR : forall x, In x (firstn k l) <-> In x l /\ length (filter (fun y => pair_ltb x y) l) < k).
  { intros x. apply (firstn_rank (fun y x => pair_ltb x y) better); [..|exact S].
    - intros a b H; apply pair_ltb_better; exact H.
    - intros a b H. destruct (pair_ltb a b) eqn:Q; [|reflexivity]. apply pair_ltb_better in Q. destruct (better_asym a b); auto.
    - intros a. destruct (pair_ltb a a) eqn:Q; [|reflexivity]. apply pair_ltb_better in Q. destruct (better_irr a); auto. }
  assert (CNT : forall q, (fewer_than k (fun n' => exists q', score n' = Some (Some q') /\ better (q', n') (q, n)) steps) <->
                length (filter (fun y => pair_ltb (q, n) y) l) < k).
  { intros q.
    set (t := fun n' => match score n' with Some (Some q') => pair_ltb (q, n) (q', n') | _ => false end).
    rewrite (fewer_filter _ t _ _ N).
    - assert (LE : length (filter t steps) = length (filter (fun y => pair_ltb (q, n) y) l)).
      { rewrite <- (map_length snd (filter (fun y => pair_ltb (q, n) y) l)). apply Permutation_length, NoDup_Permutation.
        - apply NoDup_filter; exact N.
        - clear - U. induction l as [|x l IH]; simpl; [constructor|]. simpl in U; inversion U as [|? ? U1 U2]; subst.
          destruct (pair_ltb (q, n) x); simpl; [|auto]. constructor; [|auto]. intros J; apply U1.
          apply in_map_iff in J as (y & <- & J). apply filter_In in J as [J _]. apply in_map; exact J.
        - intros n'. rewrite filter_In, in_map_iff. unfold t. split.
          + intros [J T]. destruct (score n') as [[q'|]|] eqn:SC; try discriminate.
            exists (q', n'); split; [reflexivity|]. apply filter_In; split; [apply M; auto|exact T].
          + intros ((q', n'') & <- & J). apply filter_In in J as [J T]. apply M in J as [J1 J2]. simpl. rewrite J2; auto. }
      rewrite LE; reflexivity.
    - intros n' J. unfold t. split.
      + destruct (score n') as [[q'|]|]; try discriminate. intros T; exists q'; split; [reflexivity|apply pair_ltb_better; exact T].
      + intros (q' & -> & B). apply pair_ltb_better; exact B. }
  split.
  - intros H. apply in_map_iff in H as ((q, n') & Q & H). simpl in Q; subst n'. apply FR in H as [H1 H2].
    exists q; split; [apply M in H1 as [_ H1]; exact H1|apply CNT; exact H2].
  - intros (q & Q & H). apply in_map_iff. exists (q, n); split; [reflexivity|]. apply FR; split; [apply M; auto|apply CNT; exact H].
Qed.

Lemma stale_spec steps score kl kb ke stale : StronglySorted lt steps -> steps <> [] ->
  (kl <> None \/ kb <> None \/ ke <> None) ->
  get_stale_step_numbers steps score kl kb ke = Some stale ->
  StronglySorted lt stale /\
  forall n, In n stale <->
    In n steps /\ ~ is_last steps n /\
    (forall k, kl = Some k -> ~ in_last k steps n) /\
    (forall k, kb = Some k -> ~ in_best k score steps n) /\
    (forall k, ke = Some k -> ~ Nat.divide k n).
Proof.
  intros S NE NN E.
  assert (ND : NoDup steps) by (apply sorted_nodup; exact S).
  assert (L : forall n, In n steps -> (In n (last_n 1 steps) <-> is_last steps n)).
  { intros n I. rewrite (last_n_rank 1 steps n S). unfold in_last, is_last, fewer_than. split.
    - intros [_ H] k J. destruct (le_lt_dec k n) as [H1|H1]; [exact H1|].
      exfalso. assert (length [k] < 1); [|simpl in *; lia]. apply H; [repeat constructor; simpl; tauto|].
      intros x [<-|[]]; auto.
    - intros H; split; [exact I|]. intros [|x l'] _ H'; [simpl; lia|]. destruct (H' x (or_introl eq_refl)) as [J1 J2]. specialize (H x J1); lia. }
  assert (SF : forall p, StronglySorted lt (filter p steps)).
  { clear - S. intros p; induction S as [|x l S IH F]; simpl; [constructor|]. destruct (p x); [|exact IH].
    constructor; [exact IH|]. rewrite Forall_forall in *. intros y Y; apply filter_In in Y as [Y _]; auto. }
  destruct steps as [|s0 rest] eqn:ES; [contradiction|]. rewrite <- ES in *. clear NE.
  assert (G : exists ls bs es,
    (match kl with None => Some [] | Some 0 => None | Some n => Some (last_n n steps) end) = Some ls /\
    (match kb with None => Some [] | Some 0 => None | Some n => option_map (fun sc => map snd (firstn n sc)) (load_scores score steps) end) = Some bs /\
    (match ke with None => Some [] | Some 0 => None | Some n => Some (filter (fun k => k mod n =? 0) steps) end) = Some es /\
    stale = filter (fun k => negb (existsb (Nat.eqb k) (last_n 1 steps ++ ls ++ bs ++ es))) steps).
  { unfold get_stale_step_numbers in E. rewrite ES in E. rewrite <- ES in E.
    destruct kl as [a|], kb as [b|], ke as [c|]; try (exfalso; intuition congruence);
    repeat match type of E with
           | match ?x with Some _ => _ | None => _ end = Some _ => destruct x eqn:?; [|discriminate]
           end; inversion E; eauto 10. }
  destruct G as (ls & bs & es & E1 & E2 & E3 & ->). split; [apply SF|].
  intros n. rewrite filter_In, negb_true_iff.
  assert (X : In n steps -> (existsb (Nat.eqb n) (last_n 1 steps ++ ls ++ bs ++ es) = false <->
    ~ is_last steps n /\ ~ In n ls /\ ~ In n bs /\ ~ In n es)).
  { intros I. rewrite <- (L n I). rewrite <- not_true_iff_false, existsb_exists. split.
    - intros H. repeat split; intros J; apply H; exists n; (split; [|apply Nat.eqb_refl]); rewrite !in_app_iff; tauto.
    - intros H (x & J & Q). apply Nat.eqb_eq in Q; subst x. rewrite !in_app_iff in J; tauto. }
  assert (X1 : In n steps -> (In n ls <-> exists k, kl = Some k /\ in_last k steps n)).
  { intros I. destruct kl as [[|k]|]; inversion E1; subst ls.
    - rewrite (last_n_rank _ _ _ S). split; [intros [_ H]; eauto|intros (k' & Q & H); inversion Q; subst; auto].
    - split; [intros []|intros (k' & Q & _); discriminate]. }
  assert (X2 : In n steps -> (In n bs <-> exists k, kb = Some k /\ in_best k score steps n)).
  { intros I. destruct kb as [[|k]|]; inversion E2.
    - destruct (load_scores score steps) as [sc|] eqn:SC; [|discriminate]. inversion E2; subst bs.
      rewrite (best_rank (Datatypes.S k) score steps sc n ND SC I). split; [eauto|intros (k' & Q & H); inversion Q; subst; auto].
    - split; [intros []|intros (k' & Q & _); discriminate]. }
  assert (X3 : In n steps -> (In n es <-> exists k, ke = Some k /\ Nat.divide k n)).
  { intros I. assert (SI : forall (a b : list nat), Some a = Some b -> a = b) by congruence. destruct ke as [[|k]|]; [discriminate| |]; apply SI in E3; subst es.
    - rewrite filter_In, Nat.eqb_eq. rewrite (Nat.mod_divide n (Datatypes.S k)) by discriminate. split; [intros [_ H]; eauto|intros (k' & Q & H); inversion Q; subst; auto].
    - split; [intros []|intros (k' & Q & _); discriminate]. }
  split.
  - intros [I H]. apply X in H; [|exact I]. rewrite X1, X2, X3 in H by exact I. destruct H as (H0 & H1 & H2 & H3).
    repeat split; auto; intros k Q J; [apply H1|apply H2|apply H3]; eauto.
  - intros (I & H0 & H1 & H2 & H3); split; [exact I|]. apply X; [exact I|]. rewrite X1, X2, X3 by exact I.
    repeat split; auto; intros (k & Q & J); [eapply H1|eapply H2|eapply H3]; eauto.
Qed.

Lemma stale_raises steps score kl kb ke : steps <> [] ->
  (get_stale_step_numbers steps score kl kb ke = None <->
   kl = Some 0 \/ kb = Some 0 \/ ke = Some 0 \/ (kb <> None /\ exists n, In n steps /\ score n = Some None)).
Proof.
  intros NE. unfold get_stale_step_numbers. rewrite <- load_scores_raises. destruct steps as [|s0 rest]; [contradiction|].
  generalize (load_scores score (s0 :: rest)). intros sc.
  destruct kl as [[|a]|], kb as [[|b]|], ke as [[|c]|]; simpl; destruct sc; simpl; intuition congruence.
Qed.
