(** The sampling generator as a whole. *)
From Coq Require Import List Bool Arith Lia QArith Sorted Permutation.
From Verif Require Import Beam_Model Beam_Spec Beam_Proofs Sampling_Model Sampling_Spec Sampling_Proofs2.
Import ListNotations.
Open Scope nat_scope.

Section Run.
  Variable D : sdecoder.
  Variable c : sconfig.
  Variable prompts : list (list nat).
  Notation row := (srow D).
  Notation MP := (min_prompt_len prompts).
  Notation XP := (max_prompt_len prompts).
  Notation XS := (smax_seq_len c prompts).
  Notation cnt := (count D).
  Hypothesis Hs : ssound c prompts.
  Hypothesis Hx : XP < g_max_seq c.

  Lemma step_rows_spec t rs : forall k l, sstep_rows D c prompts t k rs = Some l -> Forall2 (fun r x => exists k, sstep_row D c prompts t k r = Some x) rs l.
  Proof.
    induction rs as [|r rs IH]; intros k l H; simpl in H; [inversion H; constructor|].
    destruct (sstep_row D c prompts t k r) as [x|] eqn:E; [|discriminate]. destruct (sstep_rows D c prompts t (k + 1) rs) as [l'|] eqn:E'; [|discriminate].
    inversion H; subst. constructor; [exists k; exact E|]. eapply IH; eassumption.
  Qed.

  Definition good_hyp (i : nat) (h : shyp c) : Prop :=
    exists p g, nth_error prompts i = Some p /\ shyp_ok D c prompts i p g h /\ (proper D c prompts -> sclean D c prompts i p g).
  Definition done_row (t : nat) (r : row) : Prop := w_prompt D r < length prompts /\ good_hyp (w_prompt D r) (sfinish D c t r).
  Definition live (t : nat) (r : row) : Prop := row_ok D c prompts t r /\ (proper D c prompts -> clean_row D c prompts t r).

  Lemma step_row_live t r r' b : MP <= t -> 1 <= t -> t < XS -> live t r -> (exists k, sstep_row D c prompts t k r = Some (r', b)) ->
    w_prompt D r' = w_prompt D r /\ (if b then done_row t r' else live (t + 1) r') /\ (t = XS - 1 -> b = true).
  Proof.
    intros H1 H2 H3 [HL HC] (k & E).
    destruct (step_row_ok D c prompts Hs Hx t k r r' b H1 H2 H3 HL E) as (A1 & A2 & A3 & A4 & A5 & (p & N1 & N2 & N3) & A7 & A8 & A9 & A10 & A11 & A12).
    split; [exact A1|]. split; [|exact A11].
    assert (CL : proper D c prompts -> clean_row D c prompts (t + 1) r').
    { intros P j Hj Hx'. destruct (Nat.eq_dec j t) as [->|Nj].
      - destruct (A12 ltac:(lia) ltac:(lia)) as (q & Eq). assert (LF : length (firstn t (w_buf D r')) = t) by (rewrite firstn_length; lia).
        assert (Pv := P q (w_prompt D r') (firstn t (w_buf D r')) _ ltac:(intros Z; rewrite Z in LF; simpl in LF; lia) ltac:(lia) Eq).
        unfold token_prob. destruct (Nat.eqb_spec t 0); [lia|]. destruct (Nat.ltb_spec t MP); [lia|]. exact Pv.
      - specialize (HC P j ltac:(lia) Hx'). rewrite A1, (tp_ext D c prompts Hx j _ _ (w_buf D r)); [exact HC|].
        transitivity (firstn (j + 1) (firstn t (w_buf D r'))); [rewrite firstn_firstn, Nat.min_l by lia; reflexivity|].
        rewrite A3, firstn_firstn, Nat.min_l by lia. reflexivity. }
    destruct b.
    - destruct A10 as [B1 B2]. destruct (finish_ok D c prompts Hs Hx t r' p H3 N1 N2 N3 A4 A5 A8 A9 B1 B2) as (g & G1 & G2).
      split; [apply nth_error_Some; congruence|]. exists p, g. auto.
    - split; [|exact CL]. constructor; auto.
      + exists p. auto.
      + replace (t + 1 - 1) with t by lia. exact A7.
      + intros j Hj. destruct (Nat.eq_dec j t) as [->|Nj]; [apply A10; lia|apply A9; lia].
  Qed.

  Lemma fold_out t done : forall out, Forall (fun r => w_prompt D r < length out) done ->
    let out' := fold_left (fun o r => sappend c o (w_prompt D r) (sfinish D c t r)) done out in
    length out' = length out /\ forall i, nth i out' [] = nth i out [] ++ map (sfinish D c t) (filter (fun r => Nat.eqb (w_prompt D r) i) done).
  Proof.
    induction done as [|r done IH]; intros out F; simpl; [split; [reflexivity|intros; rewrite app_nil_r; reflexivity]|].
    inversion F as [|? ? F1 F2]; subst. destruct (IH (sappend c out (w_prompt D r) (sfinish D c t r))) as [A B].
    { unfold sappend. rewrite set_nth_length. exact F2. }
    split; [rewrite A; apply set_nth_length|]. intros i. rewrite B. unfold sappend. rewrite nth_set_nth.
    destruct (Nat.eqb_spec (w_prompt D r) i) as [<-|N]; simpl; [|reflexivity]. destruct (Nat.ltb_spec (w_prompt D r) (length out)); [|lia]. rewrite <- app_assoc. reflexivity.
  Qed.

  Lemma count_split i rs l : Forall2 (fun r (x : row * bool) => w_prompt D (fst x) = w_prompt D r) rs l ->
    cnt i (map fst (filter snd l)) + cnt i (map fst (filter (fun x => negb (snd x)) l)) = cnt i rs.
  Proof.
    unfold count. induction 1 as [|r x rs l E _ IH]; simpl; [reflexivity|]. destruct (snd x); simpl; rewrite E; destruct (Nat.eqb (w_prompt D r) i); simpl; lia.
  Qed.

  Record inv (t : nat) (s : sstate D c) : Prop := {
    iv_rows : Forall (live t) (s_rows D c s);
    iv_len : length (s_out D c s) = length prompts;
    iv_cnt : forall i, i < length prompts -> cnt i (s_rows D c s) + length (nth i (s_out D c s) []) = g_num c;
    iv_out : forall i, Forall (good_hyp i) (nth i (s_out D c s) []);
    iv_end : t = XS -> s_rows D c s = [] }.
  Definition final (s : sstate D c) : Prop :=
    length (s_out D c s) = length prompts /\ (forall i, i < length prompts -> length (nth i (s_out D c s) []) = g_num c) /\ forall i, Forall (good_hyp i) (nth i (s_out D c s) []).

  Lemma step_inv t s s' b : MP <= t -> 1 <= t -> t < XS -> inv t s -> sstep D c prompts t s = Some (s', b) -> if b then inv (t + 1) s' else final s'.
  Proof.
    intros H1 H2 H3 [I1 I2 I3 I4 I5]. unfold sstep. destruct (sstep_rows D c prompts t 0 (s_rows D c s)) as [l|] eqn:E; [|discriminate].
    apply step_rows_spec in E.
    assert (F : Forall2 (fun r (x : row * bool) => w_prompt D (fst x) = w_prompt D r /\ (if snd x then done_row t (fst x) else live (t + 1) (fst x)) /\ (t = XS - 1 -> snd x = true)) (s_rows D c s) l).
    { clear I2 I3 I4 I5. revert I1. induction E as [|r [r' b'] rs l E _ IH]; intros I1; constructor; inversion I1; subst; auto. apply step_row_live with (r := r); auto. }
    set (done := map fst (filter snd l)) in *. set (active := map fst (filter (fun x => negb (snd x)) l)) in *.
    assert (CS : forall i, cnt i done + cnt i active = cnt i (s_rows D c s)).
    { intros i. apply count_split. clear - F. induction F as [|? ? ? ? (A & _)]; constructor; auto. }
    assert (FD : Forall (done_row t) done).
    { unfold done. clear - F. induction F as [|r [r' b'] rs l (_ & A & _) _ IH]; simpl; [constructor|]. destruct b'; simpl in *; [constructor; auto|auto]. }
    assert (FA : Forall (live (t + 1)) active).
    { unfold active. clear - F. induction F as [|r [r' b'] rs l (_ & A & _) _ IH]; simpl; [constructor|]. destruct b'; simpl in *; [auto|constructor; auto]. }
    assert (EA : t + 1 = XS -> active = []).
    { intros Et. unfold active. assert (t = XS - 1) by lia. clear - F H. induction F as [|r [r' b'] rs l (_ & _ & A) _ IH]; simpl; [reflexivity|]. simpl in A. rewrite (A H). simpl. exact IH. }
    set (out := fold_left _ done (s_out D c s)).
    destruct (fold_out t done (s_out D c s)) as [O1 O2]; [rewrite I2; eapply Forall_impl; [|exact FD]; intros r [A _]; exact A|]. fold out in O1, O2.
    assert (OC : forall i, length (nth i out []) = length (nth i (s_out D c s) []) + cnt i done) by (intros i; rewrite O2, app_length, map_length; reflexivity).
    assert (OG : forall i, Forall (good_hyp i) (nth i out [])).
    { intros i. rewrite O2. apply Forall_app. split; [apply I4|]. apply Forall_forall. intros h Hh. apply in_map_iff in Hh. destruct Hh as (r & <- & Hr). apply filter_In in Hr. destruct Hr as [Hr Er].
      apply Nat.eqb_eq in Er. subst i. rewrite Forall_forall in FD. apply (FD r Hr). }
    assert (GO : inv (t + 1) (SState D c active out)).
    { constructor; cbn [s_rows s_out]; auto; [congruence|]. intros i Hi. specialize (I3 i Hi). specialize (CS i). rewrite OC. lia. }
    destruct done as [|d0 dl] eqn:ED.
    - intros K. inversion K; subst. exact GO.
    - destruct active as [|a0 al] eqn:EA'; intros K; inversion K; subst; [|exact GO].
      unfold final. cbn [s_out]. split; [congruence|]. split; [|exact OG]. intros i Hi. specialize (I3 i Hi). specialize (CS i). unfold count in CS at 2. simpl in CS. rewrite OC. lia.
  Qed.

  Lemma inv_final s : inv XS s -> final s.
  Proof. intros [I1 I2 I3 I4 I5]. split; [exact I2|]. split; [|exact I4]. intros i Hi. specialize (I3 i Hi). rewrite (I5 eq_refl) in I3. unfold count in I3. simpl in I3. exact I3. Qed.
  Lemma loop_inv n : forall t s s', MP <= t -> 1 <= t -> t + n = XS -> inv t s -> sloop D c prompts (seq t n) s = Some s' -> final s'.
  Proof.
    induction n as [|n IH]; intros t s s' H1 H2 H3 I E; simpl in E.
    - inversion E; subst. apply inv_final. rewrite <- H3, Nat.add_0_r. exact I.
    - destruct (sstep D c prompts t s) as [[s1 b]|] eqn:Es; [|discriminate]. assert (K := step_inv t s s1 b H1 H2 ltac:(lia) I Es). destruct b.
      + apply (IH (t + 1) s1 s'); try lia; [exact K|]. rewrite Nat.add_1_r. exact E.
      + inversion E; subst. exact K.
  Qed.

  Lemma insert_perm h l : Permutation (sinsert c h l) (h :: l).
  Proof. induction l as [|x l IH]; simpl; [constructor; constructor|]. destruct (below c h x); [|reflexivity]. rewrite IH. apply perm_swap. Qed.
  Lemma sort_perm l : Permutation (ssort c l) l.
  Proof.
    unfold ssort. assert (K : forall l acc, Permutation (fold_left (fun acc h => sinsert c h acc) l acc) (l ++ acc)).
    { clear l. induction l as [|x l IH]; intros acc; simpl; [reflexivity|]. rewrite IH. rewrite insert_perm. symmetry. apply Permutation_middle. }
    rewrite K, app_nil_r. reflexivity.
  Qed.

  Lemma nth_nils {A B} i (l : list A) : nth i (map (fun _ => []) l) [] = @nil B.
  Proof. revert i; induction l as [|x l IH]; intros [|i]; simpl; auto. Qed.

  Theorem generate_ok out : sgenerate D c prompts = SHyps c out ->
    length out = length prompts /\ forall i, i < length prompts -> length (nth i out []) = g_num c /\ Forall (good_hyp i) (nth i out []).
  Proof.
    unfold sgenerate. destruct (Nat.leb_spec (g_max_seq c) XP); [lia|].
    destruct (sloop D c prompts (seq MP (XS - MP)) (sinit_state D c prompts)) as [s|] eqn:EL; [|discriminate].
    intros E. assert (FN : final s).
    { destruct (list_eq_dec (list_eq_dec Nat.eq_dec) prompts []) as [NE|NE].
      - assert (Z : forall ts s s', s_rows D c s = [] -> s_out D c s = [] -> sloop D c prompts ts s = Some s' -> s_out D c s' = []).
        { clear. induction ts as [|t ts IH]; intros s s' R O H; simpl in H; [inversion H; subst; exact O|]. unfold sstep in H. rewrite R in H. simpl in H. eapply IH; [| |exact H]; [reflexivity|exact O]. }
        apply Z in EL.
        + unfold final. rewrite EL, NE. split; [reflexivity|]. split; [simpl; intros; lia|]. intros [|i]; constructor.
        + rewrite NE. unfold sinit_state, sprepare, mapi. simpl. destruct (1 <? g_num c); reflexivity.
        + rewrite NE. reflexivity.
      - pose proof (MP_pos c prompts Hs NE). pose proof (XS_bound c prompts Hs Hx). assert (MX : MP <= XP).
        { destruct prompts as [|p0 ps]; [congruence|]. etransitivity; [apply (min_prompt_le (p0 :: ps) p0); left; reflexivity|]. apply max_prompt_ge. left; reflexivity. }
        destruct (prepare_ok' D c prompts Hs Hx NE) as [P1 P2].
        apply (loop_inv (XS - MP) MP (sinit_state D c prompts)); try lia; [|exact EL]. constructor; cbn [s_rows s_out sinit_state].
        + eapply Forall_impl; [|exact P1]. intros r Hr. split; [exact Hr|]. intros _ j Hj. destruct Hr as [(p & N1 & N2 & _) _ _ _ _ _].
          assert (MP <= length p) by (apply min_prompt_le; eapply nth_error_In; exact N1). lia.
        + apply map_length.
        + intros i Hi. rewrite P2 by assumption. rewrite nth_nils. simpl. lia.
        + intros i. rewrite nth_nils. constructor.
        + lia. }
    destruct FN as (F1 & F2 & F3). inversion E as [E']. destruct (g_compute_scores c).
    - split; [rewrite map_length; exact F1|]. intros i Hi. rewrite nth_indep with (d' := ssort c []) by (rewrite map_length; lia). rewrite (map_nth (ssort c)).
      split; [rewrite (Permutation_length (sort_perm _)); apply F2, Hi|]. rewrite Forall_forall. intros h Hh. apply (Permutation_in _ (sort_perm _)) in Hh. specialize (F3 i). rewrite Forall_forall in F3. auto.
    - split; [exact F1|]. intros i Hi. split; [apply F2, Hi|apply F3].
  Qed.

  (** The order of the hypotheses. *)
  Definition better (x y : shyp c) : Prop := match y_score c x, y_score c y with Some a, Some b => g_leb c b a = true | _, _ => True end.
  Hypothesis Tot : forall a b, g_leb c a b = true \/ g_leb c b a = true.
  Hypothesis Tra : forall a b d, g_leb c a b = true -> g_leb c b d = true -> g_leb c a d = true.
  Lemma insert_sorted h l : y_score c h <> None -> (forall x, In x l -> y_score c x <> None) -> StronglySorted better l -> StronglySorted better (sinsert c h l).
  Proof.
    intros Hh Hl S. induction S as [|x l S IH F]; simpl; [constructor; constructor|]. unfold below. destruct (y_score c h) as [a|] eqn:Ea; [|congruence].
    destruct (y_score c x) as [b|] eqn:Eb; [|exfalso; apply (Hl x); [left; reflexivity|exact Eb]]. destruct (g_leb c a b) eqn:E.
    - constructor; [apply IH; intros; apply Hl; right; assumption|]. apply Forall_forall. intros y Hy. apply (Permutation_in _ (insert_perm h l)) in Hy. destruct Hy as [<-|Hy].
      + unfold better. rewrite Ea, Eb. exact E.
      + rewrite Forall_forall in F. auto.
    - assert (K : g_leb c b a = true) by (destruct (Tot a b); congruence). constructor; [constructor; assumption|]. constructor; [unfold better; rewrite Ea, Eb; exact K|].
      rewrite Forall_forall in *. intros y Hy. specialize (F y Hy). unfold better in *. rewrite Ea. rewrite Eb in F. destruct (y_score c y) as [d|]; [|exact I]. eapply Tra; eassumption.
  Qed.
  Lemma sort_sorted l : (forall x, In x l -> y_score c x <> None) -> StronglySorted better (ssort c l).
  Proof.
    unfold ssort. assert (K : forall l acc, (forall x, In x (l ++ acc) -> y_score c x <> None) -> StronglySorted better acc -> StronglySorted better (fold_left (fun acc h => sinsert c h acc) l acc)).
    { clear l. induction l as [|x l IH]; intros acc A B; simpl; [exact B|]. apply IH.
      - intros y Hy. apply in_app_or in Hy. destruct Hy as [Hy|Hy]; [apply A; right; apply in_or_app; left; exact Hy|]. apply (Permutation_in _ (insert_perm x acc)) in Hy. destruct Hy as [<-|Hy]; apply A; [left; reflexivity|right; apply in_or_app; right; exact Hy].
      - apply insert_sorted; [apply A; left; reflexivity| |exact B]. intros y Hy. apply A. right. apply in_or_app. right. exact Hy. }
    intros H. apply K; [rewrite app_nil_r; exact H|constructor].
  Qed.
  Theorem generate_sorted out : g_compute_scores c = true -> sgenerate D c prompts = SHyps c out -> forall i, StronglySorted better (nth i out []).
  Proof.
    intros CS E i. destruct (Nat.lt_ge_cases i (length out)) as [Hi|Hi]; [|rewrite nth_overflow by exact Hi; constructor].
    assert (GO := generate_ok out E). destruct GO as [GL GO]. rewrite GL in Hi.
    assert (SC : forall x, In x (nth i out []) -> y_score c x <> None).
    { destruct (GO i Hi) as [_ F]. rewrite Forall_forall in F. intros x Hx'. destruct (F x Hx') as (p & g & _ & [_ _ _ _ A] & _). rewrite CS in A. congruence. }
    unfold sgenerate in E. destruct (g_max_seq c <=? XP); [discriminate|]. destruct (sloop _ _ _ _ _) as [s|]; [|discriminate]. rewrite CS in E. inversion E; subst out. clear E GO.
    rewrite map_length in GL. rewrite nth_indep with (d' := ssort c []) in * by (rewrite map_length; lia). rewrite (map_nth (ssort c)) in *. apply sort_sorted.
    intros x Hx'. apply SC. apply (Permutation_in _ (Permutation_sym (sort_perm _))). exact Hx'.
  Qed.
End Run.
