(** The samplers. *)
From Coq Require Import List Bool Arith Lia QArith Sorted Permutation Lqa.
From Verif Require Import Beam_Model Sampling_Model Sampling_Spec.
Import ListNotations.
Open Scope nat_scope.

Section Sums.
  Open Scope Q_scope.
  Lemma qsum_app a b : qsum (a ++ b) == qsum a + qsum b.
  Proof. unfold qsum. induction a as [|x a IH]; simpl; [ring|]. rewrite IH. ring. Qed.
  Lemma qsum_nonneg l : (forall x, In x l -> 0 <= x) -> 0 <= qsum l.
  Proof.
    unfold qsum. induction l as [|x l IH]; intros H; simpl; [lra|].
    pose proof (H x (or_introl eq_refl)). assert (0 <= fold_right Qplus 0 l) by (apply IH; intros; apply H; right; assumption). lra.
  Qed.
  Lemma qsum_perm a b : Permutation a b -> qsum a == qsum b.
  Proof. induction 1; unfold qsum in *; simpl; try lra. Qed.
  Lemma qsum_map_le {A} (f g : A -> Q) l : (forall x, In x l -> f x <= g x) -> qsum (map f l) <= qsum (map g l).
  Proof.
    unfold qsum. induction l as [|x l IH]; intros H; simpl; [lra|]. pose proof (H x (or_introl eq_refl)).
    assert (fold_right Qplus 0 (map f l) <= fold_right Qplus 0 (map g l)) by (apply IH; intros; apply H; right; assumption). lra.
  Qed.
  Lemma qsum_map_ext {A} (f g : A -> Q) l : (forall x, In x l -> f x == g x) -> qsum (map f l) == qsum (map g l).
  Proof. intros H. apply Qle_antisym; apply qsum_map_le; intros x Hx; rewrite (H x Hx); apply Qle_refl. Qed.
  Lemma qsum_map_plus {A} (f : A -> Q) a l : qsum (map (fun x => f x + a) l) == qsum (map f l) + inject_Z (Z.of_nat (length l)) * a.
  Proof.
    unfold qsum. induction l as [|x l IH]; [simpl; ring|]. cbn [map fold_right length]. rewrite IH, Nat2Z.inj_succ. unfold Z.succ. rewrite inject_Z_plus. simpl (inject_Z 1). ring.
  Qed.
  Lemma qsum_map_scale {A} (f : A -> Q) a l : qsum (map (fun x => f x / a) l) == qsum (map f l) / a.
  Proof. unfold qsum. induction l as [|x l IH]; simpl; [unfold Qdiv; ring|]. rewrite IH. unfold Qdiv. ring. Qed.
  Lemma map_nth_seq (l : list Q) : map (fun i => nth i l 0) (seq 0 (length l)) = l.
  Proof.
    induction l as [|x l IH]; [reflexivity|]. cbn [length seq map]. f_equal. rewrite <- seq_shift, map_map. exact IH.
  Qed.

  Lemma sub_perm (M : list nat) n : NoDup M -> (forall i, In i M -> (i < n)%nat) -> exists R, Permutation (seq 0 n) (M ++ R).
  Proof.
    intros N H. exists (filter (fun x => negb (existsb (Nat.eqb x) M)) (seq 0 n)). apply NoDup_Permutation; [apply seq_NoDup| |].
    - assert (F : NoDup (filter (fun x => negb (existsb (Nat.eqb x) M)) (seq 0 n))) by (apply NoDup_filter, seq_NoDup).
      assert (Dj : forall x, In x M -> ~ In x (filter (fun x => negb (existsb (Nat.eqb x) M)) (seq 0 n))).
      { intros x Hx Hf. apply filter_In in Hf. destruct Hf as [_ Hf]. assert (E : existsb (Nat.eqb x) M = true) by (apply existsb_exists; exists x; split; [exact Hx|apply Nat.eqb_refl]). rewrite E in Hf. discriminate. }
      revert F Dj. generalize (filter (fun x => negb (existsb (Nat.eqb x) M)) (seq 0 n)). intros l F Dj. clear H.
      induction N as [|x M Hx N IH]; simpl; [exact F|]. constructor.
      + rewrite in_app_iff. intros [K|K]; [auto|]. apply (Dj x); [left; reflexivity|exact K].
      + apply IH. intros y Hy. apply Dj. right; exact Hy.
    - intros x. rewrite in_app_iff, filter_In, in_seq. split.
      + intros Hx. destruct (existsb (Nat.eqb x) M) eqn:E; [|right; split; [lia|reflexivity]]. left. apply existsb_exists in E. destruct E as (y & Hy & E). apply Nat.eqb_eq in E. subst. exact Hy.
      + intros [K|[K _]]; [specialize (H x K); lia|lia].
  Qed.

  (** A set of tokens has at most the mass of equally many most probable ones. *)
  Lemma mass_top l N M : top_set l N -> NoDup M -> (forall i, In i M -> (i < length l)%nat) -> (length M <= length N)%nat -> (forall x, In x l -> 0 <= x) -> mass l M <= mass l N.
  Proof.
    intros (N1 & N2 & N3) M1 M2 LE NN.
    assert (NNi : forall i, 0 <= nth i l 0). { intros i. destruct (Nat.lt_ge_cases i (length l)); [apply NN, nth_In; assumption|]. rewrite nth_overflow by assumption. lra. }
    assert (TH : exists th, 0 <= th /\ (forall i, In i N -> th <= nth i l 0) /\ (forall j, (j < length l)%nat -> ~ In j N -> nth j l 0 <= th \/ N = [])).
    { clear M M1 M2 LE N1 N2. assert (K : N = [] \/ exists m, In m N /\ forall i, In i N -> nth m l 0 <= nth i l 0).
      { clear N3. induction N as [|x N IH]; [left; reflexivity|]. right. destruct IH as [->|(m & Hm & Hi)].
        - exists x. split; [left; reflexivity|]. intros i [<-|[]]. lra.
        - destruct (Qlt_le_dec (nth x l 0) (nth m l 0)).
          + exists x. split; [left; reflexivity|]. intros i [<-|Hx]; [lra|]. specialize (Hi i Hx). lra.
          + exists m. split; [right; exact Hm|]. intros i [<-|Hx]; [lra|auto]. }
      destruct K as [->|(m & Hm & Hi)].
      - exists 0. split; [lra|]. split; [intros i []|]. intros; right; reflexivity.
      - exists (nth m l 0). split; [apply NNi|]. split; [exact Hi|]. intros j J1 J2. left. apply N3; auto. }
    destruct TH as (th & T0 & T1 & T2).
    destruct N as [|n0 N0]; [destruct M; simpl in LE; [unfold mass; simpl; lra|lia]|]. set (N := n0 :: N0) in *.
    set (pos := fun i => if Qlt_le_dec th (nth i l 0) then nth i l 0 - th else 0).
    assert (P0 : forall i, 0 <= pos i) by (intros i; unfold pos; destruct (Qlt_le_dec th (nth i l 0)); lra).
    assert (P1 : forall i, nth i l 0 <= pos i + th) by (intros i; unfold pos; destruct (Qlt_le_dec th (nth i l 0)); lra).
    assert (P2 : forall i, In i N -> nth i l 0 == pos i + th). { intros i Hi. specialize (T1 i Hi). unfold pos; destruct (Qlt_le_dec th (nth i l 0)); lra. }
    assert (P3 : forall j, (j < length l)%nat -> ~ In j N -> pos j == 0). { intros j J1 J2. destruct (T2 j J1 J2) as [K|K]; [|discriminate]. unfold pos; destruct (Qlt_le_dec th (nth j l 0)); lra. }
    destruct (sub_perm M (length l) M1 M2) as (RM & PM). destruct (sub_perm N (length l) N1 N2) as (RN & PN).
    assert (SM : qsum (map pos M) <= qsum (map pos (seq 0 (length l)))).
    { rewrite (qsum_perm _ _ (Permutation_map pos PM)), map_app, qsum_app. assert (0 <= qsum (map pos RM)); [|lra].
      apply qsum_nonneg. intros x Hx. apply in_map_iff in Hx. destruct Hx as (y & <- & _). apply P0. }
    assert (SN : qsum (map pos (seq 0 (length l))) == qsum (map pos N)).
    { rewrite (qsum_perm _ _ (Permutation_map pos PN)), map_app, qsum_app. assert (E : qsum (map pos RN) == 0); [|rewrite E; ring].
      rewrite (qsum_map_ext pos (fun _ => 0)). { clear. unfold qsum. induction RN; simpl; [reflexivity|]. rewrite IHRN. reflexivity. }
      intros x Hx. assert (ND : NoDup (N ++ RN)) by (eapply Permutation_NoDup; [exact PN|apply seq_NoDup]).
      apply P3; [assert (I : In x (seq 0 (length l))) by (eapply Permutation_in; [apply Permutation_sym, PN|apply in_or_app; right; exact Hx]); apply in_seq in I; lia|].
      intros HN. clear - ND Hx HN. induction N as [|a N IH]; [destruct HN|]. simpl in ND. inversion ND; subst. destruct HN as [->|HN]; [apply H1, in_or_app; right; exact Hx|auto]. }
    unfold mass. assert (A : qsum (map (fun i => nth i l 0) M) <= qsum (map pos M) + inject_Z (Z.of_nat (length M)) * th).
    { rewrite <- qsum_map_plus. apply qsum_map_le. intros; apply P1. }
    assert (B : qsum (map (fun i => nth i l 0) N) == qsum (map pos N) + inject_Z (Z.of_nat (length N)) * th).
    { rewrite <- qsum_map_plus. apply qsum_map_ext. exact P2. }
    assert (C : inject_Z (Z.of_nat (length M)) <= inject_Z (Z.of_nat (length N))) by (rewrite <- Zle_Qle; lia).
    assert (E : inject_Z (Z.of_nat (length M)) * th <= inject_Z (Z.of_nat (length N)) * th) by (apply Qmult_le_compat_r; assumption).
    lra.
  Qed.
End Sums.

Section TopP.
  Open Scope Q_scope.
  Lemma nth_qnorm l i : nth i (qnorm l) 0 == nth i l 0 / qsum l.
  Proof.
    unfold qnorm. destruct (Nat.lt_ge_cases i (length l)) as [H|H].
    - rewrite nth_indep with (d' := 0 / qsum l) by (rewrite map_length; exact H). rewrite (map_nth (fun x => x / qsum l)). reflexivity.
    - rewrite !nth_overflow by (rewrite ?map_length; exact H). unfold Qdiv. ring.
  Qed.
  Lemma qnorm_length l : length (qnorm l) = length l.
  Proof. apply map_length. Qed.
  Lemma mass_qnorm l N : mass (qnorm l) N == mass l N / qsum l.
  Proof. unfold mass. rewrite <- qsum_map_scale. apply qsum_map_ext. intros. apply nth_qnorm. Qed.
  Lemma div_le_iff a b t : 0 < t -> (a / t <= b / t <-> a <= b).
  Proof.
    intros T. split; intros H.
    - apply (Qmult_le_compat_r _ _ t) in H; [|lra]. rewrite !(Qmult_comm _ t), !Qmult_div_r in H by lra. exact H.
    - unfold Qdiv. apply Qmult_le_compat_r; [exact H|]. apply Qlt_le_weak, Qinv_lt_0_compat, T.
  Qed.
  Lemma div_le_r a p t : 0 < t -> (a / t <= p <-> a <= p * t).
  Proof.
    intros T. rewrite <- (div_le_iff a (p * t) t T). assert (E : p * t / t == p) by (field; lra). rewrite E. tauto.
  Qed.

  Lemma nucleus_zero p l : forall acc, (forall x, In x l -> 0 <= x) -> p < acc -> nucleus p acc l = repeat 0 (length l).
  Proof.
    induction l as [|x l IH]; intros acc NN H; simpl; [reflexivity|].
    destruct (Qle_bool (acc + x - x) p) eqn:E; [apply Qle_bool_iff in E; lra|]. f_equal. apply IH; [intros; apply NN; right; assumption|].
    pose proof (NN x (or_introl eq_refl)). lra.
  Qed.
  Lemma nucleus_spec p l : forall acc, (forall x, In x l -> 0 <= x) -> exists n, (n <= length l)%nat /\ nucleus p acc l = firstn n l ++ repeat 0 (length l - n) /\
    (forall m, (m < n)%nat -> acc + qsum (firstn m l) <= p) /\ (n = length l \/ p < acc + qsum (firstn n l)).
  Proof.
    induction l as [|x l IH]; intros acc NN.
    - exists 0%nat. simpl. repeat split; auto. intros; lia.
    - simpl. destruct (Qle_bool (acc + x - x) p) eqn:E.
      + apply Qle_bool_iff in E. destruct (IH (acc + x)) as (n & L & EQ & A & B); [intros; apply NN; right; assumption|].
        exists (S n). split; [simpl; lia|]. split; [rewrite EQ; reflexivity|]. split.
        * intros [|m] Hm; simpl; [unfold qsum; simpl; lra|]. specialize (A m ltac:(lia)). unfold qsum in *. simpl. lra.
        * destruct B as [B|B]; [left; simpl; lia|right]. unfold qsum in *. simpl. lra.
      + assert (p < acc). { destruct (Qlt_le_dec p acc); [assumption|]. assert (K : acc + x - x <= p) by lra. apply Qle_bool_iff in K. congruence. }
        exists 0%nat. split; [lia|]. split; [|split; [intros; lia|right; simpl; lra]]. simpl. rewrite nucleus_zero; auto.
        * intros; apply NN; right; assumption.
        * pose proof (NN x (or_introl eq_refl)). lra.
  Qed.

  Lemma sorted_split (R : nat -> nat -> Prop) a b : StronglySorted R (a ++ b) -> forall i j, In i a -> In j b -> R i j.
  Proof.
    induction a as [|x a IH]; simpl; intros H i j Hi Hj; [destruct Hi|]. inversion H; subst. destruct Hi as [->|Hi]; [|apply IH; assumption].
    rewrite Forall_forall in H3. apply H3, in_or_app. right; exact Hj.
  Qed.
  Lemma top_firstn f l n : sortd_ok f -> top_set l (firstn n (f l)).
  Proof.
    intros H. destruct (H l) as [P S]. assert (ND : NoDup (f l)) by (eapply Permutation_NoDup; [exact P|apply seq_NoDup]).
    assert (RG : forall i, In i (f l) -> (i < length l)%nat) by (intros i Hi; apply Permutation_sym in P; apply (Permutation_in _ P) in Hi; apply in_seq in Hi; lia).
    rewrite <- (firstn_skipn n (f l)) in ND, S. repeat split.
    - clear - ND. induction (firstn n (f l)) as [|x a IH]; [constructor|]. inversion ND; subst. constructor; [intros K; apply H1, in_or_app; left; exact K|auto].
    - intros i Hi. apply RG. rewrite <- (firstn_skipn n). apply in_or_app. left; exact Hi.
    - intros i j Hi Hj Nj. apply (sorted_split _ _ _ S); [exact Hi|]. assert (K : In j (f l)) by (apply (Permutation_in _ P), in_seq; lia).
      rewrite <- (firstn_skipn n) in K. apply in_app_or in K. tauto.
  Qed.
  Lemma top_qnorm l N : 0 < qsum l -> top_set (qnorm l) N -> top_set l N.
  Proof.
    intros T (A & B & C). rewrite qnorm_length in *. repeat split; auto. intros i j Hi Hj Nj. specialize (C i j Hi Hj Nj).
    rewrite !nth_qnorm in C. apply (div_le_iff _ _ _ T). exact C.
  Qed.

  Variable R : Type.
  Variable mult : R -> list Q -> option nat.
  Variable sortd : list Q -> list nat.
  Hypothesis Hm : multinomial_ok mult.
  Hypothesis Hs : sortd_ok sortd.

  Lemma firstn_map_nth l n idx : mass l (firstn n idx) = qsum (firstn n (map (fun i => nth i l 0) idx)).
  Proof. unfold mass. rewrite firstn_map. reflexivity. Qed.
  Lemma nonneg_nth l i : (forall x, In x l -> 0 <= x) -> 0 <= nth i l 0.
  Proof. intros H. destruct (Nat.lt_ge_cases i (length l)); [apply H, nth_In; assumption|]. rewrite nth_overflow by assumption. lra. Qed.
  Lemma qnorm_nonneg l : (forall x, In x l -> 0 <= x) -> forall x, In x (qnorm l) -> 0 <= x.
  Proof.
    intros H x Hx. apply in_map_iff in Hx. destruct Hx as (y & <- & Hy). pose proof (qsum_nonneg l H). specialize (H y Hy).
    destruct (Qlt_le_dec 0 (qsum l)) as [P|P].
    - unfold Qdiv. apply Qmult_le_0_compat; [exact H|]. apply Qlt_le_weak, Qinv_lt_0_compat, P.
    - assert (E : qsum l == 0) by lra. rewrite E. unfold Qdiv. rewrite Qmult_0_r. lra.
  Qed.
  Lemma idx_length l : length (sortd l) = length l.
  Proof. destruct (Hs l) as [P _]. rewrite <- (Permutation_length P), seq_length. reflexivity. Qed.
  Lemma pos_quot a b : 0 < a / b -> 0 <= a -> 0 < a.
  Proof. intros H K. destruct (Qlt_le_dec 0 a); [assumption|]. assert (E : a == 0) by lra. rewrite E in H. unfold Qdiv in H. lra. Qed.

  Theorem top_p_main p l : (forall x, In x l -> 0 <= x) -> 0 < qsum l ->
    exists N, is_nucleus p l N /\ (forall r v, top_p R mult sortd p r l = Some v -> In v N /\ 0 < nth v l 0) /\
      ((forall q j, (forall x, In x q -> 0 <= x) -> 0 < nth j q 0 -> exists r, mult r q = Some j) -> forall v, In v N -> 0 < nth v l 0 -> exists r, top_p R mult sortd p r l = Some v).
  Proof.
    intros NN T. set (idx := sortd (qnorm l)). set (vals := map (fun i => nth i (qnorm l) 0) idx).
    assert (VN : forall x, In x vals -> 0 <= x). { intros x Hx. apply in_map_iff in Hx. destruct Hx as (i & <- & _). apply nonneg_nth, qnorm_nonneg, NN. }
    assert (LV : length vals = length l) by (unfold vals, idx; rewrite map_length, idx_length, qnorm_length; reflexivity).
    destruct (nucleus_spec p vals 0 VN) as (n & L & EQ & A & B). rewrite LV in *.
    assert (LI : length idx = length l) by (unfold idx; rewrite idx_length; apply qnorm_length).
    exists (firstn n idx).
    assert (MS : forall m, mass l (firstn m idx) / qsum l == qsum (firstn m vals)) by (intros m; rewrite <- mass_qnorm, firstn_map_nth; reflexivity).
    split; [|split].
    - split; [apply top_qnorm, top_firstn; assumption|]. split.
      + destruct B as [B|B]; [right; rewrite firstn_length, LI; lia|left]. rewrite <- MS in B. destruct (Qlt_le_dec (p * qsum l) (mass l (firstn n idx))); [assumption|].
        apply (div_le_r _ _ _ T) in q. lra.
      + intros M M1 M2 M3. rewrite firstn_length, LI, Nat.min_l in M3 by lia. eapply Qle_trans; [apply (mass_top l (firstn (length M) idx) M); auto|].
        * apply top_qnorm, top_firstn; assumption.
        * rewrite firstn_length, LI. lia.
        * apply (div_le_r _ _ _ T). rewrite MS. specialize (A (length M) M3). lra.
    - intros r v. unfold top_p. fold idx. fold vals. destruct (mult r (qnorm (nucleus p 0 vals))) as [j|] eqn:E; [|discriminate]. intros K. inversion K; subst v; clear K.
      destruct (Hm _ _ _ E) as (_ & J1 & J2). rewrite qnorm_length in J1. rewrite nth_qnorm, EQ in J2.
      assert (JN : (j < n)%nat). { destruct (Nat.lt_ge_cases j n); [assumption|]. rewrite app_nth2 in J2 by (rewrite firstn_length, LV; lia).
        rewrite nth_repeat in J2. unfold Qdiv in J2. lra. }
      rewrite app_nth1 in J2 by (rewrite firstn_length, LV; lia). set (q := qsum _) in J2.
      assert (J3 : 0 < nth j (firstn n vals) 0). { apply (pos_quot _ q); [exact J2|]. apply nonneg_nth. intros x Hx. apply VN. rewrite <- (firstn_skipn n). apply in_or_app. left; exact Hx. }
      assert (F : forall (l : list Q) d, nth j (firstn n l) d = nth j l d). { clear - JN. revert j JN. induction n; intros j JN l d; [lia|]. destruct l, j; simpl; auto. apply IHn. lia. }
      rewrite F in J3. unfold vals in J3. rewrite nth_indep with (d' := nth 0%nat (qnorm l) 0) in J3 by (fold vals; lia).
      rewrite (map_nth (fun i => nth i (qnorm l) 0)), nth_qnorm in J3. split.
      + rewrite <- (firstn_skipn n idx) at 1. rewrite app_nth1 by (rewrite firstn_length; lia). apply nth_In. rewrite firstn_length. lia.
      + apply (pos_quot _ (qsum l)); [exact J3|]. apply nonneg_nth, NN.
    - intros C v Hv Pv. apply In_nth with (d := 0%nat) in Hv. destruct Hv as (j & J1 & J2). rewrite firstn_length, LI in J1.
      assert (F : forall (l : list nat) d, nth j (firstn n l) d = nth j l d). { clear - J1. assert (JN : (j < n)%nat) by lia. clear J1. revert j JN. induction n; intros j JN q d; [lia|]. destruct q, j; simpl; auto. apply IHn. lia. }
      rewrite F in J2.
      assert (KN : forall x, In x (nucleus p 0 vals) -> 0 <= x). { rewrite EQ. intros x Hx. apply in_app_or in Hx. destruct Hx as [Hx|Hx]; [apply VN; rewrite <- (firstn_skipn n); apply in_or_app; left; exact Hx|]. apply repeat_spec in Hx. subst. lra. }
      assert (KJ : nth j (nucleus p 0 vals) 0 == nth v l 0 / qsum l).
      { rewrite EQ, app_nth1 by (rewrite firstn_length, LV; lia).
        assert (F' : nth j (firstn n vals) 0 = nth j vals 0). { clear - J1. assert (JN : (j < n)%nat) by lia. clear J1. revert j JN. generalize vals. induction n; intros q j JN; [lia|]. destruct q, j; simpl; auto. apply IHn. lia. }
        rewrite F'. unfold vals. rewrite nth_indep with (d' := nth 0%nat (qnorm l) 0) by (fold vals; lia). rewrite (map_nth (fun i => nth i (qnorm l) 0)), nth_qnorm, J2. reflexivity. }
      assert (KP : 0 < nth j (nucleus p 0 vals) 0). { rewrite KJ. unfold Qdiv. apply Qmult_lt_0_compat; [exact Pv|]. apply Qinv_lt_0_compat, T. }
      assert (KS : 0 < qsum (nucleus p 0 vals)).
      { clear - KN KP. revert j KP. induction (nucleus p 0 vals) as [|x q IH]; intros j KP; [destruct j; simpl in KP; lra|]. unfold qsum in *. simpl.
        pose proof (KN x (or_introl eq_refl)). assert (Q0 : 0 <= fold_right Qplus 0 q) by (apply (qsum_nonneg q); intros; apply KN; right; assumption).
        destruct j; simpl in KP; [lra|]. assert (0 < fold_right Qplus 0 q) by (apply (IH ltac:(intros; apply KN; right; assumption) j KP)). lra. }
      destruct (C (qnorm (nucleus p 0 vals)) j) as (r & Hr0).
      + apply qnorm_nonneg, KN.
      + rewrite nth_qnorm. unfold Qdiv. apply Qmult_lt_0_compat; [exact KP|]. apply Qinv_lt_0_compat, KS.
      + exists r. unfold top_p. fold idx. fold vals. rewrite Hr0, J2. reflexivity.
  Qed.

  Variable topk : nat -> list Q -> list nat.
  Variable argmax : list Q -> nat.
  Hypothesis Hk : qtopk_ok topk.
  Hypothesis Ha : argmax_ok argmax.
  Lemma argmax_top l : l <> [] -> top_set l [argmax l].
  Proof.
    intros N. destruct (Ha l N) as [A B]. split; [constructor; [simpl; tauto|constructor]|]. split; [intros i [<-|[]]; exact A|]. intros i j [<-|[]] Hj _. apply B, Hj.
  Qed.
  Theorem top_k_main k l : l <> [] -> (1 <= k)%nat ->
    exists N, top_set l N /\ length N = Nat.min k (length l) /\
      (forall r v, top_k R mult topk argmax k r l = Some v -> In v N) /\
      ((forall x, In x l -> 0 <= x) -> (exists x, In x l /\ 0 < x) -> forall r v, top_k R mult topk argmax k r l = Some v -> 0 < nth v l 0) /\
      ((2 <= k)%nat -> (2 <= length l)%nat -> (forall x, In x l -> 0 <= x) -> forall r v, top_k R mult topk argmax k r l = Some v -> 0 < nth v l 0) /\
      ((forall x, In x l -> 0 <= x) -> (forall q j, (forall x, In x q -> 0 <= x) -> 0 < nth j q 0 -> exists r, mult r q = Some j) -> inhabited R -> forall v, In v N -> 0 < nth v l 0 -> exists r, top_k R mult topk argmax k r l = Some v).
  Proof.
    intros NE K1. assert (L1 : (1 <= length l)%nat) by (destruct l; [congruence|simpl; lia]). unfold top_k.
    destruct (Nat.eqb_spec (Nat.min k (length l)) 1) as [E|E].
    - exists [argmax l]. split; [apply argmax_top, NE|]. split; [simpl; lia|]. split; [intros _ v H; inversion H; left; reflexivity|]. split; [|split].
      + intros NN (x & Hx & Px) _ v H. inversion H; subst v. destruct (Ha l NE) as [_ B]. apply In_nth with (d := 0) in Hx. destruct Hx as (i & Hi & <-). specialize (B i Hi). lra.
      + intros; lia.
      + intros _ _ [r] v [<-|[]] _. exists r. reflexivity.
    - set (k' := Nat.min k (length l)) in *. destruct (Hk k' l) as (A & B & C & F); [lia|]. exists (topk k' l). split; [repeat split; auto|]. split; [exact A|].
      set (vals := map (fun i => nth i l 0) (topk k' l)). assert (LV : length vals = k') by (unfold vals; rewrite map_length; exact A).
      assert (VJ : forall j, (j < k')%nat -> nth j vals 0 = nth (nth j (topk k' l) 0%nat) l 0).
      { intros j Hj. unfold vals. rewrite nth_indep with (d' := nth 0%nat l 0) by (rewrite map_length; lia). apply (map_nth (fun i => nth i l 0)). }
      assert (PV : (forall x, In x l -> 0 <= x) -> forall r j, mult r (qnorm vals) = Some j -> 0 < nth (nth j (topk k' l) 0%nat) l 0).
      { intros NN r j Hj. destruct (Hm _ _ _ Hj) as (_ & J1 & J2). rewrite qnorm_length, LV in J1. rewrite nth_qnorm, VJ in J2 by lia. apply pos_quot in J2; [exact J2|]. apply nonneg_nth, NN. }
      split; [|split; [|split]].
      + intros r v. destruct (mult r (qnorm vals)) as [j|] eqn:Ej; [|discriminate]. intros H. inversion H; subst v. destruct (Hm _ _ _ Ej) as (_ & J1 & _). rewrite qnorm_length, LV in J1. apply nth_In. lia.
      + intros NN _ r v. destruct (mult r (qnorm vals)) as [j|] eqn:Ej; [|discriminate]. intros H. inversion H; subst v. apply (PV NN r j Ej).
      + intros _ _ NN r v. destruct (mult r (qnorm vals)) as [j|] eqn:Ej; [|discriminate]. intros H. inversion H; subst v. apply (PV NN r j Ej).
      + intros NN Cm _ v Hv Pv. apply In_nth with (d := 0%nat) in Hv. destruct Hv as (j & J1 & J2). rewrite A in J1.
        assert (KN : forall x, In x vals -> 0 <= x) by (intros x Hx; apply in_map_iff in Hx; destruct Hx as (i & <- & _); apply nonneg_nth, NN).
        assert (KP : 0 < nth j vals 0) by (rewrite VJ, J2 by lia; exact Pv).
        assert (KS : 0 < qsum vals).
        { clear - KN KP. revert j KP. induction vals as [|x q IH]; intros j KP; [destruct j; simpl in KP; lra|]. unfold qsum in *. simpl.
          pose proof (KN x (or_introl eq_refl)). assert (Q0 : 0 <= fold_right Qplus 0 q) by (apply (qsum_nonneg q); intros; apply KN; right; assumption).
          destruct j; simpl in KP; [lra|]. assert (0 < fold_right Qplus 0 q) by (apply (IH ltac:(intros; apply KN; right; assumption) j KP)). lra. }
        destruct (Cm (qnorm vals) j) as (r & Hr); [apply qnorm_nonneg, KN| |].
        * rewrite nth_qnorm. unfold Qdiv. apply Qmult_lt_0_compat; [exact KP|]. apply Qinv_lt_0_compat, KS.
        * exists r. rewrite Hr, J2. reflexivity.
  Qed.
End TopP.
