(** Sorting, a concrete torch.topk and concrete scores. *)
From Coq Require Import List Bool Arith Lia ZArith Sorted Permutation.
From Verif Require Import Beam_Model Beam_Spec Beam_Proofs Beam_Proofs2.
Import ListNotations.

Section Sort.
  Variable S : scores.
  Hypothesis L : score_laws S.
  Definition desc (a b : hyp S) : Prop := leb S (h_score S b) (h_score S a) = true.
  Lemma insert_perm h l : Permutation (insert S h l) (h :: l).
  Proof. induction l as [|x l IH]; simpl; [apply Permutation_refl|]. destruct (leb S _ _); [|apply Permutation_refl]. rewrite IH. apply perm_swap. Qed.
  Lemma insert_sorted h l : StronglySorted desc l -> StronglySorted desc (insert S h l).
  Proof.
    induction 1 as [|x l Hs IH F]; simpl; [repeat constructor|]. destruct (leb S (h_score S h) (h_score S x)) eqn:E.
    - constructor; [exact IH|]. rewrite (insert_perm h l). constructor; [exact E|exact F].
    - assert (E2 : leb S (h_score S x) (h_score S h) = true) by (destruct (leb_total S L (h_score S h) (h_score S x)); congruence).
      constructor; [constructor; assumption|]. constructor; [exact E2|]. eapply Forall_impl; [|exact F]. intros y Hy. unfold desc in *. apply (leb_trans S L _ _ _ Hy E2).
  Qed.
  Lemma sort_perm l : Permutation (sort_hyps S l) l.
  Proof.
    unfold sort_hyps. assert (A : forall l acc, Permutation (fold_left (fun acc h => insert S h acc) l acc) (l ++ acc)).
    { induction l0 as [|x l0 IH]; intros acc; simpl; [apply Permutation_refl|]. rewrite IH, insert_perm. symmetry. apply Permutation_middle. }
    rewrite A, app_nil_r. apply Permutation_refl.
  Qed.
  Lemma sort_sorted l : StronglySorted desc (sort_hyps S l).
  Proof.
    unfold sort_hyps. assert (A : forall l acc, StronglySorted desc acc -> StronglySorted desc (fold_left (fun acc h => insert S h acc) l acc)).
    { induction l0 as [|x l0 IH]; intros acc H; simpl; [exact H|]. apply IH, insert_sorted, H. }
    apply A. constructor.
  Qed.
End Sort.

(** A torch.topk that prefers the lower index. *)
Section Topk.
  Variable S : scores.
  Fixpoint ins (l : list (Sc S)) (i : nat) (is : list nat) : list nat :=
    match is with [] => [i] | j :: is' => if leb S (nth i l (ninf S)) (nth j l (ninf S)) then j :: ins l i is' else i :: is end.
  Definition some_topk (k : nat) (l : list (Sc S)) : list nat := firstn k (fold_left (fun acc i => ins l i acc) (seq 0 (length l)) []).
  Hypothesis L : score_laws S.
  Let above (l : list (Sc S)) (i j : nat) : Prop := leb S (nth j l (ninf S)) (nth i l (ninf S)) = true.
  Lemma ins_perm l i is : Permutation (ins l i is) (i :: is).
  Proof. induction is as [|x is IH]; simpl; [apply Permutation_refl|]. destruct (leb S _ _); [|apply Permutation_refl]. rewrite IH. apply perm_swap. Qed.
  Lemma ins_sorted l i is : StronglySorted (above l) is -> StronglySorted (above l) (ins l i is).
  Proof.
    induction 1 as [|x is Hs IH F]; simpl; [repeat constructor|]. destruct (leb S (nth i l (ninf S)) (nth x l (ninf S))) eqn:E.
    - constructor; [exact IH|]. rewrite (ins_perm l i is). constructor; [exact E|exact F].
    - assert (E2 : leb S (nth x l (ninf S)) (nth i l (ninf S)) = true) by (destruct (leb_total S L (nth i l (ninf S)) (nth x l (ninf S))); congruence).
      constructor; [constructor; assumption|]. constructor; [exact E2|]. eapply Forall_impl; [|exact F]. intros y Hy. unfold above in *. apply (leb_trans S L _ _ _ Hy E2).
  Qed.
  Lemma StronglySorted_app {A} (R : A -> A -> Prop) l1 l2 : StronglySorted R (l1 ++ l2) -> StronglySorted R l1 /\ forall x y, In x l1 -> In y l2 -> R x y.
  Proof.
    induction l1 as [|a l1 IH]; simpl; intros H; [split; [constructor|intros x y []]|]. inversion H as [|? ? H1 H2]; subst. destruct (IH H1) as [I1 I2].
    rewrite Forall_app in H2. split; [constructor; tauto|]. intros x y [<-|Hx] Hy; [|auto]. destruct H2 as [_ H2]. rewrite Forall_forall in H2. auto.
  Qed.
  Lemma some_topk_ok : topk_ok S some_topk.
  Proof.
    intros k l Hk. unfold some_topk. set (srt := fold_left _ _ _).
    assert (A : forall is acc, Permutation (fold_left (fun acc i => ins l i acc) is acc) (is ++ acc)).
    { induction is as [|x is IH]; intros acc; simpl; [apply Permutation_refl|]. rewrite IH, ins_perm. symmetry. apply Permutation_middle. }
    assert (B : forall is acc, StronglySorted (above l) acc -> StronglySorted (above l) (fold_left (fun acc i => ins l i acc) is acc)).
    { induction is as [|x is IH]; intros acc H; simpl; [exact H|]. apply IH, ins_sorted, H. }
    assert (P : Permutation srt (seq 0 (length l))) by (unfold srt; rewrite A, app_nil_r; apply Permutation_refl).
    assert (Q : StronglySorted (above l) srt) by (apply B; constructor).
    assert (Ls : length srt = length l) by (rewrite (Permutation_length P); apply seq_length).
    rewrite <- (firstn_skipn k srt) in Q. destruct (StronglySorted_app _ _ _ Q) as [Q1 Q2].
    assert (N : NoDup (firstn k srt ++ skipn k srt)) by (rewrite firstn_skipn; apply (Permutation_NoDup (Permutation_sym P)), seq_NoDup).
    split; [rewrite firstn_length; lia|]. split.
    { clear -N. induction (firstn k srt) as [|x l' IH]; [constructor|]. simpl in N. inversion N; subst. constructor; auto. intros H. apply H1. apply in_or_app. auto. }
    split; [intros i Hi; apply In_firstn in Hi; apply (Permutation_in _ P), in_seq in Hi; lia|]. split; [exact Q1|].
    intros i j Hi Hj Hn. apply Q2; [exact Hi|]. assert (I : In j srt) by (apply (Permutation_in _ (Permutation_sym P)), in_seq; lia).
    rewrite <- (firstn_skipn k srt) in I. apply in_app_or in I. tauto.
  Qed.
End Topk.

(** Integers with -inf ([None]). *)
Definition ZS : scores := Scores (option Z) (Some 0%Z)
  (fun a b => match a, b with Some x, Some y => Some (x + y)%Z | _, _ => None end)
  (fun a b => match a, b with Some x, Some y => Some (x - y)%Z | _, _ => None end)
  (fun a b => match a, b with None, _ => true | _, None => false | Some x, Some y => (x <=? y)%Z end) None.
Lemma ZS_laws : score_laws ZS.
Proof.
  split; simpl.
  - intros [a|] [b|]; simpl; auto. f_equal. lia.
  - intros [a|] [b|] [d|]; simpl; auto. f_equal. lia.
  - intros [a|]; reflexivity.
  - intros [a|] [b|]; auto. destruct (Z.leb_spec a b); [auto|]. right. apply Z.leb_le. lia.
  - intros [a|] [b|] [d|]; auto; try discriminate. rewrite !Z.leb_le. lia.
  - reflexivity.
  - reflexivity.
  - unfold finite. simpl. intros [a|] [b|]; simpl; split; auto; try tauto; try discriminate; try (intros [? ?]; discriminate).
Qed.

Section Runs.
  Variable S : scores.
  Variable D : decoder S.
  Variable c : config S.
  Variable prompts : list (list nat).
  Lemma loop_steps n : forall t s s', loop S D c prompts (seq t n) s = Ok _ s' -> exists m, m <= n /\ steps S D c prompts t m s s'.
  Proof.
    induction n as [|n IH]; intros t s s' H; simpl in H.
    - injection H as <-. exists 0. split; [lia|constructor].
    - destruct (step S D c prompts t s) as [[s1 []]|] eqn:E; [| |discriminate].
      + apply IH in H. destruct H as (m & Hm & Hst). exists (m + 1). split; [lia|]. eapply steps_more; [exact E|]. rewrite Nat.add_1_r. exact Hst.
      + injection H as <-. exists 1. split; [lia|]. apply steps_end. exact E.
  Qed.
End Runs.
