(** C39, C40: the step processors. *)
From Coq Require Import ZArith List Bool Arith Lia.
From Verif Require Import StepProc_Model StepProc_Spec StepProc_Proofs.
Import ListNotations.
Local Open Scope Z_scope.

(** ** C39 *)

(** In every row exactly the tokens that would complete a banned sequence are overwritten with the ban value. *)
Theorem C39_banned : forall R bs (ban : R) V seqs probs, bs <> [] -> Forall (fun s => s <> []) bs -> Forall (tokens V) bs ->
  length seqs = length probs -> Forall (fun p => length p = V) probs ->
  exists qs, banned_call R (banned_ctor bs) ban seqs probs = Some qs /\ length qs = length probs /\
    forall k, (k < length probs)%nat -> overwritten (completes_banned bs (nth k seqs [])) ban (nth k probs []) (nth k qs []).
Proof.
  intros R bs ban V seqs probs HN HE HT HL HP.
  assert (HB : exists b, banned_ctor bs = Enabled b).
  { unfold banned_ctor. destruct bs as [|s bs']; [congruence|]. rewrite (proj2 (find_empty_none _ 0) HE). destruct (Nat.eqb _ _); eauto. }
  destruct HB as (b & HB). rewrite HB. cbn [banned_call].
  apply (rows_lemma R (banned_row R b ban) (fun _ p => length p = V) (fun s p q => overwritten (completes_banned bs s) ban p q)); [assumption| |].
  - intros s p Hp. destruct (banned_row_lemma R bs ban s p HN HE) as (b' & q & HB' & HQ); [rewrite Hp; assumption|]. rewrite HB in HB'. injection HB' as <-. eauto.
  - apply Forall_forall. intros [s p] Hsp. apply in_combine_r in Hsp. rewrite Forall_forall in HP. apply HP. exact Hsp.
Qed.
Print Assumptions C39_banned.

(** No sequence to ban: nothing changes; an empty banned sequence is rejected. *)
Theorem C39_ctor : forall R (ban : R) seqs probs, banned_call R (banned_ctor []) ban seqs probs = Some probs /\
  forall bs, (exists s, In s bs /\ s = []) <-> exists i, banned_ctor bs = CtorError i.
Proof.
  intros R ban seqs probs. split; [reflexivity|]. intros bs. split.
  - intros (s & Hs & ->). unfold banned_ctor. destruct bs as [|x bs]; [destruct Hs|]. destruct (find_empty 0 (x :: bs)) eqn:E; [eauto|].
    apply find_empty_none in E. rewrite Forall_forall in E. exfalso. exact (E [] Hs eq_refl).
  - intros (i & H). unfold banned_ctor in H. destruct bs as [|x bs]; [discriminate|]. destruct (find_empty 0 (x :: bs)) eqn:E; [|destruct (Nat.eqb _ _); discriminate].
    clear H. revert E. generalize (x :: bs) as l, 0%nat as k. induction l as [|[|y s] l IH]; intros k E; simpl in E; [discriminate|exists []; simpl; auto|].
    destruct (IH _ E) as (t & Ht & ->). exists []. simpl. auto.
Qed.
Print Assumptions C39_ctor.

(** Hence a continuation whose tokens are never banned when they are chosen contains no banned sequence that ends in the
    generated part. *)
Theorem C39_never_generated : forall bs prompt s, grown (completes_banned bs) prompt s ->
  forall a b c, In b bs -> s = a ++ b ++ c -> (length (a ++ b) <= length prompt)%nat.
Proof. exact grown_banned. Qed.
Print Assumptions C39_never_generated.

Example C39_example : banned_call Z (banned_ctor [[1; 2]; [3]; [0; 1; 3]]) (-1) [[0; 1]; [2; 2]] [[10; 10; 10; 10]; [10; 10; 10; 10]] = Some [[10; 10; -1; -1]; [10; 10; 10; -1]].
Proof. reflexivity. Qed.
Example C39_example_grown : grown (completes_banned [[1; 2]]) [1; 2; 1] [1; 2; 1; 0; 2].
Proof.
  apply (grown_step _ _ [1; 2; 1; 0] 2); [apply (grown_step _ _ [1; 2; 1] 0); [apply grown_prompt|]|]; intros (b & [<-|[]] & a & H); apply (f_equal (@rev Z)) in H; rewrite !rev_app_distr in H; simpl in H; discriminate H.
Qed.

(** ** C40 *)

Theorem C40_ngram : forall R n (ban : R) V seqs probs, ngram_ctor n = true -> length seqs = length probs -> Forall (fun p => length p = V) probs -> Forall (tokens V) seqs ->
  exists qs, ngram_call R n ban seqs probs = Some qs /\ length qs = length probs /\
    forall k, (k < length probs)%nat -> overwritten (repeats_ngram n (nth k seqs [])) ban (nth k probs []) (nth k qs []).
Proof.
  intros R n ban V seqs probs HC HL HP HT. unfold ngram_call.
  apply (rows_lemma R (ngram_row R n ban) (fun s p => length p = V /\ tokens V s) (fun s p q => overwritten (repeats_ngram n s) ban p q)); [assumption| |].
  - intros s p [Hp Hs]. apply ngram_row_lemma; [assumption|]. rewrite Hp. assumption.
  - apply Forall_forall. intros [s p] Hsp. rewrite Forall_forall in HP, HT. split; [apply HP; apply in_combine_r in Hsp; exact Hsp|apply HT; apply in_combine_l in Hsp; exact Hsp].
Qed.
Print Assumptions C40_ngram.

(** Hence a continuation of unblocked tokens has no n-gram that ends in the generated part and occurs earlier. *)
Theorem C40_never_repeated : forall n prompt s, grown (repeats_ngram n) prompt s -> forall g a1 c1 a2 c2, length g = n ->
  s = a1 ++ g ++ c1 -> s = a2 ++ g ++ c2 -> (length a1 < length a2)%nat -> (length (a2 ++ g) <= length prompt)%nat.
Proof. exact grown_ngram. Qed.
Print Assumptions C40_never_repeated.

(** A token whose processed probability is not the ban value may be chosen. *)
Theorem C39_C40_choice : forall R (B : Z -> Prop) (ban : R) p q v d, overwritten B ban p q -> (v < length p)%nat -> nth v q d <> ban -> ~ B (Z.of_nat v).
Proof. intros R B ban p q v d [_ H] Hv Hn HB. apply Hn. apply H; assumption. Qed.
Print Assumptions C39_C40_choice.

Example C40_example : ngram_call Z 2 (-1) [[1; 2; 3; 1]; [0; 0; 0; 0]] [[9; 9; 9; 9]; [9; 9; 9; 9]] = Some [[9; 9; -1; 9]; [-1; 9; 9; 9]] /\
  ngram_call Z 1 (-1) [[1; 3]] [[9; 9; 9; 9]] = Some [[9; -1; 9; -1]] /\ ngram_call Z 3 (-1) [[1; 1]] [[9; 9]] = Some [[9; 9]].
Proof. repeat split. Qed.

(** A banned token outside of the vocabulary makes the processor fail instead of being ignored. *)
Theorem C39_out_of_vocabulary_refuted : banned_call Z (banned_ctor [[5]]) (-1) [[0]] [[9; 9; 9]] = None.
Proof. reflexivity. Qed.
Print Assumptions C39_out_of_vocabulary_refuted.
