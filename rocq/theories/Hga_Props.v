(** C83: the adapter for Hugging Face causal language models. *)
From Coq Require Import ZArith QArith Qcanon List Bool Lia.
From Verif Require Import Xen_Model Xen_Spec Xen_Props Hga_Model.
Import ListNotations.
Local Open Scope Qc_scope.

(** C83 (attention mask).  The mask that is given to the wrapped model is true
    exactly at the positions within the lengths of the sequences. *)
Theorem C83_mask : forall seqs lens, length lens = length seqs ->
  (forall s n, In (s, n) (combine seqs lens) -> (n <= length s)%nat) ->
  length (attention_mask seqs lens) = length seqs /\
  forall i s n, nth_error seqs i = Some s -> nth_error lens i = Some n ->
    exists m, nth_error (attention_mask seqs lens) i = Some m /\ length m = length s /\
      forall j, (j < length s)%nat -> nth_error m j = Some (j <? n)%nat.
Proof.
  intros seqs lens L B. unfold attention_mask.
  destruct (forallb _ _) eqn:F.
  - split; [apply map_length|]. intros i s n Hs Hn. exists (map (fun _ => true) s).
    rewrite (map_nth_error _ _ _ Hs). split; [reflexivity|]. split; [apply map_length|].
    intros j Hj. rewrite forallb_forall in F.
    assert (I : In (s, n) (combine seqs lens)).
    { clear - Hs Hn. revert lens i Hs Hn. induction seqs as [|a l IH]; intros [|b r] [|i] Hs Hn; try discriminate; cbn in *.
      - injection Hs as ->. injection Hn as ->. now left.
      - right. eapply IH; eauto. }
    specialize (F _ I). cbn in F. apply Nat.eqb_eq in F.
    destruct (nth_error s j) as [x|] eqn:Ex; [|apply nth_error_None in Ex; lia].
    rewrite (map_nth_error _ _ _ Ex). f_equal. symmetry. apply Nat.ltb_lt. lia.
  - split; [rewrite map_length, combine_length, L; lia|]. intros i s n Hs Hn.
    exists (map (fun j => (j <? n)%nat) (seq 0 (length s))).
    assert (E : nth_error (combine seqs lens) i = Some (s, n)).
    { clear - Hs Hn. revert lens i Hs Hn. induction seqs as [|a l IH]; intros [|b r] [|i] Hs Hn; try discriminate; cbn in *.
      - congruence.
      - eapply IH; eauto. }
    rewrite (map_nth_error _ _ _ E). split; [reflexivity|]. split; [now rewrite map_length, seq_length|].
    intros j Hj. assert (Ej : nth_error (seq 0 (length s)) j = Some j).
    { rewrite (nth_error_nth' _ 0%nat) by (rewrite seq_length; exact Hj). rewrite seq_nth by exact Hj. reflexivity. }
    rewrite (map_nth_error _ _ _ Ej). reflexivity.
Qed.
Print Assumptions C83_mask.
Example C83_mask_case : attention_mask [[5; 6; 0]; [7; 8; 9]]%Z [2; 3]%nat = [[true; true; false]; [true; true; true]].
Proof. reflexivity. Qed.

(* ------------------------------------------------------------------ *)
(** C83 (loss).  Recipes expect that the loss of the adapter is the cross entropy of
    the logits of every position and its target.  Proved is what the adapter
    gives instead: the target of the next position is compared, and the first
    target of every sequence is not seen.  (The targets of a batch are moved by
    one already: /repo/src/fairseq2/datasets/batch.py 160-210.) *)
Theorem C83_first_target_refuted : forall log_softmax vocab hf_model seqs lens firsts others rests ls r,
  length firsts = length rests -> length others = length rests -> r <> RSum ->
  adapter_loss log_softmax vocab hf_model seqs lens (map (fun fr : Z * list Z => fst fr :: snd fr) (combine firsts rests)) ls None r
  = adapter_loss log_softmax vocab hf_model seqs lens (map (fun fr : Z * list Z => fst fr :: snd fr) (combine others rests)) ls None r.
Proof.
  intros log_softmax vocab hf_model seqs lens firsts others rests ls r L1 L2 Nr.
  assert (G : forall firsts : list Z, length firsts = length rests ->
    map shift_labels (map (fun fr : Z * list Z => fst fr :: snd fr) (combine firsts rests)) = map (fun l => l ++ [(-100)%Z]) rests).
  { clear. intros firsts. revert rests. induction firsts as [|f firsts IH]; intros [|r rests] L; try discriminate; [reflexivity|].
    cbn in *. f_equal. apply IH. congruence. }
  unfold adapter_loss, hf_loss. rewrite !G by assumption. destruct r; congruence.
Qed.
Print Assumptions C83_first_target_refuted.

(** A sequence with one target has no loss. *)
Theorem C83_single_target_refuted : forall log_softmax vocab hf_model s t ls r,
  (forall m, exists x, hf_model [[s]] m = [[x]]) ->
  adapter_loss log_softmax vocab hf_model [[s]] [1%nat] [[t]] ls None r = NotANumber.
Proof.
  intros log_softmax vocab hf_model s t ls r H. unfold adapter_loss, hf_loss.
  destruct (H (attention_mask [[s]] [1%nat])) as (x & ->). cbn [map shift_labels app].
  replace (cross_entropy _ _ _ _ _ _ _ _) with NotANumber by reflexivity. destruct r; reflexivity.
Qed.
Print Assumptions C83_single_target_refuted.

(** A model that predicts every target perfectly has the loss zero, but not by the
    adapter; a model that predicts the token after the target has the loss zero by
    the adapter.  Four tokens; log probabilities are 0 for the token that is
    predicted and -10 for the other ones. *)
Definition predict (t : nat) : list Qc := map (fun v => if (v =? t)%nat then of_Z 0 else of_Z (-10)) (seq 0 4).
Definition perfect : list (list Z) -> list (list bool) -> list (list (list Qc)) := fun _ _ => [[predict 1; predict 2; predict 3]].
Definition ahead : list (list Z) -> list (list bool) -> list (list (list Qc)) := fun _ _ => [[predict 2; predict 3; predict 0]].
Theorem C83_loss_refuted :
  let seqs := [[0; 1; 2]]%Z in let targets := [[1; 2; 3]]%Z in
  lm_loss (fun x => x) 4 (perfect seqs []) targets 0 None RSum = Scalar 0 /\
  adapter_loss (fun x => x) 4 perfect seqs [3%nat] targets 0 None RSum = Scalar (of_Z 30) /\
  lm_loss (fun x => x) 4 (ahead seqs []) targets 0 None RSum = Scalar (of_Z 30) /\
  adapter_loss (fun x => x) 4 ahead seqs [3%nat] targets 0 None RSum = Scalar 0.
Proof. cbv zeta. repeat split; qc. Qed.
Print Assumptions C83_loss_refuted.

(** Even with targets that are not moved, the sum is not the sum over the targets: the
    mean is over one target less per sequence than the number it is multiplied
    with; nor is a given label smoothing used. *)
Theorem C83_sum_refuted :
  let seqs := [[1; 2; 3]]%Z in
  adapter_loss (fun x => x) 4 perfect seqs [3%nat] seqs 0 None RMean = Scalar (of_Z 10) /\
  adapter_loss (fun x => x) 4 perfect seqs [3%nat] seqs 0 None RSum = Scalar (of_Z 30) /\
  adapter_loss (fun x => x) 4 perfect seqs [3%nat] seqs (of_Z 1 / of_Z 2) None RSum = Scalar (of_Z 30) /\
  hf_loss (fun x => x) 4 (perfect seqs []) seqs = Scalar (of_Z 20 / of_Z 2).
Proof. cbv zeta. repeat split; qc. Qed.
Print Assumptions C83_sum_refuted.

(* ------------------------------------------------------------------ *)
(** C83 (incremental decoding).  Generators give a model with an incremental state
    only the tokens it has not seen.  The adapter does not use the state: what it
    gives for a token does not depend on the tokens before it, even if the
    wrapped model looks at all tokens. *)
Theorem C83_incremental_refuted : forall (state : Type) hf_model (after1 after2 : option state) token,
  adapter_logits hf_model state [[token]] [1%nat] after1 = adapter_logits hf_model state [[token]] [1%nat] after2 /\
  exists looks_back : list (list Z) -> list (list bool) -> list (list (list Qc)),
    (forall s, last (nth 0 (adapter_logits looks_back state [[4%Z; token]] [2%nat] None) []) []
               <> last (nth 0 (adapter_logits looks_back state [[token]] [1%nat] s) []) []).
Proof.
  intros state hf_model after1 after2 token. split; [reflexivity|].
  exists (fun seqs _ => map (fun s => map (fun _ => map of_Z s) s) seqs). intros s. cbn. discriminate.
Qed.
Print Assumptions C83_incremental_refuted.
