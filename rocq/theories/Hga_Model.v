(** The adapter that gives Hugging Face causal language models the interface of
    fairseq2's ones.

    Models /repo/src/fairseq2/models/hg/adapter.py.  The wrapped model is
    external: a function from token indices and attention mask to logits; as
    documented, and as its loss function (ForCausalLMLoss) does, it compares the
    logits of a position with the label of the next position, and returns the mean over
    the labels that are not -100. *)
From Coq Require Import ZArith QArith Qcanon List Bool.
From Verif Require Import Xen_Model.
Import ListNotations.
Local Open Scope Qc_scope.

Notation row := (list Qc) (only parsing).

(** ForCausalLMLoss of the library (external): labels are moved by one. *)
Definition shift_labels (l : list Z) : list Z := match l with [] => [] | _ :: r => r ++ [(-100)%Z] end.
Definition hf_loss (log_softmax : row -> row) (vocab : Z) (logits : list (list row)) (labels : list (list Z)) : outcome :=
  cross_entropy log_softmax vocab (Two logits) (Two (map shift_labels labels)) None 0 None RMean.

(** labels.masked_fill(~target_mask, -100) (adapter.py 211-215). *)
Definition masked_labels (targets : list (list Z)) (mask : list (list bool)) : list (list Z) :=
  map (fun tm : list Z * list bool => map (fun x : Z * bool => if snd x then fst x else (-100)%Z) (combine (fst tm) (snd tm)))
      (combine targets mask).

(** _create_attention_mask (adapter.py 244-263); [lens] are the lengths of the
    sequences; position_indices is negative behind them. *)
Definition attention_mask (seqs : list (list Z)) (lens : list nat) : list (list bool) :=
  if forallb (fun sl : list Z * nat => (snd sl =? length (fst sl))%nat) (combine seqs lens)
  then map (map (fun _ => true)) seqs
  else map (fun sl : list Z * nat => map (fun i => (i <? snd sl)%nat) (seq 0 (length (fst sl)))) (combine seqs lens).

Section Adapter.
  Variable log_softmax : row -> row.
  Variable vocab : Z.
  Variable hf_model : list (list Z) -> list (list bool) -> list (list row).
  (** fairseq2's incremental state. *)
  Variable state : Type.

  (** forward with targets (adapter.py 176-238); the label smoothing and the
      state are not used. *)
  Definition adapter_loss (seqs : list (list Z)) (lens : list nat) (targets : list (list Z)) (label_smoothing : Qc)
      (target_mask : option (list (list bool))) (r : reduction) : outcome :=
    let labels := match target_mask with Some m => masked_labels targets m | None => targets end in
    let loss := hf_loss log_softmax vocab (hf_model seqs (attention_mask seqs lens)) labels in
    match r with
    | RSum =>
        let num_targets :=
          match target_mask with
          | Some m => count (concat m)
          | None => count (ne (concat labels) (-100))
          end in
        match loss with Scalar x => Scalar (x * of_Z num_targets) | o => o end
    | _ => loss
    end.
  (** forward without targets (adapter.py 239-242). *)
  Definition adapter_logits (seqs : list (list Z)) (lens : list nat) (s : option state) : list (list row) :=
    hf_model seqs (attention_mask seqs lens).
End Adapter.

(** TransformerLM.forward with targets, on the logits of the model: the loss that
    recipes expect of a causal language model
    (/repo/src/fairseq2/models/transformer_lm/model.py 119-205); [pad_idx] is None. *)
Definition lm_loss (log_softmax : row -> row) (vocab : Z) (logits : list (list row)) (targets : list (list Z))
    (label_smoothing : Qc) (target_mask : option (list (list bool))) (r : reduction) : outcome :=
  cross_entropy log_softmax vocab (Two logits) (Two targets) None label_smoothing (option_map Two target_mask) r.
