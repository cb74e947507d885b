(** Instruction tuning of a language model, from examples to loss.

    Models
    - recipes/lm/sft/dataset.py 240-330 (the examples without chat template),
    - src/fairseq2/datasets/batch.py 60-215 (SequenceBatch, as_auto_regressive),
      padded batches only,
    - recipes/lm/sft/recipe.py 140-175 (LMSFTUnit.process_batch),
    - src/fairseq2/models/transformer_lm/model.py 119-205 (the loss), through
      [Xen_Model.cross_entropy].

    Simplifications.  An example is given by the tokens of its source and of its
    target.  Reading, shuffling and prefetching are not part of this model: it
    begins with the examples of a batch.  The decoder of the model, up to its
    logits, is a parameter; numbers are rational. *)

From Coq Require Import ZArith QArith Qcanon List Bool Arith.
From Verif Require Import Xen_Model.
Import ListNotations.
Local Open Scope nat_scope.

Notation row := (list Qc) (only parsing).

Inductive error := Value_error | Invalid_operation | No_pad | Bad_loss.
Inductive res (A : Type) := Ok (a : A) | Err (e : error).
Arguments Ok {A}. Arguments Err {A}.

(** Source and target tokens. *)
Notation example := (list Z * list Z)%type (only parsing).

(** dataset.py 244-256: [cat_source_and_target]. *)
Definition cat_source_and_target (e : example) : list Z * list bool :=
  let '(source_indices, target_indices) := e in
  let indices := source_indices ++ target_indices in
  (indices, map (fun i => length source_indices <=? i) (seq 0 (length indices))).

(** dataset.py 279-286: [skip], the filter of static batching. *)
Definition keep (min_seq_len max_seq_len : nat) (x : list Z * list bool) : bool :=
  (min_seq_len <=? length (fst x)) && (length (fst x) <=? max_seq_len).

(** The collater (dataset.py 299-314): rows are padded to the longest. *)
Definition collate {A} (pad : A) (rows : list (list A)) : list (list A) :=
  map (fun r => r ++ repeat pad (list_max (map (@length A) rows) - length r)) rows.

(** batch.py 60-158: a padded batch with a target mask. *)
Record batch := { seqs : list (list Z); seq_lens : list nat; target_mask : list (list bool) }.

(** batch.py 104-116: the lengths are checked. *)
Definition new_batch (s : list (list Z)) (lens : list nat) (m : list (list bool)) : res batch :=
  if existsb (fun n => n <? 1) lens then Err Value_error
  else if existsb (fun p : list Z * nat => length (fst p) <? snd p) (combine s lens) then Err Value_error
  else Ok {| seqs := s; seq_lens := lens; target_mask := m |}.

(** dataset.py 293-330: [Collater] and [to_batch]; there must be a PAD. *)
Definition to_batch (pad_idx : option Z) (examples : list example) : res batch :=
  match pad_idx with
  | None => Err No_pad
  | Some pad =>
      let xs := map cat_source_and_target examples in
      new_batch (collate pad (map fst xs)) (map (@length Z) (map fst xs)) (collate false (map snd xs))
  end.

(** batch.py 160-213: [as_auto_regressive]; [seqs[:, :-1]] and [seqs[:, 1:]]. *)
Definition as_auto_regressive (b : batch) : res (batch * batch) :=
  if existsb (fun n => n =? 1) (seq_lens b) then Err Invalid_operation
  else
    let lens := map (fun n => n - 1) (seq_lens b) in
    match new_batch (map (@removelast Z) (seqs b)) lens [] with
    | Err e => Err e
    | Ok input =>
        match new_batch (map (@tl Z) (seqs b)) lens (map (@tl bool) (target_mask b)) with
        | Err e => Err e
        | Ok target => Ok (input, target)
        end
    end.

(** batch.py 153-156 *)
Definition num_target_elements (b : batch) : Z := count (concat (target_mask b)).

Section Unit.
  Variable log_softmax : row -> row.
  Variable vocab : nat.
  (** The PAD of the model. *)
  Variable model_pad : option Z.
  (** The logits of every position of a padded batch with lengths. *)
  Variable decoder : list (list Z) -> list nat -> list (list row).

  (** recipe.py 152-174: [process_batch]: the loss and the number of targets. *)
  Definition process_batch (b : batch) : res (Qc * Z) :=
    match as_auto_regressive b with
    | Err e => Err e
    | Ok (input, target) =>
        match cross_entropy log_softmax (Z.of_nat vocab) (Two (decoder (seqs input) (seq_lens input)))
                (Two (seqs target)) model_pad 0%Qc (Some (Two (target_mask target))) RSum with
        | Scalar x => Ok (x, num_target_elements target)
        | _ => Err Bad_loss
        end
    end.

  (** A batch of examples, from the dataset to the loss. *)
  Definition train_on (pad_idx : option Z) (examples : list example) : res (Qc * Z) :=
    match to_batch pad_idx examples with
    | Err e => Err e
    | Ok b => process_batch b
    end.
End Unit.
