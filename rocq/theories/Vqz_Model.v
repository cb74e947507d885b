(** The vector quantizer of wav2vec 2.0 and what w2v-BERT makes of it.

    Models
    - src/fairseq2/models/wav2vec2/vector_quantizer.py 129-198
      ([GumbelWav2Vec2VectorQuantizer.forward], [_compute_current_temp]),
    - src/fairseq2/models/w2vbert/model.py 71-146 (the hook and
      [_get_target_indices]) and factory.py 24-40,
    - src/fairseq2/models/transformer/encoder.py 140-171 (a stack of layers with
      hooks).

    Simplifications.  The scores of the entries, which a projection gives, are
    integers; so are the components of the entries.  Of the Gumbel softmax only the
    value of the forward pass is modelled: the one-hot vector of the largest sum of
    score and noise, which the temperature does not change.  Of equal scores the
    first counts.  Perplexities are left out. *)

Require Import List Arith ZArith QArith Qminmax Bool.
Import ListNotations.
Local Open Scope nat_scope.

(** The index of the largest. *)
Fixpoint argmax (l : list Z) : nat :=
  match l with
  | [] => 0
  | x :: l' => match l' with
               | [] => 0
               | _ => let k := argmax l' in if (nth k l' 0 <=? x)%Z then 0 else S k
               end
  end.

(** [scatter_] of a 1 into zeros. *)
Definition one_hot (num_codebook_entries k : nat) : list Z :=
  map (fun v => if v =? k then 1%Z else 0%Z) (seq 0 num_codebook_entries).

Section Quantizer.
  Variables (num_codebooks num_codebook_entries entry_dim : nat) (entries : nat -> nat -> Z).

  (** [view(..., num_codebooks, num_codebook_entries)] of the row of an element. *)
  Definition view (row : list Z) : list (list Z) :=
    map (fun g => firstn num_codebook_entries (skipn (g * num_codebook_entries) row)) (seq 0 num_codebooks).

  Definition plus_noise (row noise : list Z) : list Z := map (fun p => (fst p + snd p)%Z) (combine row noise).

  (** vector_quantizer.py 143-172: the rows of [cb]. *)
  Definition codes (training : bool) (noise row : list Z) : list Z :=
    let x := if training then plus_noise row noise else row in
    concat (map (fun c => one_hot num_codebook_entries (argmax c)) (view x)).

  Definition sum (l : list Z) : Z := fold_right Z.add 0%Z l.

  (** vector_quantizer.py 174-184 ([compute_sum]): component [j] of codebook [g]. *)
  Definition component (cb : list Z) (g j : nat) : Z :=
    sum (map (fun v => (nth (g * num_codebook_entries + v) cb 0 * entries (g * num_codebook_entries + v) j)%Z) (seq 0 num_codebook_entries)).

  Definition quantized_vector (cb : list Z) : list Z :=
    flat_map (fun g => map (component cb g) (seq 0 entry_dim)) (seq 0 num_codebooks).

  (** w2vbert/model.py 133-146: all codebooks are kept. *)
  Definition get_target_indices (cb : list Z) : list nat :=
    firstn num_codebooks (map argmax (view cb)).
End Quantizer.

(** vector_quantizer.py 190-198 *)
Fixpoint qpow (q : Q) (n : nat) : Q := match n with 0 => 1 | S n' => q * qpow q n' end.

Definition current_temp (max_temp min_temp temp_decay : Q) (num_updates : nat) : Q :=
  Qmax (max_temp * qpow temp_decay num_updates)%Q min_temp.

Definition after_forward (training : bool) (num_updates : nat) : nat := if training then num_updates + 1 else num_updates.

(** The buffer after a number of passes, each in training or not. *)
Definition num_updates (passes : list bool) : nat := fold_left (fun n t => after_forward t n) passes 0.

(** The passes of [steps] steps of training with [grad_accumulation] batches. *)
Definition passes_of (steps grad_accumulation : nat) : list bool :=
  concat (repeat (repeat true grad_accumulation) steps).

(** ** w2v-BERT *)

Section Stack.
  Variable T : Type.

  (** encoder.py 140-171 without LayerDrop, with one hook that writes to a state. *)
  Fixpoint run_layers {St} (hook : nat -> T -> St -> St) (layers : list (T -> T)) (idx : nat) (seqs : T) (st : St) : T * St :=
    match layers with
    | [] => (seqs, st)
    | layer :: layers' => let seqs := layer seqs in run_layers hook layers' (S idx) seqs (hook idx seqs st)
    end.

  (** w2vbert/model.py 82-100: the output of the encoder, and the features that are
      contrasted; factory.py 31-34 refuses too many layers. *)
  Definition bert_forward (layers : list (T -> T)) (layer_norm : T -> T) (num_bert_encoder_layers : nat) (features : T) : option (T * T) :=
    if length layers <=? num_bert_encoder_layers then None
    else let hook idx out st := if (Z.of_nat idx =? Z.of_nat (length layers) - Z.of_nat num_bert_encoder_layers - 1)%Z then out else st in
         let (out, contrasted) := run_layers hook layers 0 features features in
         Some (layer_norm out, contrasted).
End Stack.
