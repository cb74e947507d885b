(** The audio data of the wav2vec2 recipes, and the frozen encoder of fine-tuning.

    Models
    - recipes/wav2vec2/ssl/data/batch_utils.py 11-41 (add_length_batching; the
      same as recipes/wav2vec2/asr/data/batch_utils.py),
    - recipes/wav2vec2/ssl/data/preprocessing.py 41-132 (add_audio_decoding,
      AudioCropper, add_audio_cropping),
    - recipes/wav2vec2/ssl/data/dataset.py 194-317 (create_reader, what is done
      with a batch of recordings),
    - recipes/wav2vec2/asr/data/preprocessing.py 66-79 (add_layernorm) and
      asr/data/dataset.py 320-333 (where it is used),
    - recipes/wav2vec2/asr/recipe.py 73-88, 185-243 (prepare_model,
      Wav2Vec2AsrTrainUnit.set_step_nr), src/fairseq2/nn/utils/module.py 280-285
      (freeze_parameters).

    Simplifications.  A decoded waveform is a list of samples of any type; the
    precision is a tag.  numpy's generator is a state with a function that draws
    a number below a bound.  Which recordings form a batch is the matter of
    [bucket_by_length] (C03 and others) and not repeated here. *)

Require Import List Arith ZArith Bool.
From Verif Require Import Bkt_Model.
Import ListNotations.

(** ** Batching: batch_utils.py 11-41 *)
Section Batching.
  Local Open Scope Z_scope.
  Inductive batching := Division_by_zero | Refused | Buckets (l : list (Z * Z)).

  (** batch_utils.py 22-24 *)
  Definition rounded (max_num_elements max_audio_len : Z) : Z :=
    if negb (max_num_elements mod max_audio_len =? 0) then (max_num_elements / max_audio_len) * max_audio_len
    else max_num_elements.

  Definition add_length_batching (min_audio_len max_audio_len max_num_elements num_seqs_multiple_of : Z) : batching :=
    if max_audio_len =? 0 then Division_by_zero
    else match create_bucket_sizes (rounded max_num_elements max_audio_len) max_audio_len min_audio_len num_seqs_multiple_of with
         | Sizes l => Buckets l
         | _ => Refused
         end.
End Batching.

(** ** Cropping *)
Inductive precision := Float32 | Configured.

Section Cropping.
  Context {sample rng : Type}.
  (** [RandomState(seed)] and [rng.randint(0, n)] *)
  Variable RandomState : nat -> rng.
  Variable randint : rng -> nat -> nat * rng.

  (** preprocessing.py 77-86: the size to which the recordings of a batch are cropped. *)
  Definition crop_size (max_audio_len : nat) (to_minimal : bool) (batch : list (list sample)) : nat :=
    if to_minimal then
      match map (@length sample) batch with
      | [] => max_audio_len (* [min] of nothing: batches are not empty *)
      | n :: ns => Nat.min max_audio_len (fold_left Nat.min ns n)
      end
    else max_audio_len.

  (** preprocessing.py 88-95: the loop of [crop_audios_in_batch]. *)
  Fixpoint crop_all (g : rng) (size : nat) (batch : list (list sample)) : rng * list (list sample) :=
    match batch with
    | [] => (g, [])
    | audio :: batch' =>
        if size <? length audio then
          let '(start, g') := randint g (length audio - size) in
          let '(g'', r) := crop_all g' size batch' in
          (g'', firstn size (skipn start audio) :: r)
        else let '(g', r) := crop_all g size batch' in (g', audio :: r)
    end.

  Definition crop_audios_in_batch (max_audio_len : nat) (to_minimal : bool) (g : rng) (batch : list (list sample)) :=
    crop_all g (crop_size max_audio_len to_minimal batch) batch.

  (** Collater(pad_value=None): the rows must have the same length. *)
  Definition stack (rows : list (list sample)) : option (list (list sample)) :=
    match rows with
    | [] => Some []
    | r :: rs => if forallb (fun r' => length r' =? length r) rs then Some rows else None
    end.

  (** ssl/data/dataset.py 276-304, preprocessing.py 41-56: decoding, cropping and
      collating a batch. *)
  Definition ssl_batch (max_audio_len : nat) (normalize_audio : bool) (g : rng) (recordings : list (list sample))
    : rng * (precision * option (list (list sample))) :=
    let '(g', cropped) := crop_audios_in_batch max_audio_len true g recordings in
    (g', (if normalize_audio then Float32 else Configured, stack cropped)).

  (** What a reader returns for the batches of recordings that are left; the
      generator belongs to the function that [map] calls, and starts anew with
      every reader. *)
  Fixpoint read_from (max_audio_len : nat) (normalize_audio : bool) (g : rng) (batches : list (list (list sample))) :=
    match batches with
    | [] => []
    | b :: bs => let '(g', r) := ssl_batch max_audio_len normalize_audio g b in
                 r :: read_from max_audio_len normalize_audio g' bs
    end.
  Definition read_all (max_audio_len : nat) (normalize_audio : bool) (seed : nat) batches :=
    read_from max_audio_len normalize_audio (RandomState seed) batches.

  (** A new reader, after [load_state_dict] with the state of one that has read
      [k] batches: the position of the pipeline is restored. *)
  Definition read_resumed (max_audio_len : nat) (normalize_audio : bool) (seed : nat) batches (k : nat) :=
    read_from max_audio_len normalize_audio (RandomState seed) (skipn k batches).

  (** asr/data/dataset.py 320-333, asr/data/preprocessing.py 48-79: decoding in
      the other recipe. *)
  Variable layer_norm : list sample -> list sample.
  Definition asr_waveforms (normalize_audio : bool) (recordings : list (list sample)) : list (list sample) :=
    if normalize_audio then map layer_norm recordings else recordings.
End Cropping.

(** ** The frozen encoder *)

(** The parts of the model, and the rest of it (the final projection). *)
Inductive part := Feature_extractor | Frontend_rest | Encoder | Masker | Projection.
Scheme Equality for part.

(** [requires_grad] of the parameters, each of which belongs to a part. *)
Section Freezing.
  Context {param : Type}.
  Variable part_of : param -> part.
  Variable has_masker : bool.

  Definition trainable := param -> bool.

  (** module.py 280-285 *)
  Definition freeze_parameters (parts : list part) (value : bool) (t : trainable) : trainable :=
    fun p => if existsb (part_beq (part_of p)) parts then negb value else t p.

  Definition encoder_frontend := [Feature_extractor; Frontend_rest].
  Definition base_module := [Feature_extractor; Frontend_rest; Encoder; Masker; Projection].

  (** asr/recipe.py 85-86: [prepare_model] *)
  Definition prepare_model (t : trainable) : trainable := freeze_parameters [Feature_extractor] true t.

  (** asr/recipe.py 209-243: [set_step_nr]; the state is [_frozen]. *)
  Definition set_step_nr (freeze_encoder_for_n_steps step_nr : nat) (s : bool * trainable) : bool * trainable :=
    let '(frozen, t) := s in
    if step_nr <=? freeze_encoder_for_n_steps then
      if frozen then (frozen, t)
      else
        let t := freeze_parameters encoder_frontend true t in
        let t := freeze_parameters [Encoder] true t in
        let t := if has_masker then freeze_parameters [Masker] true t else t in
        (true, t)
    else
      if negb frozen then (frozen, t)
      else
        let t := freeze_parameters base_module false t in
        let t := freeze_parameters [Feature_extractor] true t in
        (false, t).

  (** A process that trains from step [first] on, for [k] steps: what is
      trainable in its last step. *)
  Fixpoint steps (n first k : nat) (s : bool * trainable) : bool * trainable :=
    match k with
    | 0 => s
    | S k' => set_step_nr n (first + k') (steps n first k' s)
    end.
  Definition trainable_at (n first step : nat) (t0 : trainable) : trainable :=
    snd (steps n first (S (step - first)) (false, prepare_model t0)).
End Freezing.
