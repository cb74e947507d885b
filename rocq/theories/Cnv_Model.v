(** Convolutions over padded batches: the feature extractors and position
    encoders of wav2vec 2.0, the filterbank subsampler of S2T Transformer and
    the convolution of Conformer
    (src/fairseq2/models/wav2vec2/feature_extractor.py,
    src/fairseq2/models/wav2vec2/position_encoder.py,
    src/fairseq2/models/s2t_transformer/feature_extractor.py,
    src/fairseq2/models/conformer/convolution.py).

    A row of a batch is a list of frames.  What a convolution makes of one
    window of frames, and what activations and normalisations make of one frame,
    are arbitrary functions.  Dropout is off (evaluation mode).  The numbers of
    channels are left out: every frame has the type [E].  A batch has at least
    one row, and all its rows have the same length. *)

From Coq Require Import List Bool Arith ZArith.
Import ListNotations.

Section Frames.

Variable E : Type.
Variable zero : E.

(** [k] frames from position [i] on. *)
Definition window (k i : nat) (l : list E) : list E := firstn k (skipn i l).

(** [torch.nn.Conv1d] with kernel size [k], stride [s] and zero padding of [pl]
    frames on the left and [pr] frames on the right.  PyTorch raises an error
    ([None]) if the input is shorter than the kernel. *)
Definition conv1d (f : list E -> E) (k s pl pr : nat) (l : list E)
  : option (list E) :=
  let p := repeat zero pl ++ l ++ repeat zero pr in
  if length p <? k then None
  else Some (map (fun i => f (window k (i * s) p)) (seq 0 ((length p - k) / s + 1))).

(** All rows through [g]; one error is an error. *)
Fixpoint each_row (g : list E -> option (list E)) (rows : list (list E))
  : option (list (list E)) :=
  match rows with
  | [] => Some []
  | r :: rows' =>
      match g r, each_row g rows' with
      | Some o, Some os => Some (o :: os)
      | _, _ => None
      end
  end.

Definition width (rows : list (list E)) : nat :=
  match rows with [] => 0 | r :: _ => length r end.

(** nn/batch_layout.py 98-150 [BatchLayout.of] for a batch that is not packed:
    the lengths of the sequences, or a [ValueError]. *)
Definition layout_of (rows : list (list E)) (seq_lens : option (list Z))
  : option (list Z) :=
  let w := Z.of_nat (width rows) in
  if (w <? 1)%Z then None
  else
    let lens := match seq_lens with
                | None => repeat w (length rows)
                | Some l => l
                end in
    if negb (length lens =? length rows) then None
    else if forallb (fun n => (1 <=? n) && (n <=? w))%Z lens then Some lens
    else None.

(** nn/batch_layout.py 130, 145-146: whether a layout is padded. *)
Definition padded (rows : list (list E)) (lens : list Z) : bool :=
  existsb (fun n => (n <? Z.of_nat (width rows))%Z) lens.

(** models/wav2vec2/feature_extractor.py 193-267
    [Wav2Vec2FeatureExtractionLayer]: a convolution, an optional group
    normalisation over the whole row, then layer normalisation and activation
    of each frame. *)
Record layer := Layer
  { kernel_size : nat;
    stride : nat;
    conv : list E -> E;
    group_norm : option (list E -> list E);
    norm_act : E -> E }.

(** models/wav2vec2/feature_extractor.py 244-267. *)
Definition layer_forward (L : layer) (row : list E) : option (list E) :=
  match conv1d (conv L) (kernel_size L) (stride L) 0 0 row with
  | None => None
  | Some o =>
      Some (map (norm_act L)
              (match group_norm L with Some g => g o | None => o end))
  end.

Fixpoint layers_forward (Ls : list layer) (row : list E) : option (list E) :=
  match Ls with
  | [] => Some row
  | L :: Ls' =>
      match layer_forward L row with
      | Some o => layers_forward Ls' o
      | None => None
      end
  end.

(** models/wav2vec2/feature_extractor.py 175-184 [_contract_seq_lens] for one
    length.  The quotient is computed in floating point, exactly for lengths
    below 2^53. *)
Fixpoint contract (Ls : list layer) (n : Z) : Z :=
  match Ls with
  | [] => n
  | L :: Ls' =>
      contract Ls' ((n - Z.of_nat (kernel_size L)) / Z.of_nat (stride L) + 1)
  end.

(** models/wav2vec2/feature_extractor.py 129-173
    [Wav2Vec2FeatureExtractor.forward] on a batch that is not packed: the
    features and their lengths; [None]: an error. *)
Definition extract (Ls : list layer) (rows : list (list E)) (lens : list Z)
  : option (list (list E) * list Z) :=
  match each_row (layers_forward Ls) rows with
  | None => None
  | Some out =>
      let seq_lens := if padded rows lens then Some (map (contract Ls) lens) else None in
      match layout_of out seq_lens with
      | Some lens' => Some (out, lens')
      | None => None
      end
  end.

(** models/wav2vec2/feature_extractor.py 310-321
    [Wav2Vec2FbankFeatureExtractor]: consecutive groups of [s] frames become
    one frame; [cat] concatenates the channels. *)
Definition stack_frames (cat : list E -> E) (s : nat) (row : list E) : list E :=
  let num_frames := length row - length row mod s in
  map (fun j => cat (window s (j * s) (firstn num_frames row)))
    (seq 0 (num_frames / s)).

(** models/wav2vec2/feature_extractor.py 323-326: [arange(0, batch_size)], so
    what is chosen are rows. *)
Definition sample_rows (k : nat) (rows : list (list E)) : list (list E) :=
  if 1 <? k then
    map snd (filter (fun p => negb (fst p mod k =? 0))
               (combine (seq 0 (length rows)) rows))
  else rows.

(** models/wav2vec2/feature_extractor.py 340-351. *)
Definition contract_fbank (s k batch_width : nat) (n : Z) : Z :=
  let n := (Z.min n (Z.of_nat batch_width) / Z.of_nat s)%Z in
  if 1 <? k then (n / (Z.of_nat k + 1))%Z else n.

(** models/wav2vec2/feature_extractor.py 299-338
    [Wav2Vec2FbankFeatureExtractor.forward]. *)
Definition extract_fbank (cat : list E -> E) (s k : nat) (rows : list (list E))
    (lens : list Z) : option (list (list E) * list Z) :=
  let num_frames := width rows - width rows mod s in
  let out := sample_rows k (map (stack_frames cat s) rows) in
  let seq_lens := if padded rows lens
                  then Some (map (contract_fbank s k num_frames) lens) else None in
  match layout_of out seq_lens with
  | Some lens' => Some (out, lens')
  | None => None
  end.

(** models/s2t_transformer/feature_extractor.py 53-89: the convolutions, each with
    GLU, which acts on each frame and is part of [f]. *)
Fixpoint subsample_row (Ls : list (nat * (list E -> E))) (row : list E)
  : option (list E) :=
  match Ls with
  | [] => Some row
  | (k, f) :: Ls' =>
      match conv1d f k 2 (k / 2) (k / 2) row with
      | Some o => subsample_row Ls' o
      | None => None
      end
  end.

(** models/s2t_transformer/feature_extractor.py 126-133. *)
Fixpoint contract_subsample (num_layers : nat) (n : Z) : Z :=
  match num_layers with
  | O => n
  | S m => contract_subsample m ((n - 1) / 2 + 1)
  end.

(** models/s2t_transformer/feature_extractor.py 91-124
    [Conv1dFbankSubsampler.forward] on a batch that is not packed.  The message
    of the first check (101-102) speaks of packed batches, but the condition is
    [padded]. *)
Definition subsample (Ls : list (nat * (list E -> E))) (rows : list (list E))
    (lens : list Z) : option (list (list E) * list Z) :=
  if padded rows lens then None
  else
    match each_row (subsample_row Ls) rows with
    | None => None
    | Some out =>
        let seq_lens :=
          if padded rows lens
          then Some (map (contract_subsample (length Ls)) lens) else None in
        match layout_of out seq_lens with
        | Some lens' => Some (out, lens')
        | None => None
        end
    end.

(** nn/utils/mask.py [apply_mask] with the padding mask of the layout: the
    frames from [n] on become zero. *)
Definition mask_row (n : nat) (row : list E) : list E :=
  firstn n row ++ repeat zero (length row - n).

Fixpoint map2 (g : E -> E -> E) (a b : list E) : list E :=
  match a, b with
  | x :: a', y :: b' => g x y :: map2 g a' b'
  | _, _ => []
  end.

(** models/wav2vec2/position_encoder.py 69-107
    [Wav2Vec2PositionEncoder.forward] on one row with [n] frames.  Where a batch
    is not padded the row is not masked, which is the same as [n] being its
    length. *)
Definition pos_encode (add : E -> E -> E) (f : list E -> E) (act : E -> E) (k : nat)
    (row : list E) (n : nat) : option (list E) :=
  let seqs := mask_row n row in
  match conv1d f k 1 (k / 2) (k / 2) seqs with
  | None => None
  | Some e =>
      let e := if k mod 2 =? 0 then removelast e else e in
      Some (map2 add seqs (map act e))
  end.

(** PyTorch's [padding="same"]: [k - 1] zeros, the smaller half on the left. *)
Definition conv_same (f : list E -> E) (k : nat) (row : list E) : option (list E) :=
  conv1d f k 1 ((k - 1) / 2) (k - 1 - (k - 1) / 2) row.

(** models/wav2vec2/position_encoder.py 242-285
    [Wav2Vec2PositionEncoderLayer]s in a row. *)
Fixpoint pos_layers (k : nat) (fs : list ((list E -> E) * (E -> E))) (row : list E)
  : option (list E) :=
  match fs with
  | [] => Some row
  | (f, act) :: fs' =>
      match conv_same f k row with
      | Some o => pos_layers k fs' (map act o)
      | None => None
      end
  end.

(** models/wav2vec2/position_encoder.py 201-235
    [Wav2Vec2StackedPositionEncoder.forward] on one row with [n] frames. *)
Definition pos_encode_stacked (add : E -> E -> E) (k : nat)
    (fs : list ((list E -> E) * (E -> E))) (row : list E) (n : nat)
  : option (list E) :=
  let seqs := mask_row n row in
  match pos_layers k fs seqs with
  | Some e => Some (map2 add seqs e)
  | None => None
  end.

(** models/conformer/convolution.py 115-173 [ConformerConvolution.forward] on
    one row with [n] frames: [pw1] is the first pointwise convolution and GLU,
    [norm_act] normalisation and activation of a frame, [pw2] the second
    pointwise convolution. *)
Definition conformer_conv (causal : bool) (pw1 : E -> E) (f : list E -> E) (k : nat)
    (norm_act pw2 : E -> E) (row : list E) (n : nat) : option (list E) :=
  let seqs := map pw1 (mask_row n row) in
  match (if causal then conv1d f k 1 (k - 1) 0 seqs else conv_same f k seqs) with
  | None => None
  | Some o => Some (map pw2 (map norm_act o))
  end.

End Frames.
