(** The layers of the Gemma3n decoder.

    Models
    - src/fairseq2/models/gemma3n/config.py 211-255 ([is_global_layer],
      [get_kv_projection_role]),
    - src/fairseq2/models/gemma3n/decoder.py 87-196 (the sharing of keys and values
      between layers in [Gemma3nDecoder.forward]),
    - src/fairseq2/models/gemma3n/decoder_layer.py 241-261 (the versions that get
      the per-layer embedding),
    - src/fairseq2/models/gemma3n/factory.py 224-293 (biases and states of the
      attention of a layer) with
      src/fairseq2/models/transformer/multihead_attention.py 413-458 and
      src/fairseq2/models/transformer/attention_bias.py 209-233, 376-388.

    Simplifications.  Keys and values are represented by the number of the layer
    that projects them.  A mask is the keys that a query sees; all arithmetic is
    left out. *)

Require Import List Arith ZArith Bool.
Import ListNotations.

(** config.py 211-226 *)
Definition is_global_layer (layer_idx num_layers : nat) : bool :=
  if S layer_idx =? num_layers then true else (layer_idx + 1) mod 5 =? 0.

Inductive role := Source | Consumer | No_role.

(** config.py 229-255 *)
Definition get_kv_projection_role (layer_idx : nat) (is_global : bool) (num_layers num_kv_shared_layers : nat) : role :=
  let first_shared_idx := (Z.of_nat num_layers - Z.of_nat num_kv_shared_layers)%Z in
  if (first_shared_idx <=? Z.of_nat layer_idx)%Z then Consumer
  else if existsb (fun idx => Bool.eqb (is_global_layer idx num_layers) is_global)
                  (seq (layer_idx + 1) (Z.to_nat first_shared_idx - (layer_idx + 1)))
       then No_role
       else Source.

(** factory.py 224-229 *)
Definition layer_role (num_layers num_kv_shared_layers layer_idx : nat) : role :=
  get_kv_projection_role layer_idx (is_global_layer layer_idx num_layers) num_layers num_kv_shared_layers.

(** The keys and values that a layer attends to. *)
Inductive kv := Own | From (layer_idx : nat).

(** decoder.py 143-190: the loop over the layers from [idx] on; [slots] are those
    of global and local layers, [None] is the RuntimeError. *)
Fixpoint forward_layers (num_layers num_kv_shared_layers : nat) (slots : bool -> option nat) (idx count : nat) : option (list kv) :=
  match count with
  | 0 => Some []
  | S count' =>
      let slot_key := is_global_layer idx num_layers in
      let rest slots := forward_layers num_layers num_kv_shared_layers slots (S idx) count' in
      match layer_role num_layers num_kv_shared_layers idx with
      | Consumer => match slots slot_key with
                    | None => None
                    | Some source => option_map (cons (From source)) (rest slots)
                    end
      | Source => option_map (cons Own) (rest (fun k => if Bool.eqb k slot_key then Some idx else slots k))
      | No_role => option_map (cons Own) (rest slots)
      end
  end.

(** decoder.py 89-98, 132-137.  There are no slots if no layer has a role; no layer
    is a consumer then. *)
Definition forward (num_layers num_kv_shared_layers : nat) : option (list kv) :=
  forward_layers num_layers num_kv_shared_layers (fun _ => None) 0 num_layers.

(** decoder_layer.py 258-259: [corrected_predictions[1:] += first_prediction]. *)
Definition add_per_layer_embedding {N} (plus : N -> N -> N) (first_prediction : N) (versions : list N) : list N :=
  match versions with
  | [] => []
  | v :: vs => v :: map (fun x => plus x first_prediction) vs
  end.

(** ** What a local layer sees *)

(** attention_bias.py 209-233 with [from_bottom_right]: the mask of [q_len]
    queries and [k_len] keys. *)
Definition causal_bias (q_len k_len window : nat) (i j : nat) : bool :=
  let d := (Z.of_nat k_len - Z.of_nat q_len)%Z in
  (Z.of_nat j <=? Z.of_nat i + d)%Z
  && (if window <? q_len then (Z.of_nat i + (d - Z.of_nat window + 1) <=? Z.of_nat j)%Z else true).

(** attention_bias.py 376-388: no bias for a single query. *)
Definition maybe_bias (q_len k_len window : nat) (i j : nat) : bool :=
  if q_len =? 1 then true else causal_bias q_len k_len window i j.

(** The keys that element [t] sees in a pass over [len] elements, and in decoding
    element by element: multihead_attention.py 413-458; the factory gives no
    [state_factory], so that the state holds all keys. *)
Definition sees_at_once (window len t s : nat) : bool := (s <? len) && maybe_bias len len window t s.
Definition sees_step (window t s : nat) : bool := (s <? t + 1) && maybe_bias 1 (t + 1) window 0 s.
