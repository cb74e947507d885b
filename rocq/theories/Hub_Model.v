(** Model of the exchange of model weights with other libraries: /repo/src/fairseq2/models/utils/checkpoint.py 96-180 (line numbers without a file refer to
    it) and /repo/src/fairseq2/models/{llama,qwen,olmo,gemma3n,mistral}/interop.py. Strings are lists of characters, dictionaries are lists of entries in
    their order of insertion, a tensor is the list of its rows. [None]: an exception. *)
From Coq Require Import String Ascii List Bool Arith Decimal DecimalString.
Import ListNotations.
Local Open Scope char_scope.

Notation str := (list ascii).
Definition of_string : string -> str := list_ascii_of_string.
Definition str_eqb (a b : str) : bool := if list_eq_dec ascii_dec a b then true else false.
Fixpoint starts_with (p s : str) : option str :=
  match p, s with [], _ => Some s | c :: p', d :: s' => if Ascii.eqb c d then starts_with p' s' else None | _, [] => None end.
Definition is_digit (c : ascii) : bool := Nat.leb 48 (nat_of_ascii c) && Nat.leb (nat_of_ascii c) 57.

(** str.replace: every occurrence from left to right *)
Fixpoint replace_ (fuel : nat) (old new s : str) : str :=
  match fuel with
  | 0 => s
  | S f => match starts_with old s with
           | Some r => new ++ replace_ f old new r
           | None => match s with [] => [] | c :: s' => c :: replace_ f old new s' end
           end
  end.
Definition replace (old new s : str) : str := replace_ (S (length s)) old new s.

(** The part of Python's regular expressions that the key maps use: characters, an escaped character, a dot, the group ([0-9]+), the end. A pattern that
    does not begin with ^ is not modelled. [Num] takes all digits; this is what the backtracking matcher finds because no pattern has a digit after the
    group. *)
Inductive item := Chr (c : ascii) | AnyChar | Num | End.
Fixpoint parse_ (fuel : nat) (s : str) : list item :=
  match fuel with
  | 0 => []
  | S f => match starts_with (of_string "([0-9]+)") s with
           | Some r => Num :: parse_ f r
           | None => match s with
                     | [] => []
                     | c :: r => if Ascii.eqb c "\" then match r with d :: r' => Chr d :: parse_ f r' | [] => [] end
                                 else if Ascii.eqb c "." then AnyChar :: parse_ f r
                                 else if Ascii.eqb c "$" then End :: parse_ f r
                                 else Chr c :: parse_ f r
                     end
           end
  end.
Definition parse (s : str) : list item := parse_ (S (length s)) s.
Fixpoint digits (s : str) : str * str :=
  match s with c :: s' => if is_digit c then let (d, r) := digits s' in (c :: d, r) else ([], s) | [] => ([], []) end.
(** The text of the group, and the rest *)
Fixpoint match_items (p : list item) (cap s : str) : option (str * str) :=
  match p with
  | [] => Some (cap, s)
  | Chr c :: p' => match s with d :: s' => if Ascii.eqb c d then match_items p' cap s' else None | [] => None end
  | AnyChar :: p' => match s with d :: s' => if Ascii.eqb d "010" then None else match_items p' cap s' | [] => None end
  | Num :: p' => match digits s with ([], _) => None | (d, s') => match_items p' d s' end
  | End :: p' => match s with [] => match_items p' cap s | _ => None end
  end.
Fixpoint expand (repl cap : str) : str :=
  match repl with
  | [] => []
  | c :: r => if Ascii.eqb c "\" then match r with d :: r' => if Ascii.eqb d "1" then cap ++ expand r' cap else d :: expand r' cap | [] => [] end
              else c :: expand r cap
  end.
(** re.sub with a pattern that begins with ^ *)
Definition re_sub (pattern repl key : str) : str :=
  match pattern with
  | c :: p => if Ascii.eqb c "^" then match match_items (parse p) [] key with Some (cap, rest) => expand repl cap ++ rest | None => key end else key
  | [] => key
  end.

Definition key_map := list (str * str).
(** get_converted_key: lines 108-114 *)
Fixpoint get_converted_key (m : key_map) (key : str) : str :=
  match m with
  | [] => key
  | (p, r) :: m' => let k := re_sub p r key in if str_eqb k key then get_converted_key m' key else k
  end.

Section Dict.
  Context {V : Type}.
  Definition dict := list (str * V).
  Fixpoint get (k : str) (d : dict) : option V := match d with [] => None | (k', v) :: d' => if str_eqb k k' then Some v else get k d' end.
  Fixpoint set (k : str) (v : V) (d : dict) : dict :=
    match d with [] => [(k, v)] | (k', w) :: d' => if str_eqb k k' then (k', v) :: d' else (k', w) :: set k v d' end.
  Definition del (k : str) (d : dict) : dict := filter (fun e => negb (str_eqb k (fst e))) d.
  (** convert_state_dict: lines 96-121 *)
  Definition convert_state_dict (m : key_map) (d : dict) : dict := fold_left (fun acc e => set (get_converted_key m (fst e)) (snd e) acc) d [].
End Dict.
Arguments dict : clear implicits.

(** create_reverse_key_map: lines 150-180. The regular expression ([0-9]+) and the back reference \1 are replaced as text. *)
Definition reverse_entry (e : str * str) : str * str :=
  let (pattern, replacement) := e in
  let without_anchor := match pattern with c :: p => if Ascii.eqb c "^" then p else pattern | [] => [] end in
  let new_pattern := "^" :: replace (of_string "\1") (of_string "([0-9]+)") (replace ["."] ["\"; "."] replacement) in
  let new_replacement := replace ["\"; "."] ["."] (replace (of_string "([0-9]+)") (of_string "\1") without_anchor) in
  (new_pattern, new_replacement).
Definition create_reverse_key_map (m : key_map) : key_map := fold_left (fun acc e => let (p, r) := reverse_entry e in set p r acc) m [].

Local Open Scope string_scope.
(** The keys of LLaMA: models/llama/interop.py 44-59 *)
Definition llama_hg_key_map : list (string * string) := [
  ("^model\.layers\.([0-9]+)\.self_attn\.q_proj\.", "decoder.layers.\1.self_attn.q_proj.");
  ("^model\.layers\.([0-9]+)\.self_attn\.k_proj\.", "decoder.layers.\1.self_attn.k_proj.");
  ("^model\.layers\.([0-9]+)\.self_attn\.v_proj\.", "decoder.layers.\1.self_attn.v_proj.");
  ("^model\.layers\.([0-9]+)\.self_attn\.o_proj\.", "decoder.layers.\1.self_attn.output_proj.");
  ("^model\.layers\.([0-9]+)\.post_attention_layernorm\.", "decoder.layers.\1.ffn_layer_norm.");
  ("^model\.layers\.([0-9]+)\.mlp\.gate_proj\.", "decoder.layers.\1.ffn.gate_proj.");
  ("^model\.layers\.([0-9]+)\.mlp\.down_proj\.", "decoder.layers.\1.ffn.output_proj.");
  ("^model\.layers\.([0-9]+)\.mlp\.up_proj\.", "decoder.layers.\1.ffn.inner_proj.");
  ("^model\.layers\.([0-9]+)\.input_layernorm\.", "decoder.layers.\1.self_attn_layer_norm.");
  ("^model\.norm\.", "decoder.layer_norm.");
  ("^model\.embed_tokens\.", "decoder_frontend.embed.");
  ("^lm_head\.", "final_proj.")].
(** The keys of the reference implementation of LLaMA: models/llama/interop.py 98-113 *)
Definition llama_ref_key_map : list (string * string) := [
  ("^layers\.([0-9]+)\.attention\.wq\.", "decoder.layers.\1.self_attn.q_proj.");
  ("^layers\.([0-9]+)\.attention\.wk\.", "decoder.layers.\1.self_attn.k_proj.");
  ("^layers\.([0-9]+)\.attention\.wv\.", "decoder.layers.\1.self_attn.v_proj.");
  ("^layers\.([0-9]+)\.attention\.wo\.", "decoder.layers.\1.self_attn.output_proj.");
  ("^layers\.([0-9]+)\.attention_norm\.", "decoder.layers.\1.self_attn_layer_norm.");
  ("^layers\.([0-9]+)\.feed_forward\.w1\.", "decoder.layers.\1.ffn.gate_proj.");
  ("^layers\.([0-9]+)\.feed_forward\.w2\.", "decoder.layers.\1.ffn.output_proj.");
  ("^layers\.([0-9]+)\.feed_forward\.w3\.", "decoder.layers.\1.ffn.inner_proj.");
  ("^layers\.([0-9]+)\.ffn_norm\.", "decoder.layers.\1.ffn_layer_norm.");
  ("^norm\.", "decoder.layer_norm.");
  ("^tok_embeddings\.", "decoder_frontend.embed.");
  ("^output\.", "final_proj.")].
(** convert_to_ref_llama_state_dict: models/llama/interop.py 19-41 *)
Definition llama_to_ref_key_map : list (string * string) := [
  ("^decoder\.layers\.([0-9]+)\.self_attn\.q_proj\.", "layers.\1.attention.wq.");
  ("^decoder\.layers\.([0-9]+)\.self_attn\.k_proj\.", "layers.\1.attention.wk.");
  ("^decoder\.layers\.([0-9]+)\.self_attn\.v_proj\.", "layers.\1.attention.wv.");
  ("^decoder\.layers\.([0-9]+)\.self_attn\.output_proj\.", "layers.\1.attention.wo.");
  ("^decoder\.layers\.([0-9]+)\.self_attn_layer_norm\.", "layers.\1.attention_norm.");
  ("^decoder\.layers\.([0-9]+)\.ffn\.gate_proj\.", "layers.\1.feed_forward.w1.");
  ("^decoder\.layers\.([0-9]+)\.ffn\.output_proj\.", "layers.\1.feed_forward.w2.");
  ("^decoder\.layers\.([0-9]+)\.ffn\.inner_proj\.", "layers.\1.feed_forward.w3.");
  ("^decoder\.layers\.([0-9]+)\.ffn_layer_norm\.", "layers.\1.ffn_norm.");
  ("^decoder\.layer_norm\.", "norm.");
  ("^decoder_frontend\.embed\.", "tok_embeddings.");
  ("^final_proj\.", "output.")].
(** models/qwen/interop.py 18-36 *)
Definition qwen_hg_key_map : list (string * string) := [
  ("^model\.layers\.([0-9]+)\.self_attn\.q_proj\.", "decoder.layers.\1.self_attn.q_proj.");
  ("^model\.layers\.([0-9]+)\.self_attn\.k_proj\.", "decoder.layers.\1.self_attn.k_proj.");
  ("^model\.layers\.([0-9]+)\.self_attn\.v_proj\.", "decoder.layers.\1.self_attn.v_proj.");
  ("^model\.layers\.([0-9]+)\.self_attn\.q_norm\.", "decoder.layers.\1.self_attn.q_norm.");
  ("^model\.layers\.([0-9]+)\.self_attn\.k_norm\.", "decoder.layers.\1.self_attn.k_norm.");
  ("^model\.layers\.([0-9]+)\.self_attn\.o_proj\.", "decoder.layers.\1.self_attn.output_proj.");
  ("^model\.layers\.([0-9]+)\.post_attention_layernorm\.", "decoder.layers.\1.ffn_layer_norm.");
  ("^model\.layers\.([0-9]+)\.mlp\.up_proj\.", "decoder.layers.\1.ffn.inner_proj.");
  ("^model\.layers\.([0-9]+)\.mlp\.gate_proj\.", "decoder.layers.\1.ffn.gate_proj.");
  ("^model\.layers\.([0-9]+)\.mlp\.down_proj\.", "decoder.layers.\1.ffn.output_proj.");
  ("^model\.layers\.([0-9]+)\.input_layernorm\.", "decoder.layers.\1.self_attn_layer_norm.");
  ("^model\.norm\.", "decoder.layer_norm.");
  ("^model\.embed_tokens\.", "decoder_frontend.embed.");
  ("^lm_head\.", "final_proj.")].
(** models/olmo/interop.py 18-50 *)
Definition olmo_hg_key_map : list (string * string) := [
  ("^model\.layers\.([0-9]+)\.self_attn\.q_proj\.", "decoder.layers.\1.self_attn.q_proj.");
  ("^model\.layers\.([0-9]+)\.self_attn\.k_proj\.", "decoder.layers.\1.self_attn.k_proj.");
  ("^model\.layers\.([0-9]+)\.self_attn\.v_proj\.", "decoder.layers.\1.self_attn.v_proj.");
  ("^model\.layers\.([0-9]+)\.self_attn\.o_proj\.", "decoder.layers.\1.self_attn.output_proj.");
  ("^model\.layers\.([0-9]+)\.self_attn\.q_norm\.", "decoder.layers.\1.self_attn.q_norm.");
  ("^model\.layers\.([0-9]+)\.self_attn\.k_norm\.", "decoder.layers.\1.self_attn.k_norm.");
  ("^model\.layers\.([0-9]+)\.post_attention_layernorm\.", "decoder.layers.\1.self_attn_layer_norm.");
  ("^model\.layers\.([0-9]+)\.post_feedforward_layernorm\.", "decoder.layers.\1.ffn_layer_norm.");
  ("^model\.layers\.([0-9]+)\.mlp\.gate_proj\.", "decoder.layers.\1.ffn.gate_proj.");
  ("^model\.layers\.([0-9]+)\.mlp\.down_proj\.", "decoder.layers.\1.ffn.output_proj.");
  ("^model\.layers\.([0-9]+)\.mlp\.up_proj\.", "decoder.layers.\1.ffn.inner_proj.");
  ("^model\.norm\.", "decoder.layer_norm.");
  ("^model\.embed_tokens\.", "decoder_frontend.embed.");
  ("^lm_head\.", "final_proj.")].
(** models/gemma3n/interop.py 21-126 *)
Definition gemma3n_hg_key_map : list (string * string) := [
  ("^model\.language_model\.embed_tokens\.", "decoder_frontend.embed.");
  ("^lm_head\.", "final_proj.proj.");
  ("^model\.audio_tower\.subsample_conv_projection\.conv_0\.conv\.", "audio_tower.subsample.conv_0.");
  ("^model\.audio_tower\.subsample_conv_projection\.conv_0\.norm\.", "audio_tower.subsample.norm_0.");
  ("^model\.audio_tower\.subsample_conv_projection\.conv_1\.conv\.", "audio_tower.subsample.conv_1.");
  ("^model\.audio_tower\.subsample_conv_projection\.conv_1\.norm\.", "audio_tower.subsample.norm_1.");
  ("^model\.audio_tower\.subsample_conv_projection\.input_proj_linear\.", "audio_tower.subsample.proj.");
  ("^model\.audio_tower\.conformer\.([0-9]+)\.attention\.pre_attn_norm\.", "audio_tower.encoder.layers.\1.self_attn_layer_norm.");
  ("^model\.audio_tower\.conformer\.([0-9]+)\.attention\.attn\.q_proj\.", "audio_tower.encoder.layers.\1.self_attn.q_proj.");
  ("^model\.audio_tower\.conformer\.([0-9]+)\.attention\.attn\.k_proj\.", "audio_tower.encoder.layers.\1.self_attn.k_proj.");
  ("^model\.audio_tower\.conformer\.([0-9]+)\.attention\.attn\.v_proj\.", "audio_tower.encoder.layers.\1.self_attn.v_proj.");
  ("^model\.audio_tower\.conformer\.([0-9]+)\.attention\.attn\.per_dim_scale$", "audio_tower.encoder.layers.\1.self_attn.sdpa.per_dim_scale");
  ("^model\.audio_tower\.conformer\.([0-9]+)\.attention\.attn\.relative_position_embedding\.pos_proj\.", "audio_tower.encoder.layers.\1.self_attn.sdpa.pos_proj.");
  ("^model\.audio_tower\.conformer\.([0-9]+)\.attention\.post\.", "audio_tower.encoder.layers.\1.self_attn.output_proj.");
  ("^model\.audio_tower\.conformer\.([0-9]+)\.attention\.post_norm\.", "audio_tower.encoder.layers.\1.self_attn_post_norm.");
  ("^model\.audio_tower\.conformer\.([0-9]+)\.ffw_layer_start\.pre_layer_norm\.", "audio_tower.encoder.layers.\1.ffn1_layer_norm.");
  ("^model\.audio_tower\.conformer\.([0-9]+)\.ffw_layer_start\.ffw_layer_1\.", "audio_tower.encoder.layers.\1.ffn1.inner_proj.");
  ("^model\.audio_tower\.conformer\.([0-9]+)\.ffw_layer_start\.ffw_layer_2\.", "audio_tower.encoder.layers.\1.ffn1.output_proj.");
  ("^model\.audio_tower\.conformer\.([0-9]+)\.ffw_layer_start\.post_layer_norm\.", "audio_tower.encoder.layers.\1.ffn1_post_layer_norm.");
  ("^model\.audio_tower\.conformer\.([0-9]+)\.lconv1d\.pre_layer_norm\.", "audio_tower.encoder.layers.\1.conv_layer_norm.");
  ("^model\.audio_tower\.conformer\.([0-9]+)\.lconv1d\.linear_start\.", "audio_tower.encoder.layers.\1.conv.pointwise_conv1.");
  ("^model\.audio_tower\.conformer\.([0-9]+)\.lconv1d\.depthwise_conv1d\.", "audio_tower.encoder.layers.\1.conv.depthwise_conv.");
  ("^model\.audio_tower\.conformer\.([0-9]+)\.lconv1d\.conv_norm\.", "audio_tower.encoder.layers.\1.conv.layer_norm.");
  ("^model\.audio_tower\.conformer\.([0-9]+)\.lconv1d\.linear_end\.", "audio_tower.encoder.layers.\1.conv.pointwise_conv2.");
  ("^model\.audio_tower\.conformer\.([0-9]+)\.ffw_layer_end\.pre_layer_norm\.", "audio_tower.encoder.layers.\1.ffn2_layer_norm.");
  ("^model\.audio_tower\.conformer\.([0-9]+)\.ffw_layer_end\.ffw_layer_1\.", "audio_tower.encoder.layers.\1.ffn2.inner_proj.");
  ("^model\.audio_tower\.conformer\.([0-9]+)\.ffw_layer_end\.ffw_layer_2\.", "audio_tower.encoder.layers.\1.ffn2.output_proj.");
  ("^model\.audio_tower\.conformer\.([0-9]+)\.ffw_layer_end\.post_layer_norm\.", "audio_tower.encoder.layers.\1.ffn2_post_layer_norm.");
  ("^model\.audio_tower\.conformer\.([0-9]+)\.norm\.", "audio_tower.encoder.layers.\1.layer_norm.");
  ("^model\.embed_audio\.embedding\.", "audio_tower.embedder.embedding.");
  ("^model\.embed_audio\.hard_embedding_norm\.", "audio_tower.embedder.hard_embedding_norm.");
  ("^model\.embed_audio\.soft_embedding_norm\.", "audio_tower.embedder.soft_embedding_norm.");
  ("^model\.embed_audio\.embedding_projection\.", "audio_tower.embedder.embedding_projection.");
  ("^model\.embed_audio\.embedding_post_projection_norm\.", "audio_tower.embedder.embedding_post_projection_norm.");
  ("^model\.language_model\.layers\.([0-9]+)\.self_attn\.q_proj\.", "decoder.layers.\1.self_attn.q_proj.");
  ("^model\.language_model\.layers\.([0-9]+)\.self_attn\.k_proj\.", "decoder.layers.\1.self_attn.k_proj.");
  ("^model\.language_model\.layers\.([0-9]+)\.self_attn\.v_proj\.", "decoder.layers.\1.self_attn.v_proj.");
  ("^model\.language_model\.layers\.([0-9]+)\.self_attn\.o_proj\.", "decoder.layers.\1.self_attn.output_proj.");
  ("^model\.language_model\.layers\.([0-9]+)\.self_attn\.q_norm\.", "decoder.layers.\1.self_attn.q_norm.");
  ("^model\.language_model\.layers\.([0-9]+)\.self_attn\.k_norm\.", "decoder.layers.\1.self_attn.k_norm.");
  ("^model\.language_model\.layers\.([0-9]+)\.input_layernorm\.", "decoder.layers.\1.input_layernorm.");
  ("^model\.language_model\.layers\.([0-9]+)\.post_attention_layernorm\.", "decoder.layers.\1.post_attention_layernorm.");
  ("^model\.language_model\.layers\.([0-9]+)\.pre_feedforward_layernorm\.", "decoder.layers.\1.pre_feedforward_layernorm.");
  ("^model\.language_model\.layers\.([0-9]+)\.post_feedforward_layernorm\.", "decoder.layers.\1.post_feedforward_layernorm.");
  ("^model\.language_model\.layers\.([0-9]+)\.laurel\.linear_left\.", "decoder.layers.\1.laurel.linear_left.");
  ("^model\.language_model\.layers\.([0-9]+)\.laurel\.linear_right\.", "decoder.layers.\1.laurel.linear_right.");
  ("^model\.language_model\.layers\.([0-9]+)\.laurel\.post_laurel_norm\.", "decoder.layers.\1.laurel.post_laurel_norm.");
  ("^model\.language_model\.layers\.([0-9]+)\.altup\.correct_output_scale$", "decoder.layers.\1.altup.correct_output_scale");
  ("^model\.language_model\.layers\.([0-9]+)\.altup\.correction_coefs\.", "decoder.layers.\1.altup.correction_coefs.");
  ("^model\.language_model\.layers\.([0-9]+)\.altup\.prediction_coefs\.", "decoder.layers.\1.altup.prediction_coefs.");
  ("^model\.language_model\.layers\.([0-9]+)\.altup\.modality_router\.", "decoder.layers.\1.altup.modality_router.");
  ("^model\.language_model\.layers\.([0-9]+)\.altup\.router_norm\.", "decoder.layers.\1.altup.router_norm.");
  ("^model\.language_model\.layers\.([0-9]+)\.per_layer_input_gate\.", "decoder.layers.\1.per_layer_input_gate.");
  ("^model\.language_model\.layers\.([0-9]+)\.per_layer_projection\.", "decoder.layers.\1.per_layer_projection.");
  ("^model\.language_model\.layers\.([0-9]+)\.post_per_layer_input_norm\.", "decoder.layers.\1.post_per_layer_input_norm.");
  ("^model\.language_model\.layers\.([0-9]+)\.mlp\.gate_proj\.", "decoder.layers.\1.ffn.gate_proj.");
  ("^model\.language_model\.layers\.([0-9]+)\.mlp\.up_proj\.", "decoder.layers.\1.ffn.inner_proj.");
  ("^model\.language_model\.layers\.([0-9]+)\.mlp\.down_proj\.", "decoder.layers.\1.ffn.output_proj.");
  ("^model\.language_model\.altup_projections\.([0-9]+)\.", "decoder.altup_projections.\1.");
  ("^model\.language_model\.altup_unembed_projections\.([0-9]+)\.", "decoder.altup_unembed_projections.\1.");
  ("^model\.language_model\.embed_tokens_per_layer\.", "decoder_frontend.embed_tokens_per_layer.");
  ("^model\.language_model\.per_layer_model_projection\.", "decoder_frontend.per_layer_model_projection.");
  ("^model\.language_model\.per_layer_projection_norm\.", "decoder_frontend.per_layer_projection_norm.");
  ("^model\.language_model\.norm\.", "decoder.layer_norm.")].
(** models/mistral/interop.py 17-32 *)
Definition mistral_ref_key_map : list (string * string) := [
  ("^layers\.([0-9]+)\.attention\.wq\.", "decoder.layers.\1.self_attn.q_proj.");
  ("^layers\.([0-9]+)\.attention\.wk\.", "decoder.layers.\1.self_attn.k_proj.");
  ("^layers\.([0-9]+)\.attention\.wv\.", "decoder.layers.\1.self_attn.v_proj.");
  ("^layers\.([0-9]+)\.attention\.wo\.", "decoder.layers.\1.self_attn.output_proj.");
  ("^layers\.([0-9]+)\.attention_norm\.", "decoder.layers.\1.self_attn_layer_norm.");
  ("^layers\.([0-9]+)\.feed_forward\.w1\.", "decoder.layers.\1.ffn.gate_proj.");
  ("^layers\.([0-9]+)\.feed_forward\.w2\.", "decoder.layers.\1.ffn.output_proj.");
  ("^layers\.([0-9]+)\.feed_forward\.w3\.", "decoder.layers.\1.ffn.inner_proj.");
  ("^layers\.([0-9]+)\.ffn_norm\.", "decoder.layers.\1.ffn_layer_norm.");
  ("^norm\.", "decoder.layer_norm.");
  ("^tok_embeddings\.", "decoder_frontend.embed.");
  ("^output\.", "final_proj.")].
Local Open Scope nat_scope.
Definition of_table (t : list (string * string)) : key_map := map (fun e => (of_string (fst e), of_string (snd e))) t.

(** f"{idx}" *)
Definition decimal (n : nat) : str := of_string (NilZero.string_of_uint (Nat.to_uint n)).

Section Llama.
  Context {A : Type}.
  Notation tensor := (list A).
  (** view of the first dimension as (rows, width), and transpose(1, 2) of one head *)
  Fixpoint view (rows width : nat) (l : tensor) : list tensor :=
    match rows with 0 => [] | S r => firstn width l :: view r width (skipn width l) end.
  Definition transpose (width : nat) (l : list tensor) : list tensor := map (fun j => flat_map (fun r => firstn 1 (skipn j r)) l) (seq 0 width).
  (** permute_rotary: models/llama/interop.py 73-81 (from Hugging Face) and 184-192 (to Hugging Face). view raises if the number of rows differs. (That
      the columns are model_dim many is not modelled.) *)
  Definition permute_rotary_from (head_dim num_heads : nat) (w : tensor) : option tensor :=
    if length w =? num_heads * (2 * (head_dim / 2)) then
      Some (concat (map (fun h => concat (transpose (head_dim / 2) (view 2 (head_dim / 2) h))) (view num_heads (2 * (head_dim / 2)) w)))
    else None.
  Definition permute_rotary_to (head_dim num_heads : nat) (w : tensor) : option tensor :=
    if length w =? num_heads * (2 * (head_dim / 2)) then
      Some (concat (map (fun h => concat (transpose 2 (view (head_dim / 2) 2 h))) (view num_heads (2 * (head_dim / 2)) w)))
    else None.

  Record config := Config { model_dim : nat; num_layers : nat; num_attn_heads : nat; num_key_value_heads : nat; tied_embeddings : bool }.
  Definition q_key (prefix : string) (idx : nat) : str := of_string prefix ++ decimal idx ++ of_string ".self_attn.q_proj.weight".
  Definition k_key (prefix : string) (idx : nat) : str := of_string prefix ++ decimal idx ++ of_string ".self_attn.k_proj.weight".
  (** Lines 83-94 and 194-205: the loop over the layers *)
  Definition permute_layers (perm : nat -> tensor -> option tensor) (prefix : string) (c : config) (d : dict tensor) : option (dict tensor) :=
    fold_left (fun od idx =>
      match od with
      | None => None
      | Some d =>
        match get (q_key prefix idx) d, get (k_key prefix idx) d with
        | Some q, Some k => match perm (num_attn_heads c) q, perm (num_key_value_heads c) k with
                            | Some q', Some k' => Some (set (k_key prefix idx) k' (set (q_key prefix idx) q' d))
                            | _, _ => None
                            end
        | _, _ => None
        end
      end) (seq 0 (num_layers c)) (Some d).
  (** Lines 120-121 *)
  Definition tie (c : config) (d : dict tensor) : option (dict tensor) :=
    if tied_embeddings c then match get (of_string "decoder_frontend.embed.weight") d with
                              | Some w => Some (set (of_string "final_proj.weight") w d) | None => None end
    else Some d.
  Definition untie (c : config) (d : dict tensor) : option (dict tensor) :=
    if tied_embeddings c then match get (of_string "lm_head.weight") d with Some _ => Some (del (of_string "lm_head.weight") d) | None => None end else Some d.
  Definition has (k : string) (d : dict tensor) : bool := match get (of_string k) d with Some _ => true | None => false end.
  Fixpoint contains (p s : str) : bool := match starts_with p s with Some _ => true | None => match s with [] => false | _ :: s' => contains p s' end end.
  (** convert_llama_state_dict: models/llama/interop.py 62-123. The legacy form, wrapped in a dictionary under the key "model", is not modelled. *)
  Definition convert_llama_state_dict (c : config) (d : dict tensor) : option (dict tensor) :=
    let head_dim := model_dim c / num_attn_heads c in
    if has "model.embed_tokens.weight" d then
      match permute_layers (permute_rotary_from head_dim) "model.layers." c d with
      | Some d' => tie c (convert_state_dict (of_table llama_hg_key_map) d')
      | None => None
      end
    else if has "tok_embeddings.weight" d then
      tie c (convert_state_dict (of_table llama_ref_key_map) (filter (fun e => negb (contains (of_string "rope.freqs") (fst e))) d))
    else tie c d.
  (** to_hg_state_dict: models/llama/interop.py 176-214. The dictionary of the caller is changed: the second result. *)
  Definition llama_to_hg_state_dict (c : config) (d : dict tensor) : option (dict tensor * dict tensor) :=
    match permute_layers (permute_rotary_to (model_dim c / num_attn_heads c)) "decoder.layers." c d with
    | Some d' => match untie c (convert_state_dict (create_reverse_key_map (of_table llama_hg_key_map)) d') with Some h => Some (h, d') | None => None end
    | None => None
    end.
  (** convert_to_ref_llama_state_dict: models/llama/interop.py 19-41 *)
  Definition convert_to_ref_llama_state_dict (d : dict tensor) : dict tensor := convert_state_dict (of_table llama_to_ref_key_map) d.
  (** models/qwen/interop.py 38-47, 77-90; models/olmo/interop.py 52-75, 141-154: the same code with different maps *)
  Definition convert_hg_state_dict (t : list (string * string)) (c : config) (d : dict tensor) : option (dict tensor) :=
    tie c (if has "model.embed_tokens.weight" d then convert_state_dict (of_table t) d else d).
  Definition to_hg_state_dict (t : list (string * string)) (c : config) (d : dict tensor) : option (dict tensor) :=
    untie c (convert_state_dict (create_reverse_key_map (of_table t)) d).
End Llama.
