(** The names of the parameters in other libraries and in fairseq2. In a template, # stands for the number of a layer; anything may follow. *)
From Coq Require Import String Ascii List.
Import ListNotations.
Local Open Scope string_scope.

(** Hugging Face LLaMA *)
Definition llama_names : list (string * string) := [
  ("model.layers.#.self_attn.q_proj.", "decoder.layers.#.self_attn.q_proj.");
  ("model.layers.#.self_attn.k_proj.", "decoder.layers.#.self_attn.k_proj.");
  ("model.layers.#.self_attn.v_proj.", "decoder.layers.#.self_attn.v_proj.");
  ("model.layers.#.self_attn.o_proj.", "decoder.layers.#.self_attn.output_proj.");
  ("model.layers.#.post_attention_layernorm.", "decoder.layers.#.ffn_layer_norm.");
  ("model.layers.#.mlp.gate_proj.", "decoder.layers.#.ffn.gate_proj.");
  ("model.layers.#.mlp.down_proj.", "decoder.layers.#.ffn.output_proj.");
  ("model.layers.#.mlp.up_proj.", "decoder.layers.#.ffn.inner_proj.");
  ("model.layers.#.input_layernorm.", "decoder.layers.#.self_attn_layer_norm.");
  ("model.norm.", "decoder.layer_norm.");
  ("model.embed_tokens.", "decoder_frontend.embed.");
  ("lm_head.", "final_proj.")].

(** Hugging Face Qwen 2, 2.5 and 3 *)
Definition qwen_names : list (string * string) := [
  ("model.layers.#.self_attn.q_proj.", "decoder.layers.#.self_attn.q_proj.");
  ("model.layers.#.self_attn.k_proj.", "decoder.layers.#.self_attn.k_proj.");
  ("model.layers.#.self_attn.v_proj.", "decoder.layers.#.self_attn.v_proj.");
  ("model.layers.#.self_attn.q_norm.", "decoder.layers.#.self_attn.q_norm.");
  ("model.layers.#.self_attn.k_norm.", "decoder.layers.#.self_attn.k_norm.");
  ("model.layers.#.self_attn.o_proj.", "decoder.layers.#.self_attn.output_proj.");
  ("model.layers.#.post_attention_layernorm.", "decoder.layers.#.ffn_layer_norm.");
  ("model.layers.#.mlp.up_proj.", "decoder.layers.#.ffn.inner_proj.");
  ("model.layers.#.mlp.gate_proj.", "decoder.layers.#.ffn.gate_proj.");
  ("model.layers.#.mlp.down_proj.", "decoder.layers.#.ffn.output_proj.");
  ("model.layers.#.input_layernorm.", "decoder.layers.#.self_attn_layer_norm.");
  ("model.norm.", "decoder.layer_norm.");
  ("model.embed_tokens.", "decoder_frontend.embed.");
  ("lm_head.", "final_proj.")].

(** Hugging Face OLMo 2 and 3 *)
Definition olmo_names : list (string * string) := [
  ("model.layers.#.self_attn.q_proj.", "decoder.layers.#.self_attn.q_proj.");
  ("model.layers.#.self_attn.k_proj.", "decoder.layers.#.self_attn.k_proj.");
  ("model.layers.#.self_attn.v_proj.", "decoder.layers.#.self_attn.v_proj.");
  ("model.layers.#.self_attn.o_proj.", "decoder.layers.#.self_attn.output_proj.");
  ("model.layers.#.self_attn.q_norm.", "decoder.layers.#.self_attn.q_norm.");
  ("model.layers.#.self_attn.k_norm.", "decoder.layers.#.self_attn.k_norm.");
  ("model.layers.#.post_attention_layernorm.", "decoder.layers.#.self_attn_layer_norm.");
  ("model.layers.#.post_feedforward_layernorm.", "decoder.layers.#.ffn_layer_norm.");
  ("model.layers.#.mlp.gate_proj.", "decoder.layers.#.ffn.gate_proj.");
  ("model.layers.#.mlp.down_proj.", "decoder.layers.#.ffn.output_proj.");
  ("model.layers.#.mlp.up_proj.", "decoder.layers.#.ffn.inner_proj.");
  ("model.norm.", "decoder.layer_norm.");
  ("model.embed_tokens.", "decoder_frontend.embed.");
  ("lm_head.", "final_proj.")].

(** Hugging Face Gemma 3n, without the two parameters that exist only in fairseq2 *)
Definition gemma3n_names : list (string * string) := [
  ("model.language_model.embed_tokens.", "decoder_frontend.embed.");
  ("lm_head.", "final_proj.proj.");
  ("model.audio_tower.subsample_conv_projection.conv_0.conv.", "audio_tower.subsample.conv_0.");
  ("model.audio_tower.subsample_conv_projection.conv_0.norm.", "audio_tower.subsample.norm_0.");
  ("model.audio_tower.subsample_conv_projection.conv_1.conv.", "audio_tower.subsample.conv_1.");
  ("model.audio_tower.subsample_conv_projection.conv_1.norm.", "audio_tower.subsample.norm_1.");
  ("model.audio_tower.subsample_conv_projection.input_proj_linear.", "audio_tower.subsample.proj.");
  ("model.audio_tower.conformer.#.attention.pre_attn_norm.", "audio_tower.encoder.layers.#.self_attn_layer_norm.");
  ("model.audio_tower.conformer.#.attention.attn.q_proj.", "audio_tower.encoder.layers.#.self_attn.q_proj.");
  ("model.audio_tower.conformer.#.attention.attn.k_proj.", "audio_tower.encoder.layers.#.self_attn.k_proj.");
  ("model.audio_tower.conformer.#.attention.attn.v_proj.", "audio_tower.encoder.layers.#.self_attn.v_proj.");
  ("model.audio_tower.conformer.#.attention.attn.relative_position_embedding.pos_proj.", "audio_tower.encoder.layers.#.self_attn.sdpa.pos_proj.");
  ("model.audio_tower.conformer.#.attention.post.", "audio_tower.encoder.layers.#.self_attn.output_proj.");
  ("model.audio_tower.conformer.#.attention.post_norm.", "audio_tower.encoder.layers.#.self_attn_post_norm.");
  ("model.audio_tower.conformer.#.ffw_layer_start.pre_layer_norm.", "audio_tower.encoder.layers.#.ffn1_layer_norm.");
  ("model.audio_tower.conformer.#.ffw_layer_start.ffw_layer_1.", "audio_tower.encoder.layers.#.ffn1.inner_proj.");
  ("model.audio_tower.conformer.#.ffw_layer_start.ffw_layer_2.", "audio_tower.encoder.layers.#.ffn1.output_proj.");
  ("model.audio_tower.conformer.#.ffw_layer_start.post_layer_norm.", "audio_tower.encoder.layers.#.ffn1_post_layer_norm.");
  ("model.audio_tower.conformer.#.lconv1d.pre_layer_norm.", "audio_tower.encoder.layers.#.conv_layer_norm.");
  ("model.audio_tower.conformer.#.lconv1d.linear_start.", "audio_tower.encoder.layers.#.conv.pointwise_conv1.");
  ("model.audio_tower.conformer.#.lconv1d.depthwise_conv1d.", "audio_tower.encoder.layers.#.conv.depthwise_conv.");
  ("model.audio_tower.conformer.#.lconv1d.conv_norm.", "audio_tower.encoder.layers.#.conv.layer_norm.");
  ("model.audio_tower.conformer.#.lconv1d.linear_end.", "audio_tower.encoder.layers.#.conv.pointwise_conv2.");
  ("model.audio_tower.conformer.#.ffw_layer_end.pre_layer_norm.", "audio_tower.encoder.layers.#.ffn2_layer_norm.");
  ("model.audio_tower.conformer.#.ffw_layer_end.ffw_layer_1.", "audio_tower.encoder.layers.#.ffn2.inner_proj.");
  ("model.audio_tower.conformer.#.ffw_layer_end.ffw_layer_2.", "audio_tower.encoder.layers.#.ffn2.output_proj.");
  ("model.audio_tower.conformer.#.ffw_layer_end.post_layer_norm.", "audio_tower.encoder.layers.#.ffn2_post_layer_norm.");
  ("model.audio_tower.conformer.#.norm.", "audio_tower.encoder.layers.#.layer_norm.");
  ("model.embed_audio.embedding.", "audio_tower.embedder.embedding.");
  ("model.embed_audio.hard_embedding_norm.", "audio_tower.embedder.hard_embedding_norm.");
  ("model.embed_audio.soft_embedding_norm.", "audio_tower.embedder.soft_embedding_norm.");
  ("model.embed_audio.embedding_projection.", "audio_tower.embedder.embedding_projection.");
  ("model.embed_audio.embedding_post_projection_norm.", "audio_tower.embedder.embedding_post_projection_norm.");
  ("model.language_model.layers.#.self_attn.q_proj.", "decoder.layers.#.self_attn.q_proj.");
  ("model.language_model.layers.#.self_attn.k_proj.", "decoder.layers.#.self_attn.k_proj.");
  ("model.language_model.layers.#.self_attn.v_proj.", "decoder.layers.#.self_attn.v_proj.");
  ("model.language_model.layers.#.self_attn.o_proj.", "decoder.layers.#.self_attn.output_proj.");
  ("model.language_model.layers.#.self_attn.q_norm.", "decoder.layers.#.self_attn.q_norm.");
  ("model.language_model.layers.#.self_attn.k_norm.", "decoder.layers.#.self_attn.k_norm.");
  ("model.language_model.layers.#.input_layernorm.", "decoder.layers.#.input_layernorm.");
  ("model.language_model.layers.#.post_attention_layernorm.", "decoder.layers.#.post_attention_layernorm.");
  ("model.language_model.layers.#.pre_feedforward_layernorm.", "decoder.layers.#.pre_feedforward_layernorm.");
  ("model.language_model.layers.#.post_feedforward_layernorm.", "decoder.layers.#.post_feedforward_layernorm.");
  ("model.language_model.layers.#.laurel.linear_left.", "decoder.layers.#.laurel.linear_left.");
  ("model.language_model.layers.#.laurel.linear_right.", "decoder.layers.#.laurel.linear_right.");
  ("model.language_model.layers.#.laurel.post_laurel_norm.", "decoder.layers.#.laurel.post_laurel_norm.");
  ("model.language_model.layers.#.altup.correction_coefs.", "decoder.layers.#.altup.correction_coefs.");
  ("model.language_model.layers.#.altup.prediction_coefs.", "decoder.layers.#.altup.prediction_coefs.");
  ("model.language_model.layers.#.altup.modality_router.", "decoder.layers.#.altup.modality_router.");
  ("model.language_model.layers.#.altup.router_norm.", "decoder.layers.#.altup.router_norm.");
  ("model.language_model.layers.#.per_layer_input_gate.", "decoder.layers.#.per_layer_input_gate.");
  ("model.language_model.layers.#.per_layer_projection.", "decoder.layers.#.per_layer_projection.");
  ("model.language_model.layers.#.post_per_layer_input_norm.", "decoder.layers.#.post_per_layer_input_norm.");
  ("model.language_model.layers.#.mlp.gate_proj.", "decoder.layers.#.ffn.gate_proj.");
  ("model.language_model.layers.#.mlp.up_proj.", "decoder.layers.#.ffn.inner_proj.");
  ("model.language_model.layers.#.mlp.down_proj.", "decoder.layers.#.ffn.output_proj.");
  ("model.language_model.altup_projections.#.", "decoder.altup_projections.#.");
  ("model.language_model.altup_unembed_projections.#.", "decoder.altup_unembed_projections.#.");
  ("model.language_model.embed_tokens_per_layer.", "decoder_frontend.embed_tokens_per_layer.");
  ("model.language_model.per_layer_model_projection.", "decoder_frontend.per_layer_model_projection.");
  ("model.language_model.per_layer_projection_norm.", "decoder_frontend.per_layer_projection_norm.");
  ("model.language_model.norm.", "decoder.layer_norm.")].

(** the reference implementation of LLaMA, also Mistral *)
Definition reference_names : list (string * string) := [
  ("layers.#.attention.wq.", "decoder.layers.#.self_attn.q_proj.");
  ("layers.#.attention.wk.", "decoder.layers.#.self_attn.k_proj.");
  ("layers.#.attention.wv.", "decoder.layers.#.self_attn.v_proj.");
  ("layers.#.attention.wo.", "decoder.layers.#.self_attn.output_proj.");
  ("layers.#.attention_norm.", "decoder.layers.#.self_attn_layer_norm.");
  ("layers.#.feed_forward.w1.", "decoder.layers.#.ffn.gate_proj.");
  ("layers.#.feed_forward.w2.", "decoder.layers.#.ffn.output_proj.");
  ("layers.#.feed_forward.w3.", "decoder.layers.#.ffn.inner_proj.");
  ("layers.#.ffn_norm.", "decoder.layers.#.ffn_layer_norm.");
  ("norm.", "decoder.layer_norm.");
  ("tok_embeddings.", "decoder_frontend.embed.");
  ("output.", "final_proj.")].

(** A name: the template with the number filled in, and what follows *)
Definition name (template : string) (number suffix : list ascii) : list ascii :=
  flat_map (fun c => if Ascii.eqb c "#" then number else [c]) (list_ascii_of_string template) ++ suffix.
(** A decimal number, written without a sign *)
Definition a_number (d : list ascii) : Prop := d <> [] /\ forall c, In c d -> 48 <= nat_of_ascii c <= 57.
(** What a dictionary has under a key *)
Definition same_entries {K V} (lookup : K -> list (K * V) -> option V) (d d' : list (K * V)) : Prop := forall k, lookup k d = lookup k d'.
