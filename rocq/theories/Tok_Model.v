(** Tokenizers: tiktoken and Hugging Face encoders and decoders, the modes of the
    tokenizers of the model families, and the tokenizer that wraps any Hugging
    Face tokenizer.

    Models /repo/src/fairseq2/data/tokenizers/{tiktoken,hg,sentencepiece}.py and
    /repo/src/fairseq2/models/{llama,llama4,qwen,olmo,gemma3n,hg}/tokenizer.py.
    The libraries tiktoken and transformers are external: how they cut plain text
    into tokens is a parameter.  Devices, pinned memory and chat templates are
    left out, except that the wrapping tokenizer is given the device of its
    encoder. *)
From Coq Require Import String ZArith List Bool Lia Decimal DecimalString.
Import ListNotations.
Local Open Scope Z_scope.

(* ---- tiktoken ---- *)

(** A stretch of a text: plain text, or a special token written out
    (allowed_special="all", tiktoken.py 171). *)
Inductive part := Plain (s : string) | Special (t : string).

(** tiktoken.Encoding (external): the number of tokens in the file, the index of
    a token of the file, the text of an index of the file, the indices of a plain
    text; and the special tokens (tiktoken.py 50-70). *)
Record encoding := Encoding {
  num_tokens : Z;
  rank : string -> option Z;
  text_of_rank : Z -> string;
  bpe : string -> list Z;
  special_tokens : list string }.

(** {token: num_tokens + i for i, token in enumerate(special_tokens)}: the last
    of equal tokens counts (tiktoken.py 58-63). *)
Fixpoint special_from (n : Z) (l : list string) (t : string) : option Z :=
  match l with
  | [] => None
  | a :: r =>
      match special_from (n + 1) r t with
      | Some i => Some i
      | None => if String.eqb a t then Some n else None
      end
  end.
Definition special_index (e : encoding) (t : string) : option Z := special_from (num_tokens e) (special_tokens e) t.

(** Encoding.encode_single_token (external): None is KeyError. *)
Definition single_token (e : encoding) (t : string) : option Z :=
  match rank e t with Some i => Some i | None => special_index e t end.

(** Encoding.n_vocab (external): the greatest index plus one (tiktoken.py 79). *)
Definition n_vocab (e : encoding) : Z := num_tokens e + Z.of_nat (length (special_tokens e)).

(** Encoding.encode(text, allowed_special="all") (external). *)
Definition encode_part (e : encoding) (p : part) : list Z :=
  match p with
  | Plain s => bpe e s
  | Special t => match special_index e t with Some i => [i] | None => [] end
  end.
Definition encode_text (e : encoding) (parts : list part) : list Z := flat_map (encode_part e) parts.

(** Encoding.decode (external): the bytes of the tokens one after the other. *)
Definition text_of_index (e : encoding) (i : Z) : string :=
  if i <? num_tokens e then text_of_rank e i else nth (Z.to_nat (i - num_tokens e)) (special_tokens e) ""%string.
Fixpoint join (l : list string) : string := match l with [] => ""%string | s :: r => (s ++ join r)%string end.
Definition decode_all (e : encoding) (l : list Z) : string := join (map (text_of_index e) l).

(** [encode_single_token(t) for t in tokens] (tiktoken.py 139-141, 153-155). *)
Fixpoint indices_of (e : encoding) (l : list string) : option (list Z) :=
  match l with
  | [] => Some []
  | t :: r =>
      match single_token e t, indices_of e r with
      | Some i, Some is => Some (i :: is)
      | _, _ => None
      end
  end.

(** TiktokenEncoder.__init__ (tiktoken.py 116-167): None is KeyError. *)
Record tt_encoder := TtEncoder { enc : encoding; prefix_indices : list Z; suffix_indices : list Z }.
Definition make_tt (e : encoding) (prefix suffix : list string) : option tt_encoder :=
  match indices_of e prefix, indices_of e suffix with
  | Some p, Some s => Some (TtEncoder e p s)
  | _, _ => None
  end.

(** TiktokenEncoder.__call__ (tiktoken.py 169-181). *)
Definition tt_encode (t : tt_encoder) (parts : list part) : list Z :=
  let indices := encode_text (enc t) parts in
  let indices := match prefix_indices t with [] => indices | p => p ++ indices end in
  match suffix_indices t with [] => indices | s => indices ++ s end.

(** TiktokenDecoder.__call__ (tiktoken.py 211-223). *)
Definition tt_decode (e : encoding) (skip_special_tokens : bool) (l : list Z) : string :=
  decode_all e (if skip_special_tokens then filter (fun i => i <? num_tokens e) l else l).

(** VocabularyInfo (vocab_info.py). *)
Record vocab_info := VocabInfo { size : Z; unk_idx : option Z; bos_idx : option Z; eos_idx : option Z; pad_idx : option Z }.
(** maybe_index; None of the outer option is KeyError (tiktoken.py 72-76). *)
Definition maybe_index (e : encoding) (t : option string) : option (option Z) :=
  match t with
  | None => Some None
  | Some t => if String.eqb t "" then Some None else option_map Some (single_token e t)
  end.
(** load_tiktoken_model: the vocabulary (tiktoken.py 78-88); boh and eoh are
    treated as the other tokens and left out. *)
Definition tt_vocab (e : encoding) (unk bos eos pad : option string) : option vocab_info :=
  match maybe_index e unk, maybe_index e bos, maybe_index e eos, maybe_index e pad with
  | Some u, Some b, Some o, Some p => Some (VocabInfo (n_vocab e) u b o p)
  | _, _, _, _ => None
  end.

(** f"{i}" *)
Definition digits (n : nat) : string := NilEmpty.string_of_uint (Nat.to_uint n).

(** The special tokens of LLaMA 3 (llama/tokenizer.py 237-254). *)
Local Open Scope string_scope.
Definition llama_named : list string :=
  [ "<|begin_of_text|>"; "<|end_of_text|>"; "<|reserved_special_token_0|>"; "<|reserved_special_token_1|>";
    "<|finetune_right_pad_id|>"; "<|step_id|>"; "<|start_header_id|>"; "<|end_header_id|>"; "<|eom_id|>";
    "<|eot_id|>"; "<|python_tag|>" ].
Definition llama_special : list string :=
  (llama_named ++ map (fun i => ("<|reserved_special_token_" ++ digits (2 + i) ++ "|>")%string) (seq 0 (256 - length llama_named)))%list.

(** The special tokens of LLaMA 4 (llama4/tokenizer.py 17-91, 109-127). *)
Definition reserved (name : string) (count start : nat) : list string :=
  map (fun i => "<|" ++ name ++ "_reserved_special_token_" ++ digits i ++ "|>") (seq start count).
Definition llama4_named : list string :=
  ( [ "<|begin_of_text|>"; "<|end_of_text|>"; "<|fim_prefix|>"; "<|fim_middle|>"; "<|fim_suffix|>" ]
    ++ [ "<|header_start|>"; "<|header_end|>"; "<|eom|>"; "<|eot|>"; "<|step|>" ] ++ reserved "text_post_train" 8 0
    ++ [ "<|finetune_right_pad|>" ] ++ reserved "text_post_train" 61 8
    ++ [ "<|image_start|>"; "<|image_end|>"; "<|vision_reserved_special_token_0|>"; "<|vision_reserved_special_token_1|>";
         "<|tile_x_separator|>"; "<|tile_y_separator|>"; "<|vision_reserved_special_token_2|>";
         "<|vision_reserved_special_token_3|>"; "<|vision_reserved_special_token_4|>";
         "<|vision_reserved_special_token_5|>"; "<|image|>"; "<|vision_reserved_special_token_6|>"; "<|patch|>" ]
    ++ reserved "vision" 1041 7
    ++ reserved "reasoning" 8 0 ++ [ "<|reasoning_thinking_start|>"; "<|reasoning_thinking_end|>" ] )%list.
Definition llama4_special : list string :=
  (llama4_named ++ map (fun i => ("<|reserved_special_token_" ++ digits i ++ "|>")%string) (seq 0 (2048 - length llama4_named)))%list.
Local Close Scope string_scope.

(** load_llama_tokenizer and load_llama4_tokenizer: EOS, and the vocabulary
    (llama/tokenizer.py 235, 256-266; llama4/tokenizer.py 107, 129-139). *)
Definition llama_eos (use_eot : bool) : string := if use_eot then "<|eot_id|>" else "<|end_of_text|>".
Definition llama_vocab (e : encoding) (use_eot : bool) : option vocab_info :=
  tt_vocab e None (Some "<|begin_of_text|>"%string) (Some (llama_eos use_eot)) (Some "<|finetune_right_pad_id|>"%string).
Definition llama4_eos (use_eot : bool) : string := if use_eot then "<|eot|>" else "<|end_of_text|>".
Definition llama4_vocab (e : encoding) (use_eot : bool) : option vocab_info :=
  tt_vocab e None (Some "<|begin_of_text|>"%string) (Some (llama4_eos use_eot)) (Some "<|finetune_right_pad|>"%string).

(* ---- modes ---- *)

(** What create_encoder gives: an error, or the prefix and the suffix tokens. *)
Inductive created := ValueError | NotSupported | Tokens (prefix suffix : list string).
Definition given (o : option string) : bool := match o with Some _ => true | None => false end.

(** The modes of the tokenizers; [bos] is the list of prefix tokens. *)
Definition by_mode (as_is : bool) (bos : list string) (eos : string) (mode : option string) : created :=
  match mode with
  | None => Tokens bos [eos]
  | Some m =>
      if String.eqb m "default" then Tokens bos [eos]
      else if String.eqb m "prompt" then Tokens bos []
      else if String.eqb m "prompt_response" then Tokens [] [eos]
      else if as_is && String.eqb m "as_is" then Tokens [] []
      else NotSupported
  end.
(** BasicSentencePieceTokenizer.create_encoder (sentencepiece.py 126-177). *)
Definition basic_encoder (task lang mode : option string) : created :=
  if given task then ValueError else if given lang then ValueError
  else by_mode false ["<s>"%string] "</s>" mode.
(** LLaMATiktokenTokenizer and LLaMAHuggingFaceTokenizer.create_encoder
    (llama/tokenizer.py 48-88, 130-170). *)
Definition llama_encoder (eos : string) (task lang mode : option string) : created :=
  if given task then ValueError else if given lang then ValueError
  else by_mode true ["<|begin_of_text|>"%string] eos mode.
(** QwenTokenizer.create_encoder (qwen/tokenizer.py 103-139), OLMOTokenizer.
    create_encoder (olmo/tokenizer.py 53-92). *)
Definition qwen_encoder (eos : string) (task lang mode : option string) : created :=
  if given task then ValueError else if given lang then ValueError
  else by_mode true [] eos mode.
(** Gemma3nTokenizer.create_encoder (gemma3n/tokenizer.py 59-95). *)
Definition gemma_encoder (task lang mode : option string) : created :=
  if given task then ValueError else if given lang then ValueError
  else match mode with
       | None => Tokens ["<bos>"%string] []
       | Some m =>
           if String.eqb m "default" || String.eqb m "prompt" then Tokens ["<bos>"%string] []
           else if String.eqb m "as_is" then Tokens [] []
           else ValueError
       end.

(* ---- Hugging Face ---- *)

(** A tokenizer of the transformers library (external): the tokens of its base
    vocabulary, the tokens added to it, and its own special tokens. *)
Record hf := Hf { base : list string; added : list string; own_unk : option string; own_bos : option string; own_eos : option string; own_pad : option string }.
Fixpoint position (t : string) (l : list string) (i : Z) : option Z :=
  match l with [] => None | a :: r => if String.eqb a t then Some i else position t r (i + 1) end.
(** convert_tokens_to_ids (external): the index of the unknown token for other
    tokens. *)
Definition to_id (h : hf) (t : string) : option Z :=
  match position t (base h ++ added h) 0 with
  | Some i => Some i
  | None => match own_unk h with Some u => position u (base h ++ added h) 0 | None => None end
  end.
(** One round of the loop over the token types (hg.py 72-80). *)
Definition hf_idx (h : hf) (override own : option string) : option Z :=
  match override with
  | Some t => if String.eqb t "" then match own with Some o => to_id h o | None => None end else to_id h t
  | None => match own with Some o => to_id h o | None => None end
  end.
(** load_hg_token_model: tok.vocab_size is the size of the base vocabulary
    without the added tokens (hg.py 59-84). *)
Definition hf_vocab (h : hf) (unk bos eos pad : option string) : vocab_info :=
  VocabInfo (Z.of_nat (length (base h))) (hf_idx h unk (own_unk h)) (hf_idx h bos (own_bos h))
    (hf_idx h eos (own_eos h)) (hf_idx h pad (own_pad h)).
(** load_qwen_tokenizer (qwen/tokenizer.py 166-179), load_olmo_tokenizer
    (olmo/tokenizer.py 124-139): the vocabulary. *)
Definition qwen_eos (use_im_end : bool) : string := if use_im_end then "<|im_end|>" else "<|endoftext|>".
Definition qwen_vocab (h : hf) (use_im_end : bool) : vocab_info :=
  hf_vocab h None None (Some (qwen_eos use_im_end)) (Some "<|endoftext|>"%string).
Definition olmo_vocab (h : hf) (use_im_end : bool) : vocab_info :=
  hf_vocab h (Some "<|endoftext|>"%string) (Some "<|endoftext|>"%string) (Some (qwen_eos use_im_end)) (Some "<|pad|>"%string).

(* ---- the wrapping tokenizer ---- *)

(** HgTokenizer: the encoder and decoder that were made first, here the device of
    the encoder and whether the decoder skips special tokens
    (hg/tokenizer.py 77-81). *)
Record hg := Hg { the_encoder : option string; the_decoder : option bool }.
Definition hg_init : hg := Hg None None.
(** create_raw_encoder (hg/tokenizer.py 95-104): the device it is on. *)
Definition hg_encoder (h : hg) (device : string) : hg * string :=
  match the_encoder h with Some d => (h, d) | None => (Hg (Some device) (the_decoder h), device) end.
(** create_decoder (hg/tokenizer.py 106-112): whether it skips. *)
Definition hg_decoder (h : hg) (skip : bool) : hg * bool :=
  match the_decoder h with Some s => (h, s) | None => (Hg (the_encoder h) (Some skip), skip) end.

(** The calls of a user and what they see: encode gives a tensor on a device,
    decode gives a text (hg/tokenizer.py 114-124); [decode_ids skip ids] is the
    decoder of the library. *)
Inductive call := Encode (text device : string) | Decode (ids : list Z) (skip : bool).
Inductive seen := Ids (ids : list Z) (device : string) | Text (s : string).
Section Hg.
  Variable encode_ids : string -> list Z.
  Variable decode_ids : bool -> list Z -> string.
  Definition hg_call (h : hg) (c : call) : hg * seen :=
    match c with
    | Encode text device => let (h, d) := hg_encoder h device in (h, Ids (encode_ids text) d)
    | Decode ids skip => let (h, s) := hg_decoder h skip in (h, Text (decode_ids s ids))
    end.
  Fixpoint hg_run (h : hg) (l : list call) : list seen :=
    match l with [] => [] | c :: r => let (h, s) := hg_call h c in s :: hg_run h r end.
End Hg.
