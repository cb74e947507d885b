(** SentencePiece models, encoders and decoders.

    Models /repo/native/src/fairseq2n/data/text/sentencepiece/sp_processor.cc,
    sp_model.cc, sp_encoder.cc and sp_decoder.cc, and the tokenizers of
    /repo/src/fairseq2/models/nllb/tokenizer.py and
    /repo/src/fairseq2/models/s2t_transformer/tokenizer.py that are built on
    them.  The SentencePiece library itself is external: how it cuts a text
    into pieces and how it joins pieces into a text are parameters.  Of its
    documented behaviour we use that a model with two pieces of the same name
    or without an unknown piece does not load, that PieceToId gives the index
    of the unknown piece for a token that is not in the model, and that the id
    of a piece of a cut text is PieceToId of the piece. *)
From Coq Require Import String ZArith List Bool Lia.
Import ListNotations.
Local Open Scope Z_scope.

(** ModelProto_SentencePiece: the text of the piece and its type
    (sp_processor.cc 113-121). *)
Inductive kind := Normal | Unknown | Control.
Definition kind_eqb (a b : kind) : bool :=
  match a, b with Normal, Normal | Unknown, Unknown | Control, Control => true | _, _ => false end.
Record piece := Piece { text_of : string; kind_of : kind }.

(** ModelProto: the pieces in the order of their indices and the names of the
    special pieces in the trainer specification (sp_processor.cc 62-83). *)
Record proto := Proto { pieces : list piece; bos_piece : string; eos_piece : string; pad_piece : string }.

(** add_piece (sp_processor.cc 113-121). *)
Definition add_piece (s : string) (p : proto) : proto :=
  Proto (pieces p ++ [Piece s Control]) (bos_piece p) (eos_piece p) (pad_piece p).

(** SwapElements(i, i - 1) of the list of pieces (sp_processor.cc 104-105). *)
Fixpoint swap_before (i : nat) (l : list piece) : list piece :=
  match i, l with
  | S O, a :: b :: r => b :: a :: r
  | S j, a :: r => a :: swap_before j r
  | _, _ => l
  end.
(** The loop "for i = size - 1; i > 0; --i" (sp_processor.cc 104-105). *)
Fixpoint swap_down (i : nat) (l : list piece) : list piece :=
  match i with O => l | S j => swap_down j (swap_before i l) end.

(** One round of add_control_symbols (sp_processor.cc 88-109). *)
Definition add_symbol (p : proto) (symbol : string) : proto :=
  if String.eqb symbol "" then p
  else if String.eqb symbol "<pad>" || String.eqb symbol "<pad>@0" then
    let p := Proto (pieces p) (bos_piece p) (eos_piece p) "<pad>" in
    let p := add_piece "<pad>" p in
    if String.eqb symbol "<pad>@0"
    then Proto (swap_down (length (pieces p) - 1) (pieces p)) (bos_piece p) (eos_piece p) (pad_piece p)
    else p
  else add_piece symbol p.

(** add_control_symbols (sp_processor.cc 85-111). *)
Definition add_control_symbols (symbols : list string) (p : proto) : proto := fold_left add_symbol symbols p.

Fixpoint distinct (l : list string) : bool :=
  match l with [] => true | a :: r => negb (existsb (String.eqb a) r) && distinct r end.

(** native_->Load (sp_processor.cc 138-144, external): two pieces of the same
    name are refused, and so is a model that has not exactly one unknown piece. *)
Definition load (p : proto) : option proto :=
  if distinct (map text_of (pieces p))
     && (length (filter (fun a => kind_eqb (kind_of a) Unknown) (pieces p)) =? 1)%nat
  then Some p else None.

(** SentencePieceModel(path, control_symbols) (sp_processor.cc 51-59 and
    154-156); [p] is what the file holds. *)
Definition load_model (p : proto) (symbols : list string) : option proto := load (add_control_symbols symbols p).

Fixpoint find_from (f : piece -> bool) (l : list piece) (i : Z) : option (Z * piece) :=
  match l with [] => None | a :: r => if f a then Some (i, a) else find_from f r (i + 1) end.
Definition find_piece (t : string) (p : proto) : option (Z * piece) :=
  find_from (fun a => String.eqb (text_of a) t) (pieces p) 0.

(** unk_id: the index of the unknown piece (sp_processor.cc 146). *)
Definition unk_idx (p : proto) : Z :=
  match find_from (fun a => kind_eqb (kind_of a) Unknown) (pieces p) 0 with Some (i, _) => i | None => -1 end.

(** sp_model::token_to_index, sp_processor::token_to_index: PieceToId
    (sp_model.cc 37-41, sp_processor.cc 194-198). *)
Definition token_to_index (p : proto) (t : string) : Z :=
  match find_piece t p with Some (i, _) => i | None => unk_idx p end.

(** bos_id, eos_id, pad_id of the library: -1 unless the piece is a control
    piece; sp_model turns negative indices into nullopt (sp_processor.cc
    147-149, sp_model.cc 49-83). *)
Definition special_idx (p : proto) (name : string) : option Z :=
  match find_piece name p with
  | Some (i, a) => if kind_eqb (kind_of a) Control then Some i else None
  | None => None
  end.
Definition bos_idx p := special_idx p (bos_piece p).
Definition eos_idx p := special_idx p (eos_piece p).
Definition pad_idx p := special_idx p (pad_piece p).

(** vocabulary_size (sp_processor.cc 151). *)
Definition vocabulary_size (p : proto) : Z := Z.of_nat (length (pieces p)).

(** static_cast<std::int32_t> of a 64-bit integer (utils/cast.h 24-32). *)
Definition int32 (i : Z) : Z := (i + 2 ^ 31) mod 2 ^ 32 - 2 ^ 31.
(** static_cast<std::size_t> of a 32-bit integer. *)
Definition size_t (i : Z) : Z := i mod 2 ^ 64.

(** sp_processor::index_to_token; None is the exception (sp_processor.cc
    200-208). *)
Definition index_to_token32 (p : proto) (i : Z) : option string :=
  if size_t i >=? vocabulary_size p then None else option_map text_of (nth_error (pieces p) (Z.to_nat i)).
(** sp_model::index_to_token (sp_model.cc 43-47). *)
Definition index_to_token (p : proto) (i : Z) : option string := index_to_token32 p (int32 i).

(** sp_encoder_options (sp_encoder.h); sampling is a choice among the ways to
    cut a text, so it is covered by the parameter [cut]. *)
Record encoder := Encoder { model : proto; prefix : list string; suffix : list string; reverse : bool }.

(** The constructor looks the indices up (sp_encoder.cc 44-55). *)
Definition prefix_token_indices (e : encoder) : list Z := map (token_to_index (model e)) (prefix e).
Definition suffix_token_indices (e : encoder) : list Z := map (token_to_index (model e)) (suffix e).
(** prefix_index_tensor_ and suffix_index_tensor_ (sp_encoder.cc 57-81). *)
Definition tensor_of (l : list Z) : option (list Z) := match l with [] => None | _ => Some l end.
Definition prefix_indices (e : encoder) : option (list Z) := tensor_of (prefix_token_indices e).
Definition suffix_indices (e : encoder) : option (list Z) := tensor_of (suffix_token_indices e).

(** tensor_data[i] = v; None is a write outside the tensor. *)
Fixpoint write (i : nat) (v : Z) (t : list Z) : option (list Z) :=
  match i, t with
  | _, [] => None
  | O, _ :: r => Some (v :: r)
  | S j, a :: r => option_map (cons a) (write j v r)
  end.
Definition write_at (i v : Z) (t : list Z) : option (list Z) := if i <? 0 then None else write (Z.to_nat i) v t.
(** "for (idx : l) tensor_data[i++] = idx" with [d] = 1 and
    "tensor_data[i--] = idx" with [d] = -1; returns the tensor and i
    (sp_encoder.cc 115-136). *)
Fixpoint write_all (d : Z) (l : list Z) (ti : list Z * Z) : option (list Z * Z) :=
  match l with
  | [] => Some ti
  | v :: r =>
      match write_at (snd ti) v (fst ti) with
      | Some t => write_all d r (t, snd ti + d)
      | None => None
      end
  end.

(** sp_encoder::encode (sp_encoder.cc 93-144); [cut] are the pieces of the text.
    Devices and pinned memory are left out. *)
Definition encode (e : encoder) (cut : list string) : option (list Z) :=
  let ids := map (token_to_index (model e)) cut in
  let seq_len := (length cut + length (prefix e) + length (suffix e))%nat in
  let tensor := repeat 0 seq_len in
  let d := if reverse e then -1 else 1 in
  let i := if reverse e then Z.of_nat seq_len - 1 else 0 in
  match write_all d (prefix_token_indices e) (tensor, i) with
  | None => None
  | Some ti =>
      match write_all d ids ti with
      | None => None
      | Some ti => option_map fst (write_all d (suffix_token_indices e) ti)
      end
  end.

(** sp_encoder::encode_as_tokens (sp_encoder.cc 146-176). *)
Definition encode_as_tokens (e : encoder) (cut : list string) : list string :=
  let tokens := prefix e ++ cut ++ suffix e in
  if reverse e then rev tokens else tokens.

(** sp_decoder::do_decode (sp_decoder.cc 84-107): the tokens that are given to
    the library to be joined; None is an exception. *)
Fixpoint tokens_of (p : proto) (l : list Z) : option (list string) :=
  match l with
  | [] => Some []
  | i :: r =>
      match index_to_token32 p (int32 i) with
      | None => None
      | Some t => option_map (cons t) (tokens_of p r)
      end
  end.
(** "tensor_data[reverse_ ? seq_len - 1 - j : j]" for j = 0, 1, ... *)
Definition in_order (rv : bool) (l : list Z) : list Z :=
  map (fun j => nth (if rv then length l - 1 - j else j)%nat l 0) (seq 0 (length l)).
Definition decode {text} (join : list string -> text) (p : proto) (rv : bool) (l : list Z) : option text :=
  option_map join (tokens_of p (in_order rv l)).
(** sp_decoder::decode_from_tokens (sp_decoder.cc 71-82). *)
Definition decode_from_tokens {text} (join : list string -> text) (rv : bool) (l : list string) : text :=
  join (if rv then rev l else l).

(** NllbTokenizer.create_encoder (models/nllb/tokenizer.py 51-119). *)
Inductive result := ValueError | NotSupported | Made (e : encoder).
Definition lang_token (lang : string) : string := ("__" ++ lang ++ "__")%string.
Definition nllb_encoder (m : proto) (langs : list string) (default_lang : string)
    (task lang mode : option string) : result :=
  if match task with Some t => negb (String.eqb t "translation") | None => false end then ValueError
  else
    let lang := match lang with Some l => l | None => default_lang end in
    if negb (existsb (String.eqb lang) langs) then NotSupported
    else
      let make prefix := Made (Encoder m prefix ["</s>"%string] false) in
      match mode with
      | None => make [lang_token lang]
      | Some mode =>
          if String.eqb mode "source" then make [lang_token lang]
          else if String.eqb mode "source_mining" then make [lang_token lang; "<MINED_DATA>"%string]
          else if String.eqb mode "source_mmt_bt" then make [lang_token lang; "<MMT_BT_DATA>"%string]
          else if String.eqb mode "source_smt_bt" then make [lang_token lang; "<SMT_BT_DATA>"%string]
          else if String.eqb mode "target" then make ["</s>"%string; lang_token lang]
          else ValueError
      end.

(** load_nllb_tokenizer (models/nllb/tokenizer.py 143-158): the model. *)
Definition nllb_symbols (langs : list string) : list string :=
  map lang_token langs ++ ["<MINED_DATA>"; "<MMT_BT_DATA>"; "<SMT_BT_DATA>"]%string ++ ["<pad>@0"%string].
Definition load_nllb (p : proto) (langs : list string) : option proto := load_model p (nllb_symbols langs).

(** S2TTransformerTokenizer.create_encoder (models/s2t_transformer/tokenizer.py
    68-117); the constructor has checked the task of the tokenizer (54-57). *)
Definition s2t_token (lang : string) : string := ("<lang:" ++ lang ++ ">")%string.
Definition s2t_encoder (m : proto) (own_task : string) (langs : list string) (default_lang : string)
    (task lang mode : option string) : result :=
  if match task with Some t => negb (String.eqb t own_task) | None => false end then ValueError
  else if match mode with Some t => negb (String.eqb t "target") | None => false end then ValueError
  else
    let lang := match lang with Some l => l | None => default_lang end in
    if negb (existsb (String.eqb lang) langs) then NotSupported
    else if String.eqb own_task "translation" && (1 <? Z.of_nat (length langs))
    then Made (Encoder m ["</s>"%string; s2t_token lang] [] false)
    else Made (Encoder m ["</s>"%string] [] false).
