(** What is expected of the tokenizers. *)
From Coq Require Import String ZArith List Bool.
From Verif Require Import Tok_Model.
Import ListNotations.
Local Open Scope Z_scope.

(** What we rely on of the tiktoken library and its file: the tokens of the file
    have the indices from zero on; a plain text is cut into tokens of the file,
    whose texts make up the text. *)
Record encoding_laws (e : encoding) : Prop := {
  el_num : 0 <= num_tokens e;
  el_rank : forall t i, rank e t = Some i -> 0 <= i < num_tokens e;
  el_bpe : forall s i, In i (bpe e s) -> 0 <= i < num_tokens e;
  el_text : forall s, join (map (text_of_rank e) (bpe e s)) = s }.

(** The special tokens are different and not in the file. *)
Definition special_ok (e : encoding) : Prop :=
  NoDup (special_tokens e) /\ forall t, In t (special_tokens e) -> rank e t = None.

(** The text of the parts, and what is left of it without the special tokens. *)
Definition text_of_part (p : part) : string := match p with Plain s => s | Special t => t end.
Definition plain_of_part (p : part) : string := match p with Plain s => s | Special _ => ""%string end.
Definition text_of (parts : list part) : string := join (map text_of_part parts).
Definition plain_of (parts : list part) : string := join (map plain_of_part parts).
(** The special tokens that occur in the text are ones of the encoding. *)
Definition parts_ok (e : encoding) (parts : list part) : Prop :=
  forall t, In (Special t) parts -> In t (special_tokens e).

(** What a call of a tokenizer gives that remembers nothing. *)
Definition alone (encode_ids : string -> list Z) (decode_ids : bool -> list Z -> string) (c : call) : seen :=
  match c with
  | Encode text device => Ids (encode_ids text) device
  | Decode ids skip => Text (decode_ids skip ids)
  end.
