(** What is expected of SentencePiece models, encoders and decoders. *)
From Coq Require Import String ZArith List.
From Verif Require Import Spm_Model.
Import ListNotations.
Local Open Scope Z_scope.

(** The tokens of a model in the order of their indices. *)
Definition names (p : proto) : list string := map text_of (pieces p).

(** A token that the decoder gives back for the token [t]: itself when the
    model has it, and the unknown piece when not. *)
Definition given_back (m : proto) (t t' : string) : Prop :=
  (In t (names m) -> t' = t) /\
  (~ In t (names m) -> exists a, In a (pieces m) /\ kind_of a = Unknown /\ t' = text_of a).

(** All tokens of an encoded text, in the order in which they are read. *)
Definition all_tokens (e : encoder) (cut : list string) : list string := prefix e ++ cut ++ suffix e.

(** A token of a model is a control symbol. *)
Definition is_control (m : proto) (t : string) : Prop := In (Piece t Control) (pieces m).
