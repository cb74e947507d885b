(** What the wav2vec2 recipes promise. *)

Require Import List Arith ZArith.
From Verif Require Import W2d_Model.
Import ListNotations.

(** [p] is a piece of [a]. *)
Definition piece {A} (p a : list A) : Prop := exists before after, a = before ++ p ++ after.

(** A generator draws numbers below the bound. *)
Definition draws_below {rng} (randint : rng -> nat -> nat * rng) : Prop :=
  forall g n, 0 < n -> fst (randint g n) < n.

(** What learns in a step: in the first [n] steps nothing but the projection
    (the masker, if there is one, is frozen too), afterwards everything but the
    feature extractor. *)
Definition learns (n step : nat) (p : part) : bool :=
  match p with
  | Projection => true
  | Feature_extractor => false
  | _ => n <? step
  end.
