(** Which layers should share. *)

Require Import List Arith Bool.
Import ListNotations.

Section Spec.
  Variable is_global : nat -> bool.

  (** The last layer of a type among the first [n]. *)
  Definition last_of_type (ty : bool) (n j : nat) : Prop :=
    j < n /\ is_global j = ty /\ forall k, j < k < n -> is_global k <> ty.
End Spec.
