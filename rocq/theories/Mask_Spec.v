(** What a random mask is, apart from its computation. *)
From Coq Require Import List Arith.
Import ListNotations.

(** Element i of row r is masked *)
Definition masked (m : list (list bool)) (r i : nat) : Prop := exists row, nth_error m r = Some row /\ nth_error row i = Some true.
(** Exactly k of the naturals satisfy P *)
Definition exactly (k : nat) (P : nat -> Prop) : Prop := exists l, NoDup l /\ length l = k /\ forall i, P i <-> In i l.
(** The numbers of the spans of one row that start at the given places *)
Definition in_span (span_len : nat) (starts : list nat) (i : nat) : Prop := exists o, In o starts /\ o <= i < o + span_len.
(** f is a one-to-one map from the numbers below n onto the numbers that satisfy P *)
Definition one_to_one (f : nat -> nat) (n : nat) (P : nat -> Prop) : Prop :=
  (forall x, x < n -> P (f x)) /\ forall y, P y -> exists x, x < n /\ f x = y /\ forall x', x' < n -> f x' = y -> x' = x.
