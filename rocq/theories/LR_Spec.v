(** What the schedulers promise. *)
From Coq Require Import Reals List Arith ZArith.
From Verif Require Import LR_Model.
Import ListNotations.
Open Scope R_scope.

(** [P] holds for every parameter group: its two parameters and its learning rate. *)
Inductive each (P : R -> R -> R -> Prop) : list R -> list R -> list R -> Prop :=
| e_nil : each P [] [] []
| e_cons a b x l m r : P a b x -> each P l m r -> each P (a :: l) (b :: m) (x :: r).
(** No learning rate is greater in the second list. *)
Definition le_all (l m : list R) : Prop := Forall2 Rle l m.
(** Up to step [T] the learning rate goes along a straight line from the start value to the base value, reached at [T]. *)
Definition line (T : nat) (base start : list R) (f : nat -> list R) : Prop := forall t, (t <= T)%nat -> (0 < T)%nat -> each (fun b s x => x = s + (b - s) * (INR t / INR T)) base start (f t).
Definition rises (a b : nat) (f : nat -> list R) : Prop := forall t t', (a <= t)%nat -> (t <= t')%nat -> (t' <= b)%nat -> le_all (f t) (f t').
Definition falls (a : nat) (f : nat -> list R) : Prop := forall t t', (a <= t)%nat -> (t <= t')%nat -> le_all (f t') (f t).
(** The result of a computation that may fail. *)
Definition got (r : res (list R)) (P : list R -> Prop) : Prop := exists l, r = Ok l /\ P l.
(** When each cycle is [k] times as long as the one before, cycle [n] starts [len + k len + ... + k^(n-1) len] steps after the first. *)
Fixpoint starts (len k n : nat) : nat := match n with O => O | S n' => (starts len k n' + k ^ n' * len)%nat end.
