(** Specification for tensor parallel modules. *)
From Coq Require Import List Arith.
From Verif Require Import Shard_Model.
Import ListNotations.

(** A tensor: all rows have its width. *)
Definition tensor {A} (m : mat A) : Prop := Forall (fun r => length r = width m) (rows m).
(** The block of [k] consecutive elements with number [r]. *)
Definition block {T} (k r : nat) (l : list T) : list T := firstn k (skipn (r * k) l).
(** The rows, or the columns, [r k .. (r + 1) k) of a tensor. *)
Definition row_block {A} (k r : nat) (m : mat A) : mat A := Mat (width m) (block k r (rows m)).
Definition col_block {A} (k r : nat) (m : mat A) : mat A := Mat k (map (block k r) (rows m)).
(** Addition without rounding. *)
Definition monoid {A} (zero : A) (add : A -> A -> A) : Prop :=
  (forall x y z, add x (add y z) = add (add x y) z) /\ (forall x, add zero x = x) /\ (forall x, add x zero = x).
