(** What it means to be the best of a group. *)

Require Import List Arith ZArith.
Import ListNotations.

(** [k] is one of the [n] entries of group [g] and no other has a larger score. *)
Definition best (n : nat) (score : nat -> Z) (g k : nat) : Prop :=
  k < n /\ forall v, v < n -> (score (g * n + v)%nat <= score (g * n + k)%nat)%Z.

(** Applying functions one after the other. *)
Definition apply_all {T} (fs : list (T -> T)) (x : T) : T := fold_left (fun x f => f x) fs x.
