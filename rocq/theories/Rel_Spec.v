(** What attention with relative positions means. *)

Require Import List Arith ZArith Bool Reals.
From Verif Require Import Rel_Model.
Import ListNotations.

Section Local.
  Context {Q K : Type}.
  Variable content : Q -> K -> R.
  Variable position : Q -> Z -> R.
  Variable softcap : R -> R.
  Variables past future : nat.

  (** The query at time [t] attends to the key at time [s]. *)
  Definition attends (valid : nat -> bool) (t s : nat) : bool :=
    valid s && (t <=? s + past) && (s <=? t + future).

  Definition weight (q : nat -> Q) (k : nat -> K) (valid : nat -> bool) (t s : nat) : R :=
    if attends valid t s then exp (softcap (content (q t) (k s) + position (q t) (Z.of_nat t - Z.of_nat s))) else 0%R.

  Definition local_attention (len : nat) (q : nat -> Q) (k : nat -> K) (v : nat -> R) (valid : nat -> bool) (t : nat) : R :=
    (rsum (map (fun s => weight q k valid t s * v s) (seq 0 len)) / rsum (map (weight q k valid t) (seq 0 len)))%R.
End Local.
