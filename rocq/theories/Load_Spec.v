(** Specification for the loading of checkpoints. *)
From Coq Require Import List Bool Arith.
From Verif Require Import Shard_Model Shard_Spec Load_Model.
Import ListNotations.

(** The rows (dim 0) or the columns (dim 1) [r k .. (r + 1) k). *)
Definition shard {A} (dim k r : nat) (m : mat A) : mat A := match dim with 0 => row_block k r m | _ => col_block k r m end.
(** A parameter whose shard dimension, if any, is a multiple [s ks] and [t kt] of both gang sizes. *)
Definition divisible {A} (dim : option nat) (s t : nat) (m : mat A) : Prop :=
  match dim with
  | None => True
  | Some d => d < 2 /\ 0 < size_of d m /\ (exists ks, size_of d m = s * ks) /\ (exists kt, size_of d m = t * kt)
  end.
(** What the process with rank [r] of a gang of [t] has to get. *)
Definition target {A} (dim : option nat) (t r : nat) (m : mat A) : mat A :=
  match dim with None => m | Some d => shard d (size_of d m / t) r m end.
(** The parameters whose object does not belong to an earlier parameter. *)
Fixpoint first_uses {A} (seen : list nat) (ps : list (param A)) : list (param A) :=
  match ps with
  | [] => []
  | p :: ps' => if in_dec Nat.eq_dec (object p) seen then first_uses seen ps' else p :: first_uses (object p :: seen) ps'
  end.
