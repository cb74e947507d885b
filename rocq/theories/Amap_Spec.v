(** What the statements about map(deterministic=False) mean. *)
From Coq Require Import List Bool Arith Permutation.
Import ListNotations.
From Verif Require Import Amap_Model.

(** The examples of the source at the positions p, p+1, ..., q-1 *)
Definition items {A} (src : nat -> option A) (p q : nat) : list A := flat_map (fun i => match src i with Some x => [x] | None => [] end) (seq p (q - p)).
(** What a caller has got *)
Definition delivered {B} (tr : list (event B)) : list B := flat_map (fun e => match e with Out y => [y] | _ => [] end) tr.
(** Tasks between the push of their output and the decrement *)
Definition pushed {A} (t : task A) : Prop := match t with Decr => True | _ => False end.
(** No step is possible. (Waking up without a notification is possible in a sleeping thread but nothing one may count on.) *)
Definition stuck {A B} (src : nat -> option A) (f : A -> option B) (n : nat) (s : state A B) : Prop := forall o s', ~ step src f n s o s'.
(** Schedules in which next is only called while no worker is between its push and its decrement *)
Inductive calm {A B} (src : nat -> option A) (f : A -> option B) (n : nat) (s0 : state A B) : state A B -> Prop :=
| calm_start : calm src f n s0 s0
| calm_step s o s' : calm src f n s0 s -> step src f n s o s' -> (forall i, at_ s = Idle -> at_ s' = Fill i -> forall t, In t (tasks s) -> ~ pushed t) -> calm src f n s0 s'
| calm_spurious s s' : calm src f n s0 s -> spurious s s' -> calm src f n s0 s'.
(** A step other than a new call *)
Definition internal {A B} (src : nat -> option A) (f : A -> option B) (n : nat) (s s' : state A B) : Prop :=
  exists o, step src f n s o s' /\ (at_ s' <> Idle -> at_ s <> Idle).
