(** What attention is meant to compute. *)
From Coq Require Import ZArith List Reals.
Import ListNotations.
Local Open Scope R_scope.

Definition sum (l : list R) : R := fold_right Rplus 0 l.
(** The mean of the values of some keys, weighted with the exponentials of their scores. *)
Definition attends {K} (score value : K -> R) (keys : list K) : option R :=
  match keys with
  | [] => None
  | _ => Some (sum (map (fun k => exp (score k) * value k) keys) / sum (map (fun k => exp (score k)) keys))
  end.

(** The keys a query at position [p] may see: those up to it, or the last [w] of them. *)
Definition visible {K} (window : option nat) (p : nat) (keys : list K) : list K :=
  let past := firstn (S p) keys in
  match window with None => past | Some w => skipn (length past - w) past end.

(** Query number [i] of [l] with its position, the last one being at position [n] - 1. *)
Fixpoint positioned {Q} (i : nat) (l : list Q) : list (nat * Q) :=
  match l with [] => [] | q :: l' => (i, q) :: positioned (S i) l' end.
