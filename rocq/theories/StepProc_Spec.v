(** What the step processors have to do. *)
From Coq Require Import ZArith List Bool Arith Lia.
Import ListNotations.
Local Open Scope Z_scope.

Definition suffix {A} (s l : list A) : Prop := exists a, l = a ++ s.
(** Generating [v] after [row] would complete a banned sequence. *)
Definition completes_banned (bs : list (list Z)) (row : list Z) (v : Z) : Prop := exists b, In b bs /\ suffix b (row ++ [v]).
(** Generating [v] after [row] would repeat a sequence of [n] tokens that occurs in [row]. *)
Definition repeats_ngram (n : nat) (row : list Z) (v : Z) : Prop := exists g a c, length g = n /\ row = a ++ g ++ c /\ suffix g (row ++ [v]).

(** [q] is [p] with exactly the tokens satisfying [B] overwritten by [ban]. *)
Definition overwritten {R} (B : Z -> Prop) (ban : R) (p q : list R) : Prop :=
  length q = length p /\ forall (v : nat) d, (v < length p)%nat -> (B (Z.of_nat v) -> nth v q d = ban) /\ (~ B (Z.of_nat v) -> nth v q d = nth v p d).

(** Tokens that index a row of [V] probabilities. *)
Definition tokens (V : nat) (l : list Z) : Prop := Forall (fun t => 0 <= t < Z.of_nat V) l.

(** A sequence grown from [prompt] by tokens that the condition [B] never forbids at the time they are chosen. *)
Inductive grown (B : list Z -> Z -> Prop) (prompt : list Z) : list Z -> Prop :=
| grown_prompt : grown B prompt prompt
| grown_step s v : grown B prompt s -> ~ B s v -> grown B prompt (s ++ [v]).
