(** What position encoders are meant to do. *)
From Coq Require Import ZArith List Reals.
From Verif Require Import Batch_Model Pos_Model.
Import ListNotations.
Local Open Scope Z_scope.

(** Element [j] of a sequence that starts at position [s] is combined with row 1 + s + j of the table; [d] is never used for a
    position inside the table. *)
Fixpoint encoded {A F} (comb : A -> F -> A) (table : list F) (d : F) (s : nat) (x : list A) : list A :=
  match x with [] => [] | a :: x' => comb a (nth (S s) table d) :: encoded comb table d (S s) x' end.

(** The input has the shape of the layout. *)
Definition fits {A} (y : layout) (seqs : list (list A)) : Prop := map (@length A) seqs = map (@length Z) (positions y).
(** The elements of sequence [k] of a batch. *)
Definition seq_of {A} (y : layout) (k : nat) (seqs : list (list A)) : list A :=
  firstn (Z.to_nat (nth k (seq_lens y) 0)) (skipn (Z.to_nat (nth k (seq_begin y) 0)) (concat seqs)).
