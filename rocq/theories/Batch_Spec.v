(** What a batch layout and a sequence batch have to satisfy. *)
From Coq Require Import ZArith List Bool Lia.
From Verif Require Import Batch_Model.
Import ListNotations.
Local Open Scope Z_scope.

Definition total (l : list Z) : Z := fold_right Z.add 0 l.
(** 0, 1, .., n-1 *)
Definition iota (n : Z) : list Z := map Z.of_nat (seq 0 (Z.to_nat n)).
(** The position indices of a row of width [w] holding one sequence of length [n], or all sequences one after the other. *)
Definition padded_row (w n : Z) : list Z := iota n ++ repeat (-1) (Z.to_nat (w - n)).
Definition packed_row (w : Z) (l : list Z) : list Z := concat (map iota l) ++ repeat (-1) (Z.to_nat (w - total l)).
(** Begin of every sequence, and the end of the last one. *)
Fixpoint begins (b : Z) (l : list Z) : list Z := b :: match l with [] => [] | n :: l' => begins (b + n) l' end.

Definition is_min (m : Z) (l : list Z) : Prop := In m l /\ forall x, In x l -> m <= x.
Definition is_max (m : Z) (l : list Z) : Prop := In m l /\ forall x, In x l -> x <= m.

(** Number of padding elements. *)
Definition num_padding (y : layout) : Z := Z.of_nat (length (filter (fun x => x =? -1) (concat (positions y)))).

(** The elements of the [k]-th sequence of a batch. *)
Definition nth_seq {A} (b : batch A) (k : nat) : list A :=
  let n := Z.to_nat (nth k (lens b) 0) in
  match seqs b with
  | T1 v => firstn n (skipn (Z.to_nat (total (firstn k (lens b)))) v)
  | T2 _ rows => firstn n (nth k rows [])
  | T0 _ => []
  end.
(** All rows of a tensor are as wide as it says: holds of every tensor. *)
Definition rectangular {A} (t : tensor A) : Prop := match t with T2 w rows => Forall (fun r => length r = w) rows | _ => True end.
(** Number of elements along the first dimension, or the first two. *)
Definition size {A} (p : bool) (t : tensor A) : Z :=
  match t with T0 _ => 0 | T1 v => Z.of_nat (length v) | T2 w rows => if p then Z.of_nat (length rows) else Z.of_nat (length rows) * Z.of_nat w end.

(** Element number [p] of the flattened batch belongs to a sequence. *)
Definition real (y : layout) (p : Z) : Prop :=
  exists k j, (k < length (seq_lens y))%nat /\ 0 <= j < nth k (seq_lens y) 0 /\ p = nth k (seq_begin y) 0 + j.
(** The sequences of a packed batch one after the other. *)
Definition packed_elements {A} (b : batch A) : list A := match seqs b with T1 v => firstn (Z.to_nat (total (lens b))) v | _ => [] end.
