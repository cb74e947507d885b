(** C24, C25: batch layouts and sequence batches. *)
From Coq Require Import ZArith List Bool Arith Lia.
From Verif Require Import Batch_Model Batch_Spec Batch_Proofs Batch_Proofs2 Batch_Proofs3 Batch_Proofs4.
Import ListNotations.
Local Open Scope Z_scope.

(** ** C24 *)

(** Exactly the well formed arguments are accepted; omitted lengths mean that every row is full. *)
Theorem C24_accept_packed : forall shape lens, (exists y, batch_layout shape lens true = Ok y) <->
  exists w, shape = [w] /\ 1 <= w /\ let l := match lens with Some l => l | None => [w] end in Forall (fun n => 1 <= n) l /\ total l <= w.
Proof.
  intros sh ls. split.
  - intros [y H]. destruct (layout_cases _ _ _ _ H) as [(w & l & _ & -> & Hw & -> & HF & HT & _)|(n & w & l & E & _)]; [|discriminate]. exists w. auto.
  - intros (w & -> & Hw & H). eexists. apply packed_layout_lemma. split; [split; [exact Hw|exact H]|reflexivity].
Qed.
Print Assumptions C24_accept_packed.

Theorem C24_accept_padded : forall shape lens, (exists y, batch_layout shape lens false = Ok y) <->
  exists n w, shape = [n; w] /\ 1 <= w /\ let l := match lens with Some l => l | None => repeat w (Z.to_nat n) end in
    Z.of_nat (length l) = n /\ Forall (fun x => 1 <= x <= w) l.
Proof.
  intros sh ls. split.
  - intros [y H]. destruct (layout_cases _ _ _ _ H) as [(w & l & E & _)|(n & w & l & _ & -> & Hw & -> & HN & HF & _)]; [discriminate|]. exists n, w. auto.
  - intros (n & w & -> & Hw & HN & HF). eexists. apply padded_layout_lemma. split; [split; [exact Hw|split; [symmetry; exact HN|exact HF]]|reflexivity].
Qed.
Print Assumptions C24_accept_padded.

(** What an accepted packed layout says. *)
Theorem C24_packed : forall w lens y, batch_layout [w] lens true = Ok y -> let l := match lens with Some l => l | None => [w] end in
  width y = w /\ packed y = true /\ seq_lens y = l /\ seq_begin y = begins 0 l /\ positions y = [packed_row w l] /\
  (l <> [] -> is_min (min_len y) l /\ is_max (max_len y) l) /\ (padded y = true <-> 0 < num_padding y).
Proof.
  intros w ls y H. pose proof (padded_lemma _ _ _ _ H) as HP. apply packed_layout_lemma in H. destruct H as [(H1 & H2 & H3) ->]. cbv zeta.
  fold (default_lens [w] ls). split; [reflexivity|]. split; [reflexivity|]. split; [reflexivity|]. split; [reflexivity|]. split; [reflexivity|]. split; [|exact HP].
  intros HN. apply min_max_lemma; [exact HN|]. apply Forall_forall. intros x Hx. pose proof (le_total _ H2 x Hx). rewrite Forall_forall in H2. specialize (H2 x Hx). lia.
Qed.
Print Assumptions C24_packed.

(** What an accepted padded layout says. *)
Theorem C24_padded : forall n w lens y, batch_layout [n; w] lens false = Ok y -> let l := match lens with Some l => l | None => repeat w (Z.to_nat n) end in
  width y = w /\ packed y = false /\ seq_lens y = l /\ seq_begin y = map (fun i => Z.of_nat i * w) (seq 0 (S (length l))) /\ positions y = map (padded_row w) l /\
  (l <> [] -> is_min (min_len y) l /\ is_max (max_len y) l) /\ (padded y = true <-> 0 < num_padding y).
Proof.
  intros n w ls y H. pose proof (padded_lemma _ _ _ _ H) as HP. apply padded_layout_lemma in H. destruct H as [(H1 & H2 & H3) ->]. cbv zeta.
  fold (default_lens (repeat w (Z.to_nat n)) ls). split; [reflexivity|]. split; [reflexivity|]. split; [reflexivity|]. split; [reflexivity|]. split; [reflexivity|]. split; [|exact HP].
  intros HN. apply min_max_lemma; [exact HN|exact H3].
Qed.
Print Assumptions C24_padded.

(** Element by element, packed or not: element [j] of sequence [k] lies at begin [k] + [j] and has position [j]; all other
    elements have position -1; the sequences do not overlap and lie inside the batch. *)
Theorem C24_positions : forall shape lens p y, batch_layout shape lens p = Ok y ->
  (forall k j, (k < length (seq_lens y))%nat -> 0 <= j < nth k (seq_lens y) 0 -> nth (Z.to_nat (nth k (seq_begin y) 0 + j)) (concat (positions y)) 0 = j) /\
  (forall q, 0 <= q < Z.of_nat (length (concat (positions y))) -> ~ real y q -> nth (Z.to_nat q) (concat (positions y)) 0 = -1).
Proof. intros sh ls p y H. split; [exact (positions_real _ _ _ _ H)|exact (positions_padding _ _ _ _ H)]. Qed.
Print Assumptions C24_positions.

Theorem C24_disjoint : forall shape lens p y, batch_layout shape lens p = Ok y ->
  length (seq_begin y) = S (length (seq_lens y)) /\ nth 0 (seq_begin y) 0 = 0 /\
  (forall k, (k < length (seq_lens y))%nat -> nth k (seq_begin y) 0 + nth k (seq_lens y) 0 <= nth (S k) (seq_begin y) 0) /\
  last (seq_begin y) 0 <= Z.of_nat (length (concat (positions y))).
Proof. exact begins_disjoint. Qed.
Print Assumptions C24_disjoint.

Example C24_example_packed : batch_layout [7] (Some [3; 2]) true = Ok (Layout 7 [0; 3; 5] [3; 2] [[0; 1; 2; 0; 1; -1; -1]] 2 3 true true).
Proof. reflexivity. Qed.
Example C24_example_padded : batch_layout [2; 3] (Some [3; 1]) false = Ok (Layout 3 [0; 3; 6] [3; 1] [[0; 1; 2]; [0; -1; -1]] 1 3 true false).
Proof. reflexivity. Qed.
Example C24_example_rejected : batch_layout [2; 3] (Some [3; 4]) false = Err (LenTooLarge 1) /\ batch_layout [3] (Some [3; 4]) true = Err SumTooLarge.
Proof. split; reflexivity. Qed.

(** A packed layout with no sequence at all is accepted; its minimum and maximum lengths are not those of any sequence. *)
Theorem C24_empty_packed_refuted : exists y, batch_layout [4] (Some []) true = Ok y /\ seq_lens y = [] /\ min_len y = 4 /\ max_len y = 0.
Proof. eexists. split; [reflexivity|]. auto. Qed.
Print Assumptions C24_empty_packed_refuted.

(** ** C25 *)

Theorem C25_accounting : forall A (t : tensor A) ls p m b, sequence_batch t ls p m = Ok b ->
  seqs b = t /\ is_packed b = p /\ mask b = m /\ num_examples b = Z.of_nat (length (lens b)) /\ batch_size b = (if p then 1 else num_examples b) /\
  num_elements b = total (lens b) /\ 0 <= padding b /\ num_elements b + padding b = size p t /\ Forall (fun n => 1 <= n) (lens b) /\
  (match ls with Some l => lens b = l | None => padding b = 0 end) /\
  num_targets b = match m with None => num_elements b | Some k => mask_sum k end.
Proof. exact @accounting_lemma. Qed.
Print Assumptions C25_accounting.

(** Every accepted batch has a layout, which agrees with it about lengths and padding. *)
Theorem C25_layout : forall A (t : tensor A) ls p m b, sequence_batch t ls p m = Ok b ->
  exists y, as_input b = Ok (t, y) /\ seq_lens y = lens b /\ packed y = p /\ num_padding y = padding b /\ (padded y = true <-> 0 < padding b).
Proof. exact @as_input_lemma. Qed.
Print Assumptions C25_layout.

(** Padded: every sequence loses its last element in the input and its first in the target, so the target at every position is
    the element following the input there. *)
Theorem C25_split : forall A (t : tensor A) ls m b, sequence_batch t ls false m = Ok b -> rectangular t -> lens b <> [] -> Forall (fun n => 2 <= n) (lens b) ->
  exists b1 b2, as_auto_regressive b = Ok (b1, b2) /\ lens b1 = map (fun n => n - 1) (lens b) /\ lens b2 = lens b1 /\
    num_elements b1 = num_elements b - num_examples b /\ num_elements b2 = num_elements b1 /\ num_examples b1 = num_examples b /\ num_examples b2 = num_examples b /\
    padding b1 = padding b /\ padding b2 = padding b /\ mask b1 = None /\ mask b2 = option_map drop_first_col m /\ is_packed b1 = false /\ is_packed b2 = false /\
    forall k, (k < length (lens b))%nat -> nth_seq b1 k = removelast (nth_seq b k) /\ nth_seq b2 k = tl (nth_seq b k).
Proof. exact @split_padded. Qed.
Print Assumptions C25_split.

(** A sequence of length 1 cannot be split; the first one is reported. *)
Theorem C25_split_error : forall A (t : tensor A) ls m b k, sequence_batch t ls false m = Ok b -> nth_error (lens b) k = Some 1 ->
  (forall j, (j < k)%nat -> nth_error (lens b) j <> Some 1) -> as_auto_regressive b = Err (CannotTrim k).
Proof. exact @split_padded_err. Qed.
Print Assumptions C25_split_error.

(** Packed: the batch is split as if it were one sequence. *)
Theorem C25_split_packed_partial : forall A (v : list A) ls m b, sequence_batch (T1 v) ls true m = Ok b -> lens b <> [1] ->
  exists b1 b2, as_auto_regressive b = Ok (b1, b2) /\ lens b2 = lens b1 /\
    lens b1 = removelast (lens b) ++ (if last (lens b) 0 =? 1 then [] else [last (lens b) 0 - 1]) /\
    num_elements b1 = num_elements b - 1 /\ num_elements b2 = num_elements b1 /\ padding b1 = padding b /\ padding b2 = padding b /\
    mask b1 = None /\ mask b2 = option_map drop_first m /\ is_packed b1 = true /\ is_packed b2 = true /\
    packed_elements b1 = removelast (packed_elements b) /\ packed_elements b2 = tl (packed_elements b).
Proof. exact @split_packed. Qed.
Print Assumptions C25_split_packed_partial.

Theorem C25_packed_sequences : forall A (v : list A) ls m b, sequence_batch (T1 v) ls true m = Ok b ->
  packed_elements b = concat (map (nth_seq b) (seq 0 (length (lens b)))).
Proof. exact @packed_sequences. Qed.
Print Assumptions C25_packed_sequences.

Theorem C25_split_packed_error : forall A (t : tensor A) ls m b, sequence_batch t ls true m = Ok b -> lens b = [1] -> as_auto_regressive b = Err (CannotTrim 0).
Proof. exact @split_packed_err. Qed.
Print Assumptions C25_split_packed_error.

(** The full claim fails for packed batches: only the last sequence is trimmed, so that the target of the last element of every
    other sequence is the first element of the next one. *)
Theorem C25_split_packed_refuted : exists (b b1 b2 : batch nat), sequence_batch (T1 [1; 2; 3; 7; 8; 9]%nat) (Some [3; 3]) true None = Ok b /\
  as_auto_regressive b = Ok (b1, b2) /\ nth_seq b 0 = [1; 2; 3]%nat /\ nth_seq b1 0 = [1; 2; 3]%nat /\ nth_seq b2 0 = [2; 3; 7]%nat.
Proof. eexists. eexists. eexists. split; [reflexivity|]. split; [reflexivity|]. auto. Qed.
Print Assumptions C25_split_packed_refuted.

(** A batch without rows is accepted but cannot be split, although no sequence has length 1. *)
Theorem C25_split_empty_refuted : exists b : batch nat, sequence_batch (T2 3 []) None false None = Ok b /\ as_auto_regressive b = Err EmptyLens.
Proof. eexists. split; reflexivity. Qed.
Print Assumptions C25_split_empty_refuted.

Example C25_example : exists b b1 b2 : batch nat, sequence_batch (T2 3 [[1; 2; 3]; [4; 5; 0]]%nat) (Some [3; 2]) false (Some (T2 3 [[false; true; true]; [false; true; false]])) = Ok b /\
  num_elements b = 5 /\ padding b = 1 /\ num_targets b = 3 /\ as_auto_regressive b = Ok (b1, b2) /\
  seqs b1 = T2 2 [[1; 2]; [4; 5]]%nat /\ seqs b2 = T2 2 [[2; 3]; [5; 0]]%nat /\ lens b2 = [2; 1] /\ num_targets b2 = 3.
Proof. eexists. eexists. eexists. split; [reflexivity|]. repeat split. Qed.
