(** What is expected of the cross entropy loss. *)
From Coq Require Import ZArith QArith Qcanon List Bool.
From Verif Require Import Xen_Model.
Import ListNotations.
Local Open Scope Qc_scope.

(** A position of a batch: the logits, the target and whether it is a target. *)
Record position := Pos { logits_of : list Qc; target_of : Z; mask_of : bool }.
Definition tmap {A B} (f : A -> B) (t : tensor A) : tensor B :=
  match t with One l => One (map f l) | Two l => Two (map (map f) l) end.
Definition rectangular {A} (t : tensor A) : Prop :=
  match t with One _ => True | Two l => l <> [] /\ exists w, Forall (fun r => length r = w) l end.

Section Spec.
  Variable log_softmax : list Qc -> list Qc.
  Variable vocab : nat.
  Variable pad_idx : option Z.
  Variable label_smoothing : Qc.
  Variable use_mask : bool.

  (** The function called with the logits, targets and target mask of the positions. *)
  Definition loss_of (P : tensor position) (r : reduction) : outcome :=
    cross_entropy log_softmax (Z.of_nat vocab) (tmap logits_of P) (tmap target_of P) pad_idx label_smoothing
      (if use_mask then Some (tmap mask_of P) else None) r.

  (** Padding, by its index; -100 if there is none, as in torch. *)
  Definition ignored (t : Z) : bool := match pad_idx with Some p => (t =? p)%Z | None => (t =? -100)%Z end.
  Definition counted (p : position) : bool := negb (ignored (target_of p)) && (negb use_mask || mask_of p).

  (** The smoothed distribution of a target: it has the probability
      1 - label_smoothing, the other tokens share the rest. *)
  Definition smoothed (t v : nat) : Qc :=
    if (v =? t)%nat then 1 - label_smoothing else label_smoothing / of_Z (Z.of_nat vocab - 1).
  (** The cross entropy of a row of log probabilities and this distribution. *)
  Definition entropy (row : list Qc) (t : nat) : Qc :=
    qsum (map (fun v => smoothed t v * - nth v row 0) (seq 0 vocab)).
  Definition loss_at (p : position) : Qc :=
    if counted p then entropy (log_softmax (logits_of p)) (Z.to_nat (target_of p)) else 0.

  (** The target is a token; without label smoothing it may also be an ignored index. *)
  Definition valid (p : position) : Prop :=
    length (log_softmax (logits_of p)) = vocab /\
    ((0 <= target_of p < Z.of_nat vocab)%Z \/ (label_smoothing = 0 /\ ignored (target_of p) = true)).
  Definition settings_ok : Prop := label_smoothing = 0 \/ (0 < label_smoothing /\ (2 <= vocab)%nat).

  (** num_target_elements of a batch of sequences with padding
      (/repo/src/fairseq2/datasets/batch.py 153-156). *)
  Definition num_target_elements (seqs pads : list (list position)) : Z :=
    if use_mask then count (map mask_of (concat seqs ++ concat pads)) else Z.of_nat (length (concat seqs)).
End Spec.

(** A padded batch. *)
Definition padded {A} (seqs pads : list (list A)) : list (list A) :=
  map (fun sp : list A * list A => fst sp ++ snd sp) (combine seqs pads).
