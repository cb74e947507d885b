(** The cross entropy loss and the loss metric.

    Models /repo/src/fairseq2/nn/functional/cross_entropy.py and
    update_nll_loss_metric of /repo/src/fairseq2/metrics/common.py.  Numbers are
    rationals without rounding; infinite logits are left out.  torch's
    log_softmax is an arbitrary function of a row of logits. *)
From Coq Require Import ZArith QArith Qcanon List Bool.
Import ListNotations.
Local Open Scope Qc_scope.

(** A tensor of shape (S) or (N, S) of elements; logits are rows (S, T) or (N, S, T). *)
Inductive tensor (A : Type) := One (l : list A) | Two (l : list (list A)).
Arguments One {A}. Arguments Two {A}.
(** flatten(0, 1), flatten() (cross_entropy.py 32-42, 69-71, 119-121). *)
Definition flat {A} (t : tensor A) : list A := match t with One l => l | Two l => concat l end.
(** unflatten(0, (n, -1)) (cross_entropy.py 63-65, 88-90, 181-183). *)
Definition unflatten {A} (n : nat) (l : list A) : list (list A) :=
  let w := (length l / n)%nat in map (fun i => firstn w (skipn (i * w) l)) (seq 0 n).

Inductive reduction := RSum | RMean | RNone | ROther.
(** What the function returns, or the error it raises; [NotANumber] is 0 / 0. *)
Inductive outcome :=
  | Scalar (x : Qc) | NotANumber | Losses (t : tensor Qc) | IndexError | ValueError | ZeroDivision.

Fixpoint qsum (l : list Qc) : Qc := match l with [] => 0 | x :: r => x + qsum r end.
Definition of_Z (n : Z) : Qc := Q2Qc (inject_Z n).
Fixpoint count (l : list bool) : Z := match l with [] => 0%Z | b :: r => ((if b then 1 else 0) + count r)%Z end.
Definition mean (s : Qc) (n : Z) : option Qc := if (n =? 0)%Z then None else Some (s / of_Z n).
Definition scalar (o : option Qc) : outcome := match o with Some x => Scalar x | None => NotANumber end.

(** row[t]; None is an index out of range. *)
Definition pick (row : list Qc) (t : Z) : option Qc := if (t <? 0)%Z then None else nth_error row (Z.to_nat t).
Fixpoint sequence {A} (l : list (option A)) : option (list A) :=
  match l with
  | [] => Some []
  | Some x :: r => option_map (cons x) (sequence r)
  | None :: _ => None
  end.

(** torch's nll_loss(reduction="none") (external): zero where the target is
    [ignore_index], the negative log probability of the target elsewhere. *)
Definition nll_each (log_probs : list (list Qc)) (targets : list Z) (ignore_index : Z) : option (list Qc) :=
  sequence (map (fun rt => if (snd rt =? ignore_index)%Z then Some 0 else option_map Qcopp (pick (fst rt) (snd rt)))
                (combine log_probs targets)).
Definition ne (targets : list Z) (i : Z) : list bool := map (fun t => negb (t =? i)%Z) targets.

(** loss * target_mask *)
Definition times (loss : list Qc) (mask : list bool) : list Qc :=
  map (fun xm : Qc * bool => fst xm * (if snd xm then 1 else 0)) (combine loss mask).
(** masked_fill_(targets.eq(pad_idx), 0.0) *)
Definition fill (loss : list Qc) (targets : list Z) (pad : Z) : list Qc :=
  map (fun xt : Qc * Z => if (snd xt =? pad)%Z then 0 else fst xt) (combine loss targets).
Definition both (a b : list bool) : list bool := map (fun x : bool * bool => fst x && snd x) (combine a b).

Definition shaped (batch_size : option nat) (loss : list Qc) : outcome :=
  Losses (match batch_size with Some n => Two (unflatten n loss) | None => One loss end).

Section CrossEntropy.
  Variable log_softmax : list Qc -> list Qc.

  (** The branch without label smoothing (cross_entropy.py 50-96). *)
  Definition plain_loss (batch_size : option nat) (log_probs : list (list Qc)) (targets : list Z) (pad_idx : option Z)
      (target_mask : option (list bool)) (r : reduction) : outcome :=
    let pad_idx := match pad_idx with None => (-100)%Z | Some p => p end in
    match nll_each log_probs targets pad_idx with
    | None => IndexError
    | Some loss =>
        match target_mask with
        | None =>
            match r with
            | RSum => Scalar (qsum loss)
            | RMean => scalar (mean (qsum loss) (count (ne targets pad_idx)))
            | RNone => shaped batch_size loss
            | ROther => ValueError
            end
        | Some target_mask =>
            let loss := times loss target_mask in
            match r with
            | RSum => Scalar (qsum loss)
            | RMean => scalar (mean (qsum loss) (count (both target_mask (ne targets pad_idx))))
            | RNone => shaped batch_size loss
            | ROther => ValueError
            end
        end
    end.

  (** The branch with label smoothing (cross_entropy.py 98-185); [vocab] is the
      size of the last dimension.  A label smoothing below zero has no
      smoothed loss. *)
  Definition smooth_loss (batch_size : option nat) (vocab : Z) (log_probs : list (list Qc)) (targets : list Z) (pad_idx : option Z)
      (label_smoothing : Qc) (target_mask : option (list bool)) (r : reduction) : outcome :=
    match sequence (map (fun rt => option_map Qcopp (pick (fst rt) (snd rt))) (combine log_probs targets)) with
    | None => IndexError
    | Some loss =>
        let smooth := map (fun row => - qsum row) log_probs in
        let smoothed := negb (if Qclt_le_dec 0 label_smoothing then false else true) in
        let padded l := match pad_idx with Some p => fill l targets p | None => l end in
        let masked l := match target_mask with Some m => times l m | None => l end in
        let loss := masked (padded loss) in
        let smooth := masked (padded smooth) in
        let eps := label_smoothing / of_Z (vocab - 1) in
        let mix x y := if smoothed then (1 - label_smoothing - eps) * x + eps * y else x in
        if smoothed && (vocab =? 1)%Z && match r with ROther => false | _ => true end then ZeroDivision
        else
          match r with
          | RSum => Scalar (mix (qsum loss) (qsum smooth))
          | RMean =>
              let n :=
                match target_mask, pad_idx with
                | Some m, None => count m
                | Some m, Some p => count (both m (ne targets p))
                | None, Some p => count (ne targets p)
                | None, None => Z.of_nat (length loss)
                end in
              match mean (qsum loss) n, mean (qsum smooth) n with
              | Some x, Some y => Scalar (mix x y)
              | _, _ => NotANumber
              end
          | RNone => shaped batch_size (map (fun xy : Qc * Qc => mix (fst xy) (snd xy)) (combine loss smooth))
          | ROther => ValueError
          end
    end.

  (** cross_entropy (cross_entropy.py 16-185). *)
  Definition cross_entropy (vocab : Z) (logits : tensor (list Qc)) (targets : tensor Z) (pad_idx : option Z)
      (label_smoothing : Qc) (target_mask : option (tensor bool)) (r : reduction) : outcome :=
    let batch_size := match logits with Two l => Some (length l) | One _ => None end in
    let log_probs := map log_softmax (flat logits) in
    let targets := flat targets in
    let target_mask := option_map flat target_mask in
    if Qc_eq_dec label_smoothing 0
    then plain_loss batch_size log_probs targets pad_idx target_mask r
    else smooth_loss batch_size vocab log_probs targets pad_idx label_smoothing target_mask r.
End CrossEntropy.

(** torcheval's Mean (external): the weighted sum and the sum of the weights. *)
Record mean_metric := MeanMetric { weighted_sum : Qc; weights : Qc }.
Definition mean_init : mean_metric := MeanMetric 0 0.
Definition mean_update (m : mean_metric) (x weight : Qc) : mean_metric :=
  MeanMetric (weighted_sum m + weight * x) (weights m + weight).
(** compute(): 0 / 0 is None. *)
Definition mean_compute (m : mean_metric) : option Qc :=
  if Qc_eq_dec (weights m) 0 then None else Some (weighted_sum m / weights m).
(** update_nll_loss_metric; "num_targets or 1" (metrics/common.py 27-34). *)
Definition update_nll_loss_metric (m : mean_metric) (loss : Qc) (num_targets : option Z) : mean_metric :=
  let n := match num_targets with Some n => if (n =? 0)%Z then 1%Z else n | None => 1%Z end in
  mean_update m (loss / of_Z n) (of_Z n).
Definition run_metric (l : list (Qc * option Z)) : mean_metric :=
  fold_left (fun m u => update_nll_loss_metric m (fst u) (snd u)) l mean_init.
