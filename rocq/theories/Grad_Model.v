(** Model of the gradient of a training step over all data parallel ranks: Trainer._do_run_step, /repo/src/fairseq2/trainer.py 539-617, with normalize_grads, scale_grads
    and check_grad_norms, /repo/src/fairseq2/nn/utils/grad.py.
    Numbers are rational and exact. One element of one parameter is followed: everything but clipping acts on each by itself. Clipping is not modelled. The averaging over
    ranks is that of PyTorch, as documented: DDP averages what has accumulated in the gradient; FSDP averages the new gradients and accumulates the result. *)
From Coq Require Import List Bool Arith QArith.
Import ListNotations.
Local Open Scope Q_scope.

(** A batch: the gradient of the loss that the unit returns for it, and the number of targets, if the unit returns it *)
Record batch := B { grad : Q; targets : option nat }.
(** The wrapper (DDP or FSDP), Trainer's no_sync_grad_accumulation, and the loss scale of this step *)
Record cfg := Cfg { ddp : bool; no_sync : bool; scale : Q }.
Fixpoint qsum (l : list Q) : Q := match l with [] => 0 | x :: l' => x + qsum l' end.
Definition of_nat (n : nat) : Q := inject_Z (Z.of_nat n).
Definition mean (l : list Q) : Q := qsum l / of_nat (length l).
(** The gradient that the backward pass of one batch adds: trainer.py 571-587. A mean loss is divided by the number of batches of the step. *)
Definition backward (c : cfg) (num_batches : nat) (b : batch) : Q :=
  scale c * match targets b with None => grad b / of_nat num_batches | Some _ => grad b end.
(** _maybe_no_sync, trainer.py 639-644 *)
Definition syncs (c : cfg) (batch_nr num_batches : nat) : bool := if no_sync c then if batch_nr <? num_batches - 1 then false else true else true.
(** The gradient on a rank: what was averaged already, and what was accumulated since, on this rank only *)
Notation grad_state := (Q * Q)%type.
Definition add_local (st : grad_state) (g : Q) : grad_state := (fst st, snd st + g).
Fixpoint zip_with {A B C} (f : A -> B -> C) (l : list A) (l' : list B) : list C := match l, l' with x :: l, y :: l' => f x y :: zip_with f l l' | _, _ => [] end.
Definition accumulate (c : cfg) (sync : bool) (st : list grad_state) (new : list Q) : list grad_state :=
  let pending := zip_with add_local st new in
  if sync then
    if ddp c then let m := mean (map (fun s => fst s + snd s) pending) in map (fun _ => (m, 0)) pending
    else let m := mean (map snd pending) in map (fun s => (fst s + m, 0)) pending
  else pending.
(** The loop over the batches, trainer.py 565-594: [cols] are the remaining batches, each with one batch for every rank *)
Fixpoint run_batches (c : cfg) (num_batches batch_nr : nat) (cols : list (list batch)) (st : list grad_state) : list grad_state :=
  match cols with
  | [] => st
  | col :: cols' => run_batches c num_batches (S batch_nr) cols' (accumulate c (syncs c batch_nr num_batches) st (map (backward c num_batches) col))
  end.
(** num_targets of each rank, trainer.py 555, 581-584 *)
Definition batch_targets (b : batch) : nat := match targets b with Some n => n | None => 0 end.
Fixpoint num_targets (size : nat) (cols : list (list batch)) : list nat :=
  match cols with [] => repeat 0%nat size | col :: cols' => zip_with Nat.add (map batch_targets col) (num_targets size cols') end.
(** Trainer 599-600 and normalize_grads, grad.py 25-38: a rank takes part in the reduction of all_sum only if it has targets. None: the reduction never completes
    since some ranks do not take part. *)
Definition normalize (nts : list nat) (grads : list Q) : option (list Q) :=
  if forallb (fun n => 0 <? n)%nat nts then Some (map (fun g => g * (of_nat (length nts) / of_nat (fold_right Nat.add 0%nat nts))) grads)
  else if forallb (fun n => n =? 0)%nat nts then Some grads else None.
(** The gradients with which the optimizer is called, before clipping: trainer.py 539-602, without gradients at the start (line 617) *)
Definition step_grads (c : cfg) (size : nat) (cols : list (list batch)) : option (list Q) :=
  let st := run_batches c (length cols) 0 cols (repeat (0, 0) size) in
  option_map (map (fun g => g / scale c)) (normalize (num_targets size cols) (map (fun s => fst s + snd s) st)).

(** ** check_grad_norms, grad.py 133-162 *)
Inductive norm := Fin (q : Q) | Inf | NaN.
Definition is_finite (n : norm) : bool := match n with Fin _ => true | _ => false end.
Definition value (n : norm) : Q := match n with Fin q => q | _ => 0 end.
Definition Qabs' (q : Q) : Q := if Qle_bool 0 q then q else - q.
Definition Qmax' (a b : Q) : Q := if Qle_bool a b then b else a.
(** torch.max of a tensor *)
Definition maximum (l : list Q) : Q := match l with [] => 0 | x :: l' => fold_left Qmax' l' x end.
(** False: raises InconsistentGradNormError. [norms]: the gathered norms of all ranks *)
Definition check_grad_norms (norms : list norm) : bool :=
  if (length norms =? 1)%nat then true
  else
    let all_finite := forallb is_finite norms in
    if all_finite then
      let n0 := value (hd (Fin 0) norms) in
      let delta := maximum (map (fun n => Qabs' (value n - n0)) norms) / (n0 + (1 # 1000000)) in
      negb (Qle_bool (1 # 1000000) delta)
    else negb all_finite.
