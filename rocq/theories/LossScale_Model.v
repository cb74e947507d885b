(** The fp16 loss scaler (src/fairseq2/optim/fp16_loss_scaler.py).

    Scales are rational numbers; the rounding of float32 and double arithmetic and the overflow of the scale to infinity are
    not modelled. [torch.amp.GradScaler] belongs to PyTorch; the part of it that is modelled here ([gs_update], [gs_step]) is
    its documented behaviour and is part of the trusted base. *)

From Coq Require Import QArith Qabs Qminmax Bool List.
Import ListNotations.

(** [StandardFloat16LossScaler.__init__], fp16_loss_scaler.py:126-178: the arguments of the constructor. The growth factor of
    the [GradScaler] is [scale_factor], its backoff factor is [1 / scale_factor] (lines 155-175). *)
Record scaler_cfg := { scale_factor : Q; scale_window : nat; min_scale : Q }.

(** The state of the [GradScaler]: the current scale and the number of consecutive steps without inf/NaN since the scale was
    changed last. *)
Record grad_scaler := GS { gs_scale : Q; gs_tracker : nat }.

(** [GradScaler.__init__] as called at fp16_loss_scaler.py:155-175. *)
Definition gs_init (init_scale : Q) : grad_scaler := GS init_scale 0.

(** [GradScaler.update()] of PyTorch (called at fp16_loss_scaler.py:213). [found_inf]: some gradient was inf or NaN. *)
Definition gs_update (c : scaler_cfg) (found_inf : bool) (g : grad_scaler) : grad_scaler :=
  if found_inf then GS (gs_scale g * (1 / scale_factor c)) 0
  else if Nat.eqb (S (gs_tracker g)) (scale_window c) then GS (gs_scale g * scale_factor c) 0
  else GS (gs_scale g) (S (gs_tracker g)).

(** [math.isclose(a, b, rel_tol=1.3e-6, abs_tol=1e-5)], fp16_loss_scaler.py:217. *)
Definition isclose (a b : Q) : bool :=
  Qeq_bool a b ||
  Qle_bool (Qabs (a - b)) (Qmax ((13 # 10000000) * Qmax (Qabs a) (Qabs b)) (1 # 100000)).

(** [Float16LossScaleResult], fp16_loss_scaler.py:272-285. *)
Record scale_result := SR { old_scale : Q; new_scale : Q; scaled : bool; overflowed : bool; exploded : bool }.

(** [StandardFloat16LossScaler._update_scale], fp16_loss_scaler.py:210-231. [GradScaler.update(new_scale)] sets the scale and
    leaves the growth tracker as it is. *)
Definition update_scale (c : scaler_cfg) (found_inf : bool) (g : grad_scaler) : scale_result * grad_scaler :=
  let old := gs_scale g in
  let g1 := gs_update c found_inf g in
  let new := gs_scale g1 in
  if isclose new old then (SR old new false false false, g1)
  else if negb (Qle_bool new old) then (SR old new true false false, g1)
  else if negb (Qle_bool (min_scale c) new) then (SR old (min_scale c) false true true, GS (min_scale c) (gs_tracker g1))
  else (SR old new false true false, g1).

(** [StandardFloat16LossScaler.run_optimizer_step] without closure, fp16_loss_scaler.py:194-208. [GradScaler.step] calls the
    optimizer unless some gradient is inf or NaN: the second component says whether it was called. *)
Definition run_optimizer_step (c : scaler_cfg) (found_inf : bool) (g : grad_scaler) : scale_result * bool * grad_scaler :=
  let (r, g') := update_scale c found_inf g in (r, negb found_inf, g').

(** [_NoopFloat16LossScaler.run_optimizer_step], fp16_loss_scaler.py:85-100: the optimizer is always called. *)
Definition noop_optimizer_step : scale_result * bool := (SR 1 1 false false false, true).

(** [state_dict] and [load_state_dict], fp16_loss_scaler.py:247-269; the dictionary is a list of keys with values, a value is a
    [GradScaler] state or something else. *)
Inductive sd_value := SDScaler (g : grad_scaler) | SDOther.
Definition scaler_state_dict (g : grad_scaler) : list (nat * sd_value) := [(0%nat, SDScaler g)].
(** Key 0 stands for "grad_scaler". The result is [None] if [StateDictError] is raised. As in the code, the scaler is loaded
    before the left-over keys are noticed; a failed load is not modelled further. *)
Definition scaler_load_state_dict (sd : list (nat * sd_value)) : option grad_scaler :=
  match find (fun kv => Nat.eqb (fst kv) 0) sd with
  | Some (_, SDScaler g) => if forallb (fun kv => Nat.eqb (fst kv) 0) sd then Some g else None
  | _ => None
  end.

(** A history of optimizer steps: for each step, whether some gradient was inf or NaN. *)
Fixpoint run_steps (c : scaler_cfg) (h : list bool) (g : grad_scaler) : list (scale_result * bool) * grad_scaler :=
  match h with
  | [] => ([], g)
  | f :: h' =>
      let '(r, stepped, g1) := run_optimizer_step c f g in
      let (rs, g2) := run_steps c h' g1 in ((r, stepped) :: rs, g2)
  end.
