(** Model of the learning rate schedulers: /repo/src/fairseq2/optim/lr_schedulers/. Floats are real numbers; step numbers and lengths
    are natural numbers; a learning rate is never a Tensor. *)
From Coq Require Import Reals List Arith ZArith.
Import ListNotations.
Open Scope R_scope.

Inductive res (A : Type) := Ok (a : A) | ValueErr | TypeErr | ZeroDiv.
Arguments Ok {A} _. Arguments ValueErr {A}. Arguments TypeErr {A}. Arguments ZeroDiv {A}.

(** get_per_param_group, lr_scheduler.py lines 50-64, for [n] parameter groups. An int has no length, so it raises a TypeError. *)
Inductive arg := Float (x : R) | Int (z : Z) | Seq (l : list R).
Definition per_param_group (n : nat) (a : arg) : res (list R) :=
  match a with
  | Float x => Ok (repeat x n)
  | Int _ => TypeErr
  | Seq l => if Nat.eqb (length l) n then Ok l else ValueErr
  end.
(** [f(a, b) for a, b in zip(l, m)] *)
Definition zip_with (f : R -> R -> R) (l m : list R) : list R := map (fun p => f (fst p) (snd p)) (combine l m).
(** s + (b - s) * c: the warmup of all schedulers but NoamLR *)
Definition warmup (c : R) (base start : list R) : list R := zip_with (fun b s => s + (b - s) * c) base start.

(** MyleLR.__init__, lines 57-58, and _compute_lrs, myle.py lines 69-82 *)
Definition myle_init (num_warmup_steps : nat) : bool := negb (Nat.eqb num_warmup_steps 0).
Definition myle (num_warmup_steps : nat) (start base : list R) (last_epoch : nat) : list R :=
  if last_epoch <? num_warmup_steps then warmup (INR last_epoch / INR num_warmup_steps) base start
  else let c := Rpower (INR num_warmup_steps / INR last_epoch) (1 / 2) in map (fun b => b * c) base.

(** NoamLR._compute_lrs, noam.py lines 58-72 *)
Definition noam (num_warmup_steps : nat) (base : list R) (last_epoch : nat) : list R :=
  let c := if last_epoch <? num_warmup_steps then INR last_epoch * Rpower (INR num_warmup_steps) (- (3 / 2))
           else if Nat.eqb last_epoch 0 then 1
           else Rpower (INR last_epoch) (- (1 / 2)) in
  map (fun b => b * c) base.

(** PolynomialDecayLR.__init__, lines 65-68, and _compute_lrs, polynomial_decay.py lines 82-106 *)
Definition polynomial_init (num_steps num_warmup_steps : nat) : bool := num_warmup_steps <? num_steps.
Definition polynomial (num_steps num_warmup_steps : nat) (power : R) (start final base : list R) (last_epoch : nat) : list R :=
  if num_steps <=? last_epoch then final
  else if last_epoch <? num_warmup_steps then warmup (INR last_epoch / INR num_warmup_steps) base start
  else
    let r := INR num_steps - INR last_epoch in
    let t := INR num_steps - INR num_warmup_steps in
    let c := Rpower (r / t) power in
    zip_with (fun b f => f + (b - f) * c) base final.

(** int(x) for x >= 0 *)
Definition int (x : R) : nat := Z.to_nat (Int_part x).
(** TriStageLR.__init__, line 73: the ratios are close to 1; here they add up to 1. Line 81. *)
Definition stage_steps (num_steps : nat) (ratio : R) : nat := int (ratio * INR num_steps).
(** TriStageLR._compute_lrs, tri_stage.py lines 94-125; [n0], [n1], [n2] are num_stage_steps. math.log raises a ValueError for a scale
    that is not positive. *)
Definition tri_stage (n0 n1 n2 : nat) (start_scale final_scale base : list R) (last_epoch : nat) : res (list R) :=
  let start := zip_with Rmult start_scale base in
  let final := zip_with Rmult final_scale base in
  if last_epoch <? n0 then Ok (warmup (INR last_epoch / INR n0) base start)
  else let k := (last_epoch - n0)%nat in
  if k <? n1 then Ok base
  else let k := (k - n1)%nat in
  if k <? n2 then
    let c := INR k / INR n2 in
    if existsb (fun f => if Rle_dec f 0 then true else false) final_scale then ValueErr
    else Ok (zip_with (fun b f => b * exp (ln f * c)) base final_scale)
  else Ok final.

(** CosineAnnealingLR._compute_lrs, cosine_annealing.py lines 96-147. [cycle]: number, length and position for a step after warmup. *)
Definition cycle (cycle_len : nat) (mul : R) (curr_step : nat) : res (nat * nat * Z) :=
  if Req_EM_T mul 1 then
    if Nat.eqb cycle_len 0 then ZeroDiv
    else let n := (curr_step / cycle_len)%nat in Ok (n, cycle_len, Z.of_nat curr_step - Z.of_nat (n * cycle_len))%Z
  else
    if Nat.eqb cycle_len 0 then ZeroDiv
    else let x := 1 - INR curr_step / INR cycle_len * (1 - mul) in
    if Rle_dec x 0 then ValueErr else if Rle_dec mul 0 then ValueErr
    else
      let n := int (ln x / ln mul) in
      let len := int (mul ^ n * INR cycle_len) in
      let offset := int ((1 - mul ^ n) / (1 - mul) * INR cycle_len) in
      Ok (n, len, Z.of_nat curr_step - Z.of_nat offset)%Z.
Definition cosine (cycle_len num_warmup_steps : nat) (cycle_mul lr_mul : R) (start final base : list R) (last_epoch : nat) : res (list R) :=
  if last_epoch <? num_warmup_steps then Ok (warmup (INR last_epoch / INR num_warmup_steps) base start)
  else
    match cycle cycle_len cycle_mul (last_epoch - num_warmup_steps) with
    | Ok (n, len, pos) =>
        if Nat.eqb len 0 then ZeroDiv
        else
          let lr_mul := lr_mul ^ n in
          let c := cos (PI * IZR pos / INR len) in
          Ok (zip_with (fun mn mx => mn * lr_mul + (1 / 2) * (mx * lr_mul - mn * lr_mul) * (1 + c)) final base)
    | ValueErr => ValueErr | TypeErr => TypeErr | ZeroDiv => ZeroDiv
    end.
