(** C46: the fp16 loss scale. *)

From Coq Require Import QArith Qabs Qminmax Bool List Lia Lqa.
From Verif Require Import LossScale_Model LossScale_Spec LossScale_Proofs.
Import ListNotations.

(** For every history, the scale is never below the minimum; the step that finds inf/NaN is reported as an overflow and does
    not call the optimizer, all others call it and are not; the scale is divided by the factor at an overflow, multiplied by
    it when the number of consecutive good steps reaches a multiple of the window, and unchanged otherwise. When the division
    would lead below the minimum this is reported as an explosion and the scale stays at the minimum. *)
Theorem C46_scale : forall c s h f, visible c -> min_scale c <= s ->
  min_scale c <= scale_after c s h /\
  exists r stepped, last_report c s h f r stepped /\
    old_scale r = scale_after c s h /\ new_scale r = scale_after c s (h ++ [f]) /\
    stepped = negb f /\ overflowed r = f /\
    (f = true -> scaled r = false /\
       (exploded r = true <-> scale_after c s h / scale_factor c < min_scale c) /\
       scale_after c s (h ++ [f]) == Qmax (scale_after c s h / scale_factor c) (min_scale c)) /\
    (f = false -> exploded r = false /\
       (scaled r = true <-> Nat.divide (scale_window c) (streak (h ++ [f]))) /\
       scale_after c s (h ++ [f]) == (if scaled r then scale_after c s h * scale_factor c else scale_after c s h)).
Proof. exact scale_lemma. Qed.
Print Assumptions C46_scale.

Theorem C46_state_dict : forall g, scaler_load_state_dict (scaler_state_dict g) = Some g.
Proof. reflexivity. Qed.
Print Assumptions C46_state_dict.

(** Any other dictionary is rejected. *)
Theorem C46_load_errors : forall sd g, NoDup (map fst sd) -> (scaler_load_state_dict sd = Some g <-> sd = scaler_state_dict g).
Proof. exact load_state_lemma. Qed.
Print Assumptions C46_load_errors.

(** The defaults of the constructor, with a window of 3. *)
Definition default_cfg : scaler_cfg := {| scale_factor := 2; scale_window := 3; min_scale := 1 # 10000 |}.

Example C46_example : visible default_cfg /\ min_scale default_cfg <= 65536 /\
  Qeq_bool (scale_after default_cfg 65536 [false; false; true; false; false; false; false]) 65536 = true /\
  Qeq_bool (scale_after default_cfg (3 # 20000) [true; true; false]) (1 # 10000) = true.
Proof. repeat split; try (vm_compute; reflexivity); try (vm_compute; discriminate). simpl; lia. Qed.

(** Without [visible] the overflow is not noticed: with a minimum scale of 1e-6 the halving of 2e-5 is within the tolerance, so
    the step in which the optimizer was not called is reported as an ordinary step. *)
Theorem C46_small_scale_refuted : exists c s r, 1 < scale_factor c /\ min_scale c <= s /\
  last_report c s [] true r false /\ overflowed r = false /\ exploded r = false /\ scale_after c s [true] == s / scale_factor c.
Proof.
  exists {| scale_factor := 2; scale_window := 3; min_scale := 1 # 1000000 |}, (1 # 50000). eexists.
  split; [reflexivity|]. split; [discriminate|]. split; [exists []; vm_compute; reflexivity|]. repeat split.
Qed.
Print Assumptions C46_small_scale_refuted.
