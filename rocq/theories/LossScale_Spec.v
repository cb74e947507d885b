(** Vocabulary of the theorems about the fp16 loss scaler. *)

From Coq Require Import QArith Bool List.
From Verif Require Import LossScale_Model.
Import ListNotations.

(** A change of the scale by the factor is larger than the tolerance with which scales are compared
    (relative 1.3e-6, absolute 1e-5), for every scale not below the minimum. *)
Definition visible (c : scaler_cfg) : Prop :=
  1 < scale_factor c /\ 13 # 10000000 < 1 - 1 / scale_factor c /\ 1 # 100000 < min_scale c * (1 - 1 / scale_factor c) /\
  (1 <= scale_window c)%nat.

(** The number of steps without inf/NaN at the end of a history (latest step last). *)
Fixpoint leading_ok (h : list bool) : nat :=
  match h with false :: h' => S (leading_ok h') | _ => 0 end.
Definition streak (h : list bool) : nat := leading_ok (rev h).

(** The scale after a history that starts with scale [s]. *)
Definition scale_after (c : scaler_cfg) (s : Q) (h : list bool) : Q := gs_scale (snd (run_steps c h (gs_init s))).

(** What the last step of the history [h ++ [found_inf]] reports, and whether the optimizer was called in it. *)
Definition last_report (c : scaler_cfg) (s : Q) (h : list bool) (found_inf : bool) (r : scale_result) (stepped : bool) : Prop :=
  exists rs, fst (run_steps c (h ++ [found_inf]) (gs_init s)) = rs ++ [(r, stepped)].
