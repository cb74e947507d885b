(** What a generator has to be for a batch to be the same as its texts one by
    one: every row gets the hypotheses that its own tokens, without the
    padding, and its own prompt get. *)

Require Import List Arith.
Import ListNotations.

Definition row_by_row (generator : list (list nat) -> list nat -> list (list nat) -> list nat -> list (list (list nat)))
  (hypotheses_of : list nat -> list nat -> list (list nat)) : Prop :=
  forall (sources prompts : list (list nat)) (paddings prompt_paddings : list (list nat)),
    length prompts = length sources -> length paddings = length sources -> length prompt_paddings = length sources ->
    generator (map (fun p => fst p ++ snd p) (combine sources paddings)) (map (@length nat) sources)
              (map (fun p => fst p ++ snd p) (combine prompts prompt_paddings)) (map (@length nat) prompts)
    = map (fun p => hypotheses_of (fst p) (snd p)) (combine sources prompts).

Definition lm_row_by_row (generator : list (list nat) -> list nat -> list (list (list nat)))
  (hypotheses_of : list nat -> list (list nat)) : Prop :=
  forall (prompts paddings : list (list nat)),
    length paddings = length prompts ->
    generator (map (fun p => fst p ++ snd p) (combine prompts paddings)) (map (@length nat) prompts)
    = map hypotheses_of prompts.

(** At most [n] tokens. *)
Definition at_most (max_len : option nat) (s : list nat) : list nat :=
  match max_len with Some n => firstn n s | None => s end.
