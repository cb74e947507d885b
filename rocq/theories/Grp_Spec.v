(** What the groups of an optimizer should hold. *)

Require Import String List Arith Bool.
Import ListNotations.

Section Spec.
  Context {P : Type}.
  Variable selects : list string -> string -> bool.

  (** A parameter belongs to group [i]: it is selected by the group's patterns
      and by none before. *)
  Definition belongs (patterns : list (list string)) (i : nat) (name : string) : bool :=
    match nth_error patterns i with
    | None => false
    | Some ps => selects ps name && forallb (fun qs => negb (selects qs name)) (firstn i patterns)
    end.

  (** The parameters of group [i], in the order of the model. *)
  Definition members (patterns : list (list string)) (named : list (string * P)) (i : nat) : list P :=
    map snd (filter (fun np => belongs patterns i (fst np)) named).

  (** The parameters of no group. *)
  Definition others (patterns : list (list string)) (named : list (string * P)) : list P :=
    map snd (filter (fun np => forallb (fun qs => negb (selects qs (fst np))) patterns) named).
End Spec.
