(** The saved steps of a checkpoint directory. *)

Require Import List.
Import ListNotations.

(** The numbers of the directories with a number in their name. *)
Definition saved_steps (entries : list (bool * option nat)) : list nat :=
  flat_map (fun e => match e with (true, Some n) => [n] | _ => [] end) entries.
