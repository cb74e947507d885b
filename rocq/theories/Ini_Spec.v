(** With which parameters training should begin. *)

Require Import Bool List.
From Verif Require Import Ini_Model.
Import ListNotations.

(** A saved model wins, then the pretrained one that is named, then new parameters,
    which rank 0 draws. *)
Definition intended (s : section) (resumes : bool) : origin :=
  if resumes then Saved
  else match s with
       | Section_of true _ _ => Pretrained
       | Section_of _ true _ => Pretrained
       | _ => Random 0
       end.

(** recipe/config.py 115-124 *)
Definition valid (s : section) : Prop :=
  match s with
  | Section_of path name family => if path then family = true else name = true \/ family = true
  end.

(** There is a checkpoint with which to resume: one that is not of the model only. *)
Definition resumable (cs : checkpoints) : bool := existsb negb cs.
