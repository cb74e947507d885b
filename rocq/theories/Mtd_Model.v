(** The asset cards of saved checkpoints.

    Models src/fairseq2/checkpoint/model_metadata.py 46-60 (the dumper) and 78-159
    (the loader), and src/fairseq2/recipe/internal/train_model.py 119-319 and 325-350 with
    src/fairseq2/trainer.py 363-398 for when the metadata is written.

    Simplifications.  The contents of the checkpoint directory are the entries that
    [glob] finds, in any order, and the score files; a card is the number of the
    step whose model it points to; names of directories are as the manager writes
    them, with a natural number without leading zeros.  The cards inherit from that of model.yaml, which
    is the configuration it was written with. *)

Require Import List Arith QArith Bool.
From Verif Require Import Ckpt_Model.
Import ListNotations.
Local Open Scope nat_scope.

(** checkpoint_step_<n>, last_checkpoint, best_checkpoint and best_checkpoint_<i>. *)
Inductive card := Card_step (n : nat) | Card_last | Card_best | Card_best_nth (i : nat).

Definition card_eqb (a b : card) : bool :=
  match a, b with
  | Card_step n, Card_step m => n =? m
  | Card_last, Card_last => true
  | Card_best, Card_best => true
  | Card_best_nth i, Card_best_nth j => i =? j
  | _, _ => false
  end.

(** The dictionary of metadata. *)
Definition metadata := card -> option nat.

(** model_metadata.py 95-98 *)
Definition add_metadata (md : metadata) (c : card) (step_nr : nat) : metadata := fun c' => if card_eqb c' c then Some step_nr else md c'.

(** An entry that matches step_*: whether it is a directory and the number in its
    name, if it is one. *)
Definition entry := (bool * option nat)%type.

(** model_metadata.py 100-144: the loop; [None] is the error for a score that is
    not a number, and no maximum is -1. *)
Fixpoint scan (score : nat -> option (option Q)) (entries : list entry) (md : metadata) (max_step_nr : option nat) (scores : list (Q * nat)) :
  option (metadata * option nat * list (Q * nat)) :=
  match entries with
  | [] => Some (md, max_step_nr, scores)
  | (false, _) :: entries' => scan score entries' md max_step_nr scores
  | (true, None) :: entries' => scan score entries' md max_step_nr scores
  | (true, Some step_nr) :: entries' =>
      let md := add_metadata md (Card_step step_nr) step_nr in
      let max_step_nr := match max_step_nr with None => Some step_nr | Some m => Some (Nat.max m step_nr) end in
      match score step_nr with
      | None => scan score entries' md max_step_nr scores
      | Some None => None
      | Some (Some q) => scan score entries' md max_step_nr (scores ++ [(q, step_nr)])
      end
  end.

(** model_metadata.py 156-157 *)
Fixpoint add_best (md : metadata) (idx : nat) (scores : list (Q * nat)) : metadata :=
  match scores with
  | [] => md
  | (_, step_nr) :: scores' => add_best (add_metadata md (Card_best_nth idx) step_nr) (S idx) scores'
  end.

(** model_metadata.py 78-159 *)
Definition load_metadata (score : nat -> option (option Q)) (entries : list entry) : option metadata :=
  match scan score entries (fun _ => None) None [] with
  | None => None
  | Some (md, max_step_nr, scores) =>
      let md := match max_step_nr with None => md | Some n => add_metadata md Card_last n end in
      let scores := sort_desc scores in
      Some match scores with
           | [] => md
           | (_, best_step_nr) :: _ => add_best (add_metadata md Card_best best_step_nr) 0 scores
           end
  end.

(** ** What the cards say about the model *)

(** A run begins, with a configuration; a step is saved. *)
Inductive event (C : Type) := Begin (config : C) | Save (step_nr : nat).
Arguments Begin {C}. Arguments Save {C}.

(** The configuration in model.yaml, and that of the run that saved each step:
    model_metadata.py 46-60 overwrites the file whenever a run begins, before the
    trainer restores the model. *)
Definition run_events {C} (es : list (event C)) : option C * (nat -> option C) :=
  fold_left (fun st e => match e with
                         | Begin c => (Some c, snd st)
                         | Save n => (fst st, fun m => if m =? n then fst st else snd st m)
                         end) es (None, fun _ => None).

Definition described_as {C} (es : list (event C)) : option C := fst (run_events es).
Definition trained_as {C} (es : list (event C)) (n : nat) : option C := snd (run_events es) n.
