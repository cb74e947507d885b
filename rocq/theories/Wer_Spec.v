(** What a transcript of a speech recognition model is, and what its error
    rates are, without reference to how the code computes them. *)

Require Import List Arith ZArith QArith.
From Verif Require Import Wer_Model.
Import ListNotations.
Open Scope nat_scope.

(** [k] is the label with the highest score of a frame, the first of them if
    there are several. *)
Definition best_label (scores : list Z) (k : nat) : Prop :=
  k < length scores
  /\ (forall j, j < length scores -> (nth j scores 0 <= nth k scores 0)%Z)
  /\ (forall j, j < k -> (nth j scores 0 < nth k scores 0)%Z).

(** The collapse of connectionist temporal classification: the path consists of
    maximal runs of equal labels, each run stands for one label, and the runs
    of the blank stand for nothing. *)
Definition collapses (blank : nat) (path out : list nat) : Prop :=
  exists runs : list (nat * nat),
    path = flat_map (fun r => repeat (fst r) (S (snd r))) runs
    /\ (forall a r s b, runs = a ++ r :: s :: b -> fst r <> fst s)
    /\ out = filter (fun l => negb (l =? blank)) (map fst runs).

(** The transcript of an utterance: the collapse of the path of the best labels
    of its frames, the padding not being one of them. *)
Definition transcript (blank : nat) (u : utterance) (out : list nat) : Prop :=
  exists path,
    Forall2 best_label (firstn (logits_len u) (logits_row u)) path
    /\ collapses blank path out.

(** An utterance as the model and the dataset deliver it: at least one frame
    and one label, every frame has a score for some label, and what follows the
    reference in its row is padding. *)
Definition delivered (pad : nat) (u : utterance) : Prop :=
  1 <= logits_len u <= length (logits_row u)
  /\ (forall f, In f (logits_row u) -> f <> [])
  /\ 1 <= ref_len u <= length (ref_row u)
  /\ (forall x, In x (skipn (ref_len u) (ref_row u)) -> x = pad).

Definition reference (u : utterance) : list nat := firstn (ref_len u) (ref_row u).

Definition zsum (l : list Z) : Z := fold_right Z.add 0%Z l.
