(** Specification for streaming fragments *)
From Coq Require Import List Arith Permutation.
Import ListNotations.

Section S.
  Context {X R : Type}.
  Variable shuffle_window : R -> list X -> R * list X.
  Variable window_size : nat.
  (** A stream delivered in windows, each of them shuffled *)
  Fixpoint deliver_ (fuel : nat) (r : R) (l : list X) : list X :=
    match fuel, l with
    | S f, _ :: _ => let (r', w) := shuffle_window r (firstn window_size l) in w ++ deliver_ f r' (skipn window_size l)
    | _, _ => []
    end.
  Definition deliver (r : R) (l : list X) : list X := deliver_ (length l) r l.
End S.

(** What a user does: take an element, or save the iterator and go on with the one that was saved *)
Inductive op := Call | Save.
Definition calls (h : list op) : nat := length (filter (fun o => match o with Call => true | Save => false end) h).

(** The fragments of a list of files *)
Definition elements {file frag} (rows : file -> list frag) (whole : file -> frag) (split : bool) (l : list file) : list frag :=
  if split then flat_map rows l else map whole l.
