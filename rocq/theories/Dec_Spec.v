(** Incremental decoding as its users see it: which tokens have been fed for the sequence that is now in each row of the batch. *)
From Coq Require Import List Arith.
From Verif Require Import Attn_Model Attn_Spec Dec_Model.
Import ListNotations.

Section S.
Context {Tk X Q K V Y : Type}.
Variable M : model Tk X Q K V Y.
(** The tokens of each row, None: nothing has been fed yet *)
Definition extend (P : option (list (list Tk))) (t : mat Tk) : list (list Tk) := match P with None => rows t | Some P => map2 (@app Tk) P (rows t) end.
Definition next_chunk (P : option (list (list Tk))) (t : mat Tk) : Prop :=
  rect t /\ 1 <= width t /\ match P with None => True | Some P => length (rows t) = length P end.
Definition fed (P : option (list (list Tk))) (n : nat) : Prop := match P with None => n = 0 | Some P => forall p, In p P -> length p = n end.

(** A bag is made; then chunks of tokens, of one or more steps, are fed with it, after each of which the step is advanced, and the rows are rearranged, repeated or dropped. *)
Inductive decoding (max_steps : nat) (inc : option nat) : bag K V -> option (list (list Tk)) -> Prop :=
| Started b : new_bag max_steps inc = Ok b -> decoding max_steps inc b None
| Continued b P t y b' b'' : decoding max_steps inc b P -> next_chunk P t -> forward M t (Some b) = Some (y, Some b') -> increment (width t) b' = Ok b'' ->
    decoding max_steps inc b'' (Some (extend P t))
| Rearranged b P o b' : decoding max_steps inc b (Some P) -> (forall i, In i o -> i < length P) -> bag_reorder o b = Ok b' ->
    decoding max_steps inc b' (Some (map (fun i => nth i P []) o)).
End S.
