(** What the ranks have to agree on. *)
From Coq Require Import List Bool Arith Lia.
From Verif Require Import Reader_Model.
Import ListNotations.

(** The next batches of a pipeline, at most [n], and the pipeline after reading them. *)
Inductive upcoming (P : pipe) : nat -> PS P -> list (B P) -> PS P -> Prop :=
| up_full s : upcoming P 0 s [] s
| up_end n s s' : pnext P s = (End, s') -> upcoming P (S n) s [] s'
| up_item n s b s1 bs s2 : pnext P s = (Item b, s1) -> upcoming P n s1 bs s2 -> upcoming P (S n) s (b :: bs) s2.

(** What a rank contributes: with [drop_remainder] only full lists. *)
Definition contribution (c : config) {A} (bs : list A) : list A := if drop_remainder c then if Nat.eqb (length bs) (num_accumulate c) then bs else [] else bs.

(** A rank reads: [bs] is what it contributes, [s] its pipeline afterwards. *)
Definition reads (P : pipe) (c : config) (r : rank P) (x : list (B P) * PS P) : Prop :=
  exists bs, upcoming P (num_accumulate c) (ps r) bs (snd x) /\ fst x = contribution c bs.

(** Every operation of the history but the calls of next re-arms the reader. *)
Definition is_next {P} (o : op P) : bool := match o with Next => true | _ => false end.
Definition never_fails (P : pipe) : Prop := forall s, fst (pnext P s) <> Fail.
Definition good_op {P} (n : nat) (o : op P) : Prop := match o with Load l => length l = n | _ => True end.
