(** Vocabulary of the theorems about the metric bag. *)

From Coq Require Import String List Bool.
From Verif Require Import MetricBag_Model.
Import ListNotations.

(** An operation that neither opens nor closes a transaction. *)
Definition inside {MV} (o : op MV) : Prop := match o with OBegin | OCommit | ORollback => False | _ => True end.

(** The names registered in the bag. *)
Definition names {MV} (w : world MV) : list string := map fst (metrics w).

(** No metric object is registered under two names. *)
Definition unshared {MV} (w : world MV) : Prop := NoDup (map snd (metrics w)).
