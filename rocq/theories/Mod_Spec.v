(** What it means to reach a module inside another one, and for a tree of
    modules to be one that Python objects can form. *)

From Coq Require Import String List.
Import ListNotations.
From Verif Require Import Mod_Model.

(** Following the attributes [p] from [m] leads to [a]. *)
Inductive within : path -> module -> module -> Prop :=
| within_here m : within [] m m
| within_child n c p a m :
    In (n, Some c) (children_of m) -> within p a c -> within (n :: p) a m.

(** The same object looks the same wherever it is reached from, and no module
    has two attributes of one name. *)
Definition well_formed (m : module) : Prop :=
  (forall p q a b, within p a m -> within q b m -> id_of a = id_of b -> a = b) /\
  (forall p a, within p a m -> NoDup (map fst (children_of a) ++ slot_names a)).

(** Attribute [n] of the module reached by [p] is a parameter or a buffer, and
    it is the tensor [t]. *)
Definition holds (m : module) (sl : slots) (p : path) (n : string) (t : nat)
  : Prop :=
  exists a, within p a m /\ In n (slot_names a) /\ sl (id_of a) n = t.

(** [a] is reached from [m] without going through a module of [skip]. *)
Inductive kept (skip : list nat) : module -> module -> Prop :=
| kept_here m : ~ In (id_of m) skip -> kept skip m m
| kept_child n c a m :
    ~ In (id_of m) skip -> In (n, Some c) (children_of m) -> kept skip a c ->
    kept skip a m.

(** Some attribute of the modules reached is a parameter, or a persistent
    buffer, and is [t]. *)
Definition saved_in (skip : list nat) (m : module) (sl : slots) (t : nat) : Prop :=
  exists a n, kept skip a m /\ sl (id_of a) n = t /\
    (In n (params_of a) \/ In (n, true) (buffers_of a)).

(** ... or a non-persistent buffer, and is [t]. *)
Definition unsaved_in (skip : list nat) (m : module) (sl : slots) (t : nat) : Prop :=
  exists a n, kept skip a m /\ sl (id_of a) n = t /\ In (n, false) (buffers_of a).
