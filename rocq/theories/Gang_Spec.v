(** What gangs promise. *)
From Coq Require Import List Bool Arith ZArith Lia.
From Verif Require Import Gang_Model.
Import ListNotations.

(** The world ranks of the processes in a gang of the process with world rank [r]; a fake gang of size 1 is that process alone. *)
Definition members (r : nat) (g : gang) : list nat := match g with Fake _ _ => [r] | Pg _ m _ => m end.
(** The processes of a world of size [n] with a property, in ascending order. *)
Definition those (n : nat) (f : nat -> bool) : list nat := filter f (seq 0 n).
(** [g] consists of [l], and process [r] is number [k] in it. *)
Definition gang_is (r : nat) (g : gang) (l : list nat) (k : nat) : Prop := members r g = l /\ grank g = k /\ gsize g = length l.

(** Lexical scope: the innermost enclosing [With] for the device, else the default. *)
Section Scope.
  Variable dev : nat -> nat.
  Variable fake_gangs : nat -> nat.
  Definition bind (env : nat -> option nat) (g : nat) (meta : bool) : nat -> option nat :=
    fun d => if (Nat.eqb d (dev g) || meta && Nat.eqb d META) then Some g else env d.
  Definition resolve (defs env : nat -> option nat) (d : nat) : nat :=
    match env d with Some g => g | None => match defs d with Some g => g | None => fake_gangs (if Nat.eqb d META then CPU else d) end end.
  Fixpoint scoped (p : prog) (defs env : nat -> option nat) : (nat -> option nat) * list nat * bool :=
    match p with
    | Ret => (defs, [], true)
    | Raise => (defs, [], false)
    | Get d k => let '(defs', o, ok) := scoped k defs env in (defs', resolve defs env d :: o, ok)
    | SetDefault g meta k => scoped k (bind defs g meta) env
    | With g meta body k =>
        let '(defs1, o1, ok1) := scoped body defs (bind env g meta) in
        if ok1 then let '(defs2, o2, ok2) := scoped k defs1 env in (defs2, o1 ++ o2, ok2) else (defs1, o1, false)
    end.
End Scope.
