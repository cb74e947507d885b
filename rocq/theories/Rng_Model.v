(** Random number generator bags (src/fairseq2/utils/rng.py).

    A generator is a PyTorch object: its state is abstract, it can be seeded, drawn from, read and set. Generators live on a
    heap, a bag holds references to some of them. Which generators a bag contains for which devices
    ([RngBag.from_device_defaults], rng.py:49-76) is not modelled: a bag is any list of references. *)

From Coq Require Import ZArith List Bool.
Import ListNotations.

Section Rng.
  Variable G : Type.               (* the state of a generator *)
  Variable V : Type.               (* a drawn value *)
  Variable mseed : Z -> G.         (* [Generator.manual_seed] *)
  Variable draw : G -> V * G.

  Definition ref := nat.
  Definition heap := list G.
  Definition bag := list ref.

  Fixpoint set_nth (l : heap) (i : nat) (x : G) : heap :=
    match l, i with
    | [], _ => []
    | _ :: l', O => x :: l'
    | y :: l', S i' => y :: set_nth l' i' x
    end.

  Inductive error := ValueError | StateDictError | UserError.
  Inductive outcome := Returned | Raised (e : error).

  (** [RngBag.manual_seed], rng.py:90-98. *)
  Definition manual_seed (b : bag) (seed : Z) (h : heap) : heap * outcome :=
    if (seed <? 0)%Z || (2 ^ 32 <=? seed)%Z then (h, Raised ValueError)
    else (fold_left (fun h r => set_nth h r (mseed seed)) b h, Returned).

  (** [RngBag.seed], rng.py:78-88; [rs] is the random number the first generator chooses as its seed. *)
  Definition seed_bag (b : bag) (rs : Z) (h : heap) : heap :=
    match b with
    | [] => h
    | r :: b' => fold_left (fun h r => set_nth h r (mseed rs)) b' (set_nth h r (mseed rs))
    end.

  (** [[g.get_state() for g in self._generators]], rng.py:103 and 117. *)
  Definition get_states (b : bag) (h : heap) : list (option G) := map (fun r => nth_error h r) b.

  (** The [finally] clause of [temporary_manual_seed], rng.py:109-111. *)
  Fixpoint restore (b : bag) (ss : list (option G)) (h : heap) : heap :=
    match b, ss with
    | r :: b', Some s :: ss' => restore b' ss' (set_nth h r s)
    | _ :: b', None :: ss' => restore b' ss' h     (* not a generator *)
    | _, _ => h
    end.

  (** [state_dict] and [load_state_dict], rng.py:115-146. A state dictionary: the entry under "generators" (not there, not a
      list, or a list of tensors and other things) and whether there are other keys. *)
  Inductive sd_gens := NoKey | NotList | Gens (l : list (option G)).
  Record state := { sd_generators : sd_gens; sd_extra : bool }.

  Definition state_dict (b : bag) (h : heap) : state := {| sd_generators := Gens (get_states b h); sd_extra := false |}.

  Fixpoint load_gens (b : bag) (ss : list (option G)) (h : heap) : heap * bool :=
    match b, ss with
    | r :: b', Some s :: ss' => load_gens b' ss' (set_nth h r s)
    | _ :: _, None :: _ => (h, false)
    | _, _ => (h, true)
    end.

  Definition load_state_dict (b : bag) (sd : state) (h : heap) : heap * outcome :=
    match sd_generators sd with
    | NoKey | NotList => (h, Raised StateDictError)
    | Gens l =>
        if negb (length l =? length b)%nat then (h, Raised StateDictError)
        else let (h', ok) := load_gens b l h in
             if negb ok then (h', Raised StateDictError)
             else if sd_extra sd then (h', Raised StateDictError) else (h', Returned)
    end.

  (** Programs that draw random numbers. The trace of a program is what it has drawn. [PTry] runs the second program if the
      first one raises. *)
  Inductive prog :=
  | PDraw (r : ref)
  | PRaise
  | PSeq (p q : prog)
  | PTry (p q : prog)
  | PManualSeed (b : bag) (seed : Z)
  | PSeed (b : bag) (rs : Z)
  | PTemp (b : bag) (seed : Z) (p : prog).       (* [with bag.temporary_manual_seed(seed): p] *)

  Fixpoint exec (p : prog) (h : heap) : heap * list V * outcome :=
    match p with
    | PDraw r =>
        match nth_error h r with
        | Some g => let (v, g') := draw g in (set_nth h r g', [v], Returned)
        | None => (h, [], Raised UserError)
        end
    | PRaise => (h, [], Raised UserError)
    | PSeq p q =>
        match exec p h with
        | (h1, t1, Returned) => let '(h2, t2, o) := exec q h1 in (h2, t1 ++ t2, o)
        | r => r
        end
    | PTry p q =>
        match exec p h with
        | (h1, t1, Raised _) => let '(h2, t2, o) := exec q h1 in (h2, t1 ++ t2, o)
        | r => r
        end
    | PManualSeed b s => let (h', o) := manual_seed b s h in (h', [], o)
    | PSeed b rs => (seed_bag b rs h, [], Returned)
    | PTemp b s p =>                                (* rng.py:100-111 *)
        let ss := get_states b h in
        match manual_seed b s h with
        | (h1, Raised e) => (h1, [], Raised e)
        | (h1, Returned) => let '(h2, t, o) := exec p h1 in (restore b ss h2, t, o)
        end
    end.
End Rng.

Arguments NoKey {G}. Arguments NotList {G}. Arguments Gens {G}.
Arguments sd_generators {G}. Arguments sd_extra {G}.
Arguments set_nth {G}. Arguments manual_seed {G}. Arguments seed_bag {G}. Arguments get_states {G}. Arguments restore {G}.
Arguments state_dict {G}. Arguments load_gens {G}. Arguments load_state_dict {G}. Arguments exec {G V}.
