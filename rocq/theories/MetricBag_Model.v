(** The metric bag (src/fairseq2/metrics/bag.py).

    Metric objects live on a heap and are known by reference, because [rollback_updates] replaces the objects of the bag by
    copies and a caller may still hold references to the replaced ones. The value of a metric object is abstract. Devices and
    the type check of [get] are not modelled. *)

From Coq Require Import String List Bool Arith.
Import ListNotations.
Local Open Scope nat_scope.

Section Bag.
  (** The state of a metric object (torcheval [Metric]) and its initial state for [reset]. *)
  Variable MV : Type.
  Variable mreset : MV -> MV.

  Definition ref := nat.
  Definition dict := list (string * ref).

  (** bag.py:30-33, the heap, and the references held by the caller. *)
  Record world := W { heap : list MV; metrics : dict; original : option dict; vars : list ref }.

  Definition init : world := W [] [] None [].

  Inductive error := ValueError | InvalidOperationError | StateDictError.

  (** What [state_dict] holds for a key: the state of a metric, or something [load_state_dict] rejects. *)
  Inductive sv := SMetric (v : MV) | SBad.

  (** [ONew], [OUpd] and [OGet] are what the caller does: create a metric object, update the object behind a reference it
      holds, and [MetricBag.get]. The others are the methods of the bag; references are given as positions in [vars]. *)
  Inductive op :=
  | ONew (v : MV)
  | OUpd (i : nat) (f : MV -> MV)
  | OGet (name : string)
  | OAdd (name : string) (i : nat)
  | OBegin | OCommit | ORollback | OReset
  | OLoad (sd : list (string * sv)).

  Definition lookup {A} (name : string) (d : list (string * A)) : option A :=
    match find (fun kv => String.eqb (fst kv) name) d with Some kv => Some (snd kv) | None => None end.

  Fixpoint set_nth {A} (l : list A) (i : nat) (x : A) : list A :=
    match l, i with
    | [], _ => []
    | _ :: l', O => x :: l'
    | y :: l', S i' => y :: set_nth l' i' x
    end.

  Definition upd_ref (h : list MV) (r : ref) (f : MV -> MV) : list MV :=
    match nth_error h r with Some v => set_nth h r (f v) | None => h end.

  Definition remove_key {A} (name : string) (d : list (string * A)) : list (string * A) :=
    filter (fun kv => negb (String.eqb (fst kv) name)) d.

  (** [load_state_dict], bag.py:97-121: the loop over the metrics of the bag; the state dictionary shrinks ([pop]). Metrics
      loaded before an error stay loaded. *)
  Fixpoint load_loop (ms : dict) (sd : list (string * sv)) (h : list MV) : list MV * option error :=
    match ms with
    | [] => (h, match sd with [] => None | _ => Some StateDictError end)
    | (name, r) :: ms' =>
        match lookup name sd with
        | None => (h, Some StateDictError)
        | Some SBad => (h, Some StateDictError)
        | Some (SMetric v) => load_loop ms' (remove_key name sd) (upd_ref h r (fun _ => v))
        end
    end.

  (** [state_dict], bag.py:93-95. *)
  Definition state_dict (w : world) : list (string * sv) :=
    flat_map (fun kv => match nth_error (heap w) (snd kv) with Some v => [(fst kv, SMetric v)] | None => [] end) (metrics w).

  (** The copy made by [deepcopy]: every object is copied once, so sharing is preserved. *)
  Definition copy_dict (n : nat) (d : dict) : dict := map (fun kv => (fst kv, snd kv + n)) d.

  Definition step (o : op) (w : world) : world * option error :=
    let '(W h m orig vs) := w in
    match o with
    | ONew v => (W (h ++ [v]) m orig (vs ++ [length h]), None)
    | OUpd i f => match nth_error vs i with
                  | Some r => (W (upd_ref h r f) m orig vs, None)
                  | None => (w, Some ValueError)   (* not a reference: the caller's mistake *)
                  end
    | OGet name =>                                 (* bag.py:41-51 *)
        match lookup name m with
        | Some r => (W h m orig (vs ++ [r]), None)
        | None => (w, Some ValueError)
        end
    | OAdd name i =>                               (* bag.py:35-39 *)
        match lookup name m, nth_error vs i with
        | None, Some r => (W h (m ++ [(name, r)]) orig vs, None)
        | _, _ => (w, Some ValueError)
        end
    | OBegin =>                                    (* bag.py:53-66 *)
        match orig with
        | Some _ => (w, Some InvalidOperationError)
        | None => (W (h ++ h) m (Some (copy_dict (length h) m)) vs, None)
        end
    | OCommit =>                                   (* bag.py:68-73 *)
        match orig with
        | None => (w, Some InvalidOperationError)
        | Some _ => (W h m None vs, None)
        end
    | ORollback =>                                 (* bag.py:75-80 *)
        match orig with
        | None => (w, Some InvalidOperationError)
        | Some d => (W h d None vs, None)
        end
    | OReset =>                                    (* bag.py:82-85 *)
        (W (fold_left (fun h kv => upd_ref h (snd kv) mreset) m h) m orig vs, None)
    | OLoad sd => let (h', e) := load_loop m sd h in (W h' m orig vs, e)
    end.

  Fixpoint run (ops : list op) (w : world) : world :=
    match ops with [] => w | o :: ops' => run ops' (fst (step o w)) end.

  (** The value of the metric registered under a name: what [get(name).compute()] depends on. *)
  Definition value (w : world) (name : string) : option MV :=
    match lookup name (metrics w) with Some r => nth_error (heap w) r | None => None end.
End Bag.

Arguments W {MV}. Arguments init {MV}. Arguments heap {MV}. Arguments metrics {MV}. Arguments original {MV}. Arguments vars {MV}.
Arguments ONew {MV}. Arguments OUpd {MV}. Arguments OGet {MV}. Arguments OAdd {MV}. Arguments OBegin {MV}.
Arguments OCommit {MV}. Arguments ORollback {MV}. Arguments OReset {MV}. Arguments OLoad {MV}.
Arguments SMetric {MV}. Arguments SBad {MV}.
Arguments step {MV}. Arguments run {MV}. Arguments value {MV}. Arguments state_dict {MV}. Arguments upd_ref {MV}. Arguments load_loop {MV}.
