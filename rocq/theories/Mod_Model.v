(** Walking a module: visiting, converting, sharing, broadcasting and loading
    its parameters and buffers
    (src/fairseq2/nn/utils/module.py).

    A module is an object that holds parameters, buffers and child modules
    under names.  Two names may lead to the same module, and two slots may hold
    the same tensor (tied parameters).  Modules and tensors are therefore given
    identities: numbers that play the role of object identity.

    Simplifications: gradients are left out, and so are data types, shapes and
    the [requires_grad] flag.  A slot that PyTorch would keep as [None] (a
    parameter that is not there) is not listed.  Dotted names are lists of
    names: PyTorch refuses names with dots. *)

From Coq Require Import String List Bool Arith.
Import ListNotations.

Definition path := list string.

(** [torch.nn.Module]: its identity, its children ([_modules], where a name can
    be bound to [None]), the names of its parameters, and the names of its
    buffers with whether they are persistent ([_non_persistent_buffers_set]).
    What the slots hold changes over time and is kept in [slots]. *)
Inductive module :=
| Node (id : nat) (children : list (string * option module))
    (params : list string) (buffers : list (string * bool)).

Definition id_of (m : module) : nat := let (i, _, _, _) := m in i.
Definition children_of (m : module) : list (string * option module) :=
  let (_, cs, _, _) := m in cs.
Definition params_of (m : module) : list string := let (_, _, ps, _) := m in ps.
Definition buffers_of (m : module) : list (string * bool) :=
  let (_, _, _, bs) := m in bs.

(** The tensor in the slot of module [i] named [n]. *)
Definition slots := nat -> string -> nat.

Definition set_slot (sl : slots) (i : nat) (n : string) (t : nat) : slots :=
  fun j k => if (j =? i) && (k =? n)%string then t else sl j k.

Definition mem (x : nat) (l : list nat) : bool := existsb (Nat.eqb x) l.

(** nn/utils/module.py 477-521 [_get_named_modules] with [recurse=True].
    Returns what is yielded, in order, and the memo. *)
Fixpoint named_modules (post_order : bool) (prefix : path) (m : module)
    (memo : list nat) {struct m} : list (path * option module) * list nat :=
  match m with
  | Node i cs ps bs =>
      if mem i memo then ([], memo)
      else
        let memo := i :: memo in
        let fix each (cs : list (string * option module)) (memo : list nat) :=
          match cs with
          | [] => ([], memo)
          | (n, None) :: cs' =>
              let (o, memo) := each cs' memo in
              ((prefix ++ [n], None) :: o, memo)
          | (n, Some c) :: cs' =>
              let (o, memo) := named_modules post_order (prefix ++ [n]) c memo in
              let (o', memo) := each cs' memo in
              (o ++ o', memo)
          end in
        let (o, memo) := each cs memo in
        (if post_order then o ++ [(prefix, Some m)] else (prefix, Some m) :: o,
         memo)
  end.

(** nn/utils/module.py 91-95 [visit_module]: the modules the visitor is run on,
    in order. *)
Definition visit_module (post_order : bool) (m : module) : list (path * module) :=
  flat_map (fun y => match snd y with Some m => [(fst y, m)] | None => [] end)
    (fst (named_modules post_order [] m [])).

(** What [apply_to_parameters] changes: the slots, the memo of tensors, the
    memo of modules; and the log of the tensors [fn] was called on. *)
Record state := State
  { slots_of : slots;
    memo : list (nat * nat);
    module_memo : list nat;
    calls : list nat }.

Definition lookup (t : nat) (l : list (nat * nat)) : option nat :=
  option_map snd (find (fun e => fst e =? t) l).

Section Apply.

(** The function given by the user; [None]: it raises. *)
Variable fn : nat -> option nat.

(** nn/utils/module.py 241-256 [call_fn].  [None]: [fn] raised. *)
Definition call_fn (t : nat) (s : state) : option (nat * state) :=
  match lookup t (memo s) with
  | Some u => Some (u, s)
  | None =>
      match fn t with
      | Some u =>
          Some (u, State (slots_of s) ((t, u) :: memo s) (module_memo s)
                     (calls s ++ [t]))
      | None => None
      end
  end.

(** nn/utils/module.py 258-278: the loop over the parameters and the one over
    the buffers of one module, without the gradients (268-273). *)
Fixpoint apply_slots (i : nat) (ns : list string) (s : state) : option state :=
  match ns with
  | [] => Some s
  | n :: ns' =>
      match call_fn (slots_of s i n) s with
      | Some (u, s') =>
          apply_slots i ns'
            (State (set_slot (slots_of s') i n u) (memo s') (module_memo s')
               (calls s'))
      | None => None
      end
  end.

Definition apply_one (m : module) (s : state) : option state :=
  match apply_slots (id_of m) (params_of m) s with
  | Some s => apply_slots (id_of m) (map fst (buffers_of m)) s
  | None => None
  end.

(** nn/utils/module.py 207-278 [apply_to_parameters] with [recurse=True].
    [Module.children()] leaves out [None] and repetitions among the children of
    one module; a repeated child would be in the memo of modules. *)
Fixpoint apply_rec (m : module) (s : state) {struct m} : option state :=
  match m with
  | Node i cs ps bs =>
      let fix each (cs : list (string * option module)) (s : state) :=
        match cs with
        | [] => Some s
        | (_, None) :: cs' => each cs' s
        | (_, Some c) :: cs' =>
            if mem (id_of c) (module_memo s) then each cs' s
            else
              match apply_rec c s with
              | Some s =>
                  each cs'
                    (State (slots_of s) (memo s) (id_of c :: module_memo s)
                       (calls s))
              | None => None
              end
        end in
      match each cs s with
      | Some s => apply_one m s
      | None => None
      end
  end.

End Apply.

Definition apply_to_parameters (fn : nat -> option nat) (m : module)
    (sl : slots) (mm : list (nat * nat)) : option state :=
  apply_rec fn m (State sl mm [] []).

Section Device.

(** The device of a tensor, the target device, the CPU and the meta device. *)
Variable device_of : nat -> nat.
Variables cpu meta : nat.
(** [t.to(device)] and [torch.empty_like(t, device=device)]. *)
Variables to_fn empty_fn : nat -> nat.

Definition slot_names (m : module) : list string :=
  params_of m ++ map fst (buffers_of m).

(** nn/utils/module.py 331-356 [maybe_infer_device] with [recurse=False]. *)
Definition maybe_infer_device (m : module) (sl : slots) : option nat :=
  match map (fun n => device_of (sl (id_of m) n)) (slot_names m) with
  | [] => Some cpu
  | d :: ds => if forallb (Nat.eqb d) ds then Some d else None
  end.

(** nn/utils/module.py 106-121: the modules to be moved.  [None]: ValueError. *)
Fixpoint to_move (ms : list module) (device : nat) (sl : slots)
  : option (list (module * nat)) :=
  match ms with
  | [] => Some []
  | m :: ms' =>
      match maybe_infer_device m sl with
      | None => None
      | Some d =>
          match to_move ms' device sl with
          | None => None
          | Some l => Some (if d =? device then l else (m, d) :: l)
          end
      end
  end.

(** nn/utils/module.py 128-134.  The second part of the state is the list of
    the modules whose [reset_parameters] was called. *)
Fixpoint move (l : list (module * nat)) (s : state) (resets : list nat)
  : option (state * list nat) :=
  match l with
  | [] => Some (s, resets)
  | (m, d) :: l' =>
      if negb (d =? meta) then
        match apply_one (fun t => Some (to_fn t)) m s with
        | Some s => move l' s resets
        | None => None
        end
      else
        match apply_one (fun t => Some (empty_fn t)) m s with
        | Some s => move l' s (resets ++ [id_of m])
        | None => None
        end
  end.

Inductive moved :=
| ValueError
| Moved (s : state) (resets : list nat).

(** nn/utils/module.py 98-134 [to_device]. *)
Definition to_device (m : module) (device : nat) (sl : slots) : moved :=
  match to_move (map snd (visit_module true m)) device sl with
  | None => ValueError
  | Some l =>
      match move l (State sl [] [] []) [] with
      | Some (s, r) => Moved s r
      | None => ValueError
      end
  end.

End Device.

(** [Module.named_parameters()] and [Module.named_buffers()]: the modules are
    walked in pre-order, each once, and a tensor is given once, under the first
    of its names. *)
Fixpoint dedup (l : list (path * nat)) (seen : list nat) : list (path * nat) :=
  match l with
  | [] => []
  | (p, t) :: l' =>
      if mem t seen then dedup l' seen else (p, t) :: dedup l' (t :: seen)
  end.

Definition named (names : module -> list string) (m : module) (sl : slots)
  : list (path * nat) :=
  dedup
    (flat_map (fun y => map (fun n => (fst y ++ [n], sl (id_of (snd y)) n))
                          (names (snd y)))
       (visit_module false m)) [].

Definition named_parameters (m : module) (sl : slots) := named params_of m sl.
Definition named_buffers (m : module) (sl : slots) :=
  named (fun m => map fst (buffers_of m)) m sl.

Definition path_eqb (p q : path) : bool := if list_eq_dec string_dec p q then true else false.

(** nn/utils/module.py 181-202: names are compared and the memo is filled.  The
    last entry for a tensor is found first. *)
Fixpoint pair_up (sources targets : list (path * nat)) (memo : list (nat * nat))
  : option (list (nat * nat)) :=
  match sources, targets with
  | (p, s) :: ss, (q, t) :: ts =>
      if negb (path_eqb p q) then None else pair_up ss ts ((t, s) :: memo)
  | _, _ => Some memo
  end.

Inductive shared :=
| Mismatch
| NotMemoized
| Shared (s : state).

(** nn/utils/module.py 164-204 [share_parameters].  Both modules live in the
    same [slots]; gradients are not set. *)
Definition share_parameters (source target : module) (sl : slots) : shared :=
  let sources := named_parameters source sl ++ named_buffers source sl in
  let targets := named_parameters target sl ++ named_buffers target sl in
  if negb (length sources =? length targets) then Mismatch
  else
    match pair_up sources targets [] with
    | None => Mismatch
    | Some memo =>
        match apply_to_parameters (fun _ => None) target sl memo with
        | Some s => Shared s
        | None => NotMemoized
        end
    end.

Section Broadcast.

Variable skip_modules : list nat.
Variable non_persistent_buffers : bool.

(** nn/utils/module.py 396-409, 411-425: the loops over the parameters and over
    the buffers of one module.  The pair is ([tensors], [memo]). *)
Fixpoint collect_params (i : nat) (ns : list string) (sl : slots)
    (s : list nat * list nat) : list nat * list nat :=
  match ns with
  | [] => s
  | n :: ns' =>
      let t := sl i n in
      if mem t (snd s) then collect_params i ns' sl s
      else collect_params i ns' sl (fst s ++ [t], t :: snd s)
  end.

Fixpoint collect_buffers (i : nat) (ns : list (string * bool)) (sl : slots)
    (s : list nat * list nat) : list nat * list nat :=
  match ns with
  | [] => s
  | (n, persistent) :: ns' =>
      let t := sl i n in
      if mem t (snd s) then collect_buffers i ns' sl s
      else if negb non_persistent_buffers && negb persistent
      then collect_buffers i ns' sl (fst s, t :: snd s)
      else collect_buffers i ns' sl (fst s ++ [t], t :: snd s)
  end.

(** nn/utils/module.py 388-425 [collect_tensors]. *)
Fixpoint collect_tensors (m : module) (sl : slots) (s : list nat * list nat)
  {struct m} : list nat * list nat :=
  match m with
  | Node i cs ps bs =>
      if mem i skip_modules then s
      else
        let fix each (cs : list (string * option module)) s :=
          match cs with
          | [] => s
          | (_, None) :: cs' => each cs' s
          | (_, Some c) :: cs' => each cs' (collect_tensors c sl s)
          end in
        collect_buffers i bs sl (collect_params i ps sl (each cs s))
  end.

(** nn/utils/module.py 381-441 [broadcast_module] after [to_device].  Every
    process has a module of the same shape, so a number stands for the
    corresponding tensors of all processes; [vals r t] is the content of tensor
    [t] in the process of rank [r].  [_broadcast_coalesced] copies the listed
    tensors of the source process to all of [size] processes. *)
Definition broadcast_module {V} (size : nat) (source_rank : nat) (m : module)
    (sl : slots) (vals : nat -> nat -> V) : nat -> nat -> V :=
  if size =? 1 then vals
  else
    let tensors := fst (collect_tensors m sl ([], [])) in
    fun r t =>
      if (r <? size) && mem t tensors then vals source_rank t else vals r t.

End Broadcast.

(** Whether key [k] starts with the name [p] and a dot. *)
Fixpoint below (p k : path) : bool :=
  match p, k with
  | [], [] => false
  | [], _ :: _ => true
  | a :: p', b :: k' => (a =? b)%string && below p' k'
  | _ :: _, [] => false
  end.

(** nn/utils/module.py 458-474 [load_state_dict] after
    [Module.load_state_dict]: the keys that are reported; if there is none, no
    error is raised. *)
Definition unexpected_keys (m : module) (keys : list path) : list path :=
  flat_map (fun y => match snd y with
                     | Some _ => []
                     | None => filter (below (fst y)) keys
                     end)
    (fst (named_modules false [] m [])).
