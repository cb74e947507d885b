(** Model of the dependency container: /repo/src/fairseq2/runtime/dependency.py. Line numbers refer to that file.

    Classes, keys and exceptions raised by user code are numbers. A provider is a program over the public interface of the
    container; it may catch the errors of its calls. Not modelled: Python's limit on the depth of calls, threads, and the
    introspection of signatures (a signature is given as a list of parameters). An Iterable is consumed at once. *)
From Coq Require Import List Arith Bool.
Import ListNotations.

Definition cls := nat.
Definition name := (cls * option nat)%type. (** full_key = (kls, key) *)
Definition name_eqb (a b : name) : bool :=
  Nat.eqb (fst a) (fst b) && match snd a, snd b with None, None => true | Some x, Some y => Nat.eqb x y | _, _ => false end.

(** An object: its identity, its class and the arguments of its constructor. *)
Inductive obj := Obj (id : nat) (c : cls) (args : list (nat * arg))
with arg := AObj (o : obj) | ANone | AList (l : list obj) | ALookup (c : cls) | ALazy (c : cls) | ACall (c : cls) | AResolver | ACustom (n : nat).
Definition ocls (o : obj) : cls := match o with Obj _ c _ => c end.
Definition oargs (o : obj) : list (nat * arg) := match o with Obj _ _ a => a end.

Inductive exn := NotFound (q : name) | Cycle (l : list name) | Internal | AutoWire | User (n : nat).
Inductive res (A : Type) := Ok (a : A) | Err (e : exn).
Arguments Ok {A} _. Arguments Err {A} _.

(** What a provider (or any other user of the container) does: returns, raises, creates an object, or calls resolve(),
    maybe_resolve() or collection.resolve() and goes on with the result or the error. *)
Inductive prog :=
| PRet (o : option obj)
| PRaise (e : exn)
| PNew (c : cls) (args : list (nat * arg)) (k : obj -> prog)
| PResolve (q : name) (k : res obj -> prog)
| PMaybe (q : name) (k : res (option obj) -> prog)
| PAll (q : name) (k : res (list obj) -> prog).

(** _DependencyRegistration: lines 314-329; [rid] is its identity. *)
Record reg := Reg { rid : nat; provider : prog; singleton : bool }.

Inductive event := ECreated (r : nat) (o : option obj) | EGot (r : nat) (o : option obj).
(** The container. Registrations in their order; [objs] (None: _NOT_SET) and [incall] by registration; [next]: identity of the
    next object. Ghost: [log], and [stuck] if the depth of calls exceeded the fuel. *)
Record state := State { regs : list (name * reg); colls : list (name * reg); frozen : bool; objs : nat -> option (option obj); incall : nat -> bool; next : nat; log : list event; stuck : bool }.
Definition init : state := State [] [] false (fun _ => None) (fun _ => false) 0 [] false.
Definition upd {A} (f : nat -> A) (i : nat) (x : A) : nat -> A := fun j => if Nat.eqb j i then x else f j.
Definition set_frozen s := State (regs s) (colls s) true (objs s) (incall s) (next s) (log s) (stuck s).
Definition set_obj r o s := State (regs s) (colls s) (frozen s) (upd (objs s) r (Some o)) (incall s) (next s) (log s) (stuck s).
Definition set_incall r b s := State (regs s) (colls s) (frozen s) (objs s) (upd (incall s) r b) (next s) (log s) (stuck s).
Definition set_next s := State (regs s) (colls s) (frozen s) (objs s) (incall s) (S (next s)) (log s) (stuck s).
Definition add_log e s := State (regs s) (colls s) (frozen s) (objs s) (incall s) (next s) (log s ++ [e]) (stuck s).
Definition set_stuck s := State (regs s) (colls s) (frozen s) (objs s) (incall s) (next s) (log s) true.

Section Subclasses.
Variable sub : cls -> cls -> bool. (** issubclass *)

(** self._registrations.get(full_key): container, and collections with their list in the order of registration *)
Definition find_reg (q : name) (s : state) : option reg := match find (fun p => name_eqb (fst p) q) (regs s) with Some p => Some (snd p) | None => None end.
Definition find_all (q : name) (s : state) : list reg := map snd (filter (fun p => name_eqb (fst p) q) (colls s)).

(** Lines 358-361: isinstance *)
Definition check (c : cls) (o : option obj) : res (option obj) :=
  match o with Some o' => if sub (ocls o') c then Ok o else Err Internal | None => Ok None end.

Section Calls.
Variable get : name -> reg -> state -> res (option obj) * state. (** registration.get_instance *)

(** DependencyContainer.resolve: lines 165-188 *)
Definition resolve (q : name) (s : state) : res obj * state :=
  let s := set_frozen s in
  match find_reg q s with
  | None => (Err (NotFound q), s)
  | Some r => match get q r s with (Ok (Some o), s') => (Ok o, s') | (Ok None, s') => (Err (NotFound q), s') | (Err e, s') => (Err e, s') end
  end.
(** DependencyContainer.maybe_resolve: lines 190-198 *)
Definition maybe_resolve (q : name) (s : state) : res (option obj) * state :=
  match resolve q s with
  | (Ok o, s') => (Ok (Some o), s')
  | (Err (NotFound q'), s') => if name_eqb q' q then (Ok None, s') else (Err (NotFound q'), s')
  | (Err e, s') => (Err e, s')
  end.
(** _DependencyCollection.__iter__: lines 305-309 *)
Fixpoint iterate (q : name) (l : list reg) (s : state) : res (list obj) * state :=
  match l with
  | [] => (Ok [], s)
  | r :: l' =>
      match get q r s with
      | (Err e, s') => (Err e, s')
      | (Ok o, s') =>
          match iterate q l' s' with
          | (Err e, s'') => (Err e, s'')
          | (Ok os, s'') => (Ok (match o with Some o' => o' :: os | None => os end), s'')
          end
      end
  end.
(** DependencyCollectionContainer.resolve: lines 274-284, and list() of its result *)
Definition resolve_all (q : name) (s : state) : res (list obj) * state := let s := set_frozen s in iterate q (find_all q s) s.

Fixpoint run (p : prog) (s : state) {struct p} : res (option obj) * state :=
  match p with
  | PRet o => (Ok o, s)
  | PRaise e => (Err e, s)
  | PNew c args k => run (k (Obj (next s) c args)) (set_next s)
  | PResolve q k => let (x, s') := resolve q s in run (k x) s'
  | PMaybe q k => let (x, s') := maybe_resolve q s in run (k x) s'
  | PAll q k => let (x, s') := resolve_all q s in run (k x) s'
  end.
End Calls.

(** _DependencyRegistration.get_instance: lines 331-361. [fuel] bounds the depth of calls of providers. *)
Fixpoint get_instance (fuel : nat) (q : name) (r : reg) (s : state) : res (option obj) * state :=
  match objs s (rid r) with
  | Some o => (check (fst q) o, add_log (EGot (rid r) o) s)
  | None =>
      if incall s (rid r) then (Err (Cycle [q]), s)
      else
        match fuel with
        | O => (Err Internal, set_stuck s)
        | S fuel' =>
            match run (get_instance fuel') (provider r) (set_incall (rid r) true s) with
            | (Err (Cycle l), s') => (Err (Cycle (q :: l)), set_incall (rid r) false s')
            | (Err e, s') => (Err e, set_incall (rid r) false s')
            | (Ok o, s') =>
                let s' := set_incall (rid r) false s' in
                let s' := add_log (ECreated (rid r) o) s' in
                let s' := if singleton r then set_obj (rid r) o s' else s' in
                (check (fst q) o, add_log (EGot (rid r) o) s')
            end
        end
  end.

(** A use of the container by a client. The depth of calls never exceeds the number of registrations. *)
Definition client (p : prog) (s : state) : res (option obj) * state := run (get_instance (length (regs s) + length (colls s))) p s.

(** DependencyContainer._do_register: lines 141-162, and DependencyCollectionContainer._do_register: lines 257-272.
    [None]: InvalidOperationError. *)
Definition register (q : name) (p : prog) (single : bool) (s : state) : option state :=
  if frozen s then None
  else if existsb (fun x => name_eqb (fst x) q) (regs s) then None
  else Some (State (regs s ++ [(q, Reg (length (regs s) + length (colls s)) p single)]) (colls s) (frozen s) (objs s) (incall s) (next s) (log s) (stuck s)).
Definition register_in_collection (q : name) (p : prog) (single : bool) (s : state) : option state :=
  if frozen s then None
  else Some (State (regs s) (colls s ++ [(q, Reg (length (regs s) + length (colls s)) p single)]) (frozen s) (objs s) (incall s) (next s) (log s) (stuck s)).
(** iter_keys: lines 200-206 and 286-292 *)
Definition iter_keys (c : cls) (s : state) : list (option nat) := map (fun p => snd (fst p)) (filter (fun p => Nat.eqb (fst (fst p)) c) (regs s)).
Definition iter_coll_keys (c : cls) (s : state) : list (option nat) := map (fun p => snd (fst p)) (filter (fun p => Nat.eqb (fst (fst p)) c) (colls s)).

(** A history: registrations and uses in any order. *)
Inductive op := ORegister (q : name) (p : prog) (single : bool) | OCollect (q : name) (p : prog) (single : bool) | ORun (p : prog).
Definition step (s : state) (o : op) : state :=
  match o with
  | ORegister q p b => match register q p b s with Some s' => s' | None => s end
  | OCollect q p b => match register_in_collection q p b s with Some s' => s' | None => s end
  | ORun p => snd (client p s)
  end.
End Subclasses.

(** register_instance: lines 134-138: [_DependencyRegistration.for_]: lines 316-317 *)
Definition for_ (o : obj) : prog := PRet (Some o).

(** _create_wired_instance: lines 426-606. A parameter: its name, its annotation, whether it has a default. *)
Inductive annot := TMissing | TClass (c : cls) | TOptional (c : cls) | TIterable (c : cls) | TSequence (c : cls) | TLookup (c : cls) | TLazy (c : cls) | TCallable (c : cls) | TResolver | TOther
| TInvalid. (** a generic annotation with the wrong number of arguments: an error in any case *)
Record param := Param { pname : nat; pannot : annot; pdefault : bool }.
Fixpoint pop (n : nat) (l : list (nat * nat)) : option nat * list (nat * nat) :=
  match l with
  | [] => (None, [])
  | (k, v) :: l' => if Nat.eqb k n then (Some v, l') else let (x, r) := pop n l' in (x, (k, v) :: r)
  end.
Definition next_arg {A} (x : res A) (f : A -> prog) : prog := match x with Ok a => f a | Err e => PRaise e end.
Fixpoint wire (c : cls) (ps : list param) (custom : list (nat * nat)) (kwargs : list (nat * arg)) : prog :=
  match ps with
  | [] => match custom with [] => PNew c kwargs (fun o => PRet (Some o)) | _ => PRaise AutoWire end
  | p :: ps' =>
      match pannot p with
      | TMissing => PRaise AutoWire
      | a =>
          let (x, custom') := pop (pname p) custom in
          let put v := wire c ps' custom' (kwargs ++ [(pname p, v)]) in
          let skip := wire c ps' custom' kwargs in
          match x with
          | Some v => put (ACustom v)
          | None =>
              match a with
              | TIterable e | TSequence e => PAll (e, None) (fun r => next_arg r (fun l => put (AList l)))
              | TLookup e => put (ALookup e)
              | TLazy e => put (ALazy e)
              | TCallable e => put (ACall e)
              | TOptional e => PMaybe (e, None) (fun r => next_arg r (fun o => put (match o with Some o' => AObj o' | None => ANone end)))
              | TResolver => put AResolver
              | TClass e =>
                  if pdefault p then PMaybe (e, None) (fun r => next_arg r (fun o => match o with Some o' => put (AObj o') | None => skip end))
                  else PResolve (e, None) (fun r => next_arg r (fun o => put (AObj o)))
              | TOther => if pdefault p then skip else PRaise AutoWire
              | _ => PRaise AutoWire
              end
          end
      end
  end.
(** wire_object: lines 411-414 *)
Definition wire_object (c : cls) (ps : list param) (custom : list (nat * nat)) : prog := wire c ps custom [].
