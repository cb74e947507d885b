(** What the dependency container promises. *)
From Coq Require Import List Arith Bool.
From Verif Require Import Dep_Model.
Import ListNotations.

(** [r] is registered under [q], for single objects or in a collection. *)
Definition listed (s : state) (q : name) (r : reg) : Prop := In (q, r) (regs s) \/ In (q, r) (colls s).
Definition reachable (sub : cls -> cls -> bool) (s : state) : Prop := exists h, s = fold_left (step sub) h init.

(** A provider that does not catch the errors of its calls, and raises none of the errors of the container itself. *)
Inductive strict : prog -> Prop :=
| st_ret o : strict (PRet o)
| st_raise n : strict (PRaise (User n))
| st_wire : strict (PRaise AutoWire)
| st_new c a k : (forall o, strict (k o)) -> strict (PNew c a k)
| st_resolve q k : (forall e, k (Err e) = PRaise e) -> (forall o, strict (k (Ok o))) -> strict (PResolve q k)
| st_maybe q k : (forall e, k (Err e) = PRaise e) -> (forall o, strict (k (Ok o))) -> strict (PMaybe q k)
| st_all q k : (forall e, k (Err e) = PRaise e) -> (forall o, strict (k (Ok o))) -> strict (PAll q k).

(** A provider may ask for [q]. *)
Inductive asks : prog -> name -> Prop :=
| as_new c a k o q : asks (k o) q -> asks (PNew c a k) q
| as_resolve q k : asks (PResolve q k) q
| as_maybe q k : asks (PMaybe q k) q
| as_all q k : asks (PAll q k) q
| as_resolve_then q k x q' : asks (k x) q' -> asks (PResolve q k) q'
| as_maybe_then q k x q' : asks (k x) q' -> asks (PMaybe q k) q'
| as_all_then q k x q' : asks (k x) q' -> asks (PAll q k) q'.

(** A provider cannot return without an object of [S]. *)
Inductive needs (S : name -> Prop) : prog -> Prop :=
| nd_raise e : needs S (PRaise e)
| nd_here q k : S q -> needs S (PResolve q k)
| nd_new c a k : (forall o, needs S (k o)) -> needs S (PNew c a k)
| nd_resolve q k : (forall o, needs S (k (Ok o))) -> needs S (PResolve q k)
| nd_maybe q k : (forall o, needs S (k (Ok o))) -> needs S (PMaybe q k)
| nd_all q k : (forall o, needs S (k (Ok o))) -> needs S (PAll q k).

(** A provider returns an object of class [c] when its calls succeed, and asks only for what [R] and [C] (collections) allow. *)
Inductive delivers (sub : cls -> cls -> bool) (R C : name -> Prop) (c : cls) : prog -> Prop :=
| dl_ret o : sub (ocls o) c = true -> delivers sub R C c (PRet (Some o))
| dl_new c' a k : (forall i, delivers sub R C c (k (Obj i c' a))) -> delivers sub R C c (PNew c' a k)
| dl_resolve q k : R q -> (forall o, sub (ocls o) (fst q) = true -> delivers sub R C c (k (Ok o))) -> delivers sub R C c (PResolve q k)
| dl_maybe q k : R q -> (forall o, sub (ocls o) (fst q) = true -> delivers sub R C c (k (Ok (Some o)))) -> delivers sub R C c (PMaybe q k)
| dl_all q k : C q -> (forall l, Forall (fun o => sub (ocls o) (fst q) = true) l -> delivers sub R C c (k (Ok l))) -> delivers sub R C c (PAll q k).
(** No provider depends on itself ([rank] and [crank] go down) or on something that is not registered, and each returns what it should. *)
Definition well_built (sub : cls -> cls -> bool) (s : state) (rank crank : name -> nat) : Prop :=
  (forall q r, In (q, r) (regs s) -> delivers sub (fun q' => (exists r', In (q', r') (regs s)) /\ rank q' < rank q) (fun q' => crank q' < rank q) (fst q) (provider r)) /\
  (forall q r, In (q, r) (colls s) -> delivers sub (fun q' => (exists r', In (q', r') (regs s)) /\ rank q' < crank q) (fun q' => crank q' < crank q) (fst q) (provider r)).

(** Each asks for the next. *)
Fixpoint chain (s : state) (l : list name) : Prop :=
  match l with a :: (b :: _) as l' => (exists r, listed s a r /\ asks (provider r) b) /\ chain s l' | _ => True end.

(** The uses of [resolve] and [maybe_resolve] by a client. *)
Definition get_one (q : name) : prog := PResolve q (fun x => match x with Ok o => PRet (Some o) | Err e => PRaise e end).
Definition maybe_one (q : name) : prog := PMaybe q (fun x => match x with Ok o => PRet o | Err e => PRaise e end).

Definition about (r : nat) (e : event) : bool := match e with ECreated r' _ | EGot r' _ => Nat.eqb r' r end.
(** The objects a provider returned, and those that get_instance returned. *)
Definition created (r : nat) (l : list event) : list (option obj) := flat_map (fun e => match e with ECreated r' o => if Nat.eqb r' r then [o] else [] | _ => [] end) l.
Definition got (r : nat) (l : list event) : list (option obj) := flat_map (fun e => match e with EGot r' o => if Nat.eqb r' r then [o] else [] | _ => [] end) l.

(** What a wired object is given: [wired s ps custom args], where [s] is the container after the call. *)
Definition served (s : state) (c : cls) (o : obj) := exists r, In ((c, None), r) (regs s) /\ In (Some o) (got (rid r) (log s)).
Definition absent (s : state) (c : cls) := (forall r, ~ In ((c, None), r) (regs s)) \/ exists r, In ((c, None), r) (regs s) /\ In None (got (rid r) (log s)).
Definition members (s : state) (c : cls) (l : list obj) :=
  exists xs, Forall2 (fun r x => In x (got (rid r) (log s))) (map snd (filter (fun p => name_eqb (fst p) (c, None)) (colls s))) xs /\ l = flat_map (fun x => match x with Some o => [o] | None => [] end) xs.
Inductive suits (s : state) : annot -> arg -> Prop :=
| su_class c o : served s c o -> suits s (TClass c) (AObj o)
| su_opt c o : served s c o -> suits s (TOptional c) (AObj o)
| su_opt_none c : absent s c -> suits s (TOptional c) ANone
| su_iter c l : members s c l -> suits s (TIterable c) (AList l)
| su_seq c l : members s c l -> suits s (TSequence c) (AList l)
| su_lookup c : suits s (TLookup c) (ALookup c)
| su_lazy c : suits s (TLazy c) (ALazy c)
| su_call c : suits s (TCallable c) (ACall c)
| su_resolver : suits s TResolver AResolver.
Inductive wired (s : state) : list param -> list (nat * nat) -> list (nat * arg) -> Prop :=
| wi_nil : wired s [] [] []
| wi_custom p ps c1 v c2 args : pannot p <> TMissing -> ~ In (pname p) (map fst c1) -> wired s ps (c1 ++ c2) args -> wired s (p :: ps) (c1 ++ (pname p, v) :: c2) ((pname p, ACustom v) :: args)
| wi_arg p ps custom a args : ~ In (pname p) (map fst custom) -> suits s (pannot p) a -> wired s ps custom args -> wired s (p :: ps) custom ((pname p, a) :: args)
| wi_default p ps custom args : ~ In (pname p) (map fst custom) -> pdefault p = true -> (exists c, pannot p = TClass c /\ absent s c) \/ pannot p = TOther -> wired s ps custom args -> wired s (p :: ps) custom args.
