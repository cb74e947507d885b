(** Model of StandardValueConverter. /repo/src/fairseq2/utils/structured.py *)
From Coq Require Import String Ascii List Bool Arith ZArith QArith.
Import ListNotations.
Open Scope list_scope.

(** Python objects. Floats are rational numbers without infinities and NaN. A path, a torch.dtype and a torch.device are given by their
    str() (that of a dtype without "torch."), an enumeration member by its class and name, a dataclass instance by its class and the
    values of its fields in the order of fields(). A set is listed in its order of iteration. Subclasses of these types (named tuples,
    IntEnum) are left out. *)
Inductive val :=
| VNone | VBool (b : bool) | VInt (z : Z) | VFloat (q : Q) | VStr (s : string)
| VPath (s : string) | VDtype (s : string) | VDevice (s : string) | VEnum (c : nat) (s : string)
| VList (l : list val) | VTuple (l : list val) | VSet (l : list val) | VDict (l : list (val * val)) | VData (c : nat) (l : list (string * val)).

(** Type expressions. [TTupleH t] is tuple[t, ...]; Mapping and Sequence are dict and list; [TUnion] is Union and "|", Optional[t] is
    [TUnion [t; TNone]]. *)
Inductive ty :=
| TObject | TNone | TBool | TInt | TFloat | TStr | TPath | TDtype | TDevice | TEnum (c : nat) | TLit (l : list string)
| TList (t : ty) | TSet (t : ty) | TTupleH (t : ty) | TTuple (l : list ty) | TDict (k v : ty) | TUnion (l : list ty) | TData (c : nat).

(** A field of a dataclass; [f_default]: the default or what the factory makes. *)
Record field := Field { f_name : string; f_ty : ty; f_init : bool; f_default : option val }.

(** What the converter calls: int(str), float(str), getattr(torch, name) if it is a dtype, torch.device(str), Path(str), the names of an
    enumeration, the fields of a dataclass, and what __post_init__ puts into the fields with init=False. InitVar pseudo fields are left
    out. *)
Record world := World {
  parse_int : string -> option Z; parse_float : string -> option Q; dtype : string -> option string; device : string -> option string; path : string -> string;
  names : nat -> list string; fields : nat -> list field; post : nat -> string -> list (string * val) -> val }.

(** [Serr]: StructureError; [Other]: ValueError of a wrong type expression, TypeError of an unhashable object. *)
Inductive res (A : Type) := Ok (a : A) | Serr | Other | Fuel.
Arguments Ok {A} _. Arguments Serr {A}. Arguments Other {A}. Arguments Fuel {A}.
Definition bindr {A B} (r : res A) (f : A -> res B) : res B := match r with Ok a => f a | Serr => Serr | Other => Other | Fuel => Fuel end.

(** Python's hash() and == on hashable objects: numbers are equal across bool, int and float. Dataclasses are not hashable. *)
Fixpoint hashable (v : val) : bool :=
  match v with
  | VList _ | VSet _ | VDict _ | VData _ _ => false
  | VTuple l => (fix all (l : list val) : bool := match l with [] => true | x :: l' => hashable x && all l' end) l
  | _ => true
  end.
Definition num (v : val) : option Q :=
  match v with VBool b => Some (if b then 1 else 0)%Q | VInt z => Some (inject_Z z) | VFloat q => Some q | _ => None end.
Fixpoint py_eq (a b : val) {struct a} : bool :=
  match a, b with
  | VNone, VNone => true
  | VStr x, VStr y | VPath x, VPath y | VDtype x, VDtype y | VDevice x, VDevice y => String.eqb x y
  | VEnum c x, VEnum d y => Nat.eqb c d && String.eqb x y
  | VTuple l, VTuple m => (fix all (l m : list val) : bool := match l, m with [], [] => true | x :: l', y :: m' => py_eq x y && all l' m' | _, _ => false end) l m
  | _, _ => match num a, num b with Some x, Some y => Qeq_bool x y | _, _ => false end
  end.
(** output[k] = v *)
Fixpoint dict_set (k v : val) (l : list (val * val)) : list (val * val) :=
  match l with [] => [(k, v)] | (k', v') :: l' => if py_eq k k' then (k', v) :: l' else (k', v') :: dict_set k v l' end.
Definition set_item (k v : val) (l : list (val * val)) : res (list (val * val)) := if hashable k then Ok (dict_set k v l) else Other.
(** set(tmp) *)
Fixpoint set_of (acc l : list val) : res (list val) :=
  match l with
  | [] => Ok acc
  | x :: l' => if hashable x then set_of (if existsb (py_eq x) acc then acc else acc ++ [x]) l' else Other
  end.
(** isinstance(obj, Sequence), and its elements: a str is a sequence of str *)
Fixpoint chars (s : string) : list val := match s with EmptyString => [] | String c s' => VStr (String c EmptyString) :: chars s' end.
Definition elements (v : val) : option (list val) := match v with VList l | VTuple l => Some l | VStr s => Some (chars s) | _ => None end.
(** "for e in obj: output.append(f(e))" *)
Fixpoint map_res {A B} (f : A -> res B) (l : list A) : res (list B) :=
  match l with [] => Ok [] | x :: l' => bindr (f x) (fun y => bindr (map_res f l') (fun ys => Ok (y :: ys))) end.

Fixpoint lookup {A} (k : string) (l : list (string * A)) : option A := match l with [] => None | (k', v) :: l' => if String.eqb k k' then Some v else lookup k l' end.
Definition is_none (t : ty) : bool := match t with TNone => true | _ => false end.
Definition strip_torch (s : string) : string := if String.prefix "torch." s then String.substring 6 (String.length s - 6) s else s.

Section Structure.
  Variable W : world.

  (** int(obj), float(obj), which truncates and converts: lines 138-149 *)
  Definition to_int (v : val) : res val :=
    match v with
    | VInt _ | VBool _ => Ok v
    | VFloat q => Ok (VInt (Z.quot (Qnum q) (Zpos (Qden q))))
    | VStr s => match parse_int W s with Some z => Ok (VInt z) | None => Serr end
    | _ => Serr
    end.
  Definition to_float (v : val) : res val :=
    match v with
    | VFloat _ => Ok v
    | VInt z => Ok (VFloat (inject_Z z))
    | VBool b => Ok (VFloat (if b then 1 else 0))
    | VStr s => match parse_float W s with Some q => Ok (VFloat q) | None => Serr end
    | _ => Serr
    end.

  (** kls( **kwargs): the fields in order, each from kwargs, its default, or __post_init__ *)
  Definition construct (c : nat) (kwargs : list (string * val)) : val :=
    VData c (map (fun f => (f_name f, if f_init f then match lookup (f_name f) kwargs with Some v => v | None => match f_default f with Some v => v | None => VNone end end else post W c (f_name f) kwargs)) (fields W c)).
  (** _create_dataclass: the loop over the fields, lines 193-215. [values] is a dict with str keys. *)
  Fixpoint take (str : val -> ty -> res val) (fs : list field) (values : list (val * val)) : res (list (string * val) * list (val * val)) :=
    match fs with
    | [] => Ok ([], values)
    | f :: fs' =>
        let key := VStr (f_name f) in
        let value := match find (fun kv => py_eq key (fst kv)) values with Some kv => Some (snd kv) | None => None end in
        let rest := filter (fun kv => negb (py_eq key (fst kv))) values in
        if negb (f_init f) then take str fs' rest
        else match value with
             | None => match f_default f with None => Serr | Some _ => take str fs' rest end
             | Some v => bindr (str v (f_ty f)) (fun v' => bindr (take str fs' rest) (fun p => Ok ((f_name f, v') :: fst p, snd p)))
             end
    end.

  (** structure: lines 106-136, and the structurers it dispatches to *)
  Fixpoint structure (n : nat) (obj : val) (t : ty) {struct n} : res val :=
    match n with
    | O => Fuel
    | S n =>
        match t with
        | TObject => Ok obj
        (* _structure_identity: 151-161 *)
        | TNone => match obj with VNone => Ok obj | _ => Serr end
        | TBool => match obj with VBool _ => Ok obj | _ => Serr end
        | TStr => match obj with VStr _ => Ok obj | _ => Serr end
        | TInt => to_int obj
        | TFloat => to_float obj
        (* _structure_dtype: 264-283 *)
        | TDtype => match obj with VDtype _ => Ok obj | VStr s => match dtype W (strip_torch s) with Some d => Ok (VDtype d) | None => Serr end | _ => Serr end
        (* _structure_device: 285-299 *)
        | TDevice => match obj with VDevice _ => Ok obj | VStr s => match device W s with Some d => Ok (VDevice d) | None => Serr end | _ => Serr end
        (* _structure_path: 369-380 *)
        | TPath => match obj with VPath _ => Ok obj | VStr s => Ok (VPath (path W s)) | _ => Serr end
        (* _structure_enum: 301-323 *)
        | TEnum c => match obj with VEnum d _ => if Nat.eqb c d then Ok obj else Serr | VStr s => if existsb (String.eqb s) (names W c) then Ok (VEnum c s) else Serr | _ => Serr end
        (* _structure_literal: 352-367 *)
        | TLit l => match obj with VStr s => if existsb (String.eqb s) l then Ok obj else Serr | _ => Serr end
        (* _structure_list: 325-350 *)
        | TList t => match elements obj with Some l => bindr (map_res (fun e => structure n e t) l) (fun l' => Ok (VList l')) | None => Serr end
        (* _structure_set: 382-427 *)
        | TSet t =>
            match obj with
            | VSet l => bindr (map_res (fun e => structure n e t) l) (fun l' => bindr (set_of [] l') (fun s => Ok (VSet s)))
            | _ => match elements obj with
                   | Some l => bindr (map_res (fun e => structure n e t) l) (fun l' => bindr (set_of [] l') (fun s => if Nat.eqb (List.length s) (List.length l') then Ok (VSet s) else Serr))
                   | None => Serr
                   end
            end
        (* _structure_tuple: 429-466 *)
        | TTupleH t => match elements obj with Some l => bindr (map_res (fun e => structure n e t) l) (fun l' => Ok (VTuple l')) | None => Serr end
        | TTuple ts =>
            match elements obj with
            | Some l => if Nat.eqb (List.length ts) 0 then Other
                        else if negb (Nat.eqb (List.length l) (List.length ts)) then Serr
                        else bindr (map_res (fun et => structure n (fst et) (snd et)) (combine l ts)) (fun l' => Ok (VTuple l'))
            | None => Serr
            end
        (* _structure_dict: 232-262 *)
        | TDict kt vt =>
            match obj with
            | VDict l =>
                bindr ((fix loop (l out : list (val * val)) : res (list (val * val)) :=
                          match l with
                          | [] => Ok out
                          | (k, v) :: l' => bindr (structure n k kt) (fun k' => bindr (structure n v vt) (fun v' => bindr (set_item k' v' out) (loop l')))
                          end) l []) (fun out => Ok (VDict out))
            | _ => Serr
            end
        (* _structure_union: 468-501 *)
        | TUnion ts =>
            let is_optional := Nat.eqb (List.length ts) 2 && existsb is_none ts in
            match is_optional, obj with
            | true, VNone => Ok obj
            | _, _ => (fix loop (ts : list ty) : res val :=
                         match ts with
                         | [] => Serr
                         | t :: ts' => match structure n obj t with Serr => if is_optional then Serr else loop ts' | r => r end
                         end) ts
            end
        (* _structure_dataclass: 163-186; _create_dataclass: 188-230 *)
        | TData c =>
            match obj with
            | VData d _ => if Nat.eqb c d then Ok obj else Serr
            | VDict _ =>
                bindr (structure n obj (TDict TStr TObject)) (fun d =>
                  match d with
                  | VDict values => bindr (take (structure n) (fields W c) values) (fun p => match snd p with [] => Ok (construct c (fst p)) | _ => Serr end)
                  | _ => Serr
                  end)
            | _ => Serr
            end
        end
    end.
End Structure.

(** unstructure: lines 504-602. A set is turned into a list in its order of iteration; the values of a mapping are unstructured twice. *)
Fixpoint unstructure (n : nat) (v : val) {struct n} : res val :=
  match n with
  | O => Fuel
  | S n =>
      match v with
      | VNone | VBool _ | VInt _ | VFloat _ | VStr _ => Ok v
      | VPath s | VDtype s | VDevice s | VEnum _ s => Ok (VStr s)
      | VList l | VTuple l | VSet l => bindr (map_res (unstructure n) l) (fun l' => Ok (VList l'))
      | VDict l =>
          bindr ((fix loop (l out : list (val * val)) : res (list (val * val)) :=
                    match l with
                    | [] => Ok out
                    | (k, x) :: l' => bindr (unstructure n k) (fun k' => bindr (unstructure n x) (fun x' => bindr (unstructure n x') (fun x'' => bindr (set_item k' x'' out) (loop l'))))
                    end) l []) (fun out => Ok (VDict out))
      | VData _ l =>
          bindr ((fix loop (l : list (string * val)) (out : list (val * val)) : res (list (val * val)) :=
                    match l with [] => Ok out | (k, x) :: l' => bindr (unstructure n x) (fun x' => bindr (set_item (VStr k) x' out) (loop l')) end) l []) (fun out => Ok (VDict out))
      end
  end.
