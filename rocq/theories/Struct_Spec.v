(** What structuring and unstructuring promise. *)
From Coq Require Import String List Bool Arith ZArith QArith.
From Verif Require Import Struct_Model.
Import ListNotations.
Open Scope list_scope.

(** The call returns [r], given enough fuel. *)
Definition unstructures (v : val) (r : res val) : Prop := exists n0, forall n, (n0 <= n)%nat -> unstructure n v = r.
Definition structures (W : world) (obj : val) (t : ty) (r : res val) : Prop := exists n0, forall n, (n0 <= n)%nat -> structure W n obj t = r.

(** No two elements are equal in the sense of Python. *)
Definition distinct (l : list val) : Prop := ForallOrdPairs (fun a b => py_eq a b = false) l.

(** Plain data, as in a YAML file: None, bool, int, float, str, list and dict. *)
Fixpoint plain (v : val) : Prop :=
  match v with
  | VNone | VBool _ | VInt _ | VFloat _ | VStr _ => True
  | VList l => (fix all (l : list val) : Prop := match l with [] => True | x :: l' => plain x /\ all l' end) l
  | VDict l => (fix all (l : list (val * val)) : Prop := match l with [] => True | (k, x) :: l' => plain k /\ plain x /\ all l' end) l /\
               Forall (fun k => hashable k = true) (map fst l) /\ distinct (map fst l)
  | _ => False
  end.

(** What a value looks like as plain data. *)
Inductive form := FNone | FBool | FInt | FFloat | FStr (s : string) | FSeq | FMap.
Definition form_of (v : val) : form :=
  match v with
  | VNone => FNone | VBool _ => FBool | VInt _ => FInt | VFloat _ => FFloat
  | VStr s | VPath s | VDtype s | VDevice s | VEnum _ s => FStr s
  | VList _ | VTuple _ | VSet _ => FSeq | VDict _ | VData _ _ => FMap
  end.
(** A type that has no value of this form. *)
Definition no_such (W : world) (t : ty) (f : form) : bool :=
  match t, f with
  | TNone, FNone | TBool, FBool | TStr, FStr _ | TPath, FStr _ => false
  | (TInt | TFloat), (FBool | FInt | FFloat) => false
  | TInt, FStr s => match parse_int W s with None => true | Some _ => false end
  | TFloat, FStr s => match parse_float W s with None => true | Some _ => false end
  | TDtype, FStr s => match dtype W (strip_torch s) with None => true | Some _ => false end
  | TDevice, FStr s => match device W s with None => true | Some _ => false end
  | TEnum c, FStr s => negb (existsb (String.eqb s) (names W c))
  | TLit l, FStr s => negb (existsb (String.eqb s) l)
  | (TList _ | TSet _ | TTupleH _ | TTuple _), (FStr _ | FSeq) => false
  | (TDict _ _ | TData _), FMap => false
  | (TObject | TUnion _), _ => false
  | _, _ => true
  end.

(** Types for the keys of mappings. *)
Definition key_ty (t : ty) : Prop :=
  match t with TNone | TBool | TInt | TFloat | TStr | TPath | TDtype | TDevice | TEnum _ | TLit _ => True | _ => False end.

(** The values of the fields with init=True. *)
Definition init_part (fs : list field) (vs : list (string * val)) : list (string * val) := map snd (filter (fun p => f_init (fst p)) (combine fs vs)).
Definition post_ok (W : world) (c : nat) (vs : list (string * val)) : Prop :=
  Forall (fun p => f_init (fst p) = false -> snd (snd p) = post W c (f_name (fst p)) (init_part (fields W c) vs)) (combine (fields W c) vs).

(** [has W t v]: [v] is a value of type [t]. A member of a union must not look like a value of an earlier alternative; in an optional
    type, None is the second alternative. *)
Inductive has (W : world) : ty -> val -> Prop :=
| h_object v : plain v -> has W TObject v
| h_none : has W TNone VNone
| h_bool b : has W TBool (VBool b)
| h_int z : has W TInt (VInt z)
| h_int_bool b : has W TInt (VBool b)
| h_float q : has W TFloat (VFloat q)
| h_str s : has W TStr (VStr s)
| h_path s : path W s = s -> has W TPath (VPath s)
| h_dtype s : dtype W s = Some s -> String.prefix "torch." s = false -> has W TDtype (VDtype s)
| h_device s : device W s = Some s -> has W TDevice (VDevice s)
| h_enum c s : In s (names W c) -> has W (TEnum c) (VEnum c s)
| h_lit l s : In s l -> has W (TLit l) (VStr s)
| h_list t l : has_all W t l -> has W (TList t) (VList l)
| h_set t l : has_all W t l -> Forall (fun e => hashable e = true) l -> distinct l -> has W (TSet t) (VSet l)
| h_tuple_h t l : has_all W t l -> has W (TTupleH t) (VTuple l)
| h_tuple ts l : ts <> [] -> has_each W ts l -> has W (TTuple ts) (VTuple l)
| h_dict kt vt l : key_ty kt -> has_pairs W kt vt l -> distinct (map fst l) -> has W (TDict kt vt) (VDict l)
| h_optional_none t : has W (TUnion [t; TNone]) VNone
| h_optional t v : has W t v -> has W (TUnion [t; TNone]) v
| h_union ts1 t ts2 v : (Nat.eqb (length (ts1 ++ t :: ts2)) 2 && existsb is_none (ts1 ++ t :: ts2)) = false ->
    has W t v -> Forall (fun t' => no_such W t' (form_of v) = true) ts1 -> has W (TUnion (ts1 ++ t :: ts2)) v
| h_data c vs : has_fields W (fields W c) vs -> post_ok W c vs -> has W (TData c) (VData c vs)
with has_all (W : world) : ty -> list val -> Prop :=
| ha_nil t : has_all W t []
| ha_cons t v l : has W t v -> has_all W t l -> has_all W t (v :: l)
with has_each (W : world) : list ty -> list val -> Prop :=
| he_nil : has_each W [] []
| he_cons t v ts l : has W t v -> has_each W ts l -> has_each W (t :: ts) (v :: l)
with has_pairs (W : world) : ty -> ty -> list (val * val) -> Prop :=
| hp_nil kt vt : has_pairs W kt vt []
| hp_cons kt vt k v l : has W kt k -> has W vt v -> has_pairs W kt vt l -> has_pairs W kt vt ((k, v) :: l)
with has_fields (W : world) : list field -> list (string * val) -> Prop :=
| hf_nil : has_fields W [] []
| hf_cons f v fs vs : has W (f_ty f) v -> has_fields W fs vs -> has_fields W (f :: fs) ((f_name f, v) :: vs).

(** The fields of a dataclass have different names. *)
Definition proper (W : world) : Prop := forall c, NoDup (map f_name (fields W c)).

(** [ok W t v]: [v] is an instance of [t] in the sense of type hints. *)
Inductive ok (W : world) : ty -> val -> Prop :=
| o_object v : ok W TObject v
| o_none : ok W TNone VNone
| o_bool b : ok W TBool (VBool b)
| o_int z : ok W TInt (VInt z)
| o_int_bool b : ok W TInt (VBool b)
| o_float q : ok W TFloat (VFloat q)
| o_str s : ok W TStr (VStr s)
| o_path s : ok W TPath (VPath s)
| o_dtype s : ok W TDtype (VDtype s)
| o_device s : ok W TDevice (VDevice s)
| o_enum c s : In s (names W c) -> ok W (TEnum c) (VEnum c s)
| o_lit l s : In s l -> ok W (TLit l) (VStr s)
| o_list t l : Forall (ok W t) l -> ok W (TList t) (VList l)
| o_set t l : Forall (ok W t) l -> distinct l -> ok W (TSet t) (VSet l)
| o_tuple_h t l : Forall (ok W t) l -> ok W (TTupleH t) (VTuple l)
| o_tuple ts l : Forall2 (ok W) ts l -> ok W (TTuple ts) (VTuple l)
| o_dict kt vt l : Forall (fun kv => ok W kt (fst kv) /\ ok W vt (snd kv)) l -> distinct (map fst l) -> ok W (TDict kt vt) (VDict l)
| o_union ts t v : In t ts -> ok W t v -> ok W (TUnion ts) v
| o_data c vs : Forall2 (fun f nv => fst nv = f_name f /\ (f_init f = true -> ok W (f_ty f) (snd nv))) (fields W c) vs -> ok W (TData c) (VData c vs).
