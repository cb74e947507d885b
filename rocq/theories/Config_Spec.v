(** What merging, directives and validation promise. *)
From Coq Require Import String Ascii List Bool Arith.
From Verif Require Import Config_Model.
Import ListNotations.
Open Scope list_scope.

(** A dict has every key once, at any depth. *)
Inductive wf : cv -> Prop :=
| wf_none : wf CNone
| wf_other n : wf (COther n)
| wf_str s : wf (CStr s)
| wf_list l : Forall wf l -> wf (CList l)
| wf_map l : NoDup (map fst l) -> Forall wf (map snd l) -> wf (CMap l).

(** The value at a path of keys. *)
Fixpoint at_path (c : cv) (p : list key) : option cv :=
  match p with
  | [] => Some c
  | k :: p' => match c with CMap l => match get k l with Some v => at_path v p' | None => None end | _ => None end
  end.
(** What is seen at a path: nothing, a mapping, or a value that is not a mapping. *)
Inductive seen := Nothing | Mapping | Value (v : cv).
Definition look (c : cv) (p : list key) : seen := match at_path c p with None => Nothing | Some (CMap _) => Mapping | Some v => Value v end.

(** What overrides say about a path: nothing ([Keep]), or what is to be seen there. *)
Inductive says := Keep | See (s : seen).
Definition listed (l : option cv) (k : key) : Prop := exists ks s, l = Some (CList ks) /\ In (CStr s) ks /\ k = KStr s.
Definition unset (l : list (key * cv)) (k : key) : Prop := forall s, get SET l = Some (CMap s) -> get k s = None.
Inductive mentions : cv -> list key -> says -> Prop :=
(* a mapping that is merged *)
| m_here l : mentions (CMap l) [] (See Mapping)
(* under a key in _set_: the value given there *)
| m_set l s v k p : get SET l = Some (CMap s) -> get k s = Some v -> mentions (CMap l) (k :: p) (See (look v p))
(* under a key with a value that is no mapping: this value *)
| m_value l v k p : unset l k -> k <> DEL -> k <> SET -> get k l = Some v -> (forall m, v <> CMap m) -> mentions (CMap l) (k :: p) (See (look v p))
(* under a key with a mapping: what this says, on top of nothing if the key is in _del_ *)
| m_map l m k p w : unset l k -> k <> DEL -> k <> SET -> get k l = Some (CMap m) -> ~ listed (get DEL l) k -> mentions (CMap m) p w -> mentions (CMap l) (k :: p) w
| m_fresh l m k p w : unset l k -> k <> DEL -> k <> SET -> get k l = Some (CMap m) -> listed (get DEL l) k -> mentions (CMap m) p w ->
    mentions (CMap l) (k :: p) (match w with Keep => See Nothing | _ => w end)
(* under a key that is in _del_ and nowhere else: nothing *)
| m_del l k p : unset l k -> k = DEL \/ k = SET \/ get k l = None -> listed (get DEL l) k -> mentions (CMap l) (k :: p) (See Nothing)
(* under any other key *)
| m_keep l k p : unset l k -> k = DEL \/ k = SET \/ get k l = None -> ~ listed (get DEL l) k -> mentions (CMap l) (k :: p) Keep.
Definition then_see (w : says) (s : seen) : seen := match w with Keep => s | See s' => s' end.

(** Overrides whose _del_ are lists of strings and whose _set_ are mappings with strings as keys, wherever they are merged. *)
Inductive valid : cv -> Prop :=
| v_map l : (get DEL l = None \/ get DEL l = Some CNone \/ exists ks, get DEL l = Some (CList ks) /\ Forall (fun k => exists s, k = CStr s) ks) ->
    (get SET l = None \/ get SET l = Some CNone \/ exists s, get SET l = Some (CMap s) /\ Forall (fun kv => exists k, fst kv = KStr k) s) ->
    (forall k m, In (k, CMap m) l -> k <> DEL -> k <> SET -> valid (CMap m)) -> valid (CMap l)
| v_value v : (forall l, v <> CMap l) -> valid v.

(** Steps into lists as well as into dicts. *)
Inductive stp := Key (k : key) | Index (i : nat).
Fixpoint at_steps (c : cv) (p : list stp) : option cv :=
  match p with
  | [] => Some c
  | Key k :: p' => match c with CMap l => match get k l with Some v => at_steps v p' | None => None end | _ => None end
  | Index i :: p' => match c with CList l => match nth_error l i with Some v => at_steps v p' | None => None end | _ => None end
  end.

(** A string goes through the directives in their order, each working on the result of the one before, until one gives something that is not a string. *)
Inductive chained (config : cv) : list directive -> string -> cv -> Prop :=
| ch_nil s : chained config [] s (CStr s)
| ch_next d ds s s' r : d s config = Ok (CStr s') -> chained config ds s' r -> chained config (d :: ds) s r
| ch_stop d ds s o : d s config = Ok o -> (forall s', o <> CStr s') -> chained config (d :: ds) s o.
(** What becomes of a value: strings go through the directives, containers keep their shape, the rest is unchanged. *)
Definition processed (ds : list directive) (config c r : cv) : Prop :=
  match c with
  | CStr s => chained config ds s r
  | CList l => exists l', r = CList l' /\ List.length l' = List.length l
  | CMap l => exists l', r = CMap l' /\ map fst l' = map fst l
  | _ => r = c
  end.

(** Directives in a string. *)
Definition all_chars (f : ascii -> bool) (s : string) : bool := forallb f (list_ascii_of_string s).
Definition valid_name (n : string) : bool := match n with EmptyString => false | String c s => name_start c && all_chars name_char s end.
(** ${env:NAME} or ${env:NAME:default} *)
Definition spelled (name : string) (dflt : option string) : string :=
  match dflt with None => ("${env:" ++ name ++ "}")%string | Some d => ("${env:" ++ name ++ ":" ++ d ++ "}")%string end.
Definition well (name : string) (dflt : option string) : Prop :=
  valid_name name = true /\ match dflt with None => True | Some d => all_chars (fun c => negb (Ascii.eqb c "}")) d = true end.
Inductive substituted (env : string -> option string) : string -> string -> Prop :=
| su_nil : substituted env "" ""
| su_directive name dflt v s s' : well name dflt -> v = match env name, dflt with Some v, _ => v | None, Some d => d | None, None => "" end%string ->
    substituted env s s' -> substituted env (spelled name dflt ++ s) (v ++ s')
| su_char c s s' : (forall name dflt r, well name dflt -> String c s <> (spelled name dflt ++ r)%string) -> substituted env s s' -> substituted env (String c s) (String c s').
(** Every occurrence of [old] replaced by [new], from the left. *)
Inductive replaced (old new : string) : string -> string -> Prop :=
| r_nil : replaced old new "" ""
| r_old s s' : replaced old new s s' -> replaced old new (old ++ s) (new ++ s')
| r_char c s s' : (forall r, String c s <> (old ++ r)%string) -> replaced old new s s' -> replaced old new (String c s) (String c s').

(** Objects with identities. *)
Fixpoint erase (v : hv) : cv :=
  match v with
  | HNone => CNone | HOther n => COther n | HStr s => CStr s
  | HList _ l => CList (map erase l)
  | HMap _ l => CMap (map (fun kv => (fst kv, erase (snd kv))) l)
  end.
Fixpoint ids (v : hv) : list nat :=
  match v with
  | HList i l => i :: flat_map ids l
  | HMap i l => i :: flat_map (fun kv => ids (snd kv)) l
  | _ => []
  end.

(** The parts of an object, under the names by which the validator knows them. *)
Inductive part : obj -> string -> obj -> Prop :=
| p_data w l f x : In (f, x) l -> part (Obj w (PData l)) f x
| p_map w l k x : In (k, x) l -> part (Obj w (PMap l)) (bracket k) x
| p_seq w l i x : nth_error l i = Some x -> part (Obj w (PSeq l)) (bracket (show_nat i)) x.
Inductive inside : obj -> list string -> obj -> Prop :=
| in_here o : inside o [] o
| in_part o f x p y : part o f x -> inside x p y -> inside o (f :: p) y.
Definition reports (o : obj) : Prop := match o with Obj (Some r) _ => has_error r = true | Obj None _ => False end.
(** The result of validate() as the documentation has it: the errors of the object itself only. *)
Definition own_errors (o : obj) : list string := match o with Obj (Some r) _ => errors r | _ => [] end.
Inductive simple : obj -> Prop :=
| si_obj w p : match w with Some r => sub_results r = [] | None => True end -> simple_parts p -> simple (Obj w p)
with simple_parts : parts -> Prop :=
| si_leaf : simple_parts PLeaf
| si_data l : NoDup (map fst l) -> Forall (fun fx => simple (snd fx)) l -> simple_parts (PData l)
| si_map l : NoDup (map fst l) -> Forall (fun fx => simple (snd fx)) l -> simple_parts (PMap l)
| si_seq l : Forall simple l -> simple_parts (PSeq l).
(** The errors in a result, with the path of each. *)
Inductive reported : vres -> list string -> list string -> Prop :=
| re_here e s : e <> [] -> reported (VRes e s) [] e
| re_sub e s f r p m : In (f, r) s -> reported r p m -> reported (VRes e s) (f :: p) m.
(** One line of the error message. *)
(** How a path is written: names are separated by dots, [...] follows without one. *)
Inductive dotted : list string -> string -> Prop :=
| dt_first p : dotted [p] p
| dt_index p s i : dotted p s -> dotted (p ++ [("[" ++ i ++ "]")%string]) (s ++ "[" ++ i ++ "]")%string
| dt_name p s q : dotted p s -> (forall i, q <> ("[" ++ i ++ "]")%string) -> dotted (p ++ [q]) (s ++ "." ++ q)%string.
Definition entry (p e : list string) : string := match p with [] => join_sp e | _ => ("`" ++ pathname p ++ "` is not valid: " ++ join_sp e)%string end.
