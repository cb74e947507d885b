(** Model of configuration merging and directives: /repo/src/fairseq2/utils/config.py, and of object validation:
    /repo/src/fairseq2/utils/validation.py. *)
From Coq Require Import String Ascii List Bool Arith.
Import ListNotations.
Open Scope list_scope.

(** Keys of mappings: strings, and others that are hashable and not strings. *)
Inductive key := KStr (s : string) | KOther (n : nat).
Definition key_eqb (a b : key) : bool := match a, b with KStr s, KStr t => String.eqb s t | KOther m, KOther n => Nat.eqb m n | _, _ => false end.
(** Unstructured configurations. [COther]: numbers, booleans, and any other object that is neither str, list nor Mapping. Strings are
    sequences of 8-bit characters instead of code points. Every Mapping is a dict. Values are immutable here; see [hv] below. *)
Inductive cv := CNone | COther (n : nat) | CStr (s : string) | CList (l : list cv) | CMap (l : list (key * cv)).
(** [TypeErr]: a TypeError is raised. [DirErr]: a directive raises an exception. *)
Inductive res (A : Type) := Ok (a : A) | TypeErr | DirErr.
Arguments Ok {A} _. Arguments TypeErr {A}. Arguments DirErr {A}.
Definition bindr {A B} (r : res A) (f : A -> res B) : res B := match r with Ok a => f a | TypeErr => TypeErr | DirErr => DirErr end.

(** d.get(k) and d[k] = v *)
Fixpoint get {A} (k : key) (l : list (key * A)) : option A := match l with [] => None | (k', v) :: l' => if key_eqb k k' then Some v else get k l' end.
Fixpoint put {A} (k : key) (v : A) (l : list (key * A)) : list (key * A) :=
  match l with [] => [(k, v)] | (k', v') :: l' => if key_eqb k k' then (k', v) :: l' else (k', v') :: put k v l' end.

Definition DEL : key := KStr "_del_".
Definition SET : key := KStr "_set_".

(** the elements of _del_, each of which must be a string: lines 60-78 *)
Fixpoint del_names (l : list cv) : res (list key) :=
  match l with [] => Ok [] | CStr s :: l' => bindr (del_names l') (fun ks => Ok (KStr s :: ks)) | _ :: _ => TypeErr end.
Definition del_keys (source : list (key * cv)) : res (list key) :=
  match get DEL source with
  | None | Some CNone => Ok []
  | Some (CList l) => del_names l
  | Some _ => TypeErr
  end.
(** the loop over _set_: lines 115-121 *)
Fixpoint set_loop (l output : list (key * cv)) : res (list (key * cv)) :=
  match l with [] => Ok output | (KStr s, v) :: l' => set_loop l' (put (KStr s) v output) | (KOther _, _) :: _ => TypeErr end.
(** lines 104-121 *)
Definition set_keys (source output : list (key * cv)) : res (list (key * cv)) :=
  match get SET source with
  | None | Some CNone => Ok output
  | Some (CMap l) => set_loop l output
  | Some _ => TypeErr
  end.
Definition as_map (v : option cv) : list (key * cv) := match v with Some (CMap l) => l | _ => [] end.
(** StandardConfigMerger._merge_map: lines 50-123. [source] is given as the value itself, so that the recursion is structural; it is
    called for mappings only. *)
Fixpoint merge_map (target : list (key * cv)) (source : cv) {struct source} : res (list (key * cv)) :=
  match source with
  | CMap source =>
      bindr (del_keys source) (fun ignored =>
      let output := filter (fun kv => negb (existsb (key_eqb (fst kv)) ignored)) target in
      bindr ((fix loop (l output : list (key * cv)) : res (list (key * cv)) :=
                match l with
                | [] => Ok output
                | (k, v) :: l' =>
                    if key_eqb k DEL || key_eqb k SET then loop l' output
                    else match v with
                         | CMap _ => bindr (merge_map (as_map (get k output)) v) (fun m => loop l' (put k (CMap m) output))
                         | _ => loop l' (put k v output)
                         end
                end) source output) (fun output => set_keys source output))
  | _ => Ok target
  end.
(** StandardConfigMerger.merge: lines 40-48 *)
Definition merge (config overrides : cv) : res cv :=
  match overrides with
  | CMap _ => bindr (merge_map (as_map (Some config)) overrides) (fun m => Ok (CMap m))
  | _ => Ok overrides
  end.

(** ConfigDirective.execute *)
Definition directive := string -> cv -> res cv.
(** the loop over the directives: lines 171-178 *)
Fixpoint execute_all (ds : list directive) (s : string) (config : cv) : res cv :=
  match ds with
  | [] => Ok (CStr s)
  | d :: ds' => bindr (d s config) (fun o => match o with CStr s' => execute_all ds' s' config | _ => Ok o end)
  end.
(** StandardConfigProcessor._do_process: lines 151-180 *)
Fixpoint do_process (ds : list directive) (config value : cv) {struct value} : res cv :=
  match value with
  | CList l =>
      bindr ((fix loop (l : list cv) : res (list cv) :=
                match l with [] => Ok [] | e :: l' => bindr (do_process ds config e) (fun e' => bindr (loop l') (fun r => Ok (e' :: r))) end) l) (fun r => Ok (CList r))
  | CMap l =>
      bindr ((fix loop (l output : list (key * cv)) : res (list (key * cv)) :=
                match l with [] => Ok output | (k, v) :: l' => bindr (do_process ds config v) (fun v' => loop l' (put k v' output)) end) l []) (fun r => Ok (CMap r))
  | CStr s => execute_all ds s config
  | _ => Ok value
  end.
(** StandardConfigProcessor.process: lines 139-149 *)
Definition process (defaults extra : list directive) (config : cv) : res cv :=
  match defaults, extra with [], [] => Ok config | _, _ => do_process (defaults ++ extra) config config end.

(** str.replace, for an old string that is not empty *)
Fixpoint replace_str (fuel : nat) (old new s : string) : string :=
  match fuel with
  | O => s
  | S fuel =>
      if String.prefix old s then (new ++ replace_str fuel old new (substring (String.length old) (String.length s - String.length old) s))%string
      else match s with EmptyString => EmptyString | String c s' => String c (replace_str fuel old new s') end
  end.
(** ReplacePathDirective: lines 193-200 *)
Definition path_directive (dir : string) : directive := fun s _ => Ok (CStr (replace_str (S (String.length s)) "${dir}" dir s)).

(** [A-Za-z_] and [A-Za-z0-9_] *)
Definition between (a b c : ascii) : bool := (nat_of_ascii a <=? nat_of_ascii c) && (nat_of_ascii c <=? nat_of_ascii b).
Definition name_start (c : ascii) : bool := between "A" "Z" c || between "a" "z" c || Ascii.eqb c "_".
Definition name_char (c : ascii) : bool := name_start c || between "0" "9" c.
(** the longest prefix of characters that satisfy [p], and the rest *)
Fixpoint span (p : ascii -> bool) (s : string) : string * string :=
  match s with EmptyString => (EmptyString, EmptyString) | String c s' => if p c then let (a, b) := span p s' in (String c a, b) else (EmptyString, s) end.
(** One match of the regular expression \$\{env:([A-Za-z_][A-Za-z0-9_]* )(?::([^}]* ))?\} at the start of [s] (line 211): the two groups
    and the rest. No shorter name can match, as it would be followed by a character of the name. *)
Definition match_env (s : string) : option (string * option string * string) :=
  if String.prefix "${env:" s then
    let s := substring 6 (String.length s - 6) s in
    match s with
    | String c s' =>
        if name_start c then
          let (name, rest) := span name_char s' in
          match rest with
          | String "}" rest' => Some (String c name, None, rest')
          | String ":" rest' => match span (fun c => negb (Ascii.eqb c "}")) rest' with (dflt, String _ rest'') => Some (String c name, Some dflt, rest'') | _ => None end
          | _ => None
          end
        else None
    | EmptyString => None
    end
  else None.
(** ReplaceEnvDirective._replace: lines 220-229 *)
Definition replace_env (env : string -> option string) (name : string) (dflt : option string) : string :=
  match env name with Some v => v | None => match dflt with Some v => v | None => EmptyString end end.
(** Pattern.sub *)
Fixpoint sub_env (fuel : nat) (env : string -> option string) (s : string) : string :=
  match fuel with
  | O => s
  | S fuel =>
      match match_env s with
      | Some (name, dflt, rest) => (replace_env env name dflt ++ sub_env fuel env rest)%string
      | None => match s with EmptyString => EmptyString | String c s' => String c (sub_env fuel env s') end
      end
  end.
(** ReplaceEnvDirective.execute: lines 216-218 *)
Definition env_directive (env : string -> option string) : directive := fun s _ => Ok (CStr (sub_env (S (String.length s)) env s)).

(** The same merger on objects with identities: a list or a dict is an object in the heap, named by a number; [deepcopy] makes new ones.
    The state is the next unused number. *)
Inductive hv := HNone | HOther (n : nat) | HStr (s : string) | HList (id : nat) (l : list hv) | HMap (id : nat) (l : list (key * hv)).
Fixpoint deepcopy (n : nat) (v : hv) {struct v} : nat * hv :=
  match v with
  | HList _ l => let (m, l') := (fix loop (n : nat) (l : list hv) : nat * list hv :=
      match l with [] => (n, []) | x :: l' => let (n1, x') := deepcopy n x in let (n2, r) := loop n1 l' in (n2, x' :: r) end) (S n) l in (m, HList n l')
  | HMap _ l => let (m, l') := (fix loop (n : nat) (l : list (key * hv)) : nat * list (key * hv) :=
      match l with [] => (n, []) | (k, x) :: l' => let (n1, x') := deepcopy n x in let (n2, r) := loop n1 l' in (n2, (k, x') :: r) end) (S n) l in (m, HMap n l')
  | _ => (n, v)
  end.
Fixpoint hdel_names (l : list hv) : res (list key) :=
  match l with [] => Ok [] | HStr s :: l' => bindr (hdel_names l') (fun ks => Ok (KStr s :: ks)) | _ :: _ => TypeErr end.
Definition hdel_keys (source : list (key * hv)) : res (list key) :=
  match get DEL source with None | Some HNone => Ok [] | Some (HList _ l) => hdel_names l | Some _ => TypeErr end.
(** for key, target_value in target.items(): lines 80-82 *)
Fixpoint hcopy (n : nat) (ignored : list key) (target : list (key * hv)) : nat * list (key * hv) :=
  match target with
  | [] => (n, [])
  | (k, v) :: t => if existsb (key_eqb k) ignored then hcopy n ignored t else let (n1, v') := deepcopy n v in let (n2, r) := hcopy n1 ignored t in (n2, (k, v') :: r)
  end.
Fixpoint hset_loop (n : nat) (l output : list (key * hv)) : res (nat * list (key * hv)) :=
  match l with [] => Ok (n, output) | (KStr s, v) :: l' => let (n1, v') := deepcopy n v in hset_loop n1 l' (put (KStr s) v' output) | (KOther _, _) :: _ => TypeErr end.
Definition hset_keys (n : nat) (source output : list (key * hv)) : res (nat * list (key * hv)) :=
  match get SET source with None | Some HNone => Ok (n, output) | Some (HMap _ l) => hset_loop n l output | Some _ => TypeErr end.
Definition has_map (v : option hv) : list (key * hv) := match v with Some (HMap _ l) => l | _ => [] end.
(** _merge_map; the result is the new dict [n] *)
Fixpoint hmerge_map (n : nat) (target : list (key * hv)) (source : hv) {struct source} : res (nat * hv) :=
  match source with
  | HMap _ source =>
      bindr (hdel_keys source) (fun ignored =>
      let (n1, output) := hcopy (S n) ignored target in
      bindr ((fix loop (n : nat) (l output : list (key * hv)) : res (nat * list (key * hv)) :=
                match l with
                | [] => Ok (n, output)
                | (k, v) :: l' =>
                    if key_eqb k DEL || key_eqb k SET then loop n l' output
                    else match v with
                         | HMap _ _ => bindr (hmerge_map n (has_map (get k output)) v) (fun p => loop (fst p) l' (put k (snd p) output))
                         | _ => let (n', v') := deepcopy n v in loop n' l' (put k v' output)
                         end
                end) n1 source output) (fun p => bindr (hset_keys (fst p) source (snd p)) (fun q => Ok (fst q, HMap n (snd q)))))
  | _ => Ok (n, HMap n target)
  end.
Definition hmerge (n : nat) (config overrides : hv) : res (nat * hv) :=
  match overrides with HMap _ _ => hmerge_map n (has_map (Some config)) overrides | _ => Ok (n, overrides) end.

(** ValidationResult: lines 172-201 *)
Inductive vres := VRes (errors : list string) (subs : list (string * vres)).
Definition errors (r : vres) : list string := match r with VRes e _ => e end.
Definition sub_results (r : vres) : list (string * vres) := match r with VRes _ s => s end.
Fixpoint has_error (r : vres) : bool :=
  match r with VRes e s => negb (match e with [] => true | _ => false end) || (fix any (l : list (string * vres)) : bool := match l with [] => false | (_, x) :: l' => has_error x || any l' end) s end.
Fixpoint sput {A} (k : string) (v : A) (l : list (string * A)) : list (string * A) :=
  match l with [] => [(k, v)] | (k', v') :: l' => if String.eqb k k' then (k', v) :: l' else (k', v') :: sput k v l' end.
Definition add_sub_result (r : vres) (field : string) (sub : vres) : vres := match r with VRes e s => VRes e (sput field sub s) end.

(** Objects as the validator sees them: what validate() returns, if there is such a method, and the parts. [OMap]: the keys are given by
    repr(key); [OSeq]: list, tuple or Set. *)
Inductive obj := Obj (own : option vres) (parts : parts)
with parts := PLeaf | PData (l : list (string * obj)) | PMap (l : list (string * obj)) | PSeq (l : list obj).
(** str(i) *)
Definition digit (n : nat) : ascii := ascii_of_nat (48 + n).
Fixpoint show_nat_aux (fuel n : nat) (acc : string) : string :=
  match fuel with
  | O => acc
  | S fuel => let acc := String (digit (n mod 10)) acc in if n <? 10 then acc else show_nat_aux fuel (n / 10) acc
  end.
Definition show_nat (n : nat) : string := show_nat_aux (S n) n EmptyString.
Definition bracket (s : string) : string := ("[" ++ s ++ "]")%string.
(** "if sub_result.has_error(): result.add_sub_result(field, sub_result)" *)
Definition note_sub (r : vres) (field : string) (sub : vres) : vres := if has_error sub then add_sub_result r field sub else r.
(** StandardObjectValidator._do_validate: lines 130-160 *)
Fixpoint do_validate (o : obj) : vres :=
  match o with
  | Obj own parts =>
      let result := match own with Some r => r | None => VRes [] [] end in
      match parts with
      | PLeaf => result
      | PData l => (fix loop (l : list (string * obj)) (r : vres) : vres := match l with [] => r | (f, x) :: l' => loop l' (note_sub r f (do_validate x)) end) l result
      | PMap l => (fix loop (l : list (string * obj)) (r : vres) : vres := match l with [] => r | (k, x) :: l' => loop l' (note_sub r (bracket k) (do_validate x)) end) l result
      | PSeq l => (fix loop (i : nat) (l : list obj) (r : vres) : vres := match l with [] => r | x :: l' => loop (S i) l' (note_sub r (bracket (show_nat i)) (do_validate x)) end) 0 l result
      end
  end.
(** StandardObjectValidator.validate: lines 123-128. [Some r]: ValidationError(r) is raised. *)
Definition validate (o : obj) : option vres := let r := do_validate o in if has_error r then Some r else None.

(** " ".join *)
Fixpoint join_sp (l : list string) : string := match l with [] => EmptyString | [s] => s | s :: l' => (s ++ " " ++ join_sp l')%string end.
Definition is_bracket (p : string) : bool :=
  String.prefix "[" p && (match String.length p with O => false | S n => String.eqb (substring n 1 p) "]" end).
(** _build_pathname: lines 240-249 *)
Definition pathname (path : list string) : string :=
  match path with [] => EmptyString | p :: l => fold_left (fun s q => if is_bracket q then (s ++ q)%string else (s ++ "." ++ q)%string) l p end.
(** _create_error_string: lines 222-238 *)
Fixpoint create_error_string (path : list string) (r : vres) : list string :=
  match r with
  | VRes e s =>
      let m := join_sp e in
      (if String.eqb m "" then [] else match path with [] => [m] | _ => [("`" ++ pathname path ++ "` is not valid: " ++ m)%string] end) ++
      (fix loop (l : list (string * vres)) : list string := match l with [] => [] | (f, x) :: l' => create_error_string (path ++ [f]) x ++ loop l' end) s
  end.
(** ValidationResult.__str__: lines 215-220 *)
Definition error_string (r : vres) : string := join_sp (create_error_string [] r).
