(** Asset metadata, the asset store and asset cards.
    Models src/fairseq2/assets/{metadata_provider,store,card}.py.
    Simplifications: strings are of 8-bit characters; the dicts of metadata live on a heap, the values in them are trees without identity
    (deepcopy() makes nested objects fresh as well); deepcopy() does not fail; one thread. *)
From Coq Require Import String Ascii List Bool Arith.
From Verif Require Import Config_Model.
Import ListNotations.
Open Scope string_scope.
Open Scope list_scope.

(** ** Strings *)
(** str.strip(): the characters c with c.isspace() *)
Definition is_space (c : ascii) : bool := let n := nat_of_ascii c in (Nat.leb 9 n && Nat.leb n 13) || (Nat.leb 28 n && Nat.leb n 32) || Nat.eqb n 133 || Nat.eqb n 160.
Fixpoint drop_space (l : list ascii) : list ascii := match l with [] => [] | c :: l' => if is_space c then drop_space l' else l end.
Definition strip (s : string) : string := string_of_list_ascii (rev (drop_space (rev (drop_space (list_ascii_of_string s))))).
Definition at_sign : ascii := "@".
(** s.split("@", maxsplit=1) *)
Fixpoint split_first (s : string) : string * option string :=
  match s with
  | EmptyString => (EmptyString, None)
  | String c s' => if Ascii.eqb c at_sign then (EmptyString, Some s') else let (a, b) := split_first s' in (String c a, b)
  end.
(** s.split("@") *)
Fixpoint split_all (s : string) : list string :=
  match s with
  | EmptyString => [EmptyString]
  | String c s' => if Ascii.eqb c at_sign then EmptyString :: split_all s' else match split_all s' with a :: l => String c a :: l | [] => [] end
  end.
Definition full_name (name env : string) : string := (name ++ "@" ++ env)%string.

(** ** Metadata *)
Inductive value := V (c : cv) | VPath (p : string). (** __base_path__ is a Path; all other values come from YAML or the program *)
Definition dict := list (string * value).
Fixpoint dget {A} (k : string) (d : list (string * A)) : option A := match d with [] => None | (k', v) :: d' => if String.eqb k k' then Some v else dget k d' end.
Fixpoint dset (k : string) (v : value) (d : dict) : dict := match d with [] => [(k, v)] | (k', v') :: d' => if String.eqb k k' then (k, v) :: d' else (k', v') :: dset k v d' end.
Definition dupdate (d e : dict) : dict := fold_left (fun d kv => dset (fst kv) (snd kv) d) e d.
Definition dpop (k : string) (d : dict) : option value * dict := (dget k d, filter (fun kv => negb (String.eqb k (fst kv))) d).

(** canonicalize_asset_name: metadata_provider.py lines 352-366 *)
Definition canonicalize (name : string) : option string :=
  let r := match split_all name with
           | [n] => Some (full_name (strip n) EmptyString)
           | [n; e] => Some (full_name (strip n) (strip e))
           | _ => None
           end in
  match r with Some (String c s) => if Ascii.eqb c at_sign then None else Some (String c s) | _ => None end.
(** sanitize_base_asset_name: lines 369-377 *)
Definition has_at (s : string) : bool := match split_first s with (_, Some _) => true | _ => false end.
Definition sanitize_base (name : string) : option string :=
  if has_at name then None else let name := strip name in if String.eqb name EmptyString then None else Some name.

(** Entries as given: a dict. [None]: AssetMetadataError. Python's `not name`: None, "", 0, empty containers; here only None and "" are
    distinguished, as every other name that is not a string is an error as well. *)
Definition entry_name (d : dict) : option (string * dict) :=
  match dpop "name" d with
  | (Some (V (CStr n)), d') => if String.eqb n EmptyString then None else match canonicalize n with Some n' => Some (n', d') | None => None end
  | _ => None
  end.
(** YamlAssetMetadataFileLoader.load: lines 297-349, one entry. [dir] is file.parent. *)
Definition yaml_entry (dir : string) (d : dict) : option (string * dict) :=
  match entry_name d with
  | None => None
  | Some (n, d') =>
      match dget "base" d' with
      | None | Some (V CNone) => Some (n, dset "__base_path__" (VPath dir) d')
      | Some (V (CStr b)) => match sanitize_base b with None => None | Some b' => Some (n, dset "__base_path__" (VPath dir) (dset "base" (V (CStr b')) d')) end
      | Some _ => None
      end
  end.
(** load_in_memory_asset_metadata: lines 239-281, one entry. The sanitized base name is only checked, not stored. *)
Definition memory_entry (d : dict) : option (string * dict) :=
  match entry_name d with
  | None => None
  | Some (n, d') =>
      match dget "base" d' with
      | None | Some (V CNone) => Some (n, d')
      | Some (V (CStr b)) => match sanitize_base b with None => None | Some _ => Some (n, d') end
      | Some _ => None
      end
  end.
(** Collecting the entries of a source: StandardFileAssetMetadataLoader lines 120-131, StandardPackageAssetMetadataLoader lines 185-193,
    load_in_memory_asset_metadata lines 262-265: no name twice. *)
Fixpoint collect (load : dict -> option (string * dict)) (l : list dict) (acc : list (string * dict)) : option (list (string * dict)) :=
  match l with
  | [] => Some acc
  | d :: l' => match load d with None => None | Some (n, d') => match dget n acc with Some _ => None | None => collect load l' (acc ++ [(n, d')]) end end
  end.

(** What load_in_memory_asset_metadata leaves of the entries passed to it: the name is popped (line 245). *)
Definition after_load (l : list dict) : list dict := map (fun d => snd (dpop "name" d)) l.

(** ** The heap of dicts *)
Record heap := Heap { cell : nat -> dict; next : nat }.
Definition alloc (d : dict) (h : heap) : nat * heap := (next h, Heap (fun i => if Nat.eqb i (next h) then d else cell h i) (S (next h))).
Definition write (i : nat) (d : dict) (h : heap) : heap := Heap (fun j => if Nat.eqb j i then d else cell h j) (next h).
(** CachedAssetMetadataProvider: lines 55-84. [entries]: where the dict of each asset is. *)
Record provider := Provider { source : string; entries : list (string * nat) }.
Definition asset_names (p : provider) : list string := map fst (entries p).
Definition provider_get (p : provider) (name : string) (h : heap) : option nat * heap :=
  match dget name (entries p) with None => (None, h) | Some i => let (j, h') := alloc (cell h i) h in (Some j, h') end.
(** A provider with loaded entries. *)
Fixpoint place (l : list (string * dict)) (h : heap) : list (string * nat) * heap :=
  match l with [] => ([], h) | (n, d) :: l' => let (i, h1) := alloc d h in let (r, h2) := place l' h1 in ((n, i) :: r, h2) end.

(** ** StandardAssetStore: store.py lines 47-183 *)
Record store := Store { envs : list string; names : list string; providers : list provider }.
Definition in_names (n : string) (p : provider) : bool := existsb (String.eqb n) (asset_names p).
(** __init__: lines 49-83. [None]: AssetMetadataError *)
Fixpoint check_names (ns : list string) (others : list provider) : bool :=
  match ns with [] => true | n :: ns' => negb (String.eqb n EmptyString) && negb (existsb (in_names n) others) && check_names ns' others end.
Fixpoint add_providers (ps : list provider) (s : store) : option store :=
  match ps with
  | [] => Some s
  | p :: ps' => if check_names (asset_names p) (providers s) then add_providers ps' (Store (envs s) (names s ++ asset_names p) (providers s ++ [p])) else None
  end.
Definition create (ps : list provider) (default_env : option string) : option store :=
  let e := match default_env with Some e => let e := strip e in if String.eqb e EmptyString then ["user"] else ["user"; e] | None => ["user"] end in
  add_providers ps (Store e [] []).

Inductive exn := BaseMissing (base leaf : string) (** AssetCardError *) | Internal | Recursion (** RecursionError *) | Conf (leaf : string) (** AssetCardError *) | NoUri.
Inductive res (A : Type) := Ok (a : A) | Err (e : exn).
Arguments Ok {A} a. Arguments Err {A} e.

(** _maybe_get_metadata: lines 140-155 *)
Fixpoint first_metadata (ps : list provider) (name : string) (h : heap) : option nat * heap :=
  match ps with
  | [] => (None, h)
  | p :: ps' =>
      match provider_get p name h with
      | (None, h') => first_metadata ps' name h'
      | (Some i, h') => (Some i, write i (dset "__source__" (V (CStr (source p))) (cell h' i)) h')
      end
  end.
Definition get_metadata (s : store) (name : string) (h : heap) : res (option nat) * heap :=
  match first_metadata (providers s) name h with
  | (Some i, h') => (Ok (Some i), h')
  | (None, h') => if existsb (String.eqb name) (names s) then (Err Internal, h') else (Ok None, h')
  end.

(** AssetCard: card.py lines 24-82 *)
Inductive card := Card (name : string) (metadata : nat) (base : option card).
Definition card_name (c : card) := match c with Card n _ _ => n end.

(** Lines 125-130: the first environment that has an entry *)
Fixpoint overlay (s : store) (name : string) (es : list string) (i : nat) (h : heap) : res unit * heap :=
  match es with
  | [] => (Ok tt, h)
  | e :: es' =>
      match get_metadata s (full_name name e) h with
      | (Err x, h') => (Err x, h')
      | (Ok None, h') => overlay s name es' i h'
      | (Ok (Some j), h') => (Ok tt, write i (dupdate (cell h' i) (cell h' j)) h')
      end
  end.
(** _do_retrieve_card: lines 111-139. [fuel] is the depth of the stack: Python raises RecursionError when it is exceeded. *)
Fixpoint do_retrieve (s : store) (fuel : nat) (name leaf : string) (es : list string) (h : heap) : res (option card) * heap :=
  match fuel with
  | O => (Err Recursion, h)
  | S fuel' =>
      match get_metadata s (full_name name EmptyString) h with
      | (Err x, h1) => (Err x, h1)
      | (Ok None, h1) => if String.eqb name leaf then (Ok None, h1) else (Err (BaseMissing name leaf), h1)
      | (Ok (Some i), h1) =>
          match overlay s name es i h1 with
          | (Err x, h2) => (Err x, h2)
          | (Ok _, h2) =>
              match dget "base" (cell h2 i) with
              | Some (V (CStr b)) =>
                  match do_retrieve s fuel' b leaf es h2 with
                  | (Err x, h3) => (Err x, h3)
                  | (Ok c, h3) => (Ok (Some (Card name i c)), h3)
                  end
              | _ => (Ok (Some (Card name i None)), h2)
              end
          end
      end
  end.
(** maybe_retrieve_card: lines 92-110 *)
Definition parse_name (s : store) (name : string) : string * list string :=
  match split_first name with
  | (n, None) => (strip n, envs s)
  | (n, Some e) => let e := strip e in (strip n, if String.eqb e EmptyString then [] else [e])
  end.
Definition maybe_retrieve (s : store) (fuel : nat) (name : string) (h : heap) : res (option card) * heap :=
  let (n, es) := parse_name s name in if String.eqb n EmptyString then (Ok None, h) else do_retrieve s fuel n n es h.

(** maybe_get_field: card.py lines 44-59; has_field: lines 61-72 *)
Fixpoint get_field (h : heap) (k : string) (c : card) : option value :=
  match c with Card _ i b => match dget k (cell h i) with Some v => Some v | None => match b with Some c' => get_field h k c' | None => None end end end.
Fixpoint has_field (h : heap) (k : string) (c : card) : bool :=
  match c with Card _ i b => if existsb (fun kv => String.eqb k (fst kv)) (cell h i) then true else match b with Some c' => has_field h k c' | None => false end end.

(** find_cards: store.py lines 157-173, consumed to its end; [ns] is the set of names in the order of the iteration *)
Definition ends_with_at (n : string) : bool := match rev (list_ascii_of_string n) with c :: _ => Ascii.eqb c at_sign | [] => false end.
Definition drop_last (n : string) : string := string_of_list_ascii (removelast (list_ascii_of_string n)).
Fixpoint find_cards (s : store) (fuel : nat) (eqv : value -> value -> bool) (k : string) (v : value) (ns : list string) (h : heap) : res (list card) * heap :=
  match ns with
  | [] => (Ok [], h)
  | n :: ns' =>
      if negb (ends_with_at n) then find_cards s fuel eqv k v ns' h
      else
        match maybe_retrieve s fuel (drop_last n) h with
        | (Err x, h1) => (Err x, h1)
        | (Ok None, h1) => (Err Internal, h1)
        | (Ok (Some c), h1) =>
            let hit := match get_field h1 k c with Some w => eqv v w | None => false end in
            match find_cards s fuel eqv k v ns' h1 with
            | (Err x, h2) => (Err x, h2)
            | (Ok cs, h2) => (Ok (if hit then c :: cs else cs), h2)
            end
        end
  end.

(** AssetCardField.as_uri: card.py lines 103-126. [parse] is Uri.maybe_parse, [absolute] Path.is_absolute, [join] Path.joinpath,
    [from_path] Uri.from_path. The field remembers the card it was asked from (line 57). *)
Definition as_uri {U} (parse : string -> option U) (absolute : string -> bool) (join : string -> string -> string) (from_path : string -> U) (h : heap) (k : string) (c : card) : res U :=
  match get_field h k c with
  | Some (V (CStr x)) =>
      match parse x with
      | Some u => Ok u
      | None =>
          if absolute x then Ok (from_path x)
          else match c with Card _ i _ => match dget "__base_path__" (cell h i) with Some (VPath p) => Ok (from_path (join p x)) | _ => Err NoUri end end
      end
  | _ => Err NoUri
  end.

(** StandardAssetConfigLoader.load: card.py lines 165-212, with the merger and processor of Config_Model *)
Fixpoint all_overrides (h : heap) (k : string) (c : card) : list (string * cv) :=
  match c with
  | Card n i b =>
      let rest := match b with Some c' => all_overrides h k c' | None => [] end in
      match dget k (cell h i) with Some (V CNone) | None => rest | Some (V o) => (n, o) :: rest | Some (VPath _) => (n, COther 0) :: rest end
  end.
Fixpoint apply_all (defaults extra : list directive) (u : cv) (l : list (string * cv)) : res cv :=
  match l with
  | [] => Ok u
  | (n, o) :: l' =>
      match merge u o with
      | Config_Model.Ok m => match process defaults extra m with Config_Model.Ok m' => apply_all defaults extra m' l' | _ => Err (Conf n) end
      | _ => Err (Conf n)
      end
  end.
Definition load_config {B} (unstructure : B -> option cv) (structure : cv -> option B) (defaults extra : list directive) (h : heap) (c : card) (base_config : B) (k : string) : res B :=
  match all_overrides h k c with
  | [] => Ok base_config
  | l =>
      match unstructure base_config with
      | None => Err (Conf (card_name c))
      | Some u =>
          match apply_all defaults extra u (rev l) with
          | Err e => Err e
          | Ok r => match structure r with Some b => Ok b | None => Err (Conf (card_name c)) end
          end
      end
  end.
