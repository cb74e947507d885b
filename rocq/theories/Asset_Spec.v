(** What the asset store promises. *)
From Coq Require Import String Ascii List Bool Arith.
From Verif Require Import Config_Model Config_Spec Asset_Model.
Import ListNotations.
Open Scope string_scope.
Open Scope list_scope.

(** A store that was created, on a heap with the dicts of its providers; a provider has a dict of assets. *)
Definition stored (s : store) (h : heap) : Prop :=
  (exists ps env, create ps env = Some s) /\ (forall p, In p (providers s) -> NoDup (asset_names p)) /\ (forall p n i, In p (providers s) -> In (n, i) (entries p) -> i < next h /\ NoDup (map fst (cell h i))).
(** The store has an entry with this full name. *)
Definition has (s : store) (h : heap) (full : string) (d : dict) : Prop := exists p i, In p (providers s) /\ In (full, i) (entries p) /\ d = cell h i.
Definition absent (s : store) (h : heap) (full : string) : Prop := forall d, ~ has s h full d.
(** The entry of the first environment that has one. *)
Inductive first_env (s : store) (h : heap) (n : string) : list string -> option dict -> Prop :=
| fe_none : first_env s h n [] None
| fe_here e es d : has s h (full_name n e) d -> first_env s h n (e :: es) (Some d)
| fe_next e es o : absent s h (full_name n e) -> first_env s h n es o -> first_env s h n (e :: es) o.
(** What an asset says itself about a field. *)
Definition own (s : store) (h : heap) (es : list string) (n k : string) (v : option value) : Prop :=
  exists d o, has s h (full_name n "") d /\ first_env s h n es o /\
    v = match o with Some e => match dget k e with Some x => Some x | None => dget k d end | None => dget k d end.
(** An asset and its bases. *)
Definition has_base s h es n b := own s h es n "base" (Some (V (CStr b))).
Inductive chain (s : store) (h : heap) (es : list string) : string -> list string -> Prop :=
| ch_end n v : own s h es n "base" v -> (forall b, v <> Some (V (CStr b))) -> chain s h es n [n]
| ch_base n b l : has_base s h es n b -> chain s h es b l -> chain s h es n (n :: l).
(** The bases lead to a name that does not exist, or to themselves. *)
Inductive broken (s : store) (h : heap) (es : list string) : string -> string -> Prop :=
| br_here n b : has_base s h es n b -> absent s h (full_name b "") -> broken s h es n b
| br_base n b x : has_base s h es n b -> broken s h es b x -> broken s h es n x.
Inductive path (s : store) (h : heap) (es : list string) : string -> string -> Prop :=
| pa_one n b : has_base s h es n b -> path s h es n b
| pa_more n b x : has_base s h es n b -> path s h es b x -> path s h es n x.
Definition cyclic s h es n : Prop := exists x, (x = n \/ path s h es n x) /\ path s h es x x.
(** The first of these assets that says something about a field. *)
Inductive field_of (s : store) (h : heap) (es : list string) (k : string) : list string -> option value -> Prop :=
| fo_none : field_of s h es k [] None
| fo_here n l v : own s h es n k (Some v) -> field_of s h es k (n :: l) (Some v)
| fo_next n l v : own s h es n k None -> field_of s h es k l v -> field_of s h es k (n :: l) v.

(** What is seen of a card: names and dicts from the asset to the last base. *)
Fixpoint view (h : heap) (c : card) : list (string * dict) := match c with Card n i b => (n, cell h i) :: match b with Some c' => view h c' | None => [] end end.
Definition viewed (x : res (option card) * heap) : res (option (list (string * dict))) :=
  match x with (Ok (Some c), h) => Ok (Some (view h c)) | (Ok None, _) => Ok None | (Err e, _) => Err e end.
(** The card [c] shows the assets [l]; __source__ tells the provider. *)
Definition shows (s : store) (h0 : heap) (es : list string) (l : list string) (h : heap) (c : card) : Prop :=
  map fst (view h c) = l /\ forall k, k <> "__source__" -> field_of s h0 es k l (get_field h k c).

(** Uses of the store and of the cards it gave: [n] is the number of dicts before. *)
Inductive uses (s : store) (n : nat) : heap -> heap -> Prop :=
| us_refl h : uses s n h h
| us_retrieve h fuel name h' : uses s n (snd (maybe_retrieve s fuel name h)) h' -> uses s n h h'
| us_write h i d h' : n <= i -> uses s n (write i d h) h' -> uses s n h h'.

Definition no_at (s : string) : Prop := ~ In at_sign (list_ascii_of_string s).
Definition stripped (s : string) : Prop := forall c, (exists l, list_ascii_of_string s = c :: l) \/ (exists l, list_ascii_of_string s = l ++ [c]) -> is_space c = false.
(** Full names as stored. *)
Definition canonical (n e : string) : Prop := n <> "" /\ no_at n /\ no_at e /\ stripped n /\ stripped e.
(** [t] is [s] without spaces at both ends. *)
Definition strips (s t : string) : Prop :=
  stripped t /\ exists a b, Forall (fun c => is_space c = true) a /\ Forall (fun c => is_space c = true) b /\ list_ascii_of_string s = a ++ list_ascii_of_string t ++ b.

(** Overrides applied one after the other. *)
Inductive applied (defaults extra : list directive) : cv -> list (string * cv) -> cv -> Prop :=
| ap_nil u : applied defaults extra u [] u
| ap_cons u n o m m' l r : merge u o = Config_Model.Ok m -> process defaults extra m = Config_Model.Ok m' -> applied defaults extra m' l r -> applied defaults extra u ((n, o) :: l) r.
