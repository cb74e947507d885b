(** Parameter groups of optimizers.

    Models src/fairseq2/recipe/optim.py 31-205 ([prepare_parameter_groups],
    [_ParameterGroup], [maybe_raise_param_group_length_error]) and its use in
    src/fairseq2/recipe/internal/lr_schedulers.py 87-93, 156-163, 192-207.

    Simplifications.  A parameter is given with its name, as by
    [named_parameters] (which yields each tensor once).  [re.match] is a
    parameter.  The settings of a group are any type.  Log messages are left out. *)

Require Import String List Arith Bool.
Import ListNotations.

Section Groups.
  Context {P S : Type}.  (* parameters and settings *)
  Variable re_match : string -> string -> bool.  (* pattern, name *)
  Variable no_settings : S.

  (** optim.py 206-216 *)
  Record group := { name_patterns : list string; kwargs : S; params : list P; param_names : list string }.

  (** optim.py 172: the condition of [any]. *)
  Definition group_matches (name : string) (patterns : list string) : bool :=
    existsb (fun p => String.eqb name p || re_match p name) patterns.

  (** optim.py 170-178: the inner loop with its [break]. *)
  Fixpoint add_to_first (name : string) (param : P) (groups : list group) : list group :=
    match groups with
    | [] => []
    | g :: gs =>
        if group_matches name (name_patterns g)
        then {| name_patterns := name_patterns g; kwargs := kwargs g; params := params g ++ [param]; param_names := param_names g ++ [name] |} :: gs
        else g :: add_to_first name param gs
    end.

  (** optim.py 180-195: groups without parameters are dropped if they look like
      the fall-back group. *)
  Definition kept (g : group) : bool :=
    match params g with
    | [] => match name_patterns g with
            | [p] => negb (String.eqb p ".*"%string)
            | _ => true
            end
    | _ => true
    end.

  (** optim.py 141-197: the groups of the optimizer, its settings and its
      parameters; [None] for the settings says that the list of all parameters is
      returned. *)
  Definition prepare_parameter_groups (named_parameters : list (string * P)) (group_configs : list (list string * S))
    : list (S * list P) :=
    match group_configs with
    | [] => [(no_settings, map snd named_parameters)]
    | _ =>
        let groups := map (fun c => {| name_patterns := fst c; kwargs := snd c; params := []; param_names := [] |}) group_configs in
        let groups := groups ++ [{| name_patterns := [".*"%string]; kwargs := no_settings; params := []; param_names := [] |}] in
        let groups := fold_left (fun gs np => add_to_first (fst np) (snd np) gs) named_parameters groups in
        map (fun g => (kwargs g, params g)) (filter kept groups)
    end.

  (** A field of a scheduler's configuration: one value or one per group. *)
  Inductive per_group (V : Type) := One (v : V) | Each (vs : list V).
  Arguments One {V}. Arguments Each {V}.

  (** optim.py 219-262 and lr_schedulers.py 87-93: the values of the groups;
      [None] is the ValidationError. *)
  Definition group_values {V} (value : per_group V) (num_param_groups : nat) : option (list V) :=
    match value with
    | One v => Some (repeat v num_param_groups)
    | Each vs => if negb (length vs =? num_param_groups) then None else Some vs
    end.
End Groups.
Arguments One {V}. Arguments Each {V}.
