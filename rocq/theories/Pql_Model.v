(** Loading fragments of Parquet datasets.

    Models
    - src/fairseq2/data/parquet/fragment_loading/builder.py 68-125
      ([SafeFragment.load]) and 128-211 ([ParquetFragmentLoader]),
    - src/fairseq2/data/parquet/fragment_loading/config.py 57-80
      ([get_flatten_columns], [get_renaming_mapper]),
    - src/fairseq2/data/parquet/utils.py 180-201 ([add_fragments_trace]), 204-217
      ([add_partitioning_values]) and 220-222 ([rename_table_columns]).

    Simplifications.  A null is [None].  A filter is given by the columns it
    refers to and its value for a row; a filter on a missing column is an error.
    Reading does not fail (the second attempt after an OSError reads the same).
    [to_table] delivers the rows in the order of the row groups, as the code
    assumes (utils.py 181), and supplies the three columns of the scanner.
    Threads, memory pools, memory mapping and prefetching are left out. *)

Require Import String List Arith Bool.
Import ListNotations.

Definition name := string.
Definition mem (n : name) (l : list name) : bool := existsb (String.eqb n) l.

Section Loading.
  Context {V : Type}.
  Variable num : nat -> V.  (* numbers as values *)

  Record table := { names : list name; rows : list (list (option V)) }.

  (** The value of a row in a column. *)
  Fixpoint lookup (n : name) (ns : list name) (row : list (option V)) : option V :=
    match ns, row with
    | m :: ns', v :: row' => if String.eqb n m then v else lookup n ns' row'
    | _, _ => None
    end.

  Record fragment := {
    physical : list name;
    partition : list (name * V);
    row_groups : list (nat * list (list (option V)));
    scanned : name -> nat -> V  (* the columns of the scanner *)
  }.

  Record filter_expr := { refs : list name; test : (name -> option V) -> option bool }.

  (** [table.filter(filters)] *)
  Definition passes (f : filter_expr) (value : name -> option V) : bool := match test f value with Some true => true | _ => false end.
  Definition table_filter (f : filter_expr) (t : table) : option table :=
    if forallb (fun n => mem n (names t)) (refs f)
    then Some {| names := names t; rows := filter (fun r => passes f (fun n => lookup n (names t) r)) (rows t) |}
    else None.

  Definition scanner_columns : list name := ["__batch_index"; "__fragment_index"; "__filename"]%string.

  (** [fragment.to_table(columns, filter)] *)
  Definition to_table (fr : fragment) (columns : list name) (f : option filter_expr) : table :=
    let all := concat (map snd (row_groups fr)) in
    let numbered := combine (seq 0 (length all)) all in
    let kept := filter (fun ir => match f with None => true | Some f => passes f (fun n => lookup n (physical fr) (snd ir)) end) numbered in
    {| names := columns;
       rows := map (fun ir => map (fun c => if mem c scanner_columns then Some (scanned fr c (fst ir)) else lookup c (physical fr) (snd ir)) columns) kept |}.

  (** [table.append_column] *)
  Definition append_column (t : table) (n : name) (column : list (option V)) : table :=
    {| names := names t ++ [n]; rows := map (fun rv => fst rv ++ [snd rv]) (combine (rows t) column) |}.

  (** utils.py 204-217 *)
  Definition add_partitioning_values (t : table) (fr : fragment) (columns : option (list name)) : table :=
    fold_left (fun t kv => if match columns with None => true | Some cs => mem (fst kv) cs end
                           then append_column t (fst kv) (repeat (Some (snd kv)) (length (rows t))) else t) (partition fr) t.

  (** utils.py 180-201; [None] is the failed assertion. *)
  Definition add_fragments_trace (t : table) (fr : fragment) : option table :=
    let row_group_ids := flat_map (fun g => repeat (fst g) (length (snd g))) (row_groups fr) in
    if negb (length row_group_ids =? length (rows t)) then None
    else
      let index_in_fragment := flat_map (fun g => seq 0 (length (snd g))) (row_groups fr) in
      let t := append_column t "__row_groups_ids"%string (map (fun i => Some (num i)) row_group_ids) in
      Some (append_column t "__index_in_fragement"%string (map (fun i => Some (num i)) index_in_fragment)).

  (** builder.py 68-125: [load], with the partitioning columns; [None] is an
      error. *)
  Definition load (fr : fragment) (columns : option (list name)) (filters : option filter_expr) (add_fragment_traces : bool) : option table :=
    let fragment_columns := match columns with
                            | Some cs => filter (fun c => mem c (physical fr)) cs
                            | None => physical fr
                            end in
    let fragment_columns := if add_fragment_traces then fragment_columns ++ scanner_columns else fragment_columns in
    let can_apply := match filters with
                     | Some f => negb add_fragment_traces && forallb (fun n => mem n (physical fr)) (refs f)
                     | None => false
                     end in
    let t := to_table fr fragment_columns (if can_apply then filters else None) in
    let t := add_partitioning_values t fr columns in
    match (if add_fragment_traces then add_fragments_trace t fr else Some t) with
    | None => None
    | Some t => match filters with
                | Some f => if negb can_apply then table_filter f t else Some t
                | None => Some t
                end
    end.

  (** ** ParquetFragmentLoader *)

  (** builder.py 153-166: the argument [deterministic] of [map], whose default is
      [true]. *)
  Definition map_deterministic (non_deterministic_read : bool) : bool :=
    if non_deterministic_read then non_deterministic_read else true.

  (** arrow_transform.py 124-145: [table.drop_null()]. *)
  Definition drop_null (t : table) : table :=
    {| names := names t; rows := filter (forallb (fun v => match v with Some _ => true | None => false end)) (rows t) |}.

  (** config.py 57-70, 72-80; a field of NamedColumns and its column. *)
  Record named_columns := { fields : list (name * option name); extra_columns : list name }.
  Definition get_flatten_columns (c : named_columns) : list name :=
    flat_map (fun f => match snd f with Some col => [col] | None => [] end) (fields c) ++ extra_columns c.
  (** The dictionary; of equal keys the last one counts. *)
  Definition get_renaming (c : named_columns) (col : name) : name :=
    match find (fun f => match snd f with Some o => String.eqb o col | None => false end) (rev (fields c)) with
    | Some f => fst f
    | None => col
    end.
  Definition rename_table_columns (t : table) (c : named_columns) : table := {| names := map (get_renaming c) (names t); rows := rows t |}.

  Record loading := { cfg_columns : option named_columns; cfg_rename : bool; cfg_traces : bool; cfg_drop_null : bool; cfg_min_batch_size : nat; cfg_filters : option filter_expr }.

  (** builder.py 143-191: what becomes of a fragment; [None] is an error, and
      [Some None] a table that is left out. *)
  Definition load_fragment (cfg : loading) (fr : fragment) : option (option table) :=
    match load fr (option_map get_flatten_columns (cfg_columns cfg)) (cfg_filters cfg) (cfg_traces cfg) with
    | None => None
    | Some t =>
        let t := if cfg_drop_null cfg then drop_null t else t in
        if cfg_min_batch_size cfg <=? length (rows t) then
          Some (Some (match cfg_columns cfg with
                      | Some c => if cfg_rename cfg then rename_table_columns t c else t
                      | None => t
                      end))
        else Some None
    end.
End Loading.
Arguments table : clear implicits.
Arguments fragment : clear implicits.
Arguments filter_expr : clear implicits.
