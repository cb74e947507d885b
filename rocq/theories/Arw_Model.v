(** Filters and layouts of Arrow tables.

    Models src/fairseq2/data/parquet/arrow_transform.py 18-53 ([is_list_like],
    [_fix_list_offset], [pyarrow_column_to_array]), 56-67 ([repeat_list_column]),
    70-79 ([simple_array_to_nested]) and 177-312 ([filter_strings_by_length],
    [filter_list_by_range], [filter_list_with_min_max_length]).

    Simplifications.  A row is any type, a column a function of rows; a null is
    [None].  Strings are given by their numbers of characters, numbers are
    integers.  Arrow's and Polars' functions are modelled from their
    documentation: comparisons of nulls are null, [&] and [and_kleene] are
    Kleene's, [list.min] and [list.max] skip nulls and are null for lists without
    values, [pc.all] skips nulls and is null without values, [filter] keeps rows
    whose mask is true. *)

Require Import List Arith ZArith Bool.
Import ListNotations.

(** ** Masks *)
Definition kleene_and (a b : option bool) : option bool :=
  match a, b with
  | Some false, _ | _, Some false => Some false
  | Some true, Some true => Some true
  | _, _ => None
  end.

Definition non_null {A} (l : list (option A)) : list A := flat_map (fun x => match x with Some v => [v] | None => [] end) l.

(** [pc.all(mask)], as it is used as a condition. *)
Definition pc_all (mask : list (option bool)) : bool :=
  match non_null mask with [] => false | l => forallb (fun b => b) l end.

Definition is_true (m : option bool) : bool := match m with Some true => true | _ => false end.

(** [table.filter(mask)], the mask being computed from the rows. *)
Definition table_filter {R} (mask : R -> option bool) (table : list R) : list R := filter (fun r => is_true (mask r)) table.

(** 234-240, 281-286, 305-307: the table itself if every row passes. *)
Definition filter_unless_all {R} (mask : R -> option bool) (table : list R) : list R :=
  if pc_all (map mask table) then table else table_filter mask table.

Definition list_min (l : list (option Z)) : option Z :=
  match non_null l with [] => None | x :: xs => Some (fold_left Z.min xs x) end.
Definition list_max (l : list (option Z)) : option Z :=
  match non_null l with [] => None | x :: xs => Some (fold_left Z.max xs x) end.

Definition bind {A B} (x : option A) (f : A -> option B) : option B := match x with Some v => f v | None => None end.

(** The mask of a row whose list has values between two bounds (222-232,
    271-279), [None] being infinity. *)
Definition within_mask (lo hi : option Z) (cell : option (list (option Z))) : option bool :=
  kleene_and (bind cell (fun l => option_map (fun m => match lo with None => true | Some b => (b <=? m)%Z end) (list_min l)))
             (bind cell (fun l => option_map (fun m => match hi with None => true | Some b => (m <=? b)%Z end) (list_max l))).

Section Filters.
  Context {R : Type}.

  (** 177-240: [filter_strings_by_length]; the column holds the lengths of the
      strings, [None] is the ValueError. *)
  Definition filter_strings_by_length (column : R -> option (list (option Z))) (min_len max_len : option Z) (table : list R) : option (list R) :=
    match min_len, max_len with
    | None, None => None
    | _, _ =>
        let min_len := match min_len with None => 0%Z | Some m => m end in
        let max_len := match max_len with None => (2 ^ 32)%Z | Some m => m end in
        Some (filter_unless_all (fun r => within_mask (Some min_len) (Some max_len) (column r)) table)
    end.

  (** 243-289: [filter_list_by_range]. *)
  Definition filter_list_by_range (column : R -> option (list (option Z))) (min_val max_val : option Z) (table : list R) : list R :=
    match min_val, max_val with
    | None, None => table
    | _, _ => filter_unless_all (fun r => within_mask min_val max_val (column r)) table
    end.

  (** 292-312: [filter_list_with_min_max_length]; a column gives the length of
      the list of a row. *)
  Definition length_mask (min_length max_length : nat) (len : option nat) : option bool :=
    kleene_and (option_map (fun n => min_length <=? n) len) (option_map (fun n => n <=? max_length) len).

  Definition filter_list_with_min_max_length (columns : list (R -> option nat)) (min_length max_length : nat) (table : list R) : list R :=
    fold_left (fun t column => filter_unless_all (fun r => length_mask min_length max_length (column r)) t) columns table.
End Filters.

(** ** List arrays *)
Section Arrays.
  Context {V : Type}.

  (** An array of lists: the values, the offsets of the slice, which are one more
      than its elements, the elements that are not null, and the position of the
      slice in the whole array. *)
  Record list_array := { values : list V; offsets : list nat; validity : list bool; offset : nat }.

  Definition cut (vs : list V) (a b : nat) : list V := firstn (b - a) (skipn a vs).

  Fixpoint rows_of (vs : list V) (offs : list nat) (valid : list bool) : list (option (list V)) :=
    match offs, valid with
    | a :: ((b :: _) as offs'), v :: valid' => (if v then Some (cut vs a b) else None) :: rows_of vs offs' valid'
    | _, _ => []
    end.

  (** [arr.to_pylist()] *)
  Definition to_pylist (a : list_array) : list (option (list V)) := rows_of (values a) (offsets a) (validity a).

  (** [pc.list_flatten]: the values of the lists that are not null. *)
  Definition list_flatten (a : list_array) : list V := concat (non_null (to_pylist a)).

  (** [ListArray.from_arrays(offsets, values)]: no element is null. *)
  Definition from_arrays (offs : list nat) (vs : list V) : list_array :=
    {| values := vs; offsets := offs; validity := repeat true (length offs - 1); offset := 0 |}.

  (** 25-42: [_fix_list_offset] of lists of plain values, and with it 45-53. *)
  Definition fix_list_offset (a : list_array) : list_array :=
    let first := hd 0 (offsets a) in
    if (offset a =? 0) && (first =? 0) then a
    else from_arrays (map (fun o => o - first) (offsets a)) (list_flatten a).

  (** 56-67: [repeat_list_column]. *)
  Definition repeat_list_column (array : list V) (length_ : nat) : list (option (list V)) :=
    concat (repeat (to_pylist (from_arrays [0; length array] array)) length_).

  (** 70-79: [simple_array_to_nested]. *)
  Definition simple_array_to_nested (array : list V) : list_array := from_arrays (seq 0 (length array + 1)) array.
End Arrays.
Arguments list_array : clear implicits.
