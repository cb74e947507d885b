(** Model of batching tables: /repo/src/fairseq2/data/parquet/table_bucketing/primitives.py (line numbers without a file refer to it) and builder.py in the same
    directory. Lengths are natural numbers without overflow (numpy: int32). A table is the list of its chunks, a chunk a list of rows. Sorting and random
    permutations are functions. *)
From Coq Require Import List Bool Arith.
Import ListNotations.

(** ** compute_length_splits, lines 14-71 *)
Section Splits.
  Variable max_tokens : nat.
  (** Lines 57-63: the inner loop over what is left from [end] on, pairs of an index and its length: the chunk, and what is left where it was closed *)
  Fixpoint inner (current_max_len : nat) (chunk l : list (nat * nat)) : list (nat * nat) * list (nat * nat) :=
    match l with
    | [] => (chunk, [])
    | x :: l' => let m := Nat.max current_max_len (snd x) in
                 if max_tokens <? m * (length chunk + 1) then (chunk, l) else inner m (chunk ++ [x]) l'
    end.
  (** Lines 54-66: the outer loop. [first] is sorted_length_col[begin], begin being where the previous chunk began. None: the loop does not end *)
  Fixpoint outer (fuel first : nat) (l : list (nat * nat)) : option (list (list nat)) :=
    match l, fuel with
    | [], _ => Some []
    | _, 0 => None
    | _, S fuel' => let (chunk, rest) := inner first [] l in
                    match rest with
                    | [] => Some [map fst chunk]
                    | _ => option_map (cons (map fst chunk)) (outer fuel' (match chunk ++ rest with x :: _ => snd x | [] => 0 end) rest)
                    end
    end.
  Variable argsort : list nat -> list nat.
  Definition compute_length_splits (fuel : nat) (length_col : list nat) (order_by_length drop_long_sample : bool) : option (list (list nat)) :=
    let argsort_ind := if order_by_length then argsort length_col else seq 0 (length length_col) in
    let sorted := map (fun i => (i, nth i length_col 0)) argsort_ind in
    let small := filter (fun x => snd x <=? max_tokens) sorted in
    let big := map fst (filter (fun x => negb (snd x <=? max_tokens)) sorted) in
    match outer fuel (match small with x :: _ => snd x | [] => 0 end) small with
    | None => None
    | Some splits => Some (splits ++ (if drop_long_sample then [] else map (fun i => [i]) big))
    end.
End Splits.

(** pyarrow: to_batches(max_chunksize): slices of each chunk; none of them is empty *)
Fixpoint slices {X} (fuel n : nat) (l : list X) : list (list X) :=
  match l, fuel with [], _ => [] | _, 0 => [] | _, S fuel' => firstn n l :: slices fuel' n (skipn n l) end.
Definition to_batches {X} (n : nat) (t : list (list X)) : list (list X) := flat_map (fun c => slices (length c) n c) t.

(** ** build_batching_loop_over_one_table, lines 111-193 *)
Inductive reducer := RMax | RMin | RSum.
Definition reduce_op (r : reducer) : nat -> nat -> nat := match r with RMax => Nat.max | RMin => Nat.min | RSum => Nat.add end.
Inductive outcome {X} := Batches (l : list X) | Error | Hang.
Arguments outcome : clear implicits.
Section Loop.
  Context {row : Type}.
  (** One function for each length column: compute_rows_length, lines 74-108 *)
  Variable length_columns : option (list (row -> nat)).
  Variables (order_by_length drop_long_sample shuffle : bool).
  Variables (batch_size max_tokens : option nat).
  Variable len_reducer : option reducer.
  Variables (argsort stable_argsort : list nat -> list nat).
  (** The random numbers drawn: randint of line 151, and the permutation of line 179 *)
  Variable randint permutation : nat -> list nat.
  (** Line 143-148: functools.reduce over the columns *)
  Definition row_length (c : row -> nat) (cs : list (row -> nat)) (r : row) : nat :=
    fold_left (reduce_op (match len_reducer with Some x => x | None => RSum end)) (map (fun f => f r) cs) (c r).
  Definition build_batching_loop (fuel : nat) (t : list (list row)) : outcome (list row) :=
    match batch_size, max_tokens with
    | None, None => Error
    | _, _ =>
      if (match max_tokens with Some _ => true | None => order_by_length end) && (match length_columns with None => true | Some _ => false end) then Error
      else
        let rows := concat t in
        let length_col := match length_columns with
                          | Some (c :: cs) => map (row_length c cs) rows
                          | _ => if shuffle then randint (length rows) else map (fun _ => 0) rows
                          end in
        let finish batches :=
          let batches := if shuffle then flat_map (fun i => match nth_error batches i with Some b => [b] | None => [] end) (permutation (length batches)) else batches in
          Batches (map (fun ind => flat_map (fun i => match nth_error rows i with Some r => [r] | None => [] end) ind) batches) in
        match batch_size, max_tokens with
        | Some n, _ => if negb order_by_length && negb shuffle then Batches (to_batches n t)
                       else finish (to_batches n [if order_by_length then stable_argsort length_col else seq 0 (length rows)])
        | None, Some m => match compute_length_splits m argsort fuel length_col order_by_length drop_long_sample with
                          | None => Hang
                          | Some batches => finish batches
                          end
        | None, None => Error
        end
    end.
End Loop.

(** ** TableBucketer.apply, builder.py 49-140: the tables of one bucket concatenated, and the rows shuffled (lines 98-108). [target_total_length], [batch_size]: whether set *)
Section Bucket.
  Context {row : Type}.
  Variables (do_concat_tables combine_chunks target_total_length batch_size shuffle : bool).
  (** shuffle_table, arrow_transform.py 109-125 *)
  Variable permutation : nat -> list nat.
  Definition shuffle_table (t : list (list row)) : list (list row) :=
    [flat_map (fun i => match nth_error (concat t) i with Some r => [r] | None => [] end) (permutation (length (concat t)))].
  Definition bucket_table (tables : list (list (list row))) : list (list row) :=
    let t := if do_concat_tables then (if combine_chunks then [concat (concat tables)] else concat tables) else concat tables (* one table *) in
    if target_total_length || batch_size && shuffle then shuffle_table t else t.
End Bucket.
