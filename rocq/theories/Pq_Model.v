(** Model of streaming Parquet fragments: /repo/src/fairseq2/data/parquet/fragment_streaming/primitives.py (line numbers without a file refer to it), builder.py in
    the same directory, and /repo/src/fairseq2/data/parquet/utils.py. Files and fragments are abstract, [rows] is what splitting a file into its row
    groups gives. Random permutations are functions of the seed or of the state of the generator. *)
From Coq Require Import List Bool Arith.
From Verif Require Import Pq_Spec.
Import ListNotations.

(** circular_shift_left: data/parquet/utils.py 32-37 *)
Definition circular_shift_left {X} (l : list X) (k : nat) : list X := if length l <=? 1 then l else let k := k mod length l in skipn k l ++ firstn k l.

Section Stream.
  Context {file frag rng : Type}.
  Variable rows : file -> list frag.
  Variable whole : file -> frag.
  Variables (split_to_row_groups shuffle : bool).
  (** [rand_files r l]: RandomState(r).shuffle(l). RandomState(None) takes its seed from the system: [entropy k] the k-th time. *)
  Variable rand_files : nat -> list file -> list file.
  Variable entropy : nat -> nat.
  (** get_fragments, lines 82-94, and the limits of lines 344-368: [fraction] is max(int(round(f * n)), 1) as a function of the number of files *)
  Variable fragments : list file.
  Variable fraction : option (nat -> nat).
  Variable nb_files : option nat.
  Definition truncate_files : list file :=
    let l := match fraction with Some f => firstn (f (length fragments)) fragments | None => fragments end in
    match nb_files with Some n => if n <? length l then firstn n l else l | None => l end.
  (** Lines 385-393: int(relative_files_circular_shift * n) as a function of the number of files; None: no shift *)
  Variable shift : option (nat -> nat).

  (** PFSState, lines 295-298, and the attribute seed *)
  Record pfs := Pfs { nb_fully : nat; nb_cur : nat; p_seed : option nat }.
  (** reset_state, lines 326-329 *)
  Definition reset_state (b : pfs) (seed : option nat) : pfs := Pfs 0 0 (match seed with Some s => Some s | None => p_seed b end).
  (** A generator that __iter__ returned, suspended: what is left of the current file, if it has begun one, and the files after it *)
  Record gen := Gen { g_cur : option (list frag); g_files : list file }.
  (** __iter__ up to its loops, lines 370-409. The limits nb_fragments and nb_rows, which raise, are not modelled here. Second argument and result: number of
      seeds taken from the system *)
  Definition ordered (b : pfs) (ent : nat) : list file * nat :=
    let l := truncate_files in
    let (l, ent) := if shuffle then match p_seed b with Some s => (rand_files s l, ent) | None => (rand_files (entropy ent) l, S ent) end else (l, ent) in
    (match shift with Some k => circular_shift_left l (k (length l)) | None => l end, ent).
  Definition iter (b : pfs) (ent : nat) : gen * nat := let (l, ent) := ordered b ent in (Gen None (skipn (nb_fully b) l), ent).
  (** Lines 411-424: to the next element, or to the end *)
  Inductive pulled := Elem (x : frag) (b : pfs) (g : gen) | Done (b : pfs).
  Fixpoint pull_files (l : list file) (b : pfs) : pulled :=
    match l with
    | [] => Done b
    | f :: l' => match skipn (nb_cur b) (rows f) with
                 | x :: r => Elem x (Pfs (nb_fully b) (S (nb_cur b)) (p_seed b)) (Gen (Some r) l')
                 | [] => pull_files l' (Pfs (S (nb_fully b)) 0 (p_seed b))
                 end
    end.
  Definition pull (g : gen) (b : pfs) : pulled :=
    if split_to_row_groups then
      match g_cur g with
      | Some (x :: r) => Elem x (Pfs (nb_fully b) (S (nb_cur b)) (p_seed b)) (Gen (Some r) (g_files g))
      | Some [] => pull_files (g_files g) (Pfs (S (nb_fully b)) 0 (p_seed b))
      | None => pull_files (g_files g) b
      end
    else match g_files g with
         | [] => Done b
         | f :: l' => Elem (whole f) (Pfs (S (nb_fully b)) (nb_cur b) (p_seed b)) (Gen None l')
         end.

  (** ShuffledIterator, lines 427-521 *)
  Variable window_size : nat.
  Variable nb_epoch : option nat.
  Variable seed : option nat.
  (** numpy.random.RandomState: its state after seeding, and shuffle *)
  Variable seeded : nat -> rng.
  Variable shuffle_window : rng -> list frag -> rng * list frag.
  (** [win_it]: the attribute window_iterator: None, or the suspended repeat_iterator: before its loop, or in it *)
  Record sit := Sit { base : pfs; epoch : nat; window : list frag; index : nat; random_state : rng; ent : nat; win_it : option (option gen) }.
  Definition new_random (e : nat) : rng * nat := match seed with Some s => (seeded s, e) | None => (seeded (entropy e), S e) end.
  Definition init : sit := let (r, e) := new_random 0 in Sit (Pfs 0 0 seed) 0 [] 0 r e None.
  (** Pickling and unpickling, lines 459-470 and 331-343: the suspended generators are lost *)
  Definition pickle (i : sit) : sit := Sit (base i) (epoch i) (window i) (index i) (random_state i) (ent i) None.
  (** reset_state and _reset_inner, lines 454-457, 472-476 *)
  Definition reset (i : sit) : sit := let (r, e) := new_random (ent i) in Sit (reset_state (base i) seed) 0 [] 0 r e None.
  (** repeat_iterator, lines 481-492, to its next element. [rg]: where it is suspended; [was_reset]: _reset_inner has been called meanwhile. *)
  Inductive step := Yield (x : frag) (i : sit) (rg : option gen) (was_reset : bool) | Stop (i : sit) (was_reset : bool) | Diverge.
  Definition more (e : nat) : bool := match nb_epoch with None => true | Some n => e <? n end.
  Fixpoint rep_next (fuel : nat) (i : sit) (rg : option gen) (was_reset : bool) : step :=
    match fuel with
    | 0 => Diverge
    | S fuel' =>
      match rg with
      | None => if more (epoch i) then let (g, e) := iter (base i) (ent i) in rep_next fuel' (Sit (base i) (epoch i) (window i) (index i) (random_state i) e (win_it i)) (Some g) was_reset
                else Stop i was_reset
      | Some g => match pull g (base i) with
                  | Elem x b g' => Yield x (Sit b (epoch i) (window i) (index i) (random_state i) (ent i) (win_it i)) (Some g') was_reset
                  | Done b => let e := S (epoch i) in
                              rep_next fuel' (Sit (reset_state b (match seed with Some s => Some (s + e) | None => None end)) e [] 0 (random_state i) (ent i) None) None true
                  end
      end
    end.
  (** batched, lines 33-43: up to n elements *)
  Inductive batch := Batch (l : list frag) (i : sit) (rg : option gen) (was_reset : bool) | BDiverge.
  Fixpoint collect (fuel n : nat) (i : sit) (rg : option gen) (was_reset : bool) : batch :=
    match n with
    | 0 => Batch [] i rg was_reset
    | S n' => match rep_next fuel i rg was_reset with
              | Yield x i' rg' w' => match collect fuel n' i' rg' w' with Batch l i'' rg'' w'' => Batch (x :: l) i'' rg'' w'' | BDiverge => BDiverge end
              | Stop i' w' => Batch [] i' None w'
              | Diverge => BDiverge
              end
    end.
  (** __next__, lines 494-509 *)
  Inductive result := Next (x : frag) (i : sit) | End (i : sit) | Hang.
  Definition at_index (i : sit) : result :=
    match nth_error (window i) (index i) with
    | Some x => Next x (Sit (base i) (epoch i) (window i) (S (index i)) (random_state i) (ent i) (win_it i))
    | None => End i (* the window is not empty *)
    end.
  Definition next (fuel : nat) (i : sit) : result :=
    let rg := match win_it i with None => None | Some rg => rg end in
    let i := Sit (base i) (epoch i) (window i) (index i) (random_state i) (ent i) (Some rg) in
    if length (window i) <=? index i then
      match collect fuel window_size i rg false with
      | BDiverge => Hang
      | Batch l i' rg' was_reset =>
          let wi := if was_reset then None else Some rg' in
          match l with
          | [] => End (Sit (base i') (epoch i') (window i') (index i') (random_state i') (ent i') wi)
          | _ => let (r, w) := shuffle_window (random_state i') l in at_index (Sit (base i') (epoch i') w 0 r (ent i') wi)
          end
      end
    else at_index i.
  (** Not in the code: what a user of the iterator gets in a history; None: a call does not return *)
  Fixpoint outputs (fuel : nat) (h : list op) (i : sit) : option (list frag) :=
    match h with
    | [] => Some []
    | Save :: h' => outputs fuel h' (pickle i)
    | Call :: h' => match next fuel i with Next x i' => option_map (cons x) (outputs fuel h' i') | End i' => outputs fuel h' i' | Hang => None end
    end.
End Stream.

(** list_parquet_fragments, lines 181-292, after the limits on files. Simplified: files are opened in batches of 20 * nb_jobs; that only bounds the work done ahead. *)
Section Listed.
  Context {file frag rng : Type}.
  Variable rows : file -> list frag.
  Variable whole : file -> frag.
  Variable split_to_row_groups : bool.
  Variable n_rows : frag -> nat.
  Variables (nb_fragments nb_rows : option nat).
  Definition reached (limit : option nat) (n : nat) : bool := match limit with Some k => k <=? n | None => false end.
  (** Lines 239-270 *)
  Fixpoint limited (l : list frag) (total_nb_rows total_nb_fragments : nat) : list frag :=
    match l with
    | [] => []
    | x :: l' => x :: (if reached nb_fragments (S total_nb_fragments) then [] else if reached nb_rows (total_nb_rows + n_rows x) then [] else limited l' (total_nb_rows + n_rows x) (S total_nb_fragments))
    end.
  (** Lines 274-279 *)
  Fixpoint limited_rows (l : list frag) (total_nb_rows : nat) : list frag :=
    match l with [] => [] | x :: l' => x :: (if reached nb_rows (total_nb_rows + n_rows x) then [] else limited_rows l' (total_nb_rows + n_rows x)) end.
  Definition list_fragments (files : list file) : list frag :=
    if split_to_row_groups then limited (flat_map rows files) 0 0
    else limited_rows (match nb_fragments with Some n => firstn n (map whole files) | None => map whole files end) 0.
  (** _parquet_fragments_to_pipeline_builder, lines 145-178: the sequence that is read, and whether it is repeated for ever. None: numpy.concatenate raises. *)
  Variable permutation : rng -> list frag -> rng * list frag.
  Fixpoint permutations (n : nat) (r : rng) (l : list frag) : list frag := match n with 0 => [] | S n' => let (r', p) := permutation r l in p ++ permutations n' r' l end.
  Definition schedule (nb_epochs : option nat) (shuffle : bool) (r : rng) (l : list frag) : option (list frag * bool) :=
    let n := match nb_epochs with Some n => n | None => 100 end in
    let again := match nb_epochs with Some _ => false | None => true end in
    if shuffle then (if n =? 0 then None else Some (permutations n r l, again)) else Some (concat (repeat l n), again).
End Listed.

(** build_pipeline, builder.py 62-129: the part of the stream of fragments that a rank keeps. The shards of the data pipeline: every world_size-th element. *)
Definition rank_part {frag} (files_circular_shift : bool) (stable_hash : frag -> nat) (rank world_size : nat) (l : list frag) : list frag :=
  if files_circular_shift then filter (fun x => stable_hash x mod world_size =? rank) l
  else map snd (filter (fun p => fst p mod world_size =? rank) (combine (seq 0 (length l)) l)).
