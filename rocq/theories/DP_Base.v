(** Values, tape and data sources of the native data pipeline: shared model.

    Source: /repo/native/src/fairseq2n/data (abbreviated "data/" below).
    This file contains definitions only. *)

From Coq Require Import QArith.
From Coq Require Export ZArith String Bool Arith List.
Export ListNotations.
Global Open Scope nat_scope.
Global Open Scope list_scope.

(** ** Values

    data/data.h:367 (the variant behind [data]).
    Simplifications: a float is a rational number, [None] for NaN (no rounding, no infinities); a tensor is the list of its elements (one-dimensional);
    memory blocks and Python objects are opaque identifiers; a dict is an association list with distinct keys. *)
Inductive data : Type :=
| DBool (b : bool)
| DInt (z : Z)
| DFloat (f : option Q)
| DStr (s : string)
| DTensor (t : list Z)
| DList (l : list data)
| DDict (d : list (string * data))
| DPy (id : Z).

(** ** Tape

    data/tape.h:71 (the storage of the tape); writing appends, reading consumes from the front. *)
Definition tape := list data.

(** Result of reading: the value and the rest of the tape; [None] is the exception of [throw_corrupt]
    (data/tape.h:75-80). *)
Definition reader (A : Type) := tape -> option (A * tape).

(** data/tape.cc:28-35 [read_data]. *)
Definition rd_data : reader data :=
  fun t => match t with [] => None | d :: r => Some (d, r) end.

(** data/tape-inl.h:95-97 [read<bool>]. *)
Definition rd_bool : reader bool :=
  fun t => match t with DBool b :: r => Some (b, r) | _ => None end.

(** data/tape-inl.h:98-101 [read<std::int64_t>], [read<std::ptrdiff_t>]: both are the same 64-bit type, so nothing is
    narrowed. *)
Definition rd_int : reader Z :=
  fun t => match t with DInt z :: r => Some (z, r) | _ => None end.

(** data/tape-inl.h:98-101 [read<std::size_t>] with utils/cast.h:44-60: a negative value is rejected. *)
Definition rd_size : reader nat :=
  fun t => match t with
           | DInt z :: r => if (0 <=? z)%Z then Some (Z.to_nat z, r) else None
           | _ => None
           end.

(** data/tape-inl.h:98-101 [read<std::uint64_t>], same rule, result kept in [Z]. *)
Definition rd_u64 : reader Z :=
  fun t => match t with
           | DInt z :: r => if (0 <=? z)%Z then Some (z, r) else None
           | _ => None
           end.

(** data/tape-inl.h:109-111 [read<at::Tensor>]. *)
Definition rd_tensor : reader (list Z) :=
  fun t => match t with DTensor v :: r => Some (v, r) | _ => None end.

(** data/tape-inl.h:102-105 [read<float32>] with utils/cast.h:44-60: narrowing compares the value with itself, so NaN is
    rejected. *)
Definition rd_float : reader Q :=
  fun t => match t with DFloat (Some q) :: r => Some (q, r) | _ => None end.

(** data/tape-inl.h:115-117 [read<data_list>]. *)
Definition rd_list : reader (list data) :=
  fun t => match t with DList l :: r => Some (l, r) | _ => None end.

(** data/tape-inl.h:139-145 [read<std::optional<T>>]. *)
Definition rd_opt {A} (rd : reader A) : reader (option A) :=
  fun t => match t with
           | DBool true :: r => match rd r with Some (a, r') => Some (Some a, r') | None => None end
           | DBool false :: r => Some (None, r)
           | _ => None
           end.

(** data/tape-inl.h:124-138 [read<std::vector<T>>] for [T] other than [data]: size, then the elements. *)
Fixpoint rd_n {A} (rd : reader A) (n : nat) : reader (list A) :=
  fun t => match n with
           | O => Some ([], t)
           | S n' => match rd t with
                     | None => None
                     | Some (a, r) => match rd_n rd n' r with
                                      | None => None
                                      | Some (l, r') => Some (a :: l, r')
                                      end
                     end
           end.

Definition rd_vec {A} (rd : reader A) : reader (list A) :=
  fun t => match rd_size t with
           | None => None
           | Some (n, r) => rd_n rd n r
           end.

(** data/tape-inl.h:37-59 [record]: booleans as booleans; integers as 64-bit signed integers.
    Sizes are natural numbers here; they are assumed below 2^63 (a container cannot be larger). *)
Definition wr_data (d : data) : tape := [d].
Definition wr_bool (b : bool) : tape := [DBool b].
Definition wr_int (z : Z) : tape := [DInt z].
Definition wr_size (n : nat) : tape := [DInt (Z.of_nat n)].
Definition wr_tensor (v : list Z) : tape := [DTensor v].
Definition wr_float (q : option Q) : tape := [DFloat q].

(** data/tape-inl.h:46-47 for an unsigned 64-bit value: [static_cast<std::int64_t>], i.e. values from 2^63 on become
    negative. *)
Definition to_int64 (z : Z) : Z := ((z + 2 ^ 63) mod 2 ^ 64 - 2 ^ 63)%Z.
Definition wr_u64 (z : Z) : tape := [DInt (to_int64 z)].

(** data/tape-inl.h:65-66: a vector of [data] is a single list value. *)
Definition wr_list (l : list data) : tape := [DList l].

(** data/tape-inl.h:75-85. *)
Definition wr_opt {A} (wr : A -> tape) (o : option A) : tape :=
  match o with Some a => DBool true :: wr a | None => [DBool false] end.

(** data/tape-inl.h:67-72. *)
Definition wr_vec {A} (wr : A -> tape) (l : list A) : tape :=
  wr_size (length l) ++ flat_map wr l.

(** ** Outcomes of [next]

    [Val] and [Eod] are the two cases of the returned [std::optional<data>]; [Err] is a thrown exception:
    [Recoverable] is a [data_pipeline_error] with [recoverable() = true], [Fatal] any other exception
    (data/data_pipeline.h:207-247, data/data_pipeline.cc:59-80). *)
Inductive err := Recoverable | Fatal.
Inductive out := Val (d : data) | Eod | Err (e : err).

(** data/data_source.h:17. *)
Inductive finitude := Finite | PseudoInfinite | Infinite.

(** ** Data sources

    data/data_source.h:19-46, the abstract interface. [St] is the type of the object's mutable state; static
    configuration lives in the functions. [next] takes fuel: [None] means that the fuel did not suffice (the call may not
    return); otherwise the outcome and the new state are returned. [record_pos]/[reload_pos] return [None] when they throw.
    [init] is the state after construction. *)
Record source : Type := Source {
  St : Type;
  init : St;
  next : nat -> St -> option (out * St);
  reset : bool -> St -> St;
  record_pos : bool -> St -> option tape;
  reload_pos : bool -> St -> tape -> option (St * tape);
  finitude_type : St -> finitude
}.

(** ** Collections of sources ([std::vector<data_pipeline>])

    The state of a vector of pipelines is the tuple of their states. *)
Fixpoint hst (l : list source) : Type :=
  match l with [] => unit | X :: r => (St X * hst r)%type end.

Fixpoint hinit (l : list source) : hst l :=
  match l with [] => tt | X :: r => (init X, hinit r) end.

(** [pipelines_[i].next()]; an index out of range is undefined behaviour in C++ and a [Fatal] error here. *)
Fixpoint hnext (l : list source) (i n : nat) : hst l -> option (out * hst l) :=
  match l return hst l -> option (out * hst l) with
  | [] => fun s => Some (Err Fatal, s)
  | X :: r => fun s =>
      match i with
      | O => match next X n (fst s) with
             | None => None
             | Some (o, s') => Some (o, (s', snd s))
             end
      | S i' => match hnext r i' n (snd s) with
                | None => None
                | Some (o, s') => Some (o, (fst s, s'))
                end
      end
  end.

(** [pipelines_[i].reset(...)]. *)
Fixpoint hreset1 (l : list source) (i : nat) (rng : bool) : hst l -> hst l :=
  match l return hst l -> hst l with
  | [] => fun s => s
  | X :: r => fun s =>
      match i with
      | O => (reset X rng (fst s), snd s)
      | S i' => (fst s, hreset1 r i' rng (snd s))
      end
  end.

(** [for (data_pipeline &pipeline : pipelines_) pipeline.reset(reset_rng);] *)
Fixpoint hreset (l : list source) (rng : bool) : hst l -> hst l :=
  match l return hst l -> hst l with
  | [] => fun s => s
  | X :: r => fun s => (reset X rng (fst s), hreset r rng (snd s))
  end.

(** [for (const data_pipeline &pipeline : pipelines_) pipeline.record_position(t, strict);] *)
Fixpoint hrecord (l : list source) (strict : bool) : hst l -> option tape :=
  match l return hst l -> option tape with
  | [] => fun _ => Some []
  | X :: r => fun s =>
      match record_pos X strict (fst s) with
      | None => None
      | Some t => match hrecord r strict (snd s) with
                  | None => None
                  | Some t' => Some (t ++ t')
                  end
      end
  end.

(** [for (data_pipeline &pipeline : pipelines_) pipeline.reload_position(t);] *)
Fixpoint hreload (l : list source) (strict : bool) : hst l -> tape -> option (hst l * tape) :=
  match l return hst l -> tape -> option (hst l * tape) with
  | [] => fun s t => Some (s, t)
  | X :: r => fun s t =>
      match reload_pos X strict (fst s) t with
      | None => None
      | Some (s', t') => match hreload r strict (snd s) t' with
                         | None => None
                         | Some (s'', t'') => Some ((s', s''), t'')
                         end
      end
  end.

(** [pipelines_[i].finitude_type()]. *)
Fixpoint hfin (l : list source) (i : nat) : hst l -> finitude :=
  match l return hst l -> finitude with
  | [] => fun _ => Finite
  | X :: r => fun s => match i with O => finitude_type X (fst s) | S i' => hfin r i' (snd s) end
  end.

Fixpoint hfins (l : list source) : hst l -> list finitude :=
  match l return hst l -> list finitude with
  | [] => fun _ => []
  | X :: r => fun s => finitude_type X (fst s) :: hfins r (snd s)
  end.

(** [std::max_element] over the finitude types, e.g. data/concat_data_source.cc:16-25;
    the order is that of the enum (data/data_source.h:17). *)
Definition fin_max (a b : finitude) : finitude :=
  match a, b with
  | Infinite, _ | _, Infinite => Infinite
  | PseudoInfinite, _ | _, PseudoInfinite => PseudoInfinite
  | Finite, Finite => Finite
  end.

Definition fins_max (l : list finitude) : finitude := fold_right fin_max Finite l.

Definition fin_eqb (a b : finitude) : bool :=
  match a, b with
  | Finite, Finite | PseudoInfinite, PseudoInfinite | Infinite, Infinite => true
  | _, _ => false
  end.
