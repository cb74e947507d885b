(** What collating means, without paths into the items: the items have the same structure, and the output has it with what is at the same place put together *)
From Coq Require Import List Bool Arith NArith ZArith.
From Verif Require Import File_Model Sel_Model Sel_Spec Coll_Model.
Import ListNotations.

Section Collater.
  Context {A V : Type}.
  Local Notation data := (data A (tensor V)).
  Variable type_of : A -> nat.
  Variable of_bool : bool -> A.
  Variable of_int : nat -> A.
  Variable of_Z : nat -> Z -> V.
  (** The options in force at a place *)
  Variable opt : list segment -> options.

  (** The least number that is at least as large as all of [lens] and a multiple of [m]; 0 and 1 mean no constraint *)
  Definition width_of (lens : list nat) (m w : nat) : Prop :=
    (forall n, In n lens -> n <= w) /\ (1 < m -> Nat.divide m w) /\ forall w', (forall n, In n lens -> n <= w') -> (1 < m -> Nat.divide m w') -> w <= w'.
  (** One row per sequence: the sequence, then the pad value up to the width *)
  Definition padded (z : Z) (m : nat) (ts : list (tensor V)) (out : data) : Prop :=
    exists dt trail lens w rows (ragged : bool),
      Forall2 (fun t n => dtype t = dt /\ shape t = n :: trail) ts lens /\ width_of lens m w /\
      Forall2 (fun tn row => row = elems (fst tn) ++ repeat (of_Z dt z) ((w - snd tn) * fold_right Nat.mul 1 trail)) (combine ts lens) rows /\
      (ragged = false <-> forall n, In n lens -> n = w) /\
      out = Dict [(str_is_ragged, Atom (of_bool ragged)); (str_seqs, Tensor (Tn dt (length ts :: w :: trail) (concat rows))); (str_seq_lens, Items (map (fun n => Atom (of_int n)) lens))].
  Inductive Collated (path : list segment) : list data -> data -> Prop :=
  | Co_items ls outs :
      (forall l, In l ls -> length l = length outs) ->
      (forall i out col, nth_error outs i = Some out -> Forall2 (fun l x => nth_error l i = Some x) ls col -> Collated (path ++ [Index (N.of_nat i)]) col out) ->
      Collated path (map Items ls) (Items outs)
  | Co_dict kvs okv :
      (forall kv, In kv kvs -> forall k, In k (map fst kv) <-> In k (map fst okv)) -> map fst okv = map fst (hd [] kvs) ->
      (forall k out col, In (k, out) okv -> Forall2 (fun kv x => In (k, x) kv) kvs col -> Collated (path ++ [Key k]) col out) ->
      Collated path (map Dict kvs) (Dict okv)
  | Co_pad ts z out : pad_value (opt path) = Some z -> padded z (pad_to_multiple (opt path)) ts out -> Collated path (map Tensor ts) out
  | Co_stack ts dt sh : pad_value (opt path) = None -> (forall t, In t ts -> dtype t = dt /\ shape t = sh) ->
      Collated path (map Tensor ts) (Tensor (Tn dt (length ts :: sh) (concat (map elems ts))))
  | Co_values vs : (forall a b, In a vs -> In b vs -> type_of a = type_of b) -> Collated path (map Atom vs) (Items (map Atom vs)).

  (** Two tensors at the same place have the same data type and, if they are padded, the same dimensions but the first *)
  Definition alike (items : list data) : Prop :=
    forall b b' p t t', In b items -> In b' items -> at_place b p (Tensor t) -> at_place b' p (Tensor t') ->
      dtype t = dtype t' /\ (pad_value (opt p) <> None -> shape t <> [] -> shape t' <> [] -> tl (shape t) = tl (shape t')).
  (** No list has 2^64-1 items or more. *)
  Definition short (d : data) : Prop := forall p l, at_place d p (Items l) -> (N.of_nat (length l) < 2 ^ 64 - 1)%N.
  (** Pad values a floating point number of 64 bits can hold *)
  Definition exact_pads : Prop := forall p z, pad_value (opt p) = Some z -> (Z.abs z <= 2 ^ 53)%Z.
End Collater.
(** The options for a place: those of the first override that speaks of it, or else those of the collater *)
Definition options_at (opts : options) (overrides : list (list (list segment) * options)) (path : list segment) (o : options) : Prop :=
  let speaks ov := exists p, In p (fst ov) /\ Forall2 stands_for p path in
  (exists before ov after, overrides = before ++ ov :: after /\ speaks ov /\ snd ov = o /\ forall ov', In ov' before -> ~ speaks ov') \/
  ((forall ov, In ov overrides -> ~ speaks ov) /\ o = opts).
