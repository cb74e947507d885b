(** Model of the collater: /repo/native/src/fairseq2n/data/collater.cc and collater.h.
    A tensor is its data type, its shape and its elements in row-major order. Tensors of different data types, and padded tensors whose other
    dimensions differ, are handed to PyTorch's rules for conversion and broadcasting, which are parameters here ([mixed_pad], [mixed_stack]). *)
From Coq Require Import List Bool Arith NArith ZArith Ascii Lia.
From Verif Require Import File_Model Sel_Model.
Import ListNotations.

Record tensor (V : Type) := Tn { dtype : nat; shape : list nat; elems : list V }.
Arguments Tn {V}. Arguments dtype {V}. Arguments shape {V}. Arguments elems {V}.
(** collate_options: collater.h. [pad_value]: maybe_pad_value. *)
Record options := Options { pad_value : option Z; pad_to_multiple : nat }.

(** static_cast<float64> of a std::int64_t: the nearest number of 53 bits, ties to even *)
Definition round_half_even (a b : Z) : Z :=
  let q := (a / b)%Z in let r := (a mod b)%Z in
  if (2 * r <? b)%Z then q else if (b <? 2 * r)%Z then (q + 1)%Z else if Z.even q then q else (q + 1)%Z.
Definition to_double (z : Z) : Z :=
  let a := Z.abs z in
  if (a <=? 2 ^ 53)%Z then z else let e := (2 ^ (Z.log2 a - 52))%Z in (Z.sgn z * (round_half_even a e * e))%Z.

Definition prod (l : list nat) : nat := fold_right Nat.mul 1 l.
Definition shape_dec : forall x y : list nat, {x = y} + {x <> y} := list_eq_dec Nat.eq_dec.

Section Collater.
  Context {A V : Type}.
  Local Notation data := (data A (tensor V)).
  (** The type of a value (data_type in data.h), and the values of the output *)
  Variable type_of : A -> nat.
  Variable of_bool : bool -> A.
  Variable of_int : nat -> A.
  (** A number as an element of a tensor *)
  Variable of_Z : nat -> Z -> V.
  Variable mixed_pad : list (tensor V) -> Z -> nat -> option data.
  Variable mixed_stack : list (tensor V) -> option data.

  (** pad_tensors: lines 293-347 *)
  Definition seq_len (t : tensor V) : nat := hd 0 (shape t).
  Fixpoint neighbours_differ (ns : list nat) : bool :=
    match ns with n :: (m :: _) as ns' => negb (m =? n) || neighbours_differ ns' | _ => false end.
  Definition str_is_ragged : str := ["i"; "s"; "_"; "r"; "a"; "g"; "g"; "e"; "d"]%char.
  Definition str_seqs : str := ["s"; "e"; "q"; "s"]%char.
  Definition str_seq_lens : str := ["s"; "e"; "q"; "_"; "l"; "e"; "n"; "s"]%char.
  Definition pad_tensors (ts : list (tensor V)) (z : Z) (m : nat) : option data :=
    match ts with
    | [] => None
    | t0 :: _ =>
        match shape t0 with
        | [] => None
        | _ :: trail =>
            if forallb (fun t => (dtype t =? dtype t0) && match shape t with _ :: trail' => if shape_dec trail' trail then true else false | [] => false end) ts then
              let longest := fold_right Nat.max 0 (map seq_len ts) in
              let tmp := map (fun t => elems t ++ repeat (of_Z (dtype t0) (to_double z)) ((longest - seq_len t) * prod trail)) ts in
              let (width, rows) :=
                if (1 <? m) && (0 <? longest mod m) then
                  let extra := m - longest mod m in (longest + extra, map (fun r => r ++ repeat (of_Z (dtype t0) z) (extra * prod trail)) tmp)
                else (longest, tmp) in
              let seq_lens := map seq_len ts in
              let is_ragged := neighbours_differ seq_lens in
              let is_ragged := if negb is_ragged && negb (hd 0 seq_lens =? width) then true else is_ragged in
              Some (Dict [(str_is_ragged, Atom (of_bool is_ragged));
                          (str_seqs, Tensor (Tn (dtype t0) (length ts :: width :: trail) (concat rows)));
                          (str_seq_lens, Items (map (fun n => Atom (of_int n)) seq_lens))])
            else if forallb (fun t => match shape t with [] => false | _ => true end) ts then mixed_pad ts z m
            else None
        end
    end.
  (** at::stack *)
  Definition stack (ts : list (tensor V)) : option data :=
    match ts with
    | [] => None
    | t0 :: _ =>
        if forallb (fun t => if shape_dec (shape t) (shape t0) then true else false) ts then
          if forallb (fun t => dtype t =? dtype t0) ts then Some (Tensor (Tn (dtype t0) (length ts :: shape t0) (concat (map elems ts)))) else mixed_stack ts
        else None
    end.

  Section Op.
    (** The options of the collater, its overrides in order (the paths of the selector with the options), and the bucket items but the first *)
    Variable opts : options.
    Variable overrides : list (list (list segment) * options).
    Variable rest : list data.
    (** get_options_for_current_path: lines 282-291 *)
    Definition get_options (path : list segment) : options :=
      match List.find (fun ov => matches (fst ov) path) overrides with Some ov => snd ov | None => opts end.
    (** get_current_element: lines 261-280. [None]: it raises *)
    Definition current (item : data) (path : list segment) : option data :=
      match visit_path item path with None => None | Some v => get item (fst (last v ([], []))) end.
    (** The tensors, and the other values of one type, that visit_bucket_items goes through: lines 239-259 *)
    Fixpoint tensors (items : list data) (path : list segment) : option (list (tensor V)) :=
      match items with
      | [] => Some []
      | b :: items' => match current b path with Some (Tensor t) => option_map (cons t) (tensors items' path) | _ => None end
      end.
    Fixpoint values (ty : nat) (items : list data) (path : list segment) : option (list data) :=
      match items with
      | [] => Some []
      | b :: items' => match current b path with Some (Atom a) => if type_of a =? ty then option_map (cons (Atom a)) (values ty items' path) else None | _ => None end
      end.
    (** collate_current_path and the overloads of collate: lines 85-237. [el]: the element of the first item at [path], handed down instead of being
        looked up again. *)
    Fixpoint collate (el : data) (path : list segment) : option data :=
      match el with
      | Items l =>
          if forallb (fun b => match current b path with Some (Items l') => length l' =? length l | _ => false end) rest then
            option_map Items ((fix each (i : N) (l : list data) : option (list data) :=
              match l with
              | [] => Some []
              | x :: l' => match collate x (path ++ [Index i]) with Some y => option_map (cons y) (each (N.succ i) l') | None => None end
              end) 0%N l)
          else None
      | Dict kv =>
          if forallb (fun b => match current b path with Some (Dict kv') => length kv' =? length kv | _ => false end) rest then
            option_map Dict ((fix each (kv : list (str * data)) : option (list (str * data)) :=
              match kv with
              | [] => Some []
              | (k, x) :: kv' => match collate x (path ++ [Key k]) with Some y => option_map (cons (k, y)) (each kv') | None => None end
              end) kv)
          else None
      | Tensor t =>
          match tensors rest path with
          | None => None
          | Some ts => match pad_value (get_options path) with Some z => pad_tensors (t :: ts) z (pad_to_multiple (get_options path)) | None => stack (t :: ts) end
          end
      | Atom a => option_map (fun l => Items (Atom a :: l)) (values (type_of a) rest path)
      end.
  End Op.

  (** The constructor: lines 349-360 *)
  Definition valid_options (o : options) : bool := negb ((1 <? pad_to_multiple o) && match pad_value o with None => true | _ => false end).
  Definition make (opts : options) (overrides : list (list (list segment) * options)) : option (options * list (list (list segment) * options)) :=
    if valid_options opts && forallb (fun ov => valid_options (snd ov)) overrides then Some (opts, overrides) else None.
  (** operator(): lines 362-375 *)
  Definition collater (c : options * list (list (list segment) * options)) (d : data) : option data :=
    let bucket := match d with Items l => l | _ => [d] end in
    match bucket with [] => None | b :: rest => collate (fst c) (snd c) rest b [] end.
End Collater.
