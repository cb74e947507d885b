(** Model of batch layouts and sequence batches.
    /repo/src/fairseq2/nn/batch_layout.py, /repo/src/fairseq2/datasets/batch.py *)
From Coq Require Import ZArith List Bool Arith Lia.
Import ListNotations.
Local Open Scope Z_scope.

(** The [ValueError]s of both constructors, in the order of their messages, and the [InvalidOperationError] of
    [as_auto_regressive]; an index is kept where the message names one. *)
Inductive error :=
| WrongDim                 (* batch_layout.py 44-47, 97-100; batch.py 51-54, 85-88 *)
| WidthTooSmall            (* batch_layout.py 51-52, 104-105; batch.py 58-59, 92-93 *)
| LenTooSmall (idx : nat)  (* batch_layout.py 71-74, 132-135; batch.py 67-70, 108-111 *)
| LenTooLarge (idx : nat)  (* batch_layout.py 137-140; batch.py 113-116 *)
| SumTooLarge              (* batch_layout.py 78-81; batch.py 74-77 *)
| LensMismatch             (* batch_layout.py 110-113; batch.py 98-101 *)
| EmptyLens                (* batch.py 46-47 *)
| MaskShape                (* batch.py 128-151 *)
| CannotTrim (idx : nat).  (* batch.py 167-172, 180-185 *)

Inductive result (A : Type) := Ok (a : A) | Err (e : error).
Arguments Ok {A} _. Arguments Err {A} _.

(** ** Tensor primitives *)
(** torch.arange(n): batch_layout.py 61, 121 *)
Definition arange (n : Z) : list Z := map Z.of_nat (seq 0 (Z.to_nat n)).
(** t[beg:end] -= v for 0 <= beg <= end: batch_layout.py 87 *)
Definition sub_slice (b e v : Z) (t : list Z) : list Z :=
  firstn (Z.to_nat b) t ++ map (fun x => x - v) (firstn (Z.to_nat e - Z.to_nat b) (skipn (Z.to_nat b) t)) ++ skipn (Z.to_nat e) t.
(** t[beg:] = v for 0 <= beg: batch_layout.py 94, 147 *)
Definition fill_from (b v : Z) (t : list Z) : list Z := firstn (Z.to_nat b) t ++ map (fun _ => v) (skipn (Z.to_nat b) t).
(** list(range(0, n * w + 1, w)) for 0 <= n, 1 <= w: batch_layout.py 115-117 *)
Definition range_begin (n w : Z) : list Z := map (fun i => Z.of_nat i * w) (seq 0 (Datatypes.S (Z.to_nat n))).

(** ** BatchLayout: batch_layout.py 20-30. A packed layout has a one-dimensional position tensor, kept as its only row. The
    device and the int32 copies of the two integer lists (153-157) are left out. *)
Record layout := Layout { width : Z; seq_begin : list Z; seq_lens : list Z; positions : list (list Z);
                          min_len : Z; max_len : Z; padded : bool; packed : bool }.

(** batch_layout.py 70-92, the loop body for one packed sequence; the loop variables are
    (seq_begin_indices, seq_lens, position_indices, min, max, seq_beg, seq_end). *)
Record pk := Pk { p_begin : list Z; p_lens : list Z; p_pos : list Z; p_min : Z; p_max : Z; p_beg : Z; p_end : Z }.
Fixpoint packed_loop (w : Z) (idx : nat) (lens : list Z) (s : pk) : result pk :=
  match lens with
  | [] => Ok s
  | n :: lens' =>
      if n <? 1 then Err (LenTooSmall idx)
      else let e := p_beg s + n in
           if w <? e then Err SumTooLarge
           else packed_loop w (Datatypes.S idx) lens'
                  (Pk (p_begin s ++ [e]) (p_lens s ++ [n]) (sub_slice (p_beg s) e (p_beg s) (p_pos s)) (Z.min (p_min s) n) (Z.max (p_max s) n) e e)
  end.

(** batch_layout.py 131-150, the loop for one padded row at a time. *)
Record pd := Pd { d_lens : list Z; d_padded : bool; d_pos : list (list Z); d_min : Z; d_max : Z }.
Fixpoint upd {A} (i : nat) (f : A -> A) (l : list A) : list A :=
  match l, i with [], _ => [] | x :: l', O => f x :: l' | x :: l', Datatypes.S j => x :: upd j f l' end.
Fixpoint padded_loop (w : Z) (idx : nat) (lens : list Z) (s : pd) : result pd :=
  match lens with
  | [] => Ok s
  | n :: lens' =>
      if n <? 1 then Err (LenTooSmall idx)
      else if w <? n then Err (LenTooLarge idx)
      else padded_loop w (Datatypes.S idx) lens'
             (Pd (d_lens s ++ [n]) (if n <? w then true else d_padded s) (upd idx (fill_from n (-1)) (d_pos s)) (Z.min (d_min s) n) (Z.max (d_max s) n))
  end.

(** batch_layout.py 32-151 *)
Definition batch_layout (shape : list Z) (lens : option (list Z)) (is_packed : bool) : result layout :=
  if is_packed then
    match shape with
    | [w] =>
        if w <? 1 then Err WidthTooSmall
        else let lens := match lens with Some l => l | None => [w] end in
             match packed_loop w 0 lens (Pk [0] [] (arange w) w 0 0 0) with
             | Err e => Err e
             | Ok s => Ok (Layout w (p_begin s) (p_lens s) [fill_from (p_end s) (-1) (p_pos s)] (p_min s) (p_max s) (p_end s <? w) true)
             end
    | _ => Err WrongDim
    end
  else
    match shape with
    | [n; w] =>
        if w <? 1 then Err WidthTooSmall
        else let lens := match lens with Some l => l | None => repeat w (Z.to_nat n) end in
             if negb (Z.of_nat (length lens) =? n) then Err LensMismatch
             else match padded_loop w 0 lens (Pd [] false (repeat (arange w) (Z.to_nat n)) w 0) with
                  | Err e => Err e
                  | Ok s => Ok (Layout w (range_begin n w) (d_lens s) (d_pos s) (d_min s) (d_max s) (d_padded s) false)
                  end
    | _ => Err WrongDim
    end.

(** ** SequenceBatch *)
(** A tensor seen through its first two dimensions; [A] stands for an element or for whatever lies below them. The second
    dimension of [T2] is kept apart because there may be no row. *)
Inductive tensor (A : Type) := T0 (x : A) | T1 (v : list A) | T2 (w : nat) (rows : list (list A)).
Arguments T0 {A} _. Arguments T1 {A} _. Arguments T2 {A} _ _.
Definition ndim {A} (t : tensor A) : nat := match t with T0 _ => 0 | T1 _ => 1 | T2 _ _ => 2 end.
Definition shape {A} (t : tensor A) : list Z :=
  match t with T0 _ => [] | T1 v => [Z.of_nat (length v)] | T2 w rows => [Z.of_nat (length rows); Z.of_nat w] end.
(** t[:-1], t[1:], t[:, :-1], t[:, 1:]: batch.py 163, 177, 193, 198, 200, 205 *)
Definition drop_last {A} (t : tensor A) : tensor A :=
  match t with T0 x => T0 x | T1 v => T1 (removelast v) | T2 w rows => T2 w (removelast rows) end.
Definition drop_first {A} (t : tensor A) : tensor A :=
  match t with T0 x => T0 x | T1 v => T1 (tl v) | T2 w rows => T2 w (tl rows) end.
Definition drop_last_col {A} (t : tensor A) : tensor A :=
  match t with T2 w rows => T2 (w - 1) (map (@removelast A) rows) | t => t end.
Definition drop_first_col {A} (t : tensor A) : tensor A :=
  match t with T2 w rows => T2 (w - 1) (map (@tl A) rows) | t => t end.
(** target_mask.sum(): batch.py 158 *)
Definition count (l : list bool) : Z := Z.of_nat (length (filter (fun b => b) l)).
Definition mask_sum (t : tensor bool) : Z := match t with T0 b => if b then 1 else 0 | T1 v => count v | T2 _ rows => count (concat rows) end.

(** batch.py 21-31; [example] is left out. *)
Record batch (A : Type) := Batch { seqs : tensor A; lens : list Z; is_packed : bool; mask : option (tensor bool);
                                   batch_size : Z; num_examples : Z; num_elements : Z; num_targets : Z; padding : Z }.
Arguments Batch {A} _ _ _ _ _ _ _ _ _.
Arguments seqs {A} _. Arguments lens {A} _. Arguments is_packed {A} _. Arguments mask {A} _. Arguments batch_size {A} _.
Arguments num_examples {A} _. Arguments num_elements {A} _. Arguments num_targets {A} _. Arguments padding {A} _.

(** batch.py 66-72 *)
Fixpoint sum_packed (idx : nat) (l : list Z) (acc : Z) : result Z :=
  match l with [] => Ok acc | n :: l' => if n <? 1 then Err (LenTooSmall idx) else sum_packed (Datatypes.S idx) l' (acc + n) end.
(** batch.py 107-120 *)
Fixpoint sum_padded (w : Z) (idx : nat) (l : list Z) (acc pad : Z) : result (Z * Z) :=
  match l with
  | [] => Ok (acc, pad)
  | n :: l' => if n <? 1 then Err (LenTooSmall idx) else if w <? n then Err (LenTooLarge idx)
               else sum_padded w (Datatypes.S idx) l' (acc + n) (pad + (w - n))
  end.
Definition list_eqb (a b : list Z) : bool := if list_eq_dec Z.eq_dec a b then true else false.
(** batch.py 128-151: the mask has one dimension (two) and the shape seqs.shape[:1] ([:2]). *)
Definition mask_ok {A} (p : bool) (t : tensor A) (m : tensor bool) : bool :=
  if p then Nat.eqb (ndim m) 1 && list_eqb (shape m) (firstn 1 (shape t)) else Nat.eqb (ndim m) 2 && list_eqb (shape m) (firstn 2 (shape t)).

(** batch.py 49-82: (seq_lens, batch_size, num_examples, num_elements, padding) of a packed batch. *)
Definition packed_dims {A} (t : tensor A) (ls : option (list Z)) : result (list Z * Z * Z * Z * Z) :=
  match shape t with
  | [] => Err WrongDim
  | w :: _ =>
      if w =? 0 then Err WidthTooSmall
      else let l := match ls with Some l => l | None => [w] end in
           match sum_packed 0 l 0 with
           | Err e => Err e
           | Ok n => if w <? n then Err SumTooLarge else Ok (l, 1, Z.of_nat (length l), n, w - n)
           end
  end.
(** batch.py 84-127: the same of a padded batch. *)
Definition padded_dims {A} (t : tensor A) (ls : option (list Z)) : result (list Z * Z * Z * Z * Z) :=
  match shape t with
  | n :: w :: _ =>
      if w =? 0 then Err WidthTooSmall
      else let l := match ls with Some l => l | None => repeat w (Z.to_nat n) end in
           if negb (Z.of_nat (length l) =? n) then Err LensMismatch
           else match sum_padded w 0 l 0 0 with Err e => Err e | Ok (nel, pad) => Ok (l, n, n, nel, pad) end
  | _ => Err WrongDim
  end.
(** batch.py 33-158 *)
Definition sequence_batch {A} (t : tensor A) (ls : option (list Z)) (p : bool) (m : option (tensor bool)) : result (batch A) :=
  match ls with
  | Some [] => Err EmptyLens
  | _ =>
      match (if p then packed_dims t ls else padded_dims t ls) with
      | Err e => Err e
      | Ok (l, bs, ne, nel, pad) =>
          match m with
          | None => Ok (Batch t l p m bs ne nel nel pad)
          | Some k => if mask_ok p t k then Ok (Batch t l p m bs ne nel (mask_sum k) pad) else Err MaskShape
          end
      end
  end.

(** batch.py 179-187 *)
Fixpoint trim_all (idx : nat) (l : list Z) : result (list Z) :=
  match l with
  | [] => Ok []
  | n :: l' => if n =? 1 then Err (CannotTrim idx) else match trim_all (Datatypes.S idx) l' with Ok r => Ok (n - 1 :: r) | Err e => Err e end
  end.
(** batch.py 165-175; the list is never empty in a batch (46-47), so the first branch stands for the IndexError of seq_lens[-1]. *)
Definition trim_packed (l : list Z) : result (list Z) :=
  match l with
  | [] => Err EmptyLens
  | _ => if last l 0 =? 1 then if Nat.eqb (length l) 1 then Err (CannotTrim 0) else Ok (removelast l)
         else Ok (removelast l ++ [last l 0 - 1])
  end.
(** batch.py 160-212 *)
Definition as_auto_regressive {A} (b : batch A) : result (batch A * batch A) :=
  match (if is_packed b then trim_packed (lens b) else trim_all 0 (lens b)) with
  | Err e => Err e
  | Ok l =>
      let inp := if is_packed b then drop_last (seqs b) else drop_last_col (seqs b) in
      let tgt := if is_packed b then drop_first (seqs b) else drop_first_col (seqs b) in
      let m := option_map (if is_packed b then drop_first else drop_first_col) (mask b) in
      match sequence_batch inp (Some l) (is_packed b) None with
      | Err e => Err e
      | Ok b1 => match sequence_batch tgt (Some l) (is_packed b) m with Err e => Err e | Ok b2 => Ok (b1, b2) end
      end
  end.
(** batch.py 214-217, batch_layout.py 164-171 *)
Definition as_input {A} (b : batch A) : result (tensor A * layout) :=
  match batch_layout (firstn (if is_packed b then 1 else 2) (shape (seqs b))) (Some (lens b)) (is_packed b) with
  | Ok y => Ok (seqs b, y) | Err e => Err e
  end.
