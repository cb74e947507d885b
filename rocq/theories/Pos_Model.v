(** Model of the position encoders. /repo/src/fairseq2/nn/position_encoder.py 70-600 and
    /repo/src/fairseq2/models/olmo/yarn_rope.py 245-305 *)
From Coq Require Import ZArith List Bool Reals.
From Verif Require Import Batch_Model.
Import ListNotations.
Local Open Scope Z_scope.

(** The exceptions: [TooLong] is the ValueError of 150-153, 269-272, 392-395, 559-562; [BadIndex] the IndexError of indexing a
    table, [BadShape] the RuntimeError of combining tensors that do not broadcast. *)
Inductive exn := TooLong | BadIndex | BadShape.
Inductive res (A : Type) := Ok (a : A) | Err (e : exn).
Arguments Ok {A} _. Arguments Err {A} _.

Fixpoint sequence {A} (l : list (res A)) : res (list A) :=
  match l with
  | [] => Ok []
  | Err e :: _ => Err e
  | Ok a :: l' => match sequence l' with Ok r => Ok (a :: r) | Err e => Err e end
  end.
Definition map2 {A B C} (f : A -> B -> C) (a : list A) (b : list B) : list C := map (fun p => f (fst p) (snd p)) (combine a b).

Section Encoder.
Context {A F : Type}.
(** How an element and a row of the table are combined: a sum for the sinusoidal (179) and the learned (283) encoder, a
    product of complex numbers for the rotary encoder (423-429), a rotation of halves for the others (587-589). *)
Variable comb : A -> F -> A.
(** The table; its first row is for padding. *)
Variable table : list F.
Variable max_seq_len : Z.

(** The step at which the input starts: 143-146, 262-265, 385-388, 552-555; [None] stands for no state bag. *)
Definition start_step (training : bool) (step : option Z) : Z :=
  match step with Some s => if training then 0 else s | None => 0 end.
(** table[i] for an index from a tensor: 162, 280, 406, 571-572 *)
Definition row_at (i : Z) : res F :=
  if (i <? 0) then Err BadIndex else match nth_error table (Z.to_nat i) with Some f => Ok f | None => Err BadIndex end.
(** One row of the input with one row of the encodings, with broadcasting of the sequence dimension. *)
Definition zip_row (x : list A) (f : list F) : res (list A) :=
  if Nat.eqb (length x) (length f) then Ok (map2 comb x f)
  else match f, x with [f0], _ => Ok (map (fun a => comb a f0) x) | _, [x0] => Ok (map (comb x0) f) | _, _ => Err BadShape end.

(** Encodings looked up by position: 155-162 and 274-280. A packed batch is its only row. *)
Definition by_index (y : layout) (training : bool) (step : option Z) (seqs : list (list A)) : res (list (list A)) :=
  let indices := map (map (fun q => q + 1)) (positions y) in
  let indices := match step with Some s => if training then indices else map (map (fun i => s + i)) indices | None => indices end in
  match sequence (map (fun r => sequence (map row_at r)) indices) with
  | Err e => Err e
  | Ok fs => if Nat.eqb (length seqs) (length fs) then sequence (map2 zip_row seqs fs) else Err BadShape
  end.
(** A slice of the table for all rows: 163-174, 407-418, 573-584 *)
Definition by_slice (y : layout) (training : bool) (step : option Z) (seqs : list (list A)) : res (list (list A)) :=
  let s := 1 + start_step training step in
  let fs := firstn (Z.to_nat (width y)) (skipn (Z.to_nat s) table) in
  sequence (map (fun x => zip_row x fs) seqs).

(** SinusoidalPositionEncoder.forward 135-181, RotaryEncoder.forward 377-432, ReferenceRotaryEncoder.forward 544-591 and
    YaRNRotaryEncoder.forward *)
Definition forward (y : layout) (training : bool) (step : option Z) (seqs : list (list A)) : res (list (list A)) :=
  if max_seq_len <? start_step training step + max_len y then Err TooLong
  else if packed y || padded y then by_index y training step seqs
  else by_slice y training step seqs.
(** LearnedPositionEncoder.forward 254-285 *)
Definition forward_learned (y : layout) (training : bool) (step : option Z) (seqs : list (list A)) : res (list (list A)) :=
  if max_seq_len <? start_step training step + max_len y then Err TooLong else by_index y training step seqs.
End Encoder.

(** ** Tables, over the real numbers *)
Local Open Scope R_scope.
(** 188-216: the frequency of column [i] of a half of [h] columns; [None] is the NaN of 0 / 0. *)
Definition sin_freq (h i : nat) : option R :=
  if Nat.eqb h 1 then None else Some (exp (INR i * - ln 10000 / (INR h - 1))).
(** 111-124: row 0 is zero, row 1 + p has the sines, then the cosines, of (sin_offset + p) times the frequencies. *)
Definition sin_row (h offset p : nat) : list (option R) :=
  map (fun i => option_map (fun f => sin (INR (offset + p) * f)) (sin_freq h i)) (seq 0 h) ++
  map (fun i => option_map (fun f => cos (INR (offset + p) * f)) (sin_freq h i)) (seq 0 h).
Definition sin_table (encoding_dim max_len offset : nat) : list (list (option R)) :=
  let h := Nat.div encoding_dim 2 in
  repeat (Some 0) encoding_dim :: map (sin_row h offset) (seq 0 max_len).
(** 96-104: the offset of the legacy parameter *)
Definition sin_offset (legacy_pad_idx : option nat) : nat := match legacy_pad_idx with None => 0 | Some i => 1 + i end.

(** A complex number as a pair; 423-429: the product *)
Definition cmul (a b : R * R) : R * R := (fst a * fst b - snd a * snd b, fst a * snd b + snd a * fst b).
(** 348-375: row 0 is zero, row 1 + p has the unit complex numbers of angle p * freq; [freqs] is given by the angles of the
    columns (by default 1 / theta ** (2 i / encoding_dim)). *)
Definition rot_row (freqs : list R) (p : nat) : list (R * R) := map (fun f => (cos (INR p * f), sin (INR p * f))) freqs.
Definition rot_table (freqs : list R) (max_len : nat) : list (list (R * R)) :=
  map (fun _ => (0, 0)) freqs :: map (rot_row freqs) (seq 0 max_len).
(** One element with a row of the table: 420-432, an element being its pairs of neighbouring numbers. *)
Definition rot_comb (x : list (R * R)) (f : list (R * R)) : list (R * R) := map2 cmul x f.

(** 505-532: cosines and sines, both repeated over the two halves *)
Definition ref_row (freqs : list R) (p : nat) : list R * list R :=
  (map (fun f => cos (INR p * f)) freqs ++ map (fun f => cos (INR p * f)) freqs,
   map (fun f => sin (INR p * f)) freqs ++ map (fun f => sin (INR p * f)) freqs).
(** 593-597 *)
Definition rotate_half_way (half : nat) (x : list R) : list R := map Ropp (skipn half x) ++ firstn half x.
(** 585-591 *)
Definition ref_comb (half : nat) (x : list R) (f : list R * list R) : list R :=
  map2 Rplus (map2 Rmult x (fst f)) (map2 Rmult (rotate_half_way half x) (snd f)).
