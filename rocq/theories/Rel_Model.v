(** Attention with relative positions.

    Models
    - src/fairseq2/models/transformer/sdpa/relative.py 99-178
      (RelativePositionSDPA: how the scores of relative positions are computed)
      and 190-276 (RelativePositionalEncoding),
    - src/fairseq2/models/transformer/sdpa/shaw.py 124-190
      (ShawRelativePositionSDPA: the relative positions of queries and keys),
    - src/fairseq2/models/gemma3n/audio/sdpa.py 54-385 (Gemma3nConformerSDPA).

    Simplifications.  One sequence of a batch and one head; numbers are real
    numbers; a value has one coordinate.  Products of queries with keys and with
    encodings of positions are parameters.  Tensors are lists of rows, [view] and
    [reshape] cut the flat list anew.  Softmax gives masked keys the weight 0
    beside a key that is not masked (they get the least number of the type), and
    the same weight to all keys if all are masked. *)

Require Import List Arith ZArith Bool Reals.
Import ListNotations.

(** [view] and [reshape] to [rows] rows of [cols] elements. *)
Fixpoint reshape {A} (rows cols : nat) (flat : list A) : list (list A) :=
  match rows with
  | 0 => []
  | S rows' => firstn cols flat :: reshape rows' cols (skipn cols flat)
  end.

(** ** RelativePositionalEncoding *)
Section Encoding.
  Context {E : Type}.
  (** The sinusoidal encoding of a position: the sines and cosines of its
      multiples. *)
  Variable encode : Z -> E.

  (** relative.py 227-251: the rows of [freqs]. *)
  Definition freqs (max_seq_len : nat) : list E :=
    map (fun s => encode (Z.of_nat s)) (rev (seq 0 max_seq_len))
    ++ map (fun s => encode (- Z.of_nat s)) (tl (seq 0 max_seq_len)).

  (** relative.py 253-276: [forward]; [None] is the ValueError. *)
  Definition pos_encoding (max_seq_len seq_len : nat) : option (list E) :=
    if max_seq_len <? seq_len then None
    else Some (firstn (max_seq_len + seq_len - 1 - (max_seq_len - seq_len)) (skipn (max_seq_len - seq_len) (freqs max_seq_len))).
End Encoding.

(** ** RelativePositionSDPA *)
Section Shift.
  Context {N : Type}.
  Variable zero : N.

  (** relative.py 161-182: [_shift_bd]. *)
  Definition shift_bd (bd : list (list N)) : list (list N) :=
    let s := length bd in
    let w := length (hd [] bd) in
    let x := map (fun row => zero :: row) bd in
    let x := reshape (S w) s (concat x) in
    let x := tl x in
    let x := reshape s w (concat x) in
    map (firstn s) x.

  (** Adding a matrix to the scores of [q_len] queries and [kv_len] keys (naive.py
      127-129): the columns must agree, or there is one, which is repeated. *)
  Definition broadcast (kv_len : nat) (bias : list (list N)) : option (list (list N)) :=
    let n := length (hd [] bias) in
    if n =? kv_len then Some bias
    else if n =? 1 then Some (map (fun row => repeat (hd zero row) kv_len) bias)
    else None.

  Context {Q E : Type}.
  (** [q_with_v_bias] times [r_proj] of an encoding. *)
  Variable product : Q -> E -> N.
  Variable encode : Z -> E.

  (** relative.py 126-137: the scores of the positions. *)
  Definition position_scores (max_seq_len : nat) (q : list Q) (kv_len : nat) : option (list (list N)) :=
    match pos_encoding encode max_seq_len kv_len with
    | None => None
    | Some r => broadcast kv_len (shift_bd (map (fun x => map (product x) r) q))
    end.
End Shift.

(** ** ShawRelativePositionSDPA *)

(** torch.clamp *)
Definition clamp (x lo hi : Z) : Z := Z.min (Z.max x lo) hi.

(** shaw.py 179-190: [_get_relative_indices]. *)
Definition relative_indices (max_lhs max_rhs : Z) (kv_len : nat) : list (list Z) :=
  map (fun i => map (fun j => (clamp (Z.of_nat j - Z.of_nat i) (- max_lhs) max_rhs + max_lhs)%Z) (seq 0 kv_len)) (seq 0 kv_len).

(** [x[-n:]] *)
Definition last_rows {A} (n : nat) (x : list A) : list A :=
  if n =? 0 then x else skipn (length x - n) x.

(** shaw.py 124-132, 158-164: the indices of the embeddings of [q_len] queries. *)
Definition shaw_indices (max_lhs max_rhs : Z) (q_len kv_len : nat) : list (list Z) :=
  last_rows q_len (relative_indices max_lhs max_rhs kv_len).

(** ** Gemma3nConformerSDPA *)
Section Local.
  Context {Q K : Type}.
  Variables (zero_q : Q) (zero_k : K).
  Variable content : Q -> K -> R.  (* after the scaling of the query *)
  Variable position : Q -> Z -> R.  (* with the projection of the timing signal *)
  Variable softcap : R -> R.
  Variables (chunk_size max_past_horizon max_future_horizon : nat).

  (** sdpa.py 87 *)
  Definition context_size := chunk_size + max_past_horizon + max_future_horizon.

  (** sdpa.py 313-319: [_pad_dim1]. *)
  Definition pad_dim1 {A} (z : A) (x : list A) (left right : nat) : list A := repeat z left ++ x ++ repeat z right.

  (** sdpa.py 321-336: [_convert_to_block]. *)
  Definition convert_to_block {A} (z : A) (x : list A) : list (list A) :=
    let t := length x in
    let num_blocks := (t + chunk_size - 1) / chunk_size in
    let padding_len := num_blocks * chunk_size - t in
    reshape num_blocks chunk_size (pad_dim1 z x 0 padding_len).

  (** [x.unfold(size, step)] *)
  Definition unfold {A} (size step : nat) (x : list A) : list (list A) :=
    map (fun u => firstn size (skipn (u * step) x)) (seq 0 ((length x - size) / step + 1)).

  (** sdpa.py 338-355: [_extract_block_context]. *)
  Definition extract_block_context {A} (z : A) (x : list A) : list (list A) :=
    unfold context_size chunk_size (pad_dim1 z x max_past_horizon (max_future_horizon + chunk_size - 1)).

  (** sdpa.py 357-376: [_create_local_causal_valid_mask], the element for the
      query [w] and the key [c]. *)
  Definition local_causal_valid (w c : nat) : bool :=
    (w <=? c) && (c <=? w + (max_past_horizon + max_future_horizon)).

  (** sdpa.py 277-311: [_relative_shift] of a block. *)
  Definition relative_shift (key_context_size f_span : nat) (term_bd : list (list R)) : list (list R) :=
    let pad_amount := key_context_size + 1 - f_span in
    let padded := map (fun row => row ++ repeat 0%R pad_amount) term_bd in
    let flat := firstn (chunk_size * key_context_size) (concat padded) in
    reshape chunk_size key_context_size flat.

  (** sdpa.py 212-220: torch.arange(max_past, -max_future - 1, -1) *)
  Definition pos_indices : list Z :=
    map (fun i => (Z.of_nat max_past_horizon - Z.of_nat i)%Z) (seq 0 (max_past_horizon + max_future_horizon + 1)).

  Definition rsum (l : list R) : R := fold_right Rplus 0%R l.

  (** sdpa.py 114-194, 196-261: [forward] with [_compute_relative_logits]: the
      queries of block [u]. *)
  Definition block_out (q_block : list Q) (k_block : list K) (v_block : list R) (valid_block : list bool) : list R :=
    let term_bd := map (fun q => map (position q) pos_indices) q_block in
    let shifted := relative_shift (length k_block) (length pos_indices) term_bd in
    map (fun w =>
           let final_condition := fun c => nth c valid_block false && local_causal_valid w c in
           let masked := if existsb final_condition (seq 0 context_size) then 0%R else 1%R in
           let weights := map (fun c =>
             if final_condition c
             then exp (softcap (content (nth w q_block zero_q) (nth c k_block zero_k) + nth c (nth w shifted []) 0))%R
             else masked) (seq 0 context_size) in
           (rsum (map (fun c => nth c weights 0 * nth c v_block 0) (seq 0 context_size)) / rsum weights)%R)
        (seq 0 chunk_size).

  Definition forward (q : list Q) (k : list K) (v : list R) (valid : list bool) : list R :=
    let query_blocks := convert_to_block zero_q q in
    let key_blocks := extract_block_context zero_k k in
    let value_blocks := extract_block_context 0%R v in
    let extracted_valid := extract_block_context false valid in
    firstn (length q)
      (concat (map (fun u => block_out (nth u query_blocks []) (nth u key_blocks []) (nth u value_blocks []) (nth u extracted_valid []))
                   (seq 0 (length query_blocks)))).
End Local.
