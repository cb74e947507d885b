(** Model of random masks: /repo/src/fairseq2/nn/utils/mask.py 68-205, and of the sampling of distractors: /repo/src/fairseq2/models/wav2vec2/model.py
    209-251. Tensors are nested or flat lists. Random numbers are parameters; torch.rand gives rn/rd with rn < rd, products are exact (rounding is not
    modelled). The probability is pn/pd. *)
From Coq Require Import List Bool Arith.
Import ListNotations.

(** repeat_interleave of a flat tensor: ops/shape.py:19-44 *)
Definition repeat_interleave {A} (l : list A) (k : nat) : list A := flat_map (fun x => repeat x k) l.
(** view(rows, width) of a flat tensor *)
Fixpoint view {A} (rows width : nat) (l : list A) : list (list A) :=
  match rows with 0 => [] | S r => firstn width l :: view r width (skipn width l) end.
Definition min_of (l : list nat) : nat := match l with [] => 0 | x :: l' => fold_left Nat.min l' x end.

(** _compute_mask_spans: lines 114-169. [rand i]: the numerator of the i-th random number *)
Inductive spans := SRaised | SNone | Spans (indices : list (list nat)).
Section Spans.
  Variables span_len pn pd rd : nat.
  Variable rand : nat -> nat.
  (** Lines 126-129 *)
  Definition num_spans (row_lens : list nat) : nat := min_of (map (fun n => pn * (n - 1) / (pd * span_len)) row_lens).
  Definition compute_mask_spans (row_lens : list nat) (min_num_spans : nat) : spans :=
    match row_lens with
    | [] => SNone
    | _ =>
      let m := num_spans row_lens in
      if m <? min_num_spans then SRaised else if m =? 0 then SNone else
      (* lines 141-144 *)
      let ranges := repeat_interleave (map (fun n => n - span_len + 1) row_lens) m in
      (* lines 149-158: the i-th range times the i-th random number, rounded down *)
      let offsets := map (fun p => fst p * rand (snd p) / rd) (combine ranges (seq 0 (length ranges))) in
      let offsets := map (fun l => repeat_interleave l span_len) (view (length row_lens) m offsets) in
      (* lines 163-169 *)
      let indices := concat (repeat (seq 0 span_len) m) in
      Spans (map (fun l => map (fun p => fst p + snd p) (combine l indices)) offsets)
    end.
End Spans.

(** scatter_ of True into a row of False: lines 174-178, 200-205. An index out of range raises. *)
Definition scatter (width : nat) (idx : list nat) : list bool := map (fun i => existsb (Nat.eqb i) idx) (seq 0 width).
Definition count (l : list bool) : nat := length (filter (fun b => b) l).
(** torch.topk: k distinct positions whose values are not below the others *)
Definition topk (v : list nat) (k : nat) (idx : list nat) : Prop :=
  length idx = k /\ NoDup idx /\ (forall i, In i idx -> i < length v) /\ forall i j, In i idx -> ~ In j idx -> j < length v -> nth j v 0 <= nth i v 0.
(** compute_row_mask: lines 68-111, and _generate_mask: lines 172-205. [weight r i] > 0: the random value plus 0.001. The result is a relation because
    topk may choose. [REmpty]: a mask of shape (0, 0) *)
Inductive result := Raised | REmpty | Mask (m : list (list bool)).
Definition random_values (weight : nat -> nat -> nat) (r : nat) (row : list bool) : list nat :=
  map (fun p : nat * bool => if snd p then weight r (fst p) else 0) (combine (seq 0 (length row)) row).
Inductive generate (weight : nat -> nat -> nat) (width : nat) (indices : list (list nat)) : result -> Prop :=
| g_range : (exists l (i : nat), In l indices /\ In i l /\ width <= i) -> generate weight width indices Raised
| g_mask (picks : list (list nat)) : (forall l (i : nat), In l indices -> In i l -> i < width) ->
    let rows := map (scatter width) indices in
    let k := min_of (map count rows) in
    Forall2 (fun (r : nat * list bool) idx => topk (random_values weight (fst r) (snd r)) k idx) (combine (seq 0 (length rows)) rows) picks ->
    generate weight width indices (Mask (map (scatter width) picks)).
Inductive compute_row_mask (rand : nat -> nat) (rd : nat) (weight : nat -> nat -> nat)
  (num_rows max_row_len span_len pn pd : nat) (lens : option (list nat)) (min_num_spans : nat) : result -> Prop :=
| m_short : match lens with None => max_row_len <= span_len | Some l => exists n, In n l /\ n <= span_len end ->
    compute_row_mask rand rd weight num_rows max_row_len span_len pn pd lens min_num_spans Raised
| m_spans r : let row_lens := match lens with None => repeat max_row_len num_rows | Some l => l end in
    match lens with None => span_len < max_row_len | Some l => forall n, In n l -> span_len < n end ->
    match compute_mask_spans span_len pn pd rd rand row_lens min_num_spans with
    | SRaised => r = Raised
    | SNone => r = REmpty
    | Spans indices => generate weight max_row_len indices r
    end -> compute_row_mask rand rd weight num_rows max_row_len span_len pn pd lens min_num_spans r.

(** extract_masked_elements: /repo/src/fairseq2/models/wav2vec2/masker.py 47-64. Indexing with a boolean mask gives the selected elements of all rows in
    one flat tensor; unflatten(0, (batch_size, -1)) raises unless their number is a multiple of the batch size. *)
Definition select {A} (seqs : list A) (mask : list bool) : list A := map fst (filter snd (combine seqs mask)).
Definition extract_masked_elements {A} (seqs : list (list A)) (mask : list (list bool)) : option (list (list A)) :=
  let flat := concat (map (fun p => select (fst p) (snd p)) (combine seqs mask)) in
  let n := length seqs in
  if (length flat mod n =? 0) && (0 <? n) && (0 <? length flat) then Some (view n (length flat / n) flat) else None.

(** _sample_distractors: model.py 209-251. [randint b i]: the random number for sequence b, at i in S x L *)
Section Distractors.
  Context {V : Type}.
  Variable randint : nat -> nat -> nat.
  Variables batch_size seq_len num_distractors : nat.
  Definition rand_indices : list nat :=
    let indices := repeat_interleave (seq 0 seq_len) num_distractors in
    concat (map (fun b => map (fun p => let r := randint b (fst p) in (if snd p <=? r then r + 1 else r) + b * seq_len)
                              (combine (seq 0 (length indices)) indices)) (seq 0 batch_size)).
  (** The flat result, one vector per index *)
  Definition sample_distractors (targets : list V) : list (option V) := map (nth_error targets) rand_indices.
End Distractors.
