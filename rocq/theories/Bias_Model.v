(** Model of attention biases and of scaled dot-product attention.
    /repo/src/fairseq2/models/transformer/attention_bias.py, sdpa/naive.py, sdpa/torch.py *)
From Coq Require Import ZArith List Bool Reals.
From Verif Require Import Batch_Model.
Import ListNotations.

(** [PackedMismatch]: attention_bias.py 242-243; [NumSeqs]: 248-251; [ChunkLens]: 124-125; [BadShape]: the RuntimeError of torch
    when shapes do not broadcast. *)
Inductive exn := PackedMismatch | NumSeqs | ChunkLens | BadShape.
Inductive res (A : Type) := Ok (a : A) | Err (e : exn).
Arguments Ok {A} _. Arguments Err {A} _.
Definition bind {A B} (x : res A) (f : A -> res B) : res B := match x with Ok a => f a | Err e => Err e end.

(** An element of a bias tensor: [None] is minus infinity. *)
Definition entry := option R.
(** A tensor of two dimensions. *)
Record mat := Mat { nr : nat; nc : nat; at_ : nat -> nat -> entry }.
(** What create_bias_tensor returns: (S, S_kv) or (H, S, S_kv). *)
Inductive tens := T2 (m : mat) | T3 (heads : nat) (nr nc : nat) (at_ : nat -> nat -> nat -> entry).

(** The biases; two are equal iff their class and their parameter are (31-38, 65-72, 111-118, 156-163). *)
Inductive bias := Identity | Causal (window : option nat) | Chunked (size : nat) | ALiBi (num_heads : nat).
Definition bias_eqb (a b : bias) : bool :=
  match a, b with
  | Identity, Identity => true
  | Causal None, Causal None => true
  | Causal (Some x), Causal (Some y) | Chunked x, Chunked y | ALiBi x, ALiBi y => Nat.eqb x y
  | _, _ => false
  end.

(** Tensor.tril and Tensor.triu; the elements are 0 and 1, given as booleans. *)
Definition tril (d : Z) (m : nat -> nat -> bool) : nat -> nat -> bool := fun i j => (Z.of_nat j - Z.of_nat i <=? d)%Z && m i j.
Definition triu (d : Z) (m : nat -> nat -> bool) : nat -> nat -> bool := fun i j => (d <=? Z.of_nat j - Z.of_nat i)%Z && m i j.
Definition log01 (b : bool) : entry := if b then Some 0%R else None.
(** 209-232; from_bottom_right is always True. *)
Definition causal_mat (q_len k_len window : nat) : mat :=
  let ones := fun _ _ => true in
  let d := (Z.of_nat k_len - Z.of_nat q_len)%Z in
  let m := tril d ones in
  let m := if Nat.ltb window q_len then triu (d - Z.of_nat window + 1) m else m in
  Mat q_len k_len (fun i j => log01 (m i j)).
(** 171-175: 2 ** (-8 / num_heads) to the power of 1, 2, .. *)
Definition slope (num_heads h : nat) : R := pow (Rpower 2 (- 8 / INR num_heads)) (S h).
Definition add_entry (a b : entry) : entry := match a, b with Some x, Some y => Some (x + y)%R | _, _ => None end.
(** create_bias_tensor of the classes: 41-45, 75-91, 121-140, 166-203 *)
Definition create (b : bias) (q_len k_len : nat) : res tens :=
  match b with
  | Identity => Ok (T2 (Mat q_len k_len (fun _ _ => Some 0%R)))
  | Causal w => Ok (T2 (causal_mat q_len k_len (match w with None => q_len | Some w => w end)))
  | Chunked n =>
      if negb (Nat.eqb q_len k_len) then Err ChunkLens
      else Ok (T2 (Mat q_len k_len (fun i j => Some (if (Nat.eqb (j / n) (i / n) && Nat.leb j i) then 1 else 0)%R)))
  | ALiBi H =>
      let bias := fun h (_ j : nat) => Some (INR j * slope H h)%R in
      Ok (T3 H q_len k_len (if Nat.ltb 1 q_len then fun h i j => add_entry (bias h i j) (at_ (causal_mat q_len k_len q_len) i j) else bias))
  end.

(** 327-339 *)
Fixpoint seq_ranges (b : nat) (lens : list nat) : list (nat * nat) :=
  match lens with [] => [] | n :: lens' => (b, b + n)%nat :: seq_ranges (b + n) lens' end.
(** tensor[q_begin:q_end, k_begin:k_end] = src *)
Definition write (qb qe kb ke : nat) (src : nat -> nat -> entry) (m : nat -> nat -> entry) : nat -> nat -> entry :=
  fun i j => if Nat.leb qb i && Nat.ltb i qe && Nat.leb kb j && Nat.ltb j ke then src (i - qb)%nat (j - kb)%nat else m i j.
(** A three-dimensional source is accepted only if its first dimension is 1. *)
Definition assignable (t : tens) : res (nat -> nat -> entry) :=
  match t with T2 m => Ok (at_ m) | T3 H _ _ f => if Nat.eqb H 1 then Ok (f 0%nat) else Err BadShape end.
(** 312-322 *)
Fixpoint block_loop (b : bias) (qr kr : list (nat * nat)) (prev_q prev_k : nat) (m : nat -> nat -> entry) : res (nat -> nat -> entry) :=
  match qr, kr with
  | (qb, qe) :: qr', (kb, ke) :: kr' =>
      let m := if negb (Nat.eqb prev_q qb) && negb (Nat.eqb prev_k kb) then write prev_q qb prev_k kb (fun _ _ => Some 0%R) m else m in
      bind (if negb (Nat.eqb qb qe) && negb (Nat.eqb kb ke)
            then bind (create b (qe - qb) (ke - kb)) (fun t => bind (assignable t) (fun s => Ok (write qb qe kb ke s m)))
            else Ok m)
        (block_loop b qr' kr' qe ke)
  | _, _ => Ok m
  end.
(** 285-324 *)
Definition block_tensor (b : bias) (q_lens : list nat) (q_len : nat) (k_lens : list nat) (k_len : nat) : res tens :=
  let qr := seq_ranges 0 q_lens in
  let kr := seq_ranges 0 k_lens in
  let whole := match qr, kr with
               | [(qb, qe)], (kb, ke) :: _ => Nat.eqb qb 0 && Nat.eqb qe q_len && Nat.eqb kb 0 && Nat.eqb ke k_len
               | _, _ => false
               end in
  if whole then create b q_len k_len
  else bind (block_loop b (qr ++ [(q_len, q_len)]) (kr ++ [(k_len, k_len)]) 0 0 (fun _ _ => None))
         (fun f => Ok (T2 (Mat q_len k_len f))).

(** The bias tensor of a batch: none at all, a number, one for all rows, or one per row (the result of torch.stack). *)
Inductive btens := NoBias | Scalar | Same (t : tens) | PerRow (l : list tens).
Definition heads_of (t : tens) : nat := match t with T2 _ => 1 | T3 H _ _ _ => H end.
Definition nat_lens (y : layout) : list nat := map Z.to_nat (seq_lens y).
Fixpoint collect {A} (l : list (res A)) : res (list A) :=
  match l with [] => Ok [] | x :: l' => bind x (fun a => bind (collect l') (fun r => Ok (a :: r))) end.
(** 235-282 *)
Definition materialize (b : bias) (qy ky : layout) : res btens :=
  if xorb (packed qy) (packed ky) then Err PackedMismatch
  else if negb (Nat.eqb (length (seq_lens qy)) (length (seq_lens ky))) then Err NumSeqs
  else if Nat.eqb (length (seq_lens qy)) 0 then Ok Scalar
  else let q_len := Z.to_nat (width qy) in
       let k_len := Z.to_nat (width ky) in
       if packed qy then bind (block_tensor b (nat_lens qy) q_len (nat_lens ky) k_len) (fun t => Ok (Same t))
       else if negb (padded qy) && negb (padded ky) then bind (create b q_len k_len) (fun t => Ok (Same t))
       else bind (collect (map (fun p => block_tensor b [fst p] q_len [snd p] k_len) (combine (nat_lens qy) (nat_lens ky))))
              (fun l => match l with
                        | [] => Err BadShape
                        | t :: _ => if forallb (fun t' => Nat.eqb (heads_of t') (heads_of t)) l then Ok (PerRow l) else Err BadShape
                        end).

(** AttentionBiasCache 345-366; the implementation is always "tensor". *)
Definition cache := list (bias * btens).
Fixpoint cached (c : cache) (b : bias) : option btens :=
  match c with [] => None | (b', t) :: c' => if bias_eqb b' b then Some t else cached c' b end.
(** 369-409 *)
Definition get_bias (b : bias) (qy ky : layout) (c : cache) : res btens * cache :=
  let full := negb (packed qy) && negb (padded qy) && (negb (packed ky) && negb (padded ky)) in
  let single := negb (packed qy) && (max_len qy =? 1)%Z in
  if match b with Identity => full | Causal _ | Chunked _ => single | ALiBi _ => false end then (Ok NoBias, c)
  else match cached c b with
       | Some t => (Ok t, c)
       | None => match materialize b qy ky with Ok t => (Ok t, (b, t) :: c) | Err e => (Err e, c) end
       end.

(** ** Attention *)
Fixpoint mapi {A B} (f : nat -> A -> B) (i : nat) (l : list A) : list B :=
  match l with [] => [] | x :: l' => f i x :: mapi f (S i) l' end.
Definition rsum (l : list R) : R := fold_right Rplus 0%R l.
Section Attention.
Context {Q K : Type}.
(** The scaled product of a query and a key in a head (naive.py 118-126) and a component of the value that goes with a key. *)
Variable score : nat -> Q -> K -> R.
Variable value : nat -> K -> R.

(** naive.py 128-143 for one query, without dropout: softmax of scores plus bias, then the weighted mean of the values; [None] is
    NaN, which softmax gives if all weights are 0. *)
Definition attend (h : nat) (row : nat -> entry) (q : Q) (ks : list K) : option R :=
  let w := fun j k => match row j with None => 0%R | Some b => exp (score h q k + b) end in
  let total := rsum (mapi w 0 ks) in
  if Req_EM_T total 0 then None else Some (rsum (mapi (fun j k => w j k * value h k)%R 0 ks) / total)%R.

(** A dimension of a bias and that of the weights broadcast. *)
Definition broadcasts (n m : nat) : bool := Nat.eqb n m || Nat.eqb n 1.
Definition clip (n i : nat) : nat := if Nat.eqb n 1 then 0 else i.
(** The elements of the bias for query [i] of row [n] of the batch; [s] and [sk] are the lengths of the rows of queries and keys. *)
Definition tens_row (t : tens) (h s sk i : nat) : res (nat -> entry) :=
  match t with
  | T2 m => if broadcasts (nr m) s && broadcasts (nc m) sk then Ok (fun j => at_ m (clip (nr m) i) (clip (nc m) j)) else Err BadShape
  | T3 H r c f => if broadcasts r s && broadcasts c sk then Ok (fun j => f (clip H h) (clip r i) (clip c j)) else Err BadShape
  end.
Definition bias_row (t : btens) (h s sk n i : nat) : res (nat -> entry) :=
  match t with
  | NoBias | Scalar => Ok (fun _ => Some 0%R)
  | Same t => tens_row t h s sk i
  | PerRow l => match nth_error l (clip (length l) n) with Some t => tens_row t h s sk i | None => Err BadShape end
  end.
(** Attention of a batch in head [h], row by row; a packed batch is one row. A bias with more rows, heads or queries than the
    batch, which torch would take for a batch to broadcast, is an error here. *)
Definition attention (t : btens) (h : nat) (qs : list (list Q)) (ks : list (list K)) : res (list (list (option R))) :=
  if negb (Nat.eqb (length qs) (length ks)) then Err BadShape
  else collect (mapi (fun n p => collect (mapi (fun i q => bind (bias_row t h (length (fst p)) (length (snd p)) n i)
                                                             (fun row => Ok (attend h row q (snd p)))) 0 (fst p))) 0 (combine qs ks)).
(** NaiveSDPA.forward naive.py 50-93 *)
Definition naive (b : bias) (qy ky : layout) (c : cache) (h : nat) (qs : list (list Q)) (ks : list (list K)) : res (list (list (option R))) * cache :=
  let r := get_bias b qy ky c in
  (bind (fst r) (fun t => attention t h qs ks), snd r).
(** TorchSDPA.forward torch.py 56-123; scaled_dot_product_attention of torch does what the naive version does, with a lower
    triangular mask if is_causal. *)
Definition torch (b : bias) (qy ky : layout) (c : cache) (h : nat) (qs : list (list Q)) (ks : list (list K)) : res (list (list (option R))) * cache :=
  let full := negb (packed qy) && negb (padded qy) && (negb (packed ky) && negb (padded ky)) in
  let q_len := length (nth 0 qs []) in
  let k_len := length (nth 0 ks []) in
  if match b with Causal None => full && Nat.eqb q_len k_len | _ => false end
  then (attention (Same (T2 (Mat q_len k_len (fun i j => log01 (Nat.leb j i))))) h qs ks, c)
  else naive b qy ky c h qs ks.
End Attention.
