(** Model of tensor parallel modules: /repo/src/fairseq2/nn/embedding.py, nn/projection.py, ops/tensor_parallel.py.
    A tensor with leading dimensions is a matrix here: all leading dimensions are flattened into the rows, the last dimension is the
    width. Numbers are of any type [A] with an addition, a multiplication and a zero; rounding is left out. A module sharded over a gang
    of [size] processes is the list of the modules of the processes in the order of their ranks, and a call of it is one collective
    call of all processes with the list of their inputs. *)
From Coq Require Import List Bool Arith ZArith Lia.
Import ListNotations.

Inductive exn := ValueError | IndexError | RuntimeError | AssertionError | ZeroDivisionError.
Inductive res (T : Type) := Ok (x : T) | Err (e : exn).
Arguments Ok {T} _. Arguments Err {T} _.
Definition bind {T U} (r : res T) (f : T -> res U) : res U := match r with Ok x => f x | Err e => Err e end.
(** The first exception of any process is the outcome; the other processes of a collective wait for it. *)
Fixpoint collect {T} (l : list (res T)) : res (list T) :=
  match l with [] => Ok [] | r :: l' => bind r (fun x => bind (collect l') (fun xs => Ok (x :: xs))) end.
Definition map2 {T U V} (f : T -> U -> V) (l : list T) (m : list U) : list V := map (fun xy => f (fst xy) (snd xy)) (combine l m).
(** x[i] of a list *)
Definition get {T} (l : list T) (i : nat) : res T := match nth_error l i with Some x => Ok x | None => Err IndexError end.

(** torch.split over a dimension of size [n] in pieces of [k]: the number of pieces; an empty dimension gives one empty piece. *)
Definition pieces (n k : nat) : nat := if n =? 0 then 1 else (n + k - 1) / k.
Definition piece {T} (k i : nat) (l : list T) : list T := firstn k (skipn (i * k) l).
Definition split {T} (k : nat) (l : list T) : list (list T) := map (fun i => piece k i l) (seq 0 (pieces (length l) k)).

Section Shard.
  Context {A : Type}.
  Variables (zero : A) (add mul : A -> A -> A).

  Record mat := Mat { width : nat; rows : list (list A) }.
  Definition height (m : mat) : nat := length (rows m).

  (** Tensor.split and torch.cat over the rows (dim 0) and the width (dim 1, or -1) *)
  Definition split_rows (k : nat) (m : mat) : list mat := map (Mat (width m)) (split k (rows m)).
  Definition split_cols (k : nat) (m : mat) : list mat :=
    map (fun i => Mat (Nat.min k (width m - i * k)) (map (piece k i) (rows m))) (seq 0 (pieces (width m) k)).
  Definition splits (dim k : nat) (m : mat) : list mat := match dim with 0 => split_rows k m | _ => split_cols k m end.
  Definition size_of (dim : nat) (m : mat) : nat := match dim with 0 => height m | _ => width m end.
  Definition cat_rows (m n : mat) : res mat := if width m =? width n then Ok (Mat (width m) (rows m ++ rows n)) else Err RuntimeError.
  Definition cat_cols (m n : mat) : res mat :=
    if height m =? height n then Ok (Mat (width m + width n) (map2 (@app A) (rows m) (rows n))) else Err RuntimeError.
  Definition cat2 (dim : nat) : mat -> mat -> res mat := match dim with 0 => cat_rows | _ => cat_cols end.
  Fixpoint cat_from (dim : nat) (m : mat) (ms : list mat) : res mat :=
    match ms with [] => Ok m | n :: ms' => bind (cat_from dim n ms') (cat2 dim m) end.
  Definition cat (dim : nat) (ms : list mat) : res mat := match ms with [] => Err RuntimeError | m :: ms' => cat_from dim m ms' end.

  (** x + y of vectors and matrices of the same shape *)
  Definition vadd (x y : list A) : list A := map2 add x y.
  Definition madd (m n : mat) : mat := Mat (width m) (map2 vadd (rows m) (rows n)).

  (** ** Collectives, seen by all processes. gang.all_reduce(x, SUM); gang.all_gather_to_list *)
  Definition total (ms : list mat) : mat := match ms with [] => Mat 0 [] | m :: ms' => fold_left madd ms' m end.
  (** reduce: tensor_parallel.py lines 20-40 *)
  Definition reduce (xs : list mat) : list mat := map (fun _ => total xs) xs.
  (** gather, _do_gather: lines 67-83 and 126-134; a gang of one process returns its input *)
  Definition gather (dim : nat) (xs : list mat) : res (list mat) :=
    if length xs =? 1 then Ok xs else bind (cat dim xs) (fun y => Ok (map (fun _ => y) xs)).
  (** scatter, _do_scatter: lines 43-58 and 110-123, of the process with rank [r] *)
  Definition scatter1 (size r dim : nat) (x : mat) : res mat :=
    if size =? 1 then Ok x
    else if negb (size_of dim x mod size =? 0) then Err ValueError
    else get (splits dim (size_of dim x / size) x) r.
  Definition scatter (dim : nat) (xs : list mat) : res (list mat) :=
    collect (map2 (fun r x => scatter1 (length xs) r dim x) (seq 0 (length xs)) xs).
  (** The gradients: lines 38-40 (reduce; the documentation says that the gradient is reduced, but it is passed on), 60-64 (scatter),
      84-88 (gather), 103-107 (reduce_on_backward, whose forward pass is the identity). *)
  Definition reduce_backward (gs : list mat) : list mat := gs.
  Definition scatter_backward (dim : nat) (gs : list mat) : res (list mat) := gather dim gs.
  Definition gather_backward (dim : nat) (gs : list mat) : res (list mat) := scatter dim gs.
  Definition reduce_on_backward_backward (gs : list mat) : list mat := reduce gs.

  (** ** Embeddings *)
  (** torch.nn.functional.embedding: [padding_idx] may be negative *)
  Definition norm_pad (n : nat) (pad : option Z) : res (option Z) :=
    match pad with
    | None => Ok None
    | Some p => if (p >? 0)%Z then (if (p <? Z.of_nat n)%Z then Ok (Some p) else Err AssertionError)
                else if (p <? 0)%Z then (if (p >=? - Z.of_nat n)%Z then Ok (Some (p + Z.of_nat n)%Z) else Err AssertionError)
                else Ok (Some p)
    end.
  Definition lookup (w : mat) (i : Z) : res (list A) := if (i <? 0)%Z then Err IndexError else get (rows w) (Z.to_nat i).
  Definition embedding (w : mat) (pad : option Z) (x : list Z) : res mat :=
    bind (norm_pad (height w) pad) (fun _ => bind (collect (map (lookup w) x)) (fun ys => Ok (Mat (width w) ys))).
  (** Its gradient for the table: row [i] is the sum of the gradients of the positions with index [i], and zero for the padding index *)
  Definition zeros (k : nat) : list A := repeat zero k.
  Definition vsum (k : nat) (vs : list (list A)) : list A := fold_right vadd (zeros k) vs.
  Definition grad_row (w : nat) (p : option Z) (x : list Z) (g : list (list A)) (i : nat) : list A :=
    if match p with Some p => (p =? Z.of_nat i)%Z | None => false end then zeros w
    else vsum w (map snd (filter (fun xg => (fst xg =? Z.of_nat i)%Z) (combine x g))).
  Definition embedding_grad (w : mat) (pad : option Z) (x : list Z) (g : mat) : res mat :=
    bind (norm_pad (height w) pad) (fun p => Ok (Mat (width w) (map (grad_row (width w) p x (rows g)) (seq 0 (height w))))).

  (** StandardEmbedding: lines 58-97; the forward pass is [embedding (table e) (pad e)] *)
  Record embed := Embed { table : mat; pad : option Z }.

  (** VocabShardedEmbedding.__init__, lines 190-193, and _copy_from_embedding, 227-233, for the process with rank [r]: the weight *)
  Definition vocab_shard (size r : nat) (e : embed) : res mat :=
    let n := height (table e) in
    if negb (n mod size =? 0) then Err ValueError else get (split_rows (n / size) (table e)) r.
  Definition vocab_from_embedding (size : nat) (e : embed) : res (list mat) := collect (map (fun r => vocab_shard size r e) (seq 0 size)).
  (** VocabShardedEmbedding.forward: lines 235-271. [k]: sharded_num_embeddings. *)
  Definition local_pad (k r : nat) (p : option Z) : option Z :=
    let b := (Z.of_nat r * Z.of_nat k)%Z in
    let e := ((Z.of_nat r + 1) * Z.of_nat k)%Z in
    match p with None => None | Some p => if (p >=? b)%Z && (p <? e)%Z then Some (p - b)%Z else None end.
  Definition masked (k r : nat) (i : Z) : bool := ((i <? Z.of_nat r * Z.of_nat k) || (i >=? (Z.of_nat r + 1) * Z.of_nat k))%Z.
  Definition local_idx (k r : nat) (i : Z) : Z := if masked k r i then 0%Z else (i - Z.of_nat r * Z.of_nat k)%Z.
  Definition where_mask (k r : nat) (x : list Z) (y : mat) : mat :=
    Mat (width y) (map2 (fun i row => if masked k r i then map (fun _ => zero) row else row) x (rows y)).
  Definition vocab_local (r : nat) (p : option Z) (w : mat) (x : list Z) : res mat :=
    let k := height w in
    bind (embedding w (local_pad k r p) (map (local_idx k r) x)) (fun y => Ok (where_mask k r x y)).
  Definition vocab_forward (p : option Z) (ws : list mat) (xs : list (list Z)) : res (list mat) :=
    let size := length ws in
    if size <=? 1 then collect (map2 (fun w x => embedding w p x) ws xs)
    else bind (collect (map2 (fun rw x => vocab_local (fst rw) p (snd rw) x) (combine (seq 0 size) ws) xs)) (fun ys => Ok (reduce ys)).
  (** The gradients of the weights, for the gradients [gs] of the outputs *)
  Definition vocab_backward (p : option Z) (ws : list mat) (xs : list (list Z)) (gs : list mat) : res (list mat) :=
    let size := length ws in
    if size <=? 1 then collect (map2 (fun wx g => embedding_grad (fst wx) p (snd wx) g) (combine ws xs) gs)
    else collect (map2 (fun rwx g =>
           let '(r, w, x) := rwx in
           let k := height w in
           embedding_grad w (local_pad k r p) (map (local_idx k r) x) (where_mask k r x g))
         (combine (combine (seq 0 size) ws) xs) (reduce_backward gs)).
  (** to_embedding: lines 273-287 *)
  Definition vocab_to_embedding (ws : list mat) : res (list mat) := gather 0 ws.

  (** ShardedEmbedding: __init__, lines 404-407, _copy_from_embedding, 441-447, forward, 449-460, to_embedding, 462-476 *)
  Definition dim_shard (size r : nat) (e : embed) : res mat :=
    let n := width (table e) in
    if negb (n mod size =? 0) then Err ValueError else get (split_cols (n / size) (table e)) r.
  Definition dim_from_embedding (size : nat) (e : embed) : res (list mat) := collect (map (fun r => dim_shard size r e) (seq 0 size)).
  Definition dim_forward (p : option Z) (ws : list mat) (xs : list (list Z)) : res (list mat) :=
    if length ws <=? 1 then collect (map2 (fun w x => embedding w p x) ws xs)
    else bind (collect (map2 (fun w x => embedding w p x) ws xs)) (gather 1).
  Definition dim_backward (p : option Z) (ws : list mat) (xs : list (list Z)) (gs : list mat) : res (list mat) :=
    bind (if length ws <=? 1 then Ok gs else gather_backward 1 gs) (fun gs =>
      collect (map2 (fun wx g => embedding_grad (fst wx) p (snd wx) g) (combine ws xs) gs)).
  Definition dim_to_embedding (ws : list mat) : res (list mat) := gather 1 ws.

  (** ** Projections *)
  Record lin := Lin { weight : mat; bias : option (list A) }.
  Definition dot (x y : list A) : A := fold_right add zero (map2 mul x y).
  Definition add_bias (b : option (list A)) (y : list A) : list A := match b with Some b => vadd y b | None => y end.
  (** torch.nn.functional.linear: x W^T + b. The shapes must match. *)
  Definition linear (x : mat) (l : lin) : res mat :=
    if negb (width x =? width (weight l)) then Err RuntimeError
    else Ok (Mat (height (weight l)) (map (fun row => add_bias (bias l) (map (dot row) (rows (weight l)))) (rows x))).
  Definition col (j : nat) (m : mat) : list A := map (fun row => nth j row zero) (rows m).
  (** Its gradients: of the input, g W; of the weight, g^T x; of the bias, the sum of the rows of g *)
  Definition grad_input (l : lin) (g : mat) : mat :=
    Mat (width (weight l)) (map (fun row => map (fun j => dot row (col j (weight l))) (seq 0 (width (weight l)))) (rows g)).
  Definition grad_weight (x g : mat) : mat := Mat (width x) (map (fun o => map (fun i => dot (col o g) (col i x)) (seq 0 (width x))) (seq 0 (width g))).
  Definition grad_bias (b : option (list A)) (g : mat) : option (list A) :=
    match b with Some _ => Some (map (fun o => fold_right add zero (col o g)) (seq 0 (width g))) | None => None end.
  Definition grads (l : lin) (x g : mat) : mat * lin := (grad_input l g, Lin (grad_weight x g) (grad_bias (bias l) g)).

  (** ColumnShardedLinear: projection.py, __init__, lines 209-212, _copy_from_linear, 259-276 *)
  Definition opt_get {T} (o : option (res T)) : res (option T) := match o with Some r => bind r (fun x => Ok (Some x)) | None => Ok None end.
  Definition column_shard (size r : nat) (l : lin) : res lin :=
    let n := height (weight l) in
    if negb (n mod size =? 0) then Err ValueError
    else bind (get (split_rows (n / size) (weight l)) r) (fun w =>
         bind (opt_get (option_map (fun b => get (split (n / size) b) r) (bias l))) (fun b => Ok (Lin w b))).
  Definition column_from_linear (size : nat) (l : lin) : res (list lin) := collect (map (fun r => column_shard size r l) (seq 0 size)).
  (** forward: lines 278-290 *)
  Definition column_forward (gather_output : bool) (ls : list lin) (xs : list mat) : res (list mat) :=
    if length ls <=? 1 then collect (map2 linear xs ls)
    else bind (collect (map2 linear xs ls)) (fun ys => if gather_output then gather 1 ys else Ok ys).
  Definition column_backward (gather_output : bool) (ls : list lin) (xs gs : list mat) : res (list (mat * lin)) :=
    if length ls <=? 1 then Ok (map2 (fun lx g => grads (fst lx) (snd lx) g) (combine ls xs) gs)
    else bind (if gather_output then gather_backward 1 gs else Ok gs) (fun gs =>
         let ds := map2 (fun lx g => grads (fst lx) (snd lx) g) (combine ls xs) gs in
         Ok (combine (reduce_on_backward_backward (map fst ds)) (map snd ds))).
  (** ColumnShardedLinear.to_linear: lines 292-318, with the biases gathered; RowShardedLinear.to_linear: lines 534-555 *)
  Definition to_linear (dim_bias : bool) (dim : nat) (ls : list lin) : res (list lin) :=
    if length ls <=? 1 then Ok ls
    else bind (gather dim (map weight ls)) (fun ws =>
         if dim_bias
         then Ok (map2 (fun w l => Lin w (match bias l with
                                           | Some _ => Some (concat (map (fun l => match bias l with Some b => b | None => [] end) ls))
                                           | None => None end)) ws ls)
         else Ok (map2 (fun w l => Lin w (bias l)) ws ls)).
  Definition column_to_linear := to_linear true 0.

  (** RowShardedLinear: __init__, lines 452-455, _copy_from_linear, 501-514 *)
  Definition row_shard (size r : nat) (l : lin) : res lin :=
    let n := width (weight l) in
    if negb (n mod size =? 0) then Err ValueError
    else bind (get (split_cols (n / size) (weight l)) r) (fun w => Ok (Lin w (bias l))).
  Definition row_from_linear (size : nat) (l : lin) : res (list lin) := collect (map (fun r => row_shard size r l) (seq 0 size)).
  (** forward: lines 516-532 *)
  Definition plus_bias (b : option (list A)) (y : mat) : mat := match b with Some _ => Mat (width y) (map (add_bias b) (rows y)) | None => y end.
  Definition row_forward (scatter_input reduce_output : bool) (ls : list lin) (xs : list mat) : res (list mat) :=
    if length ls <=? 1 then collect (map2 linear xs ls)
    else bind (if scatter_input then scatter 1 xs else Ok xs) (fun xs =>
         bind (collect (map2 (fun x l => linear x (Lin (weight l) None)) xs ls)) (fun ys =>
         let ys := if reduce_output then reduce ys else ys in
         Ok (map2 (fun y l => plus_bias (bias l) y) ys ls))).
  Definition row_backward (scatter_input : bool) (ls : list lin) (xs gs : list mat) : res (list (mat * lin)) :=
    if length ls <=? 1 then Ok (map2 (fun lx g => grads (fst lx) (snd lx) g) (combine ls xs) gs)
    else bind (if scatter_input then scatter 1 xs else Ok xs) (fun xs =>
         let ds := map2 (fun lx g => grads (fst lx) (snd lx) g) (combine ls xs) (reduce_backward gs) in
         bind (if scatter_input then scatter_backward 1 (map fst ds) else Ok (map fst ds)) (fun gxs => Ok (combine gxs (map snd ds)))).
  Definition row_to_linear := to_linear false 1.

  (** ** Feed-forward networks: /repo/src/fairseq2/models/transformer/ffn.py. [act]: the activation; dropout is left out. *)
  Definition pointwise (f : A -> A) (m : mat) : mat := Mat (width m) (map (map f) (rows m)).
  Definition mmul (m n : mat) : res mat :=
    if (width m =? width n) && (height m =? height n) then Ok (Mat (width m) (map2 (map2 mul) (rows m) (rows n))) else Err RuntimeError.
  (** StandardFeedForwardNetwork: lines 84-132; the projections of one process are Linear *)
  Definition ffn (act : A -> A) (inner output : list lin) (xs : list mat) : res (list mat) :=
    bind (column_forward false inner xs) (fun hs => row_forward false true output (map (pointwise act) hs)).
  (** DauphinFeedForwardNetwork.forward: lines 213-226. seqs.chunk(2, dim=-1) *)
  Definition chunk2 (m : mat) : res (mat * mat) :=
    match split_cols ((width m + 1) / 2) m with [a; b] => Ok (a, b) | _ => Err ValueError end.
  Definition dauphin (act : A -> A) (inner output : list lin) (xs : list mat) : res (list mat) :=
    bind (column_forward false inner xs) (fun hs =>
    bind (collect (map (fun h => bind (chunk2 h) (fun ab => mmul (pointwise act (fst ab)) (snd ab))) hs)) (fun hs =>
    row_forward false true output hs)).
  (** GLUFeedForwardNetwork.forward: lines 374-396. [sparsify]: _gaussian_topk, lines 349-372, a function of each row of the gate, which
      is [None] if activation_sparsity is 0. *)
  Definition glu (act : A -> A) (sparsify : option (list A -> list A)) (gate inner output : list lin) (xs : list mat) : res (list mat) :=
    bind (column_forward false gate xs) (fun gs =>
    let gs := map (fun g => match sparsify with Some f => Mat (width g) (map f (rows g)) | None => g end) gs in
    let gs := map (pointwise act) gs in
    bind (column_forward false inner xs) (fun hs =>
    bind (collect (map2 mmul hs gs)) (fun hs => row_forward false true output hs))).

  (** ** StandardMultiheadAttention.forward: /repo/src/fairseq2/models/transformer/multihead_attention.py, lines 404-509, without state.
      [sdpa q k v]: what the attention function computes for one head, including the normalisations and the position encoder, which
      treat all heads alike. Attention biases that differ by head (ALiBi) are left out. *)
  Definition heads (head_dim : nat) (m : mat) : res (list mat) :=
    if head_dim =? 0 then Err RuntimeError else if negb (width m mod head_dim =? 0) then Err RuntimeError else Ok (if width m =? 0 then [] else split_cols head_dim m).
  (** ops.repeat_interleave over the heads *)
  Definition interleave {T} (n : nat) (l : list T) : list T := flat_map (fun x => repeat x n) l.
  Definition attention (sdpa : mat -> mat -> mat -> mat) (head_dim groups : nat) (q k v : mat) : res mat :=
    bind (heads head_dim q) (fun qh => bind (heads head_dim k) (fun kh => bind (heads head_dim v) (fun vh =>
    let kh := interleave groups kh in
    let vh := interleave groups vh in
    if (length qh =? length kh) && (length kh =? length vh)
    then cat 1 (map2 (fun q kv => sdpa q (fst kv) (snd kv)) qh (combine kh vh)) else Err RuntimeError))).
  Definition mha (sdpa : mat -> mat -> mat -> mat) (head_dim groups : nat) (q_proj k_proj v_proj output : list lin) (seqs keys values : list mat) : res (list mat) :=
    bind (column_forward false q_proj seqs) (fun qs =>
    bind (column_forward false k_proj keys) (fun ks =>
    bind (column_forward false v_proj values) (fun vs =>
    bind (collect (map2 (fun q kv => attention sdpa head_dim groups q (fst kv) (snd kv)) qs (combine ks vs))) (fun ys =>
    row_forward false true output ys)))).
End Shard.
Arguments mat : clear implicits. Arguments lin : clear implicits. Arguments embed : clear implicits.
