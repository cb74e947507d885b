(** Model of mixture of experts layers: MoE, /repo/src/fairseq2/models/llama4/moe.py, with GroupedExpertNetwork and TPShardedExpertNetwork,
    /repo/src/fairseq2/models/transformer/experts.py, and its sharding, MoESharder, /repo/src/fairseq2/models/llama4/sharder.py 46-92.
    Numbers are of any type with addition, multiplication and zero; rounding is left out. Tensors with two dimensions are lists of rows; the tokens of all sequences
    are the rows of the input (x.reshape(-1, dim)). The devices and the meta device are left out. *)
From Coq Require Import List Bool Arith.
Import ListNotations.

(** Consecutive elements: Tensor.split(k)[r], and the views with one more leading dimension *)
Definition block {T} (k r : nat) (l : list T) : list T := firstn k (skipn (r * k) l).
Fixpoint zip_with {T U V} (f : T -> U -> V) (l : list T) (m : list U) : list V := match l, m with x :: l, y :: m => f x y :: zip_with f l m | _, _ => [] end.

Section M.
  Context {A : Type}.
  Variables (zero : A) (add mul : A -> A -> A) (act sigmoid : A -> A).
  (** torch.topk(..., dim=1): the indices that it returns for a row *)
  Variable topk : list A -> list nat.
  Notation vec := (list A).
  Definition lsum {T} (f : T -> A) (l : list T) : A := fold_right (fun x s => add (f x) s) zero l.
  Definition at2 (w : list vec) (i j : nat) : A := nth j (nth i w []) zero.
  Definition vadd (x y : vec) : vec := zip_with add x y.
  (** One row of x @ w, for w with [n] rows and [m] columns; one row of x @ w^T *)
  Definition matmul (n m : nat) (x : vec) (w : list vec) : vec := map (fun j => lsum (fun i => mul (nth i x zero) (at2 w i j)) (seq 0 n)) (seq 0 m).
  Definition linear (n m : nat) (x : vec) (w : list vec) : vec := map (fun j => lsum (fun i => mul (nth i x zero) (at2 w j i)) (seq 0 n)) (seq 0 m).

  (** GroupedExpertNetwork with create_expert_glu_layers, experts.py 24-87, 158-213; the dimension of the experts is folded into the rows *)
  Record experts := Experts { num : nat; model_dim : nat; inner_dim : nat; gate : list vec; inner : list vec; output : list vec }.
  (** _forward_glu_bmm_with_folded_experts, experts.py 90-114. [xs]: for each expert its tokens *)
  Definition view (n : nat) (w : list vec) : list (list vec) := map (fun e => block (length w / n) e w) (seq 0 n).
  Definition glu1 (dm di : nat) (g i o : list vec) (x : vec) : vec := matmul di dm (zip_with mul (map act (matmul dm di x g)) (matmul dm di x i)) o.
  Definition experts_forward (e : experts) (xs : list (list vec)) : list (list vec) :=
    zip_with (fun gio x => map (glu1 (model_dim e) (inner_dim e) (fst (fst gio)) (snd (fst gio)) (snd gio)) x)
             (combine (combine (view (num e) (gate e)) (view (num e) (inner e))) (view (num e) (output e))) xs.
  (** TPShardedExpertNetwork: __init__, experts.py 298-304, from_grouped_expert_network, 264-266, and _copy_weight, 325-333. None: ValueError *)
  Definition copy_weight2 (s rank n : nat) (w : list vec) : list vec := concat (map (map (block s rank)) (view n w)).
  Definition copy_weight1 (s rank n : nat) (w : list vec) : list vec := concat (map (block s rank) (view n w)).
  Definition shard_experts (size rank : nat) (e : experts) : option experts :=
    if negb (inner_dim e mod size =? 0) then None
    else let s := inner_dim e / size in
         Some (Experts (num e) (model_dim e) s (copy_weight2 s rank (num e) (gate e)) (copy_weight2 s rank (num e) (inner e)) (copy_weight1 s rank (num e) (output e))).

  (** GLUFeedForwardNetwork without bias, the shared expert: /repo/src/fairseq2/models/transformer/ffn.py 374-396 *)
  Record glu := Glu { s_dim : nat; s_inner : nat; s_gate : list vec; s_in : list vec; s_out : list vec }.
  Definition glu_forward (s : glu) (x : vec) : vec :=
    linear (s_inner s) (s_dim s) (zip_with mul (map act (linear (s_dim s) (s_inner s) x (s_gate s))) (linear (s_dim s) (s_inner s) x (s_in s))) (s_out s).
  (** Sharded by ColumnShardedLinear and RowShardedLinear without reduction: sharder.py 58-74; /repo/src/fairseq2/nn/projection.py 209-212, 259-276, 452-455, 501-505, 518-527 *)
  Definition shard_glu (size rank : nat) (g : glu) : option glu :=
    if negb (s_inner g mod size =? 0) then None
    else let s := s_inner g / size in Some (Glu (s_dim g) s (block s rank (s_gate g)) (block s rank (s_in g)) (map (block s rank) (s_out g))).

  (** MoE: the router, the experts and the shared expert, moe.py 67-91 *)
  Record moe := Moe { router : list vec; moe_experts : experts; shared : option glu }.
  (** torch.full_like(-inf).scatter_ and sigmoid, moe.py 113-127: None is -inf, whose sigmoid is zero *)
  Definition scores (logits : vec) : list (option A) :=
    map (fun e => if existsb (Nat.eqb e) (topk logits) then Some (nth e logits zero) else None) (seq 0 (length logits)).
  Definition sigmoid' (s : option A) : A := match s with Some l => sigmoid l | None => zero end.
  (** scatter_add_(dim=0) *)
  Fixpoint update (l : list vec) (i : nat) (v : vec) : list vec := match l, i with [], _ => [] | x :: l', 0 => vadd x v :: l' | x :: l', S i' => x :: update l' i' v end.
  Definition scatter_add (out : list vec) (index : list nat) (src : list vec) : list vec := fold_left (fun o iv => update o (fst iv) (snd iv)) (combine index src) out.
  (** MoE.forward, moe.py 94-150, without the reduction; [x]: the tokens, at least one *)
  Definition moe_forward (m : moe) (x : list vec) : list vec :=
    let e := moe_experts m in
    let dim := model_dim e in
    let logits := map (fun row => matmul dim (num e) row (router m)) x in
    let num_tokens := length logits in
    (* transposed: for each expert the scores of all tokens *)
    let top_scores := concat (map (fun k => map (fun l => sigmoid' (nth k (scores l) None)) logits) (seq 0 (num e))) in
    let token_indices := concat (repeat (seq 0 num_tokens) (num e)) in
    let routed_input := zip_with (fun t s => map (fun a => mul a s) (nth t x [])) token_indices top_scores in
    let routed_output := concat (experts_forward e (view (num e) routed_input)) in
    let out := match shared m with Some s => map (glu_forward s) x | None => map (fun row => map (fun _ => zero) row) x end in
    scatter_add out token_indices routed_output.
  (** MoESharder.shard, for the process with rank [rank]: the router is not sharded *)
  Definition shard_moe (size rank : nat) (m : moe) : option moe :=
    match (match shared m with Some s => option_map Some (shard_glu size rank s) | None => Some None end), shard_experts size rank (moe_experts m) with
    | Some s, Some e => Some (Moe (router m) e s)
    | _, _ => None
    end.
  (** The forward pass of all processes with the reduction of its output, moe.py 152-154, /repo/src/fairseq2/ops/tensor_parallel.py 20-40; None: some process
      cannot be sharded *)
  Definition total (outs : list (list vec)) : list vec := match outs with [] => [] | o :: outs' => fold_left (zip_with vadd) outs' o end.
  Fixpoint all_some {T} (l : list (option T)) : option (list T) := match l with [] => Some [] | Some x :: l' => option_map (cons x) (all_some l') | None :: _ => None end.
  Definition sharded_forward (size : nat) (m : moe) (x : list vec) : option (list vec) :=
    option_map (fun ms => total (map (fun m => moe_forward m x) ms)) (all_some (map (fun r => shard_moe size r m) (seq 0 size))).
End M.
