(** What a mixture of experts computes, element by element, independent of how the code arranges tokens, experts and processes. *)
From Coq Require Import List Arith.
From Verif Require Import Moe_Model.
Import ListNotations.

Section S.
  Context {A : Type}.
  Variables (zero : A) (add mul : A -> A -> A) (act sigmoid : A -> A) (topk : list A -> list nat).
  (** f 0 + ... + f (n - 1) *)
  Fixpoint sum (n : nat) (f : nat -> A) : A := match n with 0 => zero | S n => add (sum n f) (f n) end.
  Fixpoint sum_over (l : list nat) (f : nat -> A) : A := match l with [] => zero | x :: l => add (f x) (sum_over l f) end.
  Notation elem w i j := (nth j (nth i w []) zero).
  Notation "x @ i" := (nth i x zero) (at level 9).

  (** The [k]-th output of expert [n] for the input [x]: its weights are the rows that belong to it *)
  Definition expert_out (e : experts) (n : nat) (x : list A) (k : nat) : A :=
    sum (inner_dim e) (fun j =>
      mul (mul (act (sum (model_dim e) (fun i => mul (x @ i) (elem (gate e) (n * model_dim e + i) j))))
               (sum (model_dim e) (fun i => mul (x @ i) (elem (inner e) (n * model_dim e + i) j))))
          (elem (output e) (n * inner_dim e + j) k)).
  Definition shared_out (g : glu) (x : list A) (k : nat) : A :=
    sum (s_inner g) (fun j =>
      mul (mul (act (sum (s_dim g) (fun i => mul (x @ i) (elem (s_gate g) j i)))) (sum (s_dim g) (fun i => mul (x @ i) (elem (s_in g) j i))))
          (elem (s_out g) k j)).
  (** The score of an expert for a token, and the scores of all *)
  Definition logit (m : moe) (x : list A) (n : nat) : A := sum (model_dim (moe_experts m)) (fun i => mul (x @ i) (elem (router m) i n)).
  Definition all_logits (m : moe) (x : list A) : list A := map (logit m x) (seq 0 (num (moe_experts m))).
  (** The output for the token [x]: the shared expert, and the chosen experts, each with the token weighted by the sigmoid of its score *)
  Definition token_out (m : moe) (x : list A) : list A :=
    map (fun k => add (match shared m with Some g => shared_out g x k | None => zero end)
                      (sum_over (topk (all_logits m x)) (fun n => expert_out (moe_experts m) n (map (fun a => mul a (sigmoid (logit m x n))) x) k)))
        (seq 0 (model_dim (moe_experts m))).

  (** The weights have their declared shapes *)
  Definition shape (n k : nat) (w : list (list A)) : Prop := length w = n /\ Forall (fun r => length r = k) w.
  Record well_shaped (m : moe) : Prop := {
    ws_gate : let e := moe_experts m in shape (num e * model_dim e) (inner_dim e) (gate e);
    ws_inner : let e := moe_experts m in shape (num e * model_dim e) (inner_dim e) (inner e);
    ws_output : let e := moe_experts m in shape (num e * inner_dim e) (model_dim e) (output e);
    ws_shared : forall g, shared m = Some g -> s_dim g = model_dim (moe_experts m) /\ shape (s_inner g) (s_dim g) (s_gate g) /\ shape (s_inner g) (s_dim g) (s_in g) /\ shape (s_dim g) (s_inner g) (s_out g)
  }.
  (** Any choice of different experts for each list of scores; torch.topk chooses those with the greatest scores *)
  Definition choice (num : nat) : Prop := forall logits, length logits = num -> NoDup (topk logits) /\ forall n, In n (topk logits) -> n < num.
  Record laws : Prop := {
    add_comm : forall x y, add x y = add y x; add_assoc : forall x y z, add x (add y z) = add (add x y) z; add_zero : forall x, add zero x = x;
    mul_zero_l : forall x, mul zero x = zero; mul_zero_r : forall x, mul x zero = zero
  }.
End S.
