(** Model of a decoder-only Transformer in evaluation mode, with and without the state of incremental decoding: /repo/src/fairseq2/models/transformer_lm/model.py, decoder.py, decoder_layer.py,
    models/transformer/frontend.py, multihead_attention.py 397-556 and attention_bias.py. The batch is neither padded nor packed. Dropout does nothing in evaluation mode. *)
From Coq Require Import List Bool Arith ZArith.
From Verif Require Import Attn_Model.
Import ListNotations.

Fixpoint mapi {A B} (f : nat -> A -> B) (i : nat) (l : list A) : list B := match l with [] => [] | a :: l' => f i a :: mapi f (S i) l' end.
(** Every element of a tensor *)
Definition each {A B} (f : A -> B) (m : mat A) : mat B := Mat (width m) (map (map f) (rows m)).
(** Every element with its position; the first column is at position [start]. *)
Definition each_at {A B} (f : nat -> A -> B) (start : nat) (m : mat A) : mat B := Mat (width m) (map (mapi f start) (rows m)).
Definition zip {A B C} (f : A -> B -> C) (a : mat A) (b : mat B) : mat C := Mat (width a) (map2 (map2 f) (rows a) (rows b)).

Section Decoder.
(** Tokens, hidden states, queries, keys, values and logits at one position *)
Context {Tk X Q K V Y : Type}.
(** A position encoder, nn/position_encoder.py: the greatest length and what it does to an element at a position *)
Record encoder (A : Type) := Encoder { max_len : nat; encode : nat -> A -> A }.
Arguments Encoder {A} _ _. Arguments max_len {A} _. Arguments encode {A} _ _ _.
(** The step at which the input starts, position_encoder.py 143-146: that of the bag, if there is one *)
Definition start_of (b : option (bag K V)) : nat := match b with Some b => step_nr b | None => 0 end.
(** position_encoder.py 135-181 for a batch that is not padded; None: the ValueError of 150-153 *)
Definition pos_encode {A} (e : option (encoder A)) (b : option (bag K V)) (m : mat A) : option (mat A) :=
  match e with
  | None => Some m
  | Some e => if max_len e <? start_of b + width m then None else Some (each_at (encode e) (start_of b) m)
  end.

(** A layer. [post]: norm_order == POST. [attend q kvs]: the attention of a query over keys and values, then the output projection. Memory of a state that was never written is None. *)
Record layer := Layer {
  post : bool; ln1 : X -> X; proj_q : X -> Q; proj_k : X -> K; proj_v : X -> V; pos_q : option (encoder Q); pos_k : option (encoder K);
  attend : Q -> list (option K * option V) -> X; residual1 : X -> X -> X; ln2 : X -> X; ffn : X -> X; residual2 : X -> X -> X }.

(** attention_bias.py 379-382, 75-91 and 209-232: the keys that query [i] of [n] sees. A single query sees all of them. *)
Definition seen {A} (n i : nat) (l : list A) : list A :=
  if n =? 1 then l
  else map snd (filter (fun p => (Z.of_nat (fst p) - Z.of_nat i <=? Z.of_nat (length l) - Z.of_nat n)%Z) (mapi pair 0 l)).
Definition sdpa (att : Q -> list (option K * option V) -> X) (n : nat) (q : list Q) (k : list (option K)) (v : list (option V)) : list X :=
  mapi (fun i q => att q (seen n i (combine k v))) 0 q.
(** multihead_attention.py 397-508 for self attention with the default state; [m]: the module *)
Definition self_attn (m : nat) (L : layer) (x : mat X) (b : option (bag K V)) : option (mat X * option (bag K V)) :=
  match pos_encode (pos_q L) b (each (proj_q L) x), pos_encode (pos_k L) b (each (proj_k L) x) with
  | Some q, Some k =>
      let v := each (proj_v L) x in
      let out := fun (k : mat (option K)) (v : mat (option V)) =>
        Mat (width x) (map (fun p => sdpa (attend L) (width x) (fst p) (fst (snd p)) (snd (snd p))) (combine (rows q) (combine (rows k) (rows v)))) in
      match b with
      | None => Some (out (given k) (given v), None)
      | Some b => match self_attend m None k v b with Ok (k, v, b) => Some (out k v, Some b) | Err _ => None end
      end
  | _, _ => None
  end.
(** decoder_layer.py 142-217 *)
Definition forward_layer (m : nat) (L : layer) (x : mat X) (b : option (bag K V)) : option (mat X * option (bag K V)) :=
  match self_attn m L (if post L then x else each (ln1 L) x) b with
  | None => None
  | Some (y, b) =>
      let y := zip (residual1 L) y x in
      let x := if post L then each (ln1 L) y else y in
      let y := each (ffn L) (if post L then x else each (ln2 L) x) in
      let y := zip (residual2 L) y x in
      Some (if post L then each (ln2 L) y else y, b)
  end.
(** A hook is given the number of the layer, its output and the number of layers. decoder.py 142-144: the hooks are called until one gives False, which ends this loop only. The result are the
    answers. *)
Definition hook := nat -> mat X -> nat -> bool.
Fixpoint call_hooks (hs : list hook) (m : nat) (x : mat X) (n : nat) : list bool :=
  match hs with [] => [] | h :: hs' => if h m x n then true :: call_hooks hs' m x n else [false] end.
(** decoder.py 139-144; [m]: the number of the layer and its module *)
Fixpoint forward_layers (hs : list hook) (n m : nat) (Ls : list layer) (x : mat X) (b : option (bag K V)) : option (mat X * option (bag K V) * list (list bool)) :=
  match Ls with
  | [] => Some (x, b, [])
  | L :: Ls' =>
      match forward_layer m L x b with
      | None => None
      | Some (x, b) => match forward_layers hs n (S m) Ls' x b with None => None | Some (y, b, c) => Some (y, b, call_hooks hs m x n :: c) end
      end
  end.
(** [embed] includes the scale of frontend.py 112-115 *)
Record model := Model { embed : Tk -> X; pos_x : option (encoder X); layers : list layer; final_norm : option (X -> X); final_proj : X -> Y }.
(** model.py 119-139, frontend.py 104-123, decoder.py 128-152 *)
Definition forward_hooked (M : model) (hs : list hook) (t : mat Tk) (b : option (bag K V)) : option (mat Y * option (bag K V) * list (list bool)) :=
  match pos_encode (pos_x M) b (each (embed M) t) with
  | None => None
  | Some x =>
      match forward_layers hs (length (layers M)) 0 (layers M) x b with
      | None => None
      | Some (x, b, c) => Some (each (final_proj M) (match final_norm M with Some f => each f x | None => x end), b, c)
      end
  end.
Definition forward (M : model) (t : mat Tk) (b : option (bag K V)) : option (mat Y * option (bag K V)) := option_map fst (forward_hooked M [] t b).
End Decoder.
Arguments encoder : clear implicits. Arguments Encoder {A} _ _. Arguments max_len {A} _. Arguments encode {A} _ _ _.
Arguments layer : clear implicits. Arguments model : clear implicits.
