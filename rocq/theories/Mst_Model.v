(** Model of setting the parameters of a model from a checkpoint: /repo/src/fairseq2/models/utils/checkpoint.py 19-92. A tensor of the model has an identity
    (two names of one shared parameter have the same), a shape and a content; a tensor of the checkpoint has a shape and a content. Conversion between
    data types in copy_, and two parameters that are different views of the same memory, are not modelled. *)
From Coq Require Import List Bool Arith.
Import ListNotations.

Section M.
  Context {key data : Type}.
  Variable key_eqb : key -> key -> bool.
  Definition shape := list nat.
  Definition shape_eqb (a b : shape) : bool := if list_eq_dec Nat.eq_dec a b then true else false.
  Record tensor := Tensor { t_shape : shape; t_data : data }.
  (** The memory: the tensors by identity *)
  Definition memory := nat -> tensor.
  (** model.state_dict(keep_vars=True), line 32: names and identities *)
  Definition state_dict := list (key * nat).
  Definition put (i : nat) (t : tensor) (m : memory) : memory := fun j => if j =? i then t else m j.
  (** state_dict.pop(key), line 45 *)
  Fixpoint pop (k : key) (s : state_dict) : option (nat * state_dict) :=
    match s with
    | [] => None
    | (k', i) :: s' => if key_eqb k k' then Some (i, s') else match pop k s' with Some (j, r) => Some (j, (k', i) :: r) | None => None end
    end.
  Record st := St { left : state_dict; memo : list nat; unexpected : list key; mismatched : list key; mem : memory }.
  (** One turn of the loop, lines 43-69 *)
  Definition load_one (s : st) (e : key * tensor) : st :=
    let (k, t) := e in
    match pop k (left s) with
    | None => St (left s) (memo s) (unexpected s ++ [k]) (mismatched s) (mem s)
    | Some (i, rest) =>
        if negb (shape_eqb (t_shape t) (t_shape (mem s i))) then St rest (memo s) (unexpected s) (mismatched s ++ [k]) (mem s)
        else St rest (i :: memo s) (unexpected s) (mismatched s) (put i (Tensor (t_shape (mem s i)) (t_data t)) (mem s))
    end.
  (** Lines 71-86: [missing] are the names left whose tensor was not set under another name *)
  Definition missing (s : st) : list key := map fst (filter (fun e => negb (existsb (Nat.eqb (snd e)) (memo s))) (left s)).
  Record report := Report { r_mismatched : list key; r_missing : list key; r_unexpected : list key }.
  (** Lines 71-92: the memory, and the exception with what it names *)
  Definition finish (s : st) : memory * option report :=
    (mem s, match mismatched s, missing s, unexpected s with [], [], [] => None | a, b, c => Some (Report a b c) end).
  Definition set_model_state (model : state_dict) (m : memory) (checkpoint : list (key * tensor)) : memory * option report :=
    finish (fold_left load_one checkpoint (St model [] [] [] m)).
  (** The checkpoint raises while it is read: the exception passes through the loop, and what was copied stays. *)
  Definition set_model_state_stopped (model : state_dict) (m : memory) (read : list (key * tensor)) : memory := mem (fold_left load_one read (St model [] [] [] m)).
End M.
