(** What the key/value states of incremental decoding are meant to hold, in terms of the steps fed to a module and of the
    reorderings of the batch, without reference to buffers, capacities or positions. *)
From Coq Require Import List Arith.
From Verif Require Import Attn_Model.
Import ListNotations.

(** A tensor all of whose rows are [width] long. *)
Definition rect {A} (m : mat A) : Prop := forall r, In r (rows m) -> length r = width m.

(** What happened to one module, latest first: a step (or several) was fed to it, or the batch was rearranged so that row
    [i] is what row [nth i order] was. *)
Inductive event (K V : Type) := Fed (k : mat K) (v : mat V) | Reordered (order : list nat).
Arguments Fed {K V} _ _. Arguments Reordered {K V} _.

(** The number of rows after a history, the number of steps fed, and everything fed to the sequence that is now row [i],
    oldest first, following it back through the reorderings. *)
Definition size {K V} (h : list (event K V)) : nat :=
  match h with [] => 0 | Fed k _ :: _ => length (rows k) | Reordered o :: _ => length o end.
Fixpoint total {K V} (h : list (event K V)) : nat :=
  match h with [] => 0 | Fed k _ :: h' => total h' + width k | Reordered _ :: h' => total h' end.
Fixpoint keys {K V} (h : list (event K V)) (i : nat) : list K :=
  match h with [] => [] | Fed k _ :: h' => keys h' i ++ nth i (rows k) [] | Reordered o :: h' => keys h' (nth i o 0) end.
Fixpoint values {K V} (h : list (event K V)) (i : nat) : list V :=
  match h with [] => [] | Fed _ v :: h' => values h' i ++ nth i (rows v) [] | Reordered o :: h' => values h' (nth i o 0) end.

(** Keys and values of a step have the same shape, every step has a row per sequence of the batch, and a reordering names
    existing rows. *)
Definition legal_event {K V} (e : event K V) (h : list (event K V)) : Prop :=
  match e with
  | Fed k v => rect k /\ rect v /\ width v = width k /\ length (rows v) = length (rows k) /\ (h = [] \/ length (rows k) = size h)
  | Reordered o => h <> [] /\ forall i, In i o -> i < size h
  end.
Fixpoint legal {K V} (h : list (event K V)) : Prop :=
  match h with [] => True | e :: h' => legal_event e h' /\ legal h' end.

(** The state a module ends up with: made from the first step by the factory [f] ([None]: all steps are kept, [Some w]: a
    window of [w]), then appended to and reordered. *)
Fixpoint replay {K V} (f : option nat) (max_len : nat) (inc : option nat) (h : list (event K V)) : res (state K V) :=
  match h with
  | [] => Err BadShape
  | [Fed k v] => self_factory f k v max_len inc
  | Fed k v :: h' => bind (replay f max_len inc h') (append k v)
  | Reordered o :: h' => bind (replay f max_len inc h') (reorder o)
  end.

(** The last [n] elements. *)
Definition lastn {A} (n : nat) (l : list A) : list A := skipn (length l - n) l.
(** Tensors that hold, in row [i], all of [c i], initialised. *)
Definition holds_exactly {A} (n w : nat) (c : nat -> list A) (m : mat (option A)) : Prop :=
  width m = w /\ rows m = map (fun i => map Some (c i)) (seq 0 n).

(** With a window of [w] steps: no later step of several tokens starts before the window is full and ends beyond it, unless
    it is itself as long as the window. *)
Fixpoint smooth {K V} (w : nat) (h : list (event K V)) : Prop :=
  match h with
  | [] => True
  | Fed k _ :: h' => (h' = [] \/ total h' + width k <= w \/ w <= total h' \/ w <= width k) /\ smooth w h'
  | Reordered _ :: h' => smooth w h'
  end.
(** Steps are fed one at a time after the first feed. *)
Fixpoint stepwise {K V} (h : list (event K V)) : Prop :=
  match h with
  | [] => True
  | Fed k _ :: h' => (h' = [] \/ width k = 1) /\ stepwise h'
  | Reordered _ :: h' => stepwise h'
  end.

(** ** A bag used by several modules. [f] says of every module how it makes its state, [H] what happened to it. *)
Inductive session {K V} (f : nat -> option nat) (max_len : nat) (inc : option nat)
  : bag K V -> (nat -> list (event K V)) -> Prop :=
| Started b : new_bag max_len inc = Ok b -> session f max_len inc b (fun _ => [])
| Attended b H m k v ok ov b' :
    session f max_len inc b H -> legal_event (Fed k v) (H m) ->
    self_attend m (f m) k v b = Ok (ok, ov, b') ->
    session f max_len inc b' (fun m' => if m' =? m then Fed k v :: H m else H m')
| Stepped b H n b' : session f max_len inc b H -> increment n b = Ok b' -> session f max_len inc b' H
| Rearranged b H o b' :
    session f max_len inc b H -> (forall m, H m <> [] -> legal_event (Reordered o) (H m)) ->
    bag_reorder o b = Ok b' ->
    session f max_len inc b' (fun m => match H m with [] => [] | h => Reordered o :: h end).

(** There is room for the step: memory grows on demand, or the steps so far and the new ones are not more than the bag was
    made for, or the module was fed at every step of the bag so far and is fed one more. *)
Definition room {K V} (b : bag K V) (h : list (event K V)) (k : mat K) : Prop :=
  inc b <> None \/ total h + width k <= max_steps b \/ (total h = step_nr b /\ width k = 1 /\ 0 < max_steps b).
