(** Model of the key/value states of multi-head attention during incremental decoding and of the bag that holds them.
    /repo/src/fairseq2/models/transformer/multihead_attention.py 596-966 and 430-483,
    /repo/src/fairseq2/models/transformer/model.py 265-288, /repo/src/fairseq2/nn/incremental_state.py 54-152 *)
From Coq Require Import List Bool Arith Lia.
Import ListNotations.

(** ** Tensors seen through their first two dimensions, the batch and the sequence; [A] is one head-by-dimension slab.
    The sequence dimension is kept apart because there may be no row. Memory of [new_empty] that was never written is
    [None]. *)
Record mat (A : Type) := Mat { width : nat; rows : list (list A) }.
Arguments Mat {A} _ _. Arguments width {A} _. Arguments rows {A} _.

(** The exceptions: [BadIncrement] is the ValueError of 673-676 and 800-803, [BadShape] the RuntimeError of a tensor
    assignment between shapes that do not broadcast, [BadIndex] the IndexError of [index_select], [NoAppend] the
    NotSupportedError of 945-947, [TooManySteps] the ValueError of incremental_state.py 87-90. *)
Inductive exn := BadIncrement | BadShape | BadIndex | NoAppend | TooManySteps.
Inductive res (A : Type) := Ok (a : A) | Err (e : exn).
Arguments Ok {A} _. Arguments Err {A} _.
Definition bind {A B} (r : res A) (f : A -> res B) : res B := match r with Ok a => f a | Err e => Err e end.

(** The batch dimension of the tensor: k.shape[0]. *)
Definition batch {A} (m : mat A) : nat := length (rows m).
(** t.new_empty((n, w, ...)): 681-682, 723-724, 810-811, 867-868 *)
Definition new_empty {A} (n w : nat) : mat (option A) := Mat w (repeat (repeat None w) n).
(** Every element of a given tensor is initialised. *)
Definition given {A} (m : mat A) : mat (option A) := Mat (width m) (map (map Some) (rows m)).
(** m[:, :s]: 727-728, 736-737, 871-872, 880-881 *)
Definition slice_to {A} (s : nat) (m : mat A) : mat A := Mat (Nat.min s (width m)) (map (firstn s) (rows m)).
(** m[:, -c:], which is the whole of [m] if [c] is zero: 821-822, 848-849 *)
Definition slice_last {A} (c : nat) (m : mat A) : mat A :=
  match c with O => m | _ => Mat (Nat.min c (width m)) (map (skipn (width m - c)) (rows m)) end.
(** Broadcasting one dimension of the source of an assignment to size [n]. *)
Definition expand {A} (n : nat) (l : list A) : option (list A) :=
  if length l =? n then Some l else match l with [x] => Some (repeat x n) | _ => None end.
(** The same for the sequence dimension. *)
Definition widen {A} (w : nat) (m : mat A) : option (list (list A)) :=
  if width m =? w then Some (rows m)
  else if width m =? 1 then Some (map (fun r => match r with x :: _ => repeat x w | [] => [] end) (rows m)) else None.
Definition map2 {A B C} (f : A -> B -> C) (a : list A) (b : list B) : list C := map (fun p => f (fst p) (snd p)) (combine a b).
(** m[:, a:b] = src for a <= b; bounds are clipped to the dimension: 692-693, 705-706, 727-728, 821-822, 848-849, 871-872 *)
Definition assign {A} (a b : nat) (src m : mat A) : res (mat A) :=
  let a' := Nat.min a (width m) in
  let w := Nat.min b (width m) - a' in
  match widen w src with
  | None => Err BadShape
  | Some rs =>
      match expand (batch m) rs with
      | None => Err BadShape
      | Some rs => Ok (Mat (width m) (map2 (fun r s => firstn a' r ++ s ++ skipn (a' + w) r) (rows m) rs))
      end
  end.
(** torch.roll(m, shifts=-c, dims=1): 839-840 *)
Definition roll_left {A} (c : nat) (m : mat A) : mat A :=
  let c' := c mod width m in Mat (width m) (map (fun r => skipn c' r ++ firstn c' r) (rows m)).
(** m.index_select(0, order): 743-744, 887-888, 956-957; model.py 274 *)
Fixpoint select {A} (l : list A) (order : list nat) : option (list A) :=
  match order with
  | [] => Some []
  | i :: order' => match nth_error l i, select l order' with Some x, Some xs => Some (x :: xs) | _, _ => None end
  end.
Definition index_select {A} (order : list nat) (m : mat A) : res (mat A) :=
  match select (rows m) order with Some rs => Ok (Mat (width m) rs) | None => Err BadIndex end.

(** ((n + inc - 1) // inc) * inc: 721, 865 *)
Definition round_up (n inc : nat) : nat := (n + inc - 1) / inc * inc.

Section KV.
Context {K V : Type}.

(** ** FullAttentionState: 647-757 *)
Record full := Full { f_len : nat; f_k : mat (option K); f_v : mat (option V); f_inc : option nat }.

(** [_expand_kv]: 709-732. Both tensors are given the batch size and the capacity read off the keys. *)
Definition full_expand (n : nat) (s : full) : res full :=
  match f_inc s with
  | None => Ok s
  | Some inc =>
      let new_len := f_len s + n in
      if new_len <=? width (f_k s) then Ok s
      else
        let cap := round_up new_len inc in
        let k := new_empty (batch (f_k s)) cap in
        let v := new_empty (batch (f_k s)) cap in
        if 0 <? f_len s then
          bind (assign 0 (f_len s) (slice_to (f_len s) (f_k s)) k) (fun k =>
          bind (assign 0 (f_len s) (slice_to (f_len s) (f_v s)) v) (fun v =>
          Ok (Full (f_len s) k v (f_inc s))))
        else Ok (Full (f_len s) k v (f_inc s))
  end.

(** 670-695 *)
Definition full_init (k : mat K) (v : mat V) (max_len : nat) (inc : option nat) : res full :=
  match inc with
  | Some 0 => Err BadIncrement
  | _ =>
      let cap := match inc with Some _ => 0 | None => max_len end in
      bind (full_expand (width k) (Full 0 (new_empty (batch k) cap) (new_empty (batch k) cap) inc)) (fun s =>
      bind (assign 0 (width k) (given k) (f_k s)) (fun k' =>
      bind (assign 0 (width k) (given v) (f_v s)) (fun v' =>
      Ok (Full (width k) k' v' (f_inc s)))))
  end.

(** 697-707 *)
Definition full_append (k : mat K) (v : mat V) (s : full) : res full :=
  let n := width k in
  bind (full_expand n s) (fun s =>
  let pos := f_len s in
  bind (assign pos (pos + n) (given k) (f_k s)) (fun k' =>
  bind (assign pos (pos + n) (given v) (f_v s)) (fun v' =>
  Ok (Full (f_len s + n) k' v' (f_inc s))))).

(** 735-739 *)
Definition full_get (s : full) : mat (option K) * mat (option V) := (slice_to (f_len s) (f_k s), slice_to (f_len s) (f_v s)).
(** 742-744 *)
Definition full_reorder (order : list nat) (s : full) : res full :=
  bind (index_select order (f_k s)) (fun k => bind (index_select order (f_v s)) (fun v => Ok (Full (f_len s) k v (f_inc s)))).
(** 747-757; [unit] is num_heads * head_dim * itemsize *)
Definition full_size (unit : nat) (s : full) : nat := 2 * batch (f_k s) * f_len s * unit.
Definition full_capacity (unit : nat) (s : full) : nat := 2 * (batch (f_k s) * width (f_k s)) * unit.

(** ** LocalAttentionState: 760-904 *)
Record local := Local { l_len : nat; l_win : nat; l_k : mat (option K); l_v : mat (option V); l_inc : option nat }.

(** 853-876 *)
Definition local_expand (n : nat) (s : local) : res local :=
  match l_inc s with
  | None => Ok s
  | Some inc =>
      let new_len := l_len s + n in
      if (new_len <=? width (l_k s)) || (width (l_k s) =? l_win s) then Ok s
      else
        let cap := Nat.min (round_up new_len inc) (l_win s) in
        let k := new_empty (batch (l_k s)) cap in
        let v := new_empty (batch (l_k s)) cap in
        if 0 <? l_len s then
          bind (assign 0 (l_len s) (slice_to (l_len s) (l_k s)) k) (fun k =>
          bind (assign 0 (l_len s) (slice_to (l_len s) (l_v s)) v) (fun v =>
          Ok (Local (l_len s) (l_win s) k v (l_inc s))))
        else Ok (Local (l_len s) (l_win s) k v (l_inc s))
  end.

(** 792-824 *)
Definition local_init (k : mat K) (v : mat V) (max_len window : nat) (inc : option nat) : res local :=
  match inc with
  | Some 0 => Err BadIncrement
  | _ =>
      let win := Nat.min max_len window in
      let cap := match inc with Some _ => 0 | None => win end in
      bind (local_expand (width k) (Local 0 win (new_empty (batch k) cap) (new_empty (batch k) cap) inc)) (fun s =>
      let copy := Nat.min (width k) win in
      bind (assign 0 copy (given (slice_last copy k)) (l_k s)) (fun k' =>
      bind (assign 0 copy (given (slice_last copy v)) (l_v s)) (fun v' =>
      Ok (Local (width k) win k' v' (l_inc s)))))
  end.

(** 828-851 *)
Definition local_append (k : mat K) (v : mat V) (s : local) : res local :=
  let n := width k in
  bind (local_expand n s) (fun s =>
  let '(pos, copy, sk, sv) :=
    if l_win s <? l_len s + n then
      let copy := Nat.min n (l_win s) in
      if copy =? l_win s then (0, copy, l_k s, l_v s)
      else (l_win s - copy, copy, roll_left copy (l_k s), roll_left copy (l_v s))
    else (l_len s, n, l_k s, l_v s) in
  bind (assign pos (pos + copy) (given (slice_last copy k)) sk) (fun k' =>
  bind (assign pos (pos + copy) (given (slice_last copy v)) sv) (fun v' =>
  Ok (Local (l_len s + n) (l_win s) k' v' (l_inc s))))).

(** 879-883 *)
Definition local_get (s : local) : mat (option K) * mat (option V) := (slice_to (l_len s) (l_k s), slice_to (l_len s) (l_v s)).
(** 886-888 *)
Definition local_reorder (order : list nat) (s : local) : res local :=
  bind (index_select order (l_k s)) (fun k => bind (index_select order (l_v s)) (fun v => Ok (Local (l_len s) (l_win s) k v (l_inc s)))).
(** 891-904 *)
Definition local_capacity (unit : nat) (s : local) : nat := 2 * (batch (l_k s) * width (l_k s)) * unit.
Definition local_size (unit : nat) (s : local) : nat :=
  if l_win s <=? l_len s then local_capacity unit s else 2 * batch (l_k s) * l_len s * unit.

(** ** StaticAttentionState: 933-966 *)
Record static := Static { s_k : mat K; s_v : mat V }.
(** 954-957: rows are only rearranged if their number changes *)
Definition static_reorder (order : list nat) (s : static) : res static :=
  if length order =? batch (s_k s) then Ok s
  else bind (index_select order (s_k s)) (fun k => bind (index_select order (s_v s)) (fun v => Ok (Static k v))).

(** ** Any of the three: 596-623 *)
Inductive state := SFull (s : full) | SLocal (s : local) | SStatic (s : static).
Definition append (k : mat K) (v : mat V) (st : state) : res state :=
  match st with
  | SFull s => bind (full_append k v s) (fun s => Ok (SFull s))
  | SLocal s => bind (local_append k v s) (fun s => Ok (SLocal s))
  | SStatic _ => Err NoAppend
  end.
Definition get (st : state) : mat (option K) * mat (option V) :=
  match st with SFull s => full_get s | SLocal s => local_get s | SStatic s => (given (s_k s), given (s_v s)) end.
Definition reorder (order : list nat) (st : state) : res state :=
  match st with
  | SFull s => bind (full_reorder order s) (fun s => Ok (SFull s))
  | SLocal s => bind (local_reorder order s) (fun s => Ok (SLocal s))
  | SStatic s => bind (static_reorder order s) (fun s => Ok (SStatic s))
  end.

(** How a module makes its state: [None] is the default factory of multihead_attention.py 440 and 467, [Some w] the
    LocalAttentionStateFactory of 907-925 with window [w]. *)
Definition self_factory (f : option nat) (k : mat K) (v : mat V) (max_len : nat) (inc : option nat) : res state :=
  match f with
  | None => bind (full_init k v max_len inc) (fun s => Ok (SFull s))
  | Some w => bind (local_init k v max_len w inc) (fun s => Ok (SLocal s))
  end.

(** ** IncrementalStateBag: incremental_state.py 54-152. Modules are numbered; only attention states are kept, so the type
    test of [maybe_get_state] (101-105) always succeeds. *)
Record bag := Bag { step_nr : nat; max_steps : nat; inc : option nat; states : list (nat * state) }.
(** 58-77 *)
Definition new_bag (max_steps : nat) (inc : option nat) : res bag :=
  match inc with Some 0 => Err BadIncrement | _ => Ok (Bag 0 max_steps inc []) end.
(** 79-93 *)
Definition increment (n : nat) (b : bag) : res bag :=
  if max_steps b <=? step_nr b + n then Err TooManySteps else Ok (Bag (step_nr b + n) (max_steps b) (inc b) (states b)).
(** 95-107 *)
Fixpoint lookup (m : nat) (l : list (nat * state)) : option state :=
  match l with [] => None | (m', s) :: l' => if m =? m' then Some s else lookup m l' end.
(** 109-116 *)
Fixpoint set_state (m : nat) (s : state) (l : list (nat * state)) : list (nat * state) :=
  match l with [] => [(m, s)] | (m', s') :: l' => if m =? m' then (m, s) :: l' else (m', s') :: set_state m s l' end.
(** 118-125 *)
Fixpoint reorder_all (order : list nat) (l : list (nat * state)) : res (list (nat * state)) :=
  match l with
  | [] => Ok []
  | (m, s) :: l' => bind (reorder order s) (fun s' => bind (reorder_all order l') (fun l'' => Ok ((m, s') :: l'')))
  end.
Definition bag_reorder (order : list nat) (b : bag) : res bag :=
  bind (reorder_all order (states b)) (fun l => Ok (Bag (step_nr b) (max_steps b) (inc b) l)).

(** ** What StandardMultiheadAttention.forward attends to in evaluation mode with a bag; [k] and [v] are the projections of
    the step. Projections, head repetition and attention itself are left out. *)
(** multihead_attention.py 430-452: self attention *)
Definition self_attend (m : nat) (f : option nat) (k : mat K) (v : mat V) (b : bag)
    : res (mat (option K) * mat (option V) * bag) :=
  match lookup m (states b) with
  | None =>
      bind (self_factory f k v (max_steps b) (inc b)) (fun s =>
      Ok (given k, given v, Bag (step_nr b) (max_steps b) (inc b) (set_state m s (states b))))
  | Some s =>
      bind (append k v s) (fun s =>
      Ok (fst (get s), snd (get s), Bag (step_nr b) (max_steps b) (inc b) (set_state m s (states b))))
  end.
(** 457-479: attention over the encoder output, with the default factory *)
Definition cross_attend (m : nat) (k : mat K) (v : mat V) (b : bag) : mat (option K) * mat (option V) * bag :=
  match lookup m (states b) with
  | None => (given k, given v, Bag (step_nr b) (max_steps b) (inc b) (set_state m (SStatic (Static k v)) (states b)))
  | Some s => (fst (get s), snd (get s), b)
  end.
End KV.
Arguments full : clear implicits. Arguments local : clear implicits. Arguments static : clear implicits.
Arguments state : clear implicits. Arguments bag : clear implicits.
