(** Specification vocabulary for data pipelines. It only talks about what a caller of [next] sees. *)

From Coq Require Import QArith Permutation.
From Verif Require Export DP_Base.

(** [yields X s os s']: calling [next] [length os] times from state [s] gives the outcomes [os] and ends in [s']. *)
Inductive yields (X : source) : St X -> list out -> St X -> Prop :=
| yields_nil s : yields X s [] s
| yields_cons n s o s1 os s2 :
    next X n s = Some (o, s1) -> yields X s1 os s2 -> yields X s (o :: os) s2.

(** What [k] calls of [next] return for a pipeline that holds the list [l]: the elements of [l] in order, then the end
    of data again and again. *)
Definition expected (l : list data) (k : nat) : list out :=
  firstn k (map Val l ++ repeat Eod k).

(** The pipeline in state [s] holds exactly the list [l]: any number of calls is possible and every sequence of calls
    gives the expected outcomes. *)
Definition holds (X : source) (s : St X) (l : list data) : Prop :=
  (forall k, exists s', yields X s (expected l k) s') /\
  (forall os s', yields X s os s' -> os = expected l (length os)).

(** Two states are indistinguishable to the caller: they allow the same sequences of outcomes. *)
Definition same_future (X : source) (a b : St X) : Prop :=
  forall os, (exists s', yields X a os s') <-> (exists s', yields X b os s').

(** A run of [next] ([inl]: the outcome) and [reset] ([inr]: whether the random generators are reset) calls. *)
Inductive runs (X : source) : St X -> list (out + bool) -> St X -> Prop :=
| runs_nil s : runs X s [] s
| runs_next n s o s1 os s2 : next X n s = Some (o, s1) -> runs X s1 os s2 -> runs X s (inl o :: os) s2
| runs_reset g s os s2 : runs X (reset X g s) os s2 -> runs X s (inr g :: os) s2.

(** Two states cannot be told apart by any such run. *)
Definition same_behaviour (X : source) (a b : St X) : Prop :=
  forall os, (exists s', runs X a os s') <-> (exists s', runs X b os s').

(** [s'] can be reached from [s] by [next] and [reset] calls. *)
Inductive reaches (X : source) (s : St X) : St X -> Prop :=
| reaches_refl : reaches X s s
| reaches_next n o s1 s2 : reaches X s s1 -> next X n s1 = Some (o, s2) -> reaches X s s2
| reaches_reset g s1 : reaches X s s1 -> reaches X s (reset X g s1).

(** ** List transformations *)

(** The elements whose position is [idx] modulo [num]. *)
Definition every (idx num : nat) (l : list data) : list data :=
  map snd (filter (fun p => fst p mod num =? idx) (combine (seq 0 (length l)) l)).

(** The elements kept by [shard]: without [uneven], an incomplete final group is ignored. *)
Definition shard_spec (idx num : nat) (uneven : bool) (l : list data) : list data :=
  every idx num (if uneven then l else firstn (num * (length l / num)) l).

(** [bs] cuts [l] into consecutive pieces of [n] elements; only the last piece may be shorter, none is empty. *)
Inductive cut (n : nat) : list data -> list (list data) -> Prop :=
| cut_nil : cut n [] []
| cut_last l : 1 <= length l < n -> cut n l [l]
| cut_piece l r bs : length l = n -> cut n r bs -> cut n (l ++ r) (l :: bs).

(** Like [cut], but a short tail is dropped. *)
Inductive cut_drop (n : nat) : list data -> list (list data) -> Prop :=
| cutd_tail l : length l < n -> cut_drop n l []
| cutd_piece l r bs : length l = n -> cut_drop n r bs -> cut_drop n (l ++ r) (l :: bs).

(** Shuffling with a buffer: [shuffled b rest out]. [b] is the bag of buffered elements, [rest] the elements still to be read.
    Every output is taken out of the bag; the next element to be read, if any, takes its place. *)
Inductive shuffled : list data -> list data -> list data -> Prop :=
| shuf_end : shuffled [] [] []
| shuf_next b d b' x rest out :
    Permutation b (d :: b') -> shuffled (x :: b') rest out -> shuffled b (x :: rest) (d :: out)
| shuf_drain b d b' out :
    Permutation b (d :: b') -> shuffled b' [] out -> shuffled b [] (d :: out).

(** The outputs of [shuffle] with a window of [w] elements ([0]: the window holds everything). *)
Definition shuffle_spec (w : nat) (l out : list data) : Prop :=
  if w =? 0 then shuffled l [] out else shuffled (firstn w l) (skipn w l) out.

(** *** bucket_by_length

    [sizes] lists (number of examples, maximal length), sorted by length; [len] is the length of an example. *)

(** The index of the first class that admits the length [l]. *)
Fixpoint class_of (sizes : list (nat * nat)) (l : nat) : nat :=
  match sizes with
  | [] => 0
  | (_, mx) :: r => if l <=? mx then 0 else S (class_of r l)
  end.

(** [l] is the input, [bs] the returned buckets. Examples that are too short or too long are skipped. First come full buckets
    [full], each from one class and, within a class, in input order; what is left in the classes ([tail]) is returned in
    the buckets [rest], which may mix classes but respect the limits of one class. With [drop], one last incomplete bucket
    is left out ([dropped]). *)
Definition bbl_spec (sizes : list (nat * nat)) (len : data -> nat) (min_len : nat) (drop : bool)
    (l : list data) (bs : list (list data)) : Prop :=
  let cls d := class_of sizes (len d) in
  let kept := filter (fun d => (min_len <=? len d) && (cls d <? length sizes)) l in
  exists full rest dropped,
    bs = full ++ rest /\
    (forall b, In b full -> exists i n mx, nth_error sizes i = Some (n, mx) /\ length b = Nat.max 1 n /\
       forall d, In d b -> cls d = i) /\
    (forall i n mx, nth_error sizes i = Some (n, mx) -> exists tail, length tail < Nat.max 1 n /\
       filter (fun d => cls d =? i) kept = concat (filter (forallb (fun d => cls d =? i)) full) ++ tail) /\
    Permutation kept (concat full ++ concat rest ++ dropped) /\
    (forall hd b tl, rest = hd ++ b :: tl -> exists n mx, In (n, mx) sizes /\ 1 <= length b <= n /\
       (forall d, In d b -> len d <= mx) /\ (drop = true \/ tl <> [] -> length b = n)) /\
    (dropped = [] \/ drop = true /\ exists n mx, In (n, mx) sizes /\ length dropped < n /\
       forall d, In d dropped -> len d <= mx).

(** *** dynamic_bucket *)
Section DynSpec.
  Variable threshold : Q.
  Variable cost : data -> Q.
  Variables minn maxn : option nat.
  Variable drop : bool.

  Definition total_cost (b : list data) : Q := fold_left Qplus (map cost b) 0%Q.

  (** A group is complete once its cost reaches the threshold and it has the minimum size, or it has the maximum size. *)
  Definition complete (b : list data) : Prop :=
    ((threshold <= total_cost b)%Q /\ (forall k, minn = Some k -> k <= length b)) \/
    (exists k, maxn = Some k /\ k <= length b).

  (** [dyn_groups l bs]: [bs] cuts [l] into consecutive groups, each ending as soon as it is complete; an incomplete last
      group is returned or, with [drop], left out. *)
  Inductive dyn_groups : list data -> list (list data) -> Prop :=
  | dyn_nil : dyn_groups [] []
  | dyn_last b : b <> [] -> (forall p q, b = p ++ q -> ~ complete p) -> dyn_groups b (if drop then [] else [b])
  | dyn_group b r bs : complete b -> (forall p q, b = p ++ q -> q <> [] -> ~ complete p) ->
      dyn_groups r bs -> dyn_groups (b ++ r) (b :: bs).
End DynSpec.

(** *** pack

    A batch is a list of sequences, laid out one after the other and padded. *)
Definition packed_batch (cap : nat) (pad : Z) (b : list (list Z)) : data :=
  DDict [("seqs"%string, DTensor (concat b ++ repeat pad (cap - length (concat b))));
         ("seq_lens"%string, DList (map (fun t => DInt (Z.of_nat (length t))) b))].

(** Without truncation: [pack_spec cap ts bs] says that [bs] cuts [ts] into consecutive, non-empty batches that fit, each as long
    as possible. *)
Inductive pack_spec (cap : nat) : list (list Z) -> list (list (list Z)) -> Prop :=
| pack_nil : pack_spec cap [] []
| pack_group b r bs : b <> [] -> length (concat b) <= cap ->
    (forall t r', r = t :: r' -> cap < length (concat b) + length t) ->
    pack_spec cap r bs -> pack_spec cap (b ++ r) (b :: bs).

(** [stitched rs s]: [s] is the concatenation of the rows [rs], where a row may start with a copy of the last element of the
    row before, which is not repeated in [s]. *)
Inductive stitched : list (list Z) -> list Z -> Prop :=
| stitched_nil : stitched [] []
| stitched_next r rs s : stitched rs s -> stitched (r :: rs) (r ++ s)
| stitched_lap r x r' rs s : stitched ((x :: r') :: rs) (x :: s) -> stitched ((r ++ [x]) :: (x :: r') :: rs) ((r ++ [x]) ++ s).

(** With truncation: sequences are cut so that rows are filled completely. Nothing is lost except, with [drop], the incomplete
    last row; every piece is part of one input sequence and no longer than [mx]. *)
Definition trunc_spec (cap mx : nat) (drop : bool) (ts : list (list Z)) (rows : list (list (list Z))) : Prop :=
  (exists s dropped, stitched (map (@concat Z) rows) s /\ concat ts = s ++ dropped /\
     length dropped < cap /\ (drop = false -> dropped = [])) /\
  (forall hd row tl, rows = hd ++ row :: tl ->
     0 < length (concat row) <= cap /\ (drop = true \/ tl <> [] -> length (concat row) = cap) /\
     forall p, In p row -> 0 < length p <= mx /\ exists t x y, In t ts /\ t = x ++ p ++ y).

(** *** Operators on several pipelines *)

(** What a pipeline yields: a list and then the end of data, or an endless stream (as [count] and [constant] do). *)
Inductive content := CList (l : list data) | CStream (f : nat -> data).

Definition streams (X : source) (s : St X) (f : nat -> data) : Prop :=
  forall k, exists s', yields X s (map (fun i => Val (f i)) (seq 0 k)) s'.

Definition item (c : content) (i : nat) : option data :=
  match c with CList l => nth_error l i | CStream f => Some (f i) end.

(** The [i]-th elements. *)
Definition items (cs : list content) (i : nat) : list data :=
  flat_map (fun c => match item c i with Some d => [d] | None => [] end) cs.

(** How [zip] combines the elements [zs]: as a list, as a dictionary under the given names, or flattened. *)
Inductive zip_value : list string -> bool -> list data -> data -> Prop :=
| zip_as_list zs : zip_value [] false zs (DList zs)
| zip_as_dict names zs : names <> [] -> NoDup names -> length names = length zs ->
    zip_value names false zs (DDict (combine names zs))
| zip_flat_dict kvs : kvs <> [] -> NoDup (map fst (concat kvs)) -> zip_value [] true (map DDict kvs) (DDict (concat kvs))
| zip_flat_list zs : (forall kv, ~ In (DDict kv) zs) ->
    zip_value [] true zs (DList (flat_map (fun d => match d with DList l => l | _ => [d] end) zs)).

(** Every element of [out] is the next element of one of the lists [ls]; all lists are used up. *)
Inductive interleaving : list (list data) -> list data -> Prop :=
| interl_nil ls : (forall l, In l ls -> l = []) -> interleaving ls []
| interl_cons ls1 d l ls2 out : interleaving (ls1 ++ l :: ls2) out -> interleaving (ls1 ++ (d :: l) :: ls2) (d :: out).

(** A pipeline that is reset (without its random generators) every time it reaches its end yields the lists [ep 0], [ep 1], ...;
    with no random generator these are all the same list. *)
Definition epochs (X : source) (s : St X) (ep : nat -> list data) : Prop :=
  exists Rep : nat -> St X -> list data -> Prop, Rep 0 s (ep 0) /\
    forall k s l, Rep k s l ->
      match l with
      | [] => exists n s', next X n s = Some (Eod, s') /\ Rep k s' [] /\ Rep (S k) (reset X false s') (ep (S k))
      | d :: l' => exists n s', next X n s = Some (Val d, s') /\ Rep k s' l'
      end.

(** What a child of [round_robin] or [sample] can supply: its epochs, or an endless stream. *)
Inductive supply := Epochs (ep : nat -> list data) | Endless (f : nat -> data).

Definition supplies (repeats : bool) (X : source) (s : St X) (c : supply) : Prop :=
  match c with
  | Epochs ep => (forall s', finitude_type X s' <> PseudoInfinite) /\
      if repeats then epochs X s ep /\ ((forall k, ep k <> []) \/ (forall k, ep k = []))
      else holds X s (ep 0)
  | Endless f => (forall s', finitude_type X s' = PseudoInfinite) /\ streams X s f
  end.

(** The [r]-th element a child contributes: with repeats its epochs follow each other, without it ends after the first. *)
Definition turn (repeats : bool) (c : supply) (r : nat) : option data :=
  match c with
  | Epochs ep => nth_error (if repeats then concat (map ep (seq 0 (S r))) else ep 0) r
  | Endless f => Some (f r)
  end.

(** The length of the first epoch; an endless child counts as done at once. *)
Definition epoch_len (c : supply) : nat := match c with Epochs ep => length (ep 0) | Endless _ => 0 end.

Fixpoint list_min (l : list nat) : nat := match l with [] => 0 | [x] => x | x :: r => Nat.min x (list_min r) end.

(** The number of rounds of [round_robin]: until every child (or, with [stop_at_shortest], the first one) is done. *)
Definition rounds (stop_at_shortest : bool) (cs : list supply) : nat :=
  Nat.max 1 ((if stop_at_shortest then list_min else list_max) (map epoch_len cs)).

(** Round [r]: one element of every child that has one. *)
Definition round_elems (repeats : bool) (cs : list supply) (r : nat) : list data :=
  flat_map (fun c => match turn repeats c r with Some d => [d] | None => [] end) cs.

(** *** Weighted sampling *)

(** The sum of the first [i] numbers. *)
Fixpoint psum (l : list Q) (i : nat) : Q :=
  match l, i with
  | w :: r, S i' => w + psum r i'
  | _, _ => 0
  end%Q.

(** The weights of the pipelines that can be chosen. *)
Definition masked (ws : list Q) (active : list bool) : list Q :=
  map (fun p => if snd p : bool then fst p else 0%Q) (combine ws active).

(** A draw [x] in [0, 1) chooses pipeline [i]: lay the weights of the active pipelines side by side and scale [x] to their total;
    the scaled draw falls into the (left-open) piece of pipeline [i]; a draw of exactly 0 chooses the first active pipeline. *)
Definition picked (ws : list Q) (active : list bool) (x : Q) (i : nat) : Prop :=
  let ms := masked ws active in
  let p := (x * psum ms (length ms))%Q in
  nth_error active i = Some true /\
  (psum ms i < p \/ (x == 0 /\ psum ms i == 0))%Q /\
  (p <= psum ms (S i))%Q.

Definition nonempty {A} (l : list A) : bool := match l with [] => false | _ => true end.

(** Sampling without repeats: draw after draw chooses one of the lists that are not used up. *)
Inductive sampled (draw : nat -> Q) (ws : list Q) : nat -> list (list data) -> list data -> Prop :=
| sampled_nil k ls : (forall l, In l ls -> l = []) -> sampled draw ws k ls []
| sampled_cons k ls1 d l ls2 out :
    picked ws (map nonempty (ls1 ++ (d :: l) :: ls2)) (draw k) (length ls1) ->
    sampled draw ws (S k) (ls1 ++ l :: ls2) out ->
    sampled draw ws k (ls1 ++ (d :: l) :: ls2) (d :: out).

(** How often [i] occurs among the first [t] picks. *)
Fixpoint times (picks : nat -> nat) (t i : nat) : nat :=
  match t with
  | O => 0
  | S t' => (if picks t' =? i then 1 else 0) + times picks t' i
  end.

(** Sampling with repeats goes on until every pipeline has reached its end at least once. *)
Definition sampling_over (cs : list supply) (picks : nat -> nat) (t : nat) : Prop :=
  1 <= t /\ forall i c, nth_error cs i = Some c -> epoch_len c <= times picks t i.
