(** Model of gangs. /repo/src/fairseq2/gang.py *)
From Coq Require Import List Bool Arith ZArith Lia.
Import ListNotations.

(** A gang as one process sees it. [Fake]: FakeGang(rank, size), lines 252-392. [Pg]: ProcessGroupGang, lines 395-634: [members] are the
    world ranks of the processes in the order of their ranks in the gang, [me] the world rank of this process; [world]: the group is
    torch.distributed.group.WORLD. *)
Inductive gang := Fake (rank size : nat) | Pg (world : bool) (members : list nat) (me : nat).
Inductive err := ValueError | InvalidOperation | NotSupported | GangError | InternalError.
Inductive result (A : Type) := Ok (a : A) | Err (e : err).
Arguments Ok {A} _. Arguments Err {A} _.

(** Collective calls into torch.distributed, which all processes of the (parent) group must make in the same order. *)
Inductive call := NewGroup (ranks : list nat) | SplitGroup (parent : list nat) (split_ranks : list (list nat)).

Fixpoint index_of (x : nat) (l : list nat) : nat := match l with [] => 0 | y :: l' => if Nat.eqb x y then 0 else S (index_of x l') end.
Definition mem (x : nat) (l : list nat) : bool := existsb (Nat.eqb x) l.
(** The properties [rank], [size], [supports_process_group]; torch.distributed.get_rank is the position in the group. *)
Definition grank (g : gang) : nat := match g with Fake r _ => r | Pg _ m me => index_of me m end.
Definition gsize (g : gang) : nat := match g with Fake _ n => n | Pg _ m _ => length m end.
Definition supports_pg (g : gang) : bool := match g with Fake _ _ => false | Pg _ _ _ => true end.

Fixpoint has_dup (l : list nat) : bool := match l with [] => false | x :: l' => mem x l' || has_dup l' end.
(** _check_ranks: lines 636-644 *)
Definition check_ranks (ranks : list nat) (size : nat) : bool := negb (has_dup ranks) && forallb (fun r => r <=? size) ranks.

Fixpoint insert (x : nat) (l : list nat) : list nat := match l with [] => [x] | y :: l' => if x <=? y then x :: l else y :: insert x l' end.
Definition sort (l : list nat) : list nat := fold_right insert [] l.

(** Gang.create_gang: FakeGang, lines 296-305; ProcessGroupGang, lines 500-531. torch.distributed.new_group sorts the ranks and raises an
    error for ranks outside of the world. *)
Definition create_gang (g : gang) (ranks : list nat) : list call * result (option gang) :=
  if negb (check_ranks ranks (gsize g)) then ([], Err ValueError)
  else match g with
       | Fake r n => ([], Ok (if mem r ranks then Some (Fake (index_of r ranks) (length ranks)) else None))
       | Pg world m me =>
           if negb world then ([], Err InvalidOperation)
           else ([NewGroup ranks],
                 if forallb (fun r => r <? length m) ranks then Ok (if mem (grank g) ranks then Some (Pg false (sort ranks) me) else None) else Err GangError)
       end.

(** torch.distributed.distributed_c10d.split_group: the first entry of [split_ranks] with this process; ranks are those in the parent. *)
Definition split_group (g : gang) (split_ranks : list (list nat)) : option gang :=
  match g with
  | Fake _ _ => None
  | Pg _ m me => match find (mem (grank g)) split_ranks with Some s => Some (Pg false (map (fun i => nth i m 0) (sort s)) me) | None => None end
  end.

(** torch.arange(rows * cols).view(rows, cols), its rows, columns, and torch.where(mesh == rank): the coordinates of the first match *)
Definition mesh_row (cols i : nat) : list nat := map (fun j => i * cols + j) (seq 0 cols).
Definition mesh_col (rows cols j : nat) : list nat := map (fun i => i * cols + j) (seq 0 rows).
Definition mesh_rows (rows cols : nat) : list (list nat) := map (mesh_row cols) (seq 0 rows).
Definition mesh_cols (rows cols : nat) : list (list nat) := map (mesh_col rows cols) (seq 0 cols).
Definition coords (rows cols rank : nat) : nat * nat :=
  match filter (fun ij => Nat.eqb (fst ij * cols + snd ij) rank) (list_prod (seq 0 rows) (seq 0 cols)) with x :: _ => x | [] => (0, 0) end.

(** for i in range(...): sub_gang = parent.create_gang(group i); if i == coord: gang = sub_gang. Lines 974-977, 1011-1014, 1120-1123,
    1156-1159. *)
Fixpoint create_each (parent : gang) (coord i : nat) (groups : list (list nat)) (acc : option gang) : list call * result (option gang) :=
  match groups with
  | [] => ([], Ok acc)
  | g :: groups' =>
      match create_gang parent g with
      | (cs, Err e) => (cs, Err e)
      | (cs, Ok sub) => let '(cs', r) := create_each parent coord (i + 1) groups' (if Nat.eqb i coord then sub else acc) in (cs ++ cs', r)
      end
  end.
(** The four match statements of lines 950-980, 988-1017, 1097-1126, 1134-1162. *)
Definition build (cuda : bool) (fake parent : gang) (size : nat) (groups : list (list nat)) (coord : nat) : list call * result gang :=
  if Nat.eqb size 1 then ([], Ok fake)
  else if Nat.eqb size (gsize parent) then ([], Ok parent)
  else
    let '(cs, r) :=
      if cuda && supports_pg parent
      then ([SplitGroup (match parent with Pg _ m _ => m | _ => [] end) groups], Ok (split_group parent groups))
      else create_each parent coord 0 groups None in
    (cs, match r with Err e => Err e | Ok None => Err InternalError | Ok (Some g) => Ok g end).

Record gangs := Gangs { root : gang; dp : gang; rdp : gang; sdp : gang; tp : gang; pp : gang }.
(** Gangs.__post_init__: lines 690-695 *)
Definition make_gangs (g : gangs) : result gangs :=
  if Nat.eqb (grank (root g)) 0 && (negb (Nat.eqb (grank (dp g)) 0) || negb (Nat.eqb (grank (tp g)) 0) && negb (Nat.eqb (grank (pp g)) 0))
  then Err ValueError else Ok g.

(** create_parallel_gangs: lines 907-1031 *)
Definition create_parallel_gangs (cuda : bool) (root : gang) (tp_size : nat) : list call * result gangs :=
  if tp_size <? 1 then ([], Err ValueError)
  else if negb (Nat.eqb (gsize root mod tp_size) 0) then ([], Err ValueError)
  else
    let fake := Fake 0 1 in
    let dp_size := gsize root / tp_size in
    let rc := coords dp_size tp_size (grank root) in
    match build cuda fake root dp_size (mesh_cols dp_size tp_size) (snd rc) with
    | (cs, Err e) => (cs, Err e)
    | (cs, Ok dp) =>
        match build cuda fake root tp_size (mesh_rows dp_size tp_size) (fst rc) with
        | (cs', Err e) => (cs ++ cs', Err e)
        | (cs', Ok tp) => (cs ++ cs', make_gangs (Gangs root dp dp fake tp fake))
        end
    end.

(** create_fsdp_gangs: lines 1034-1180 *)
Definition create_fsdp_gangs (cuda : bool) (g : gangs) (intra_node_size : option nat) : list call * result gangs :=
  let fake := Fake 0 1 in
  match intra_node_size with
  | None => ([], make_gangs (Gangs (root g) (dp g) fake (dp g) (tp g) (pp g)))
  | Some intra =>
      if intra <=? 1 then ([], Err ValueError)
      else if negb (Nat.eqb (gsize (dp g) mod intra) 0) then ([], Err ValueError)
      else
        let inter := gsize (dp g) / intra in
        let rc := coords inter intra (grank (dp g)) in
        match build cuda fake (dp g) inter (mesh_cols inter intra) (snd rc) with
        | (cs, Err e) => (cs, Err e)
        | (cs, Ok inter_gang) =>
            match build cuda fake (dp g) intra (mesh_rows inter intra) (fst rc) with
            | (cs', Err e) => (cs ++ cs', Err e)
            | (cs', Ok intra_gang) => (cs ++ cs', make_gangs (Gangs (root g) (dp g) inter_gang intra_gang (tp g) (pp g)))
            end
        end
  end.

(** ** Collectives *)
Inductive reduce_op := SUM | MEAN | PRODUCT | MIN | MAX.
(** FakeGang: lines 317-361; tensors are reduced to one integer element. *)
Definition fake_all_reduce (size : nat) (x : Z) (op : reduce_op) : result Z :=
  match op with SUM => Ok (x * Z.of_nat size)%Z | PRODUCT => Ok (x ^ Z.of_nat size)%Z | _ => Err NotSupported end.
Definition fake_all_gather (size : nat) (output_size : nat) (x : Z) : result (list Z) :=
  if Nat.eqb output_size size then Ok (repeat x size) else Err ValueError.
Definition fake_broadcast (rank source : nat) (x : Z) : result Z := if Nat.eqb source rank then Ok x else Err ValueError.
(** ProcessGroupGang.broadcast: lines 572-577. torch.distributed.broadcast takes the rank of the source in the world, which must be in
    the group; [value r] is the tensor of the process with rank [r] in the world. *)
Definition pg_broadcast (members : list nat) (source : nat) (value : nat -> Z) : result Z :=
  if mem source members then Ok (value source) else Err ValueError.

(** ** Contexts: _GangManager, lines 837-904, and the context managers, lines 701-709 and 826-834. Gangs are numbered; [dev] is the
    device of a gang, device 0 is CPU, 1 is meta. One thread; the lock and the weak references to the fake gangs are left out. *)
Section Context.
  Variable dev : nat -> nat.
  Variable fake_gangs : nat -> nat.   (* the fake gangs of a device *)
  Definition CPU := 0. Definition META := 1.
  Definition upd {A} (f : nat -> A) (d : nat) (v : A) : nat -> A := fun x => if Nat.eqb x d then v else f x.
  Record mgr := Mgr { defaults : nat -> option nat; stacks : nat -> list nat }.
  Inductive prog :=
  | Ret | Raise
  | Get (device : nat) (k : prog)                       (* get_current_gangs *)
  | SetDefault (g : nat) (meta : bool) (k : prog)       (* set_default_gangs *)
  | With (g : nat) (meta : bool) (body : prog) (k : prog).  (* with set_gangs(g, meta=meta), with g: meta is false *)
  Definition get_default (m : mgr) (d : nat) : nat := match defaults m d with Some g => g | None => fake_gangs (if Nat.eqb d META then CPU else d) end.
  Definition get_current (m : mgr) (d : nat) : nat := match stacks m d with g :: _ => g | [] => get_default m d end.
  Definition set_default (m : mgr) (g : nat) (meta : bool) : mgr :=
    let f := upd (defaults m) (dev g) (Some g) in Mgr (if meta then upd f META (Some g) else f) (stacks m).
  Definition push (m : mgr) (g : nat) (meta : bool) : mgr :=
    let f := upd (stacks m) (dev g) (g :: stacks m (dev g)) in Mgr (defaults m) (if meta then upd f META (g :: f META) else f).
  Definition pop (m : mgr) (d : nat) (meta : bool) : mgr :=
    let f := upd (stacks m) d (tl (stacks m d)) in Mgr (defaults m) (if meta then upd f META (tl (f META)) else f).
  (** What the calls of get_current_gangs returned, and whether an exception escapes. *)
  Fixpoint run (p : prog) (m : mgr) : mgr * list nat * bool :=
    match p with
    | Ret => (m, [], true)
    | Raise => (m, [], false)
    | Get d k => let '(m', o, ok) := run k m in (m', get_current m d :: o, ok)
    | SetDefault g meta k => run k (set_default m g meta)
    | With g meta body k =>
        let '(m1, o1, ok1) := run body (push m g meta) in
        let m2 := pop m1 (dev g) meta in
        if ok1 then let '(m3, o2, ok2) := run k m2 in (m3, o1 ++ o2, ok2) else (m2, o1, false)
    end.
End Context.
