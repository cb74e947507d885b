(** Model of the sources that regroup or reorder examples: shuffle, bucket_by_length, dynamic_bucket and pack.
    Definitions only. *)

From Coq Require Import QArith.
From Verif Require Export DP_Base DP_Sources_Model.

(** Assignment to one element of a vector. *)
Fixpoint upd {A} (l : list A) (i : nat) (x : A) : list A :=
  match l, i with
  | [], _ => []
  | _ :: r, O => x :: r
  | y :: r, S i' => y :: upd r i' x
  end.

(** [std::swap(l[i], l[j])]. *)
Definition swap {A} (l : list A) (i j : nat) : list A :=
  match nth_error l i, nth_error l j with
  | Some a, Some b => upd (upd l i b) j a
  | _, _ => l
  end.

(** ** shuffle_data_source: data/shuffle_data_source.cc:21-178.

    The generator ([at::CPUGeneratorImpl]) is its seed and the number of draws made; [rnd seed k] is the [k]-th 64-bit value
    drawn from a generator with that seed, any function. Its state tensor (get_state, set_state) holds these two numbers.
    An iterator is an index. [moved d] is what is left of a value after it has been moved from. *)
Section Shuffle.
  Variable rnd : Z -> nat -> Z.
  Variable moved : data -> data.
  Variable window : nat.  (* 0: no limit *)
  Variable seed0 : Z.
  Variable I : source.

  Record sh_st : Type := ShSt {
    sh_buf : list data;
    sh_pos : nat;
    sh_end : nat;
    sh_fill : bool;
    sh_seed : Z;
    sh_gen : Z * nat;
    sh_in : St I
  }.

  (** data/shuffle_data_source.cc:48-54. [k] bounds the number of examples read; without a limit it is the fuel. *)
  Fixpoint sh_read (m k : nat) (limited : bool) (acc : list data) (s : St I)
    : option (list data * option err * St I) :=
    match k with
    | O => if limited then Some (acc, None, s) else None
    | S k' =>
      match next I m s with
      | None => None
      | Some (Val d, s') => sh_read m k' limited (acc ++ [d]) s'
      | Some (Eod, s') => Some (acc, None, s')
      | Some (Err e, s') => Some (acc, Some e, s')
      end
    end.

  (** data/shuffle_data_source.cc:161-178: Fisher-Yates on the first [s] elements. *)
  Fixpoint fisher_yates (s : nat) (g : Z * nat) (b : list data) : (Z * nat) * list data :=
    match s with
    | O | S O => (g, b)
    | S s' =>
        let idx := Z.to_nat (rnd (fst g) (snd g) mod Z.of_nat s) in
        fisher_yates s' (fst g, S (snd g)) (swap b s' idx)
    end.

  (** data/shuffle_data_source.cc:62-91, after the buffer has been filled. *)
  Definition sh_emit (n : nat) (x : sh_st) : option (out * sh_st) :=
    let '(ShSt b pos en fl sd g s) := x in
    if pos =? en then Some (Eod, x)
    else
      let (g1, b1) := if pos =? 0 then fisher_yates en g b else (g, b) in
      match nth_error b1 pos with
      | None => Some (Err Fatal, x)  (* out of range: undefined behaviour *)
      | Some d =>
        let wrap p := if S p =? length b1 then 0 else S p in
        if en =? length b1 then
          match next I n s with
          | None => None
          | Some (Val d', s') => Some (Val d, ShSt (upd b1 pos d') (wrap pos) en fl sd g1 s')
          | Some (Eod, s') => Some (Val d, ShSt (upd b1 pos (moved d)) (wrap pos) pos fl sd g1 s')
          | Some (Err e, s') => Some (Err e, ShSt (upd b1 pos (moved d)) pos en fl sd g1 s')
          end
        else Some (Val d, ShSt (upd b1 pos (moved d)) (wrap pos) en fl sd g1 s)
      end.

  (** data/shuffle_data_source.cc:37-91. *)
  Definition sh_next (n : nat) (x : sh_st) : option (out * sh_st) :=
    let '(ShSt b pos en fl sd g s) := x in
    if window =? 1 then
      match next I n s with
      | None => None
      | Some (o, s') => Some (o, ShSt b pos en fl sd g s')
      end
    else if fl then
      match sh_read n (if window =? 0 then n else window) (negb (window =? 0)) b s with
      | None => None
      | Some (b', Some e, s') => Some (Err e, ShSt b' pos en fl sd g s')
      | Some (b', None, s') => sh_emit n (ShSt b' 0 (length b') false sd g s')
      end
    else sh_emit n x.

  (** data/shuffle_data_source.cc:94-108. *)
  Definition sh_reset (rng : bool) (x : sh_st) : sh_st :=
    ShSt [] 0 0 true (sh_seed x) (if rng then (sh_seed x, 0) else sh_gen x) (reset I rng (sh_in x)).

  Definition wr_gen (g : Z * nat) : tape := wr_tensor [fst g; Z.of_nat (snd g)].
  Definition rd_gen : reader (Z * nat) := fun t =>
    match rd_tensor t with
    | Some ([a; k], r) => Some ((a, Z.to_nat k), r)
    | _ => None
    end.

  (** data/shuffle_data_source.cc:110-127. *)
  Definition sh_record (strict : bool) (x : sh_st) : option tape :=
    match record_pos I strict (sh_in x) with
    | None => None
    | Some t =>
      Some ((if strict then wr_list (sh_buf x) ++ wr_size (sh_pos x) ++ wr_size (sh_end x) ++ wr_bool (sh_fill x) else [])
            ++ wr_u64 (sh_seed x) ++ wr_gen (sh_gen x) ++ t)
    end.

  (** data/shuffle_data_source.cc:129-153. *)
  Definition sh_reload (strict : bool) (x : sh_st) (t : tape) : option (sh_st * tape) :=
    let rest b p e f (t : tape) :=
      match rd_u64 t with
      | None => None
      | Some (sd, t1) =>
        match rd_gen t1 with
        | None => None
        | Some (g, t2) =>
          match reload_pos I strict (sh_in x) t2 with
          | None => None
          | Some (s', t3) => Some (ShSt b p e f sd g s', t3)
          end
        end
      end in
    if strict then
      match rd_list t with
      | None => None
      | Some (b, t1) =>
        match rd_size t1 with
        | None => None
        | Some (p, t2) =>
          match rd_size t2 with
          | None => None
          | Some (e, t3) =>
            match rd_bool t3 with
            | None => None
            | Some (f, t4) => rest b p e f t4
            end
          end
        end
      end
    else rest [] 0 0 true t.

  (** data/shuffle_data_source.cc:21-35. *)
  Definition src_shuffle : source := {|
    St := sh_st;
    init := ShSt [] 0 0 true seed0 (seed0, 0) (init I);
    next := sh_next;
    reset := sh_reset;
    record_pos := sh_record;
    reload_pos := sh_reload;
    finitude_type := fun x => finitude_type I (sh_in x)
  |}.
End Shuffle.
Arguments ShSt {I}. Arguments sh_buf {I}. Arguments sh_pos {I}. Arguments sh_end {I}. Arguments sh_fill {I}.
Arguments sh_seed {I}. Arguments sh_gen {I}. Arguments sh_in {I}.

(** ** bucket_by_length_data_source: data/bucket_by_length_data_source.cc:13-158.

    [sizes]: the pairs (number of examples, length), sorted by length by the builder (data/data_pipeline.cc:383-387).
    [len] is the length callback. *)
Section BucketByLength.
  Variable sizes : list (nat * nat).
  Variable len : data -> fres nat.
  Variable min_len : nat.
  Variables skip_below skip_above drop : bool.
  Variable I : source.

  Definition bbl_st : Type := (list (list data) * St I)%type.

  (** data/bucket_by_length_data_source.cc:25: the length of the last pair. *)
  Definition max_len : nat := match rev sizes with [] => 0 | (_, l) :: _ => l end.

  (** data/bucket_by_length_data_source.cc:65-83: put the example in the first bucket that fits; a full bucket is returned. *)
  Fixpoint bbl_put (szs : list (nat * nat)) (bs : list (list data)) (l : nat) (d : data)
    : list (list data) * option (list data) :=
    match szs, bs with
    | (num, blen) :: szs', b :: bs' =>
        if l <=? blen then
          let b' := b ++ [d] in
          if num <=? length b' then ([] :: bs', Some b') else (b' :: bs', None)
        else let (bs'', o) := bbl_put szs' bs' l d in (b :: bs'', o)
    | _, _ => (bs, None)
    end.

  (** data/bucket_by_length_data_source.cc:100-113: move up to [rem] examples from the backs of the buckets before index [j],
      the largest index first, to the end of [b]. Returns the changed buckets, the extended bucket. *)
  Fixpoint take_back (rem : nat) (o b : list data) : nat * list data * list data :=
    match rem with
    | O => (O, o, b)
    | S rem' => match rev o with
                | [] => (rem, o, b)
                | d :: o' => take_back rem' (rev o') (b ++ [d])
                end
    end.

  Fixpoint bbl_fill (j rem : nat) (bs : list (list data)) (b : list data) : list (list data) * list data :=
    match j with
    | O => (bs, b)
    | S j' =>
        let '(rem', o', b') := take_back rem (nth j' bs []) b in
        let bs' := upd bs j' o' in
        match rem' with O => (bs', b') | _ => bbl_fill j' rem' bs' b' end
    end.

  (** data/bucket_by_length_data_source.cc:90-126. *)
  Fixpoint bbl_rest (i : nat) (bs : list (list data)) : out * list (list data) :=
    match i with
    | O => (Eod, bs)
    | S i' =>
        match nth i' bs [] with
        | [] => bbl_rest i' bs
        | b => let num := fst (nth i' sizes (0, 0)) in
               let (bs1, b1) := if i' =? 0 then (bs, b) else bbl_fill i' (num - length b) bs b in
               if drop && negb (length b1 =? num) then (Eod, upd bs1 i' [])
               else (Val (DList b1), upd bs1 i' [])
        end
    end.

  (** data/bucket_by_length_data_source.cc:39-84. *)
  Fixpoint bbl_loop (m n : nat) (x : bbl_st) : option (out * bbl_st) :=
    match n with
    | O => None
    | S n' =>
      let (bs, s) := x in
      match next I m s with
      | None => None
      | Some (Err e, s') => Some (Err e, (bs, s'))
      | Some (Eod, s') => let (o, bs') := bbl_rest (length bs) bs in Some (o, (bs', s'))
      | Some (Val d, s') =>
        match len d with
        | FThrow e => Some (Err e, (bs, s'))
        | FNone => Some (Err Fatal, (bs, s'))
        | FVal l =>
          if l <? min_len then
            if skip_below then bbl_loop m n' (bs, s') else Some (Err Recoverable, (bs, s'))
          else if max_len <? l then
            if skip_above then bbl_loop m n' (bs, s') else Some (Err Recoverable, (bs, s'))
          else
            match bbl_put sizes bs l d with
            | (bs', Some b) => Some (Val (DList b), (bs', s'))
            | (bs', None) => bbl_loop m n' (bs', s')
            end
        end
      end
    end.

  Definition src_bucket_by_length : source := {|
    St := bbl_st;
    init := (map (fun _ => []) sizes, init I);
    next := fun n x => bbl_loop n n x;
    reset := fun rng x => (map (fun _ => []) (fst x), reset I rng (snd x));
    record_pos := fun strict x =>
      match record_pos I strict (snd x) with
      | None => None
      | Some t => Some (wr_vec wr_list (fst x) ++ t)
      end;
    reload_pos := fun strict x t =>
      match rd_vec rd_list t with
      | None => None
      | Some (bs, t1) =>
        match reload_pos I strict (snd x) t1 with
        | None => None
        | Some (s', t2) => Some ((bs, s'), t2)
        end
      end;
    finitude_type := fun x => finitude_type I (snd x)
  |}.
End BucketByLength.

(** ** dynamic_bucket_data_source: data/dynamic_bucket_data_source.cc:13-124.

    Costs and the threshold are rational numbers (no rounding). [create] is the optional bucket creation callback: given the
    buffer it returns the list of buckets to return and the new buffer. *)
Section DynamicBucket.
  Variable threshold : Q.
  Variable cost : data -> fres Q.
  Variable create : option (list data -> fres (list data * list data)).
  Variables minn maxn : option nat.
  Variable drop : bool.
  Variable I : source.

  Record db_st : Type := DbSt {
    db_ret : list data;   (* return_buffer_ *)
    db_buf : list data;   (* buffer_ *)
    db_in : St I
  }.

  (** data/dynamic_bucket_data_source.cc:44-58. *)
  Definition db_ready (c : Q) (b : list data) : bool :=
    (Qle_bool threshold c && match minn with Some k => k <=? length b | None => true end)
    || match maxn with Some k => k <=? length b | None => false end.

  (** data/dynamic_bucket_data_source.cc:60-66. Returns the cost, the buffer, an exception. *)
  Fixpoint db_loop (m n : nat) (c : Q) (b : list data) (s : St I) : option (Q * list data * option err * St I) :=
    match n with
    | O => None
    | S n' =>
      if db_ready c b then Some (c, b, None, s)
      else
        match next I m s with
        | None => None
        | Some (Err e, s') => Some (c, b, Some e, s')
        | Some (Eod, s') => Some (c, b, None, s')
        | Some (Val d, s') =>
          match cost d with
          | FVal q => db_loop m n' (Qplus c q) (b ++ [d]) s'
          | FNone => Some (c, b, Some Fatal, s')
          | FThrow e => Some (c, b, Some e, s')
          end
        end
    end.

  (** data/dynamic_bucket_data_source.cc:30-93. *)
  Definition db_next (n : nat) (x : db_st) : option (out * db_st) :=
    match db_ret x with
    | d :: r => Some (Val d, DbSt r (db_buf x) (db_in x))
    | [] =>
      match db_loop n n 0%Q (db_buf x) (db_in x) with
      | None => None
      | Some (_, b, Some e, s') => Some (Err e, DbSt [] b s')
      | Some (c, b, None, s') =>
        match b with
        | [] => Some (Eod, DbSt [] [] s')
        | _ =>
          if db_ready c b then
            match create with
            | Some fn =>
              match fn b with
              | FVal (d :: r, nb) => Some (Val d, DbSt r nb s')
              | FVal ([], nb) => Some (Err Fatal, DbSt [] nb s')   (* front() of an empty deque *)
              | FNone => Some (Err Fatal, DbSt [] [] s')
              | FThrow e => Some (Err e, DbSt [] [] s')            (* the buffer has been moved from *)
              end
            | None => Some (Val (DList b), DbSt [] [] s')
            end
          else if drop then Some (Eod, DbSt [] [] s')
          else Some (Val (DList b), DbSt [] [] s')
        end
      end
    end.

  (** data/dynamic_bucket_data_source.cc:95-118. *)
  Definition src_dynamic_bucket : source := {|
    St := db_st;
    init := DbSt [] [] (init I);
    next := db_next;
    reset := fun rng x => DbSt (db_ret x) [] (reset I rng (db_in x));
    record_pos := fun strict x =>
      match record_pos I strict (db_in x) with
      | None => None
      | Some t => Some (match create with Some _ => wr_list (db_buf x) ++ t | None => t end)
      end;
    reload_pos := fun strict x t =>
      let rest b (t1 : tape) :=
        match reload_pos I strict (db_in x) t1 with
        | None => None
        | Some (s', t2) => Some (DbSt (db_ret x) b s', t2)
        end in
      match create with
      | Some _ => match rd_list t with
                  | None => None
                  | Some (b, t1) => rest b t1
                  end
      | None => rest (db_buf x) t
      end;
    finitude_type := fun x => finitude_type I (db_in x)
  |}.
End DynamicBucket.
Arguments DbSt {I}. Arguments db_ret {I}. Arguments db_buf {I}. Arguments db_in {I}.

(** ** packed_data_source: data/packed_data_source.cc:19-160.

    Capacity and maximum sequence length are natural numbers. [DTensor] values are the one-dimensional tensors; every other
    value is rejected like in lines 44-53. The result is the dict with "seqs" and "seq_lens". *)
Section Pack.
  Variables capacity max_seq_len : nat.
  Variable pad : Z.
  Variables truncate drop : bool.
  Variable I : source.

  (** State: [remainder_] and the inner state. *)
  Definition pk_st : Type := (option (list Z) * St I)%type.

  (** Local variables of [next]: whether [batch] is defined, its contents up to [fill_pos], and [seq_lens] (most recent
      last). The rest of the batch is padding. *)
  Record pk_loc : Type := PkLoc { pk_def : bool; pk_batch : list Z; pk_lens : list nat }.

  Definition pk_output (l : pk_loc) : out :=
    if pk_def l then
      Val (DDict [("seqs"%string, DTensor (pk_batch l ++ repeat pad (capacity - length (pk_batch l))));
                  ("seq_lens"%string, DList (map (fun n => DInt (Z.of_nat n)) (pk_lens l)))])
    else Eod.

  (** data/packed_data_source.cc:107-121. *)
  Definition pk_finish (filled : bool) (l : pk_loc) (r : option (list Z)) (s : St I) : out * pk_st :=
    if truncate && negb filled && drop then (Eod, (r, s)) else (pk_output l, (r, s)).

  (** data/packed_data_source.cc:30-105. *)
  Fixpoint pk_loop (m n : nat) (l : pk_loc) (x : pk_st) : option (out * pk_st) :=
    match n with
    | O => None
    | S n' =>
      let (r, s) := x in
      (* lines 56-104 *)
      let use (t : list Z) (s : St I) :=
        let numel := length t in
        let l := PkLoc true (pk_batch l) (pk_lens l) in
        if numel =? 0 then pk_loop m n' l (None, s)
        else
          let fill_pos := length (pk_batch l) in
          let fill := Nat.min numel (Nat.min (capacity - fill_pos) max_seq_len) in
          let go (r' : option (list Z)) :=
            let l' := PkLoc true (pk_batch l ++ firstn fill t) (pk_lens l ++ [fill]) in
            if fill_pos + fill =? capacity then Some (pk_finish true l' r' s)
            else pk_loop m n' l' (r', s) in
          if fill <? numel then
            if truncate then
              (* a slice that would start at -1 starts at the last element *)
              go (Some (if fill_pos + fill =? capacity
                        then match fill with O => skipn (numel - 1) t | S f => skipn f t end
                        else skipn fill t))
            else if fill_pos =? 0 then Some (Err Recoverable, (None, s))
            else Some (pk_finish false l (Some t) s)
          else go None in
      match r with
      | Some t => use t s
      | None =>
        match next I m s with
        | None => None
        | Some (Err e, s') => Some (Err e, (None, s'))
        | Some (Eod, s') => Some (pk_finish false l None s')
        | Some (Val (DTensor t), s') => use t s'
        | Some (Val _, s') => Some (Err Recoverable, (None, s'))
        end
      end
    end.

  Definition src_pack : source := {|
    St := pk_st;
    init := (None, init I);
    next := fun n x => pk_loop n n (PkLoc false [] []) x;
    reset := fun rng x => (None, reset I rng (snd x));
    record_pos := fun strict x =>
      match record_pos I strict (snd x) with
      | None => None
      | Some t => Some (match fst x with
                        | Some r => wr_bool true ++ wr_tensor r
                        | None => wr_bool false
                        end ++ t)
      end;
    reload_pos := fun strict x t =>
      let rest r (t1 : tape) :=
        match reload_pos I strict (snd x) t1 with
        | None => None
        | Some (s', t2) => Some ((r, s'), t2)
        end in
      match rd_bool t with
      | None => None
      | Some (true, t1) => match rd_tensor t1 with
                           | None => None
                           | Some (v, t2) => rest (Some v) t2
                           end
      | Some (false, t1) => rest (fst x) t1
      end;
    finitude_type := fun x => finitude_type I (snd x)
  |}.
End Pack.
