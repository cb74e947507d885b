(** Model of the single-input data sources and of [data_pipeline]. Definitions only. *)

From Verif Require Export DP_Base.

(** What a user callback can do when it is applied to an example: return a value, return "no value"
    ([std::nullopt], data/map_data_source.cc:46-47), or throw. *)
Inductive fres (A : Type) := FVal (a : A) | FNone | FThrow (e : err).
Arguments FVal {A}. Arguments FNone {A}. Arguments FThrow {A}.

(** ** list_data_source: data/list_data_source.cc:13-44.
    The iterator [pos_] is an index. Reloading a position outside the list is undefined behaviour in C++; it is
    rejected here. *)
Definition src_list (l : list data) : source := {|
  St := nat;
  init := 0;
  next := fun _ p => match nth_error l p with
                     | Some d => Some (Val d, S p)
                     | None => Some (Eod, p)
                     end;
  reset := fun _ _ => 0;
  record_pos := fun _ p => Some (wr_size p);
  reload_pos := fun _ _ t => match rd_size t with
                             | Some (p, r) => if p <=? length l then Some (p, r) else None
                             | None => None
                             end;
  finitude_type := fun _ => Finite
|}.

(** ** count_data_source: data/count_data_source.cc:13-48. The counter is unbounded (no 64-bit overflow). *)
Definition src_count (start step : Z) (key : option string) : source := {|
  St := Z;
  init := start;
  next := fun _ c => Some (Val (match key with
                                | Some k => DDict [(k, DInt c)]
                                | None => DInt c end), (c + step)%Z);
  reset := fun _ _ => start;
  record_pos := fun _ c => Some (wr_int c);
  reload_pos := fun _ _ t => rd_int t;
  finitude_type := fun _ => PseudoInfinite
|}.

(** ** constant_data_source: data/constant_data_source.cc:13-38. *)
Definition src_constant (d : data) (key : option string) : source := {|
  St := unit;
  init := tt;
  next := fun _ s => Some (Val (match key with Some k => DDict [(k, d)] | None => d end), s);
  reset := fun _ s => s;
  record_pos := fun _ _ => Some [];
  reload_pos := fun _ s t => Some (s, t);
  finitude_type := fun _ => PseudoInfinite
|}.

(** ** filter_data_source: data/filter_data_source.cc:15-53. *)
Section Filter.
  Variable p : data -> fres bool.
  Variable I : source.

  (** data/filter_data_source.cc:18-22; [m] is the fuel of the inner calls, [n] that of the loop.
      [FNone] is not a possible result of a predicate; it counts as false. *)
  Fixpoint filter_loop (m n : nat) (s : St I) : option (out * St I) :=
    match n with
    | O => None
    | S n' =>
      match next I m s with
      | None => None
      | Some (Val d, s') =>
          match p d with
          | FVal true => Some (Val d, s')
          | FVal false | FNone => filter_loop m n' s'
          | FThrow e => Some (Err e, s')
          end
      | Some (o, s') => Some (o, s')
      end
    end.

  Definition src_filter : source := {|
    St := St I;
    init := init I;
    next := fun n s => filter_loop n n s;
    reset := reset I;
    record_pos := record_pos I;
    reload_pos := reload_pos I;
    finitude_type := finitude_type I
  |}.
End Filter.

(** ** map_data_source with [num_parallel_calls <= 1]: data/map_data_source.cc:41-52.
    The state also has the (always empty) buffer and its position, because they are written to the tape in strict mode
    (data/map_data_source.cc:104-111) and read back (132-135). *)
Section MapSeq.
  Variable f : data -> fres data.
  Variable I : source.

  (** data/map_data_source.cc:45-51. *)
  Fixpoint map_loop (m n : nat) (s : St I) : option (out * St I) :=
    match n with
    | O => None
    | S n' =>
      match next I m s with
      | None => None
      | Some (Val d, s') =>
          match f d with
          | FVal d' => Some (Val d', s')
          | FNone => map_loop m n' s'
          | FThrow e => Some (Err e, s')
          end
      | Some (o, s') => Some (o, s')
      end
    end.
End MapSeq.

(** ** map_data_source, deterministic: data/map_data_source.cc:41-67, 90-160, 168-199.

    State: [buffer_], [buffer_pos_] as an index, and the inner state. With more than one parallel call the examples of one
    buffer are mapped in parallel; here in index order, up to and including the first one that throws (the completion order
    is the subject of DP_ParMap_Model.v). A throwing call leaves the not yet mapped examples in the buffer. *)
Section Map.
  Variable f : data -> fres data.
  Variable npar : nat.
  Variable I : source.

  Definition map_st : Type := (list (option data) * nat * St I)%type.

  (** data/map_data_source.cc:55-65: the first buffered example at or after the position; its slot becomes empty. *)
  Fixpoint map_pick (b : list (option data)) (pos : nat) : option (data * list (option data) * nat) :=
    match b with
    | [] => None
    | x :: b' =>
        match pos with
        | S pos' => match map_pick b' pos' with
                    | Some (d, b'', q) => Some (d, x :: b'', S q)
                    | None => None
                    end
        | O => match x with
               | Some d => Some (d, None :: b', 1)
               | None => match map_pick b' 0 with
                         | Some (d, b'', q) => Some (d, x :: b'', S q)
                         | None => None
                         end
               end
        end
    end.

  (** data/map_data_source.cc:173-179: read at most [k] examples. *)
  Fixpoint map_read (m k : nat) (s : St I) : option (list data * option err * St I) :=
    match k with
    | O => Some ([], None, s)
    | S k' =>
      match next I m s with
      | None => None
      | Some (Val d, s') =>
          match map_read m k' s' with
          | None => None
          | Some (l, e, s'') => Some (d :: l, e, s'')
          end
      | Some (Eod, s') => Some ([], None, s')
      | Some (Err e, s') => Some ([], Some e, s')
      end
    end.

  (** data/map_data_source.cc:187-196: apply the function to the buffered examples. *)
  Fixpoint map_apply (l : list data) : list (option data) * option err :=
    match l with
    | [] => ([], None)
    | d :: l' =>
        match f d with
        | FVal d' => let (b, e) := map_apply l' in (Some d' :: b, e)
        | FNone => let (b, e) := map_apply l' in (None :: b, e)
        | FThrow e => (map Some (d :: l'), Some e)
        end
    end.

  (** data/map_data_source.cc:55-67, the do-while loop. If reading throws, the examples read so far are in the buffer with
      [buffer_pos_] still where it was before (lines 171-181); the vector has been cleared, so the position is the old one,
      an invalidated iterator; this case is modelled as position 0. *)
  Fixpoint map_par_loop (m n : nat) (b : list (option data)) (pos : nat) (s : St I)
    : option (out * map_st) :=
    match n with
    | O => None
    | S n' =>
      match map_pick b pos with
      | Some (d, b', q) => Some (Val d, (b', q, s))
      | None =>
        match map_read m npar s with
        | None => None
        | Some (l, Some e, s') => Some (Err e, (map Some l, 0, s'))
        | Some ([], None, s') => Some (Eod, ([], 0, s'))
        | Some (l, None, s') =>
            match map_apply l with
            | (b', Some e) => Some (Err e, (b', 0, s'))
            | (b', None) => map_par_loop m n' b' 0 s'
            end
        end
      end
    end.

  (** data/map_data_source.cc:41-67. *)
  Definition map_next (n : nat) (x : map_st) : option (out * map_st) :=
    let '(b, pos, s) := x in
    if npar <=? 1 then
      match map_loop f I n n s with
      | None => None
      | Some (o, s') => Some (o, (b, pos, s'))
      end
    else map_par_loop n n b pos s.

  Definition src_map : source := {|
    St := map_st;
    init := ([], 0, init I);
    next := map_next;
    reset := fun rng x => ([], 0, reset I rng (snd x));
    record_pos := fun strict x =>
      let '(b, pos, s) := x in
      match record_pos I strict s with
      | None => None
      | Some t => Some ((if strict then wr_vec (wr_opt wr_data) b ++ wr_size pos else []) ++ t)
      end;
    reload_pos := fun strict _x t =>
      let '(_, _, s) := _x in
      if strict then
        match rd_vec (rd_opt rd_data) t with
        | None => None
        | Some (b, t1) =>
          match rd_size t1 with
          | None => None
          | Some (pos, t2) =>
            match reload_pos I strict s t2 with
            | None => None
            | Some (s', t3) => Some ((b, pos, s'), t3)
            end
          end
        end
      else
        match reload_pos I strict s t with
        | None => None
        | Some (s', t3) => Some (([], 0, s'), t3)
        end;
    finitude_type := fun x => finitude_type I (snd x)
  |}.
End Map.

(** ** skip_data_source: data/skip_data_source.cc:11-56. State: [skip_] and the inner state. *)
Section Skip.
  Variable k : nat.
  Variable I : source.

  (** data/skip_data_source.cc:18-20: call [next] up to [j] times, stop at the end of data. *)
  Fixpoint skip_loop (m j : nat) (s : St I) : option (option err * St I) :=
    match j with
    | O => Some (None, s)
    | S j' =>
      match next I m s with
      | None => None
      | Some (Val _, s') => skip_loop m j' s'
      | Some (Eod, s') => Some (None, s')
      | Some (Err e, s') => Some (Some e, s')
      end
    end.

  Definition skip_next (n : nat) (x : bool * St I) : option (out * (bool * St I)) :=
    let (done, s) := x in
    let fwd (done' : bool) (s' : St I) :=
      match next I n s' with
      | None => None
      | Some (o, s'') => Some (o, (done', s''))
      end in
    if k =? 0 then fwd done s
    else if negb done then
      match skip_loop n k s with
      | None => None
      | Some (Some e, s') => Some (Err e, (done, s'))
      | Some (None, s') => fwd true s'
      end
    else fwd done s.

  Definition src_skip : source := {|
    St := (bool * St I)%type;
    init := (false, init I);
    next := skip_next;
    reset := fun rng x => (false, reset I rng (snd x));
    record_pos := fun strict x =>
      match record_pos I strict (snd x) with
      | None => None
      | Some t => Some (wr_bool (fst x) ++ t)
      end;
    reload_pos := fun strict x t =>
      match rd_bool t with
      | None => None
      | Some (b, t1) =>
        match reload_pos I strict (snd x) t1 with
        | None => None
        | Some (s', t2) => Some ((b, s'), t2)
        end
      end;
    finitude_type := fun x => finitude_type I (snd x)
  |}.
End Skip.

(** ** take_data_source: data/take_data_source.cc:11-52. State: [num_examples_read_] and the inner state. *)
Section Take.
  Variable k : nat.
  Variable I : source.

  Definition take_next (n : nat) (x : nat * St I) : option (out * (nat * St I)) :=
    let (c, s) := x in
    if c =? k then Some (Eod, x)
    else match next I n s with
         | None => None
         | Some (Val d, s') => Some (Val d, (S c, s'))
         | Some (o, s') => Some (o, (c, s'))
         end.

  Definition src_take : source := {|
    St := (nat * St I)%type;
    init := (0, init I);
    next := take_next;
    reset := fun rng x => (0, reset I rng (snd x));
    record_pos := fun strict x =>
      match record_pos I strict (snd x) with
      | None => None
      | Some t => Some (wr_size (fst x) ++ t)
      end;
    reload_pos := fun strict x t =>
      match rd_size t with
      | None => None
      | Some (c, t1) =>
        match reload_pos I strict (snd x) t1 with
        | None => None
        | Some (s', t2) => Some ((c, s'), t2)
        end
      end;
    finitude_type := fun _ => Finite
  |}.
End Take.

(** ** shard_data_source: data/shard_data_source.cc:11-69 (the builder guarantees [idx < num],
    data/data_pipeline.cc:520-526). *)
Section Shard.
  Variables idx num : nat.
  Variable uneven : bool.
  Variable I : source.

  (** data/shard_data_source.cc:28-30 and 36-37: advance [j] times; the flag says whether the end was met. *)
  Fixpoint advance (m j : nat) (s : St I) : option ((bool + err) * St I) :=
    match j with
    | O => Some (inl false, s)
    | S j' =>
      match next I m s with
      | None => None
      | Some (Val _, s') => advance m j' s'
      | Some (Eod, s') => Some (inl true, s')
      | Some (Err e, s') => Some (inr e, s')
      end
    end.

  Definition shard_next (n : nat) (s : St I) : option (out * St I) :=
    if num =? 1 then next I n s
    else
      match advance n idx s with
      | None => None
      | Some (inr e, s1) => Some (Err e, s1)
      | Some (inl true, s1) => Some (Eod, s1)
      | Some (inl false, s1) =>
        match next I n s1 with
        | None => None
        | Some (Val d, s2) =>
          match advance n (num - idx - 1) s2 with
          | None => None
          | Some (inr e, s3) => Some (Err e, s3)
          | Some (inl true, s3) => if uneven then Some (Val d, s3) else Some (Eod, s3)
          | Some (inl false, s3) => Some (Val d, s3)
          end
        | Some (o, s2) => Some (o, s2)
        end
      end.

  Definition src_shard : source := {|
    St := St I;
    init := init I;
    next := shard_next;
    reset := reset I;
    record_pos := record_pos I;
    reload_pos := reload_pos I;
    finitude_type := finitude_type I
  |}.
End Shard.

(** ** repeat_data_source: data/repeat_data_source.cc:13-69, fields data/repeat_data_source.h:44-49.
    State: [has_data_], [repeat_nr_] and the inner state. *)
Section Repeat.
  Variable num : option nat.
  Variable rng_flag : bool.
  Variable I : source.

  Definition repeat_st : Type := (bool * nat * St I)%type.

  (** data/repeat_data_source.cc:19-36. [repeat_nr_ == *num_repeats_ - 1] is modelled as [S nr = num]. *)
  Fixpoint repeat_loop (m n : nat) (x : repeat_st) : option (out * repeat_st) :=
    match n with
    | O => None
    | S n' =>
      let '(has, nr, s) := x in
      match next I m s with
      | None => None
      | Some (Val d, s') => Some (Val d, (true, nr, s'))
      | Some (Err e, s') => Some (Err e, (has, nr, s'))
      | Some (Eod, s') =>
          if negb has then Some (Eod, (has, nr, s'))
          else if (match num with Some k => S nr =? k | None => false end)
          then Some (Eod, (has, nr, s'))
          else repeat_loop m n' (has, S nr, reset I rng_flag s')
      end
    end.

  Definition repeat_next (n : nat) (x : repeat_st) : option (out * repeat_st) :=
    match num with
    | Some O => Some (Eod, x)
    | _ => repeat_loop n n x
    end.

  Definition src_repeat : source := {|
    St := repeat_st;
    init := (false, 0, init I);
    next := repeat_next;
    reset := fun rng x => (false, 0, reset I rng (snd x));
    record_pos := fun strict x =>
      match record_pos I strict (snd x) with
      | None => None
      | Some t => Some (wr_size (snd (fst x)) ++ t)
      end;
    reload_pos := fun strict x t =>
      match rd_size t with
      | None => None
      | Some (nr, t1) =>
        match reload_pos I strict (snd x) t1 with
        | None => None
        | Some (s', t2) => Some ((fst (fst x), nr, s'), t2)
        end
      end;
    finitude_type := fun x => match num with Some _ => finitude_type I (snd x) | None => Infinite end
  |}.
End Repeat.

(** ** bucket_data_source: data/bucket_data_source.cc:13-64 (the builder guarantees [size > 0],
    data/data_pipeline.cc:360-361). An exception of the inner source discards the examples collected so far (they are in a
    local variable). *)
Section Bucket.
  Variable size : nat.
  Variable drop : bool.
  Variable I : source.

  (** data/bucket_data_source.cc:25-31. *)
  Fixpoint bucket_fill (m k : nat) (s : St I) : option (list data * option err * St I) :=
    match k with
    | O => Some ([], None, s)
    | S k' =>
      match next I m s with
      | None => None
      | Some (Val d, s') =>
          match bucket_fill m k' s' with
          | None => None
          | Some (l, e, s'') => Some (d :: l, e, s'')
          end
      | Some (Eod, s') => Some ([], None, s')
      | Some (Err e, s') => Some ([], Some e, s')
      end
    end.

  Definition bucket_next (n : nat) (s : St I) : option (out * St I) :=
    match bucket_fill n size s with
    | None => None
    | Some (_, Some e, s') => Some (Err e, s')
    | Some ([], None, s') => Some (Eod, s')
    | Some (l, None, s') =>
        if drop && (length l <? size) then Some (Eod, s') else Some (Val (DList l), s')
    end.

  Definition src_bucket : source := {|
    St := St I;
    init := init I;
    next := bucket_next;
    reset := reset I;
    record_pos := record_pos I;
    reload_pos := reload_pos I;
    finitude_type := finitude_type I
  |}.
End Bucket.

(** ** data_pipeline: data/data_pipeline.cc:46-189, data/data_pipeline.h:107-113.

    State: [is_broken_], [warning_count_], whether the factory has been run, and the state of the source (which is the
    initial state of the source until the factory has been run). The factory itself does not fail in this model. *)
Section Pipeline.
  Variable maxw : nat.
  Variable I : source.

  Record pipe_st : Type := PipeSt {
    p_broken : bool;
    p_warn : nat;
    p_inited : bool;
    p_src : St I
  }.

  (** data/data_pipeline.cc:56-81. *)
  Fixpoint pipe_loop (m n w : nat) (s : St I) : option (out * pipe_st) :=
    match n with
    | O => None
    | S n' =>
      match next I m s with
      | None => None
      | Some (Err Recoverable, s') =>
          if w <? maxw then pipe_loop m n' (S w) s'
          else Some (Err Recoverable, PipeSt false w true s')
      | Some (Err Fatal, s') => Some (Err Fatal, PipeSt true w true s')
      | Some (o, s') => Some (o, PipeSt false w true s')
      end
    end.

  (** data/data_pipeline.cc:46-54, 183-189. The exception of [check_if_broken] is a non-recoverable
      [data_pipeline_error]. *)
  Definition pipe_next (n : nat) (x : pipe_st) : option (out * pipe_st) :=
    if p_broken x then Some (Err Fatal, x)
    else pipe_loop n n (p_warn x) (p_src x).

  (** data/data_pipeline.cc:84-97; before the factory has run [source_] is null and reset does nothing. *)
  Definition pipe_reset (rng : bool) (x : pipe_st) : pipe_st :=
    if p_broken x then x
    else if p_inited x then PipeSt (p_broken x) (p_warn x) true (reset I rng (p_src x))
    else x.

  (** data/data_pipeline.cc:99-121. *)
  Definition pipe_record (strict : bool) (x : pipe_st) : option tape :=
    if p_broken x then None
    else if p_inited x then
      match record_pos I strict (p_src x) with
      | None => None
      | Some t => Some (wr_bool true ++ wr_bool strict ++ t)
      end
    else Some (wr_bool false).

  (** data/data_pipeline.cc:123-145 (the strict flag comes from the tape; [reset()] has the default
      [reset_rng = false], data/data_pipeline.h:49). *)
  Definition pipe_reload (x : pipe_st) (t : tape) : option (pipe_st * tape) :=
    if p_broken x then None
    else match rd_bool t with
         | None => None
         | Some (false, t1) => Some (pipe_reset false x, t1)
         | Some (true, t1) =>
           match rd_bool t1 with
           | None => None
           | Some (strict, t2) =>
             match reload_pos I strict (p_src x) t2 with
             | None => None
             | Some (s', t3) => Some (PipeSt (p_broken x) (p_warn x) true s', t3)
             end
           end
         end.

  (** A pipeline as a child of another source: the parent's constructor calls [finitude_type()], which runs the factory
      (e.g. data/concat_data_source.cc:19-24, data/data_pipeline.cc:147-158). *)
  Definition src_pipe : source := {|
    St := pipe_st;
    init := PipeSt false 0 true (init I);
    next := pipe_next;
    reset := pipe_reset;
    record_pos := pipe_record;
    reload_pos := fun _ => pipe_reload;
    finitude_type := fun x => finitude_type I (p_src x)
  |}.

  (** A pipeline as returned by [and_return] (data/data_pipeline.cc:580-589): the factory has not been run. *)
  Definition pipe_fresh : pipe_st := PipeSt false 0 false (init I).

  (** The Python binding [load_state_dict] (native/python/src/fairseq2n/bindings/data/data_pipeline.cc:247-286): the tape
      must be consumed entirely. *)
  Definition load_state_dict (x : pipe_st) (t : tape) : option pipe_st :=
    match pipe_reload x t with
    | Some (x', []) => Some x'
    | _ => None
    end.

  Definition state_dict (strict : bool) (x : pipe_st) : option tape := pipe_record strict x.
End Pipeline.
Arguments p_broken {I}. Arguments p_warn {I}. Arguments p_inited {I}. Arguments p_src {I}.
Arguments PipeSt {I}.

(** ** concat_data_source: data/concat_data_source.cc:13-60. *)
Section Concat.
  Variable ps : list source.

  (** data/concat_data_source.cc:31-36. [k] pipelines from index [i] on. *)
  Fixpoint concat_loop (n k i : nat) (s : hst ps) : option (out * hst ps) :=
    match k with
    | O => Some (Eod, s)
    | S k' =>
      match hnext ps i n s with
      | None => None
      | Some (Eod, s') => concat_loop n k' (S i) s'
      | Some (o, s') => Some (o, s')
      end
    end.

  Definition src_concat : source := {|
    St := hst ps;
    init := hinit ps;
    next := fun n s => concat_loop n (length ps) 0 s;
    reset := hreset ps;
    record_pos := hrecord ps;
    reload_pos := hreload ps;
    finitude_type := fun _ => fins_max (hfins ps (hinit ps))
  |}.
End Concat.

(** ** yield_from_data_source: data/yield_from_data_source.cc:15-105.

    The callback is modelled by a family of sources indexed by the example, all over one source type so that the state has
    one type: [sub d] is the state of a freshly created pipeline for example [d]. The default-constructed
    [data_pipeline_{}] (no source) is [None]. *)
Section YieldFrom.
  Variable Y : source.
  Variable sub : data -> fres (St Y).
  Variable I : source.

  (** State: [maybe_current_example_], [data_pipeline_], inner. *)
  Definition yf_st : Type := (option data * option (St Y) * St I)%type.

  (** data/data_pipeline.cc:53-54 for the empty pipeline, otherwise the pipeline's [next]. *)
  Definition yf_sub_next (n : nat) (o : option (St Y)) : option (out * option (St Y)) :=
    match o with
    | None => Some (Eod, None)
    | Some y => match next Y n y with
                | None => None
                | Some (r, y') => Some (r, Some y')
                end
    end.

  (** data/yield_from_data_source.cc:81-99 followed by the loop of 20-24. *)
  Fixpoint yf_loop (m n : nat) (x : yf_st) : option (out * yf_st) :=
    match n with
    | O => None
    | S n' =>
      let '(cur, y, s) := x in
      match yf_sub_next m y with
      | None => None
      | Some (Eod, y') =>
        match next I m s with
        | None => None
        | Some (Err e, s') => Some (Err e, (cur, y', s'))
        | Some (Eod, s') => Some (Eod, (None, None, s'))
        | Some (Val d, s') =>
          match sub d with
          | FThrow e => Some (Err e, (Some d, y', s'))
          | FNone => Some (Err Fatal, (Some d, y', s'))
          | FVal y0 =>
            if fin_eqb (finitude_type Y y0) Finite
            then yf_loop m n' (Some d, Some y0, s')
            else (* the moved-from optional stays engaged *)
              Some (Err Recoverable, (Some d, None, s'))
          end
        end
      | Some (o, y') => Some (o, (cur, y', s))
      end
    end.

  Definition src_yield_from : source := {|
    St := yf_st;
    init := (None, None, init I);
    next := fun n x => yf_loop n n x;
    reset := fun rng x => (None, None, reset I rng (snd x));
    record_pos := fun strict x =>
      let '(cur, y, s) := x in
      match (if strict then
               match cur with
               | None => Some (wr_opt wr_data cur)
               | Some _ =>
                 match y with
                 | None => (* initialised pipeline without a source: data/data_pipeline.cc:105-108 *)
                   Some (wr_opt wr_data cur ++ wr_bool true)
                 | Some y0 => match record_pos Y strict y0 with
                              | None => None
                              | Some t => Some (wr_opt wr_data cur ++ t)
                              end
                 end
               end
             else Some []) with
      | None => None
      | Some t => match record_pos I strict s with
                  | None => None
                  | Some t' => Some (t ++ t')
                  end
      end;
    reload_pos := fun strict x t =>
      let '(_, _, s) := x in
      let fin cur y (t1 : tape) :=
        match reload_pos I strict s t1 with
        | None => None
        | Some (s', t2) => Some ((cur, y, s'), t2)
        end in
      if strict then
        match rd_opt rd_data t with
        | None => None
        | Some (None, t1) => fin None None t1
        | Some (Some d, t1) =>
          match sub d with
          | FVal y0 =>
            match reload_pos Y strict y0 t1 with
            | None => None
            | Some (y1, t2) => fin (Some d) (Some y1) t2
            end
          | _ => None
          end
        end
      else fin None None t;
    finitude_type := fun x => finitude_type I (snd x)
  |}.
End YieldFrom.

(** ** Families of pipelines

    The pipelines returned by a [yield_from] callback can be built differently for every example. [src_family F] is one
    source type whose states are tagged with the example; its initial state is never used. *)
Definition src_family (F : data -> source) : source := {|
  St := {d : data & St (F d)};
  init := existT _ (DBool false) (init (F (DBool false)));
  next := fun n x => match next (F (projT1 x)) n (projT2 x) with
                     | None => None
                     | Some (o, s') => Some (o, existT _ (projT1 x) s')
                     end;
  reset := fun g x => existT _ (projT1 x) (reset (F (projT1 x)) g (projT2 x));
  record_pos := fun strict x => record_pos (F (projT1 x)) strict (projT2 x);
  reload_pos := fun strict x t => match reload_pos (F (projT1 x)) strict (projT2 x) t with
                                  | None => None
                                  | Some (s', t') => Some (existT _ (projT1 x) s', t')
                                  end;
  finitude_type := fun x => finitude_type (F (projT1 x)) (projT2 x)
|}.
