(** Model of the sources that read several pipelines: zip, round_robin and sample. Definitions only. *)

From Coq Require Import QArith.
From Verif Require Export DP_Base DP_Sources_Model DP_Bucketing_Model.

(** ** zip_data_source: data/zip_data_source.cc:20-215.

    The pipelines are read in index order (as with [disable_parallelism]); the first error ends the call and the remaining
    pipelines are not read. With parallelism the others may be read as well. *)
Section Zip.
  Variable ps : list source.
  Variable names : list string.
  Variables shortest flatten : bool.

  (** data/zip_data_source.cc:32-44, literally: [all_finite] is true when no pipeline is finite. *)
  Definition zip_all_finite : bool :=
    match ps with [] => true | _ => forallb (fun f => negb (fin_eqb f Finite)) (hfins ps (hinit ps)) end.
  Definition zip_all_infinite : bool :=
    match ps with [] => false | _ => forallb (fun f => negb (fin_eqb f Infinite)) (hfins ps (hinit ps)) end.

  (** data/zip_data_source.cc:46-53; [None]: the constructor throws. *)
  Definition zip_finitude : option finitude :=
    if zip_all_finite && zip_all_infinite then None
    else if zip_all_finite then Some Finite
    else if zip_all_infinite then Some Infinite
    else None.

  (** data/zip_data_source.cc:70-82: the examples and the [is_eod] codes, from pipeline [i] on. *)
  Fixpoint zip_fetch (n k i : nat) (s : hst ps)
    : option (list (option data) * list nat * option err * hst ps) :=
    match k with
    | O => Some ([], [], None, s)
    | S k' =>
      match hnext ps i n s with
      | None => None
      | Some (Err e, s') => Some ([], [], Some e, s')
      | Some (o, s') =>
        match zip_fetch n k' (S i) s' with
        | None => None
        | Some (zs, cs, e, s'') =>
          match o with
          | Val d => Some (Some d :: zs, (if fin_eqb (hfin ps i s') PseudoInfinite then 2 else 0) :: cs, e, s'')
          | _ => Some (None :: zs, 1 :: cs, e, s'')
          end
        end
      end
    end.

  (** data/zip_data_source.cc:143-166; [emplace] into a map without the key. [None] is the recoverable error. *)
  Fixpoint add_keys (kvs acc : list (string * data)) : option (list (string * data)) :=
    match kvs with
    | [] => Some acc
    | (k, v) :: r => if existsb (fun p => String.eqb (fst p) k) acc then None else add_keys r (acc ++ [(k, v)])
    end.

  Fixpoint flatten_dict (zs : list data) (acc : list (string * data)) : option data :=
    match zs with
    | [] => Some (DDict acc)
    | DDict kvs :: r => match add_keys kvs acc with None => None | Some acc' => flatten_dict r acc' end
    | _ :: _ => None
    end.

  (** data/zip_data_source.cc:168-188. *)
  Fixpoint flatten_list (zs acc : list data) : option data :=
    match zs with
    | [] => Some (DList acc)
    | DDict _ :: _ => None
    | DList l :: r => flatten_list r (acc ++ l)
    | d :: r => flatten_list r (acc ++ [d])
    end.

  (** data/zip_data_source.cc:135-140: [dict.emplace] keeps the first value of a repeated name. *)
  Fixpoint zip_names (ns : list string) (zs : list data) (acc : list (string * data)) : list (string * data) :=
    match ns, zs with
    | n :: ns', z :: zs' =>
        zip_names ns' zs' (if existsb (fun p => String.eqb (fst p) n) acc then acc else acc ++ [(n, z)])
    | _, _ => acc
    end.

  (** data/zip_data_source.cc:121-140. *)
  Definition zip_output (zs : list data) : out :=
    if flatten then
      match (match zs with DDict _ :: _ => flatten_dict zs [] | _ => flatten_list zs [] end) with
      | Some d => Val d
      | None => Err Recoverable
      end
    else match names with
         | [] => Val (DList zs)
         | _ => Val (DDict (zip_names names zs []))
         end.

  Definition opt_data (o : option data) : list data := match o with Some d => [d] | None => [] end.

  (** data/zip_data_source.cc:57-140. *)
  Definition zip_next (n : nat) (s : hst ps) : option (out * hst ps) :=
    if length ps =? 0 then Some (Eod, s)
    else
      match zip_fetch n (length ps) 0 s with
      | None => None
      | Some (_, _, Some e, s') => Some (Err e, s')
      | Some (zs, cs, None, s') =>
        let are_eod := forallb (fun c => (c =? 2) || (c =? 1)) cs in
        let are_not_eod := forallb (fun c => (c =? 2) || (c =? 0)) cs in
        if negb (are_eod || are_not_eod) then
          if shortest then Some (Eod, s') else Some (Err Fatal, s')
        else if are_eod then Some (Eod, s')
        else Some (zip_output (flat_map opt_data zs), s')
      end.

  Definition src_zip : source := {|
    St := hst ps;
    init := hinit ps;
    next := zip_next;
    reset := hreset ps;
    record_pos := hrecord ps;
    reload_pos := hreload ps;
    finitude_type := fun _ => match zip_finitude with Some f => f | None => Finite end
  |}.
End Zip.

(** ** round_robin_data_source: data/round_robin_data_source.cc:13-171. *)
Section RoundRobin.
  Variable ps : list source.
  Variables stop_at_shortest allow_repeats : bool.

  Record rr_st : Type := RrSt {
    rr_buf : list (option data);
    rr_idx : nat;
    rr_done : list bool;
    rr_eod : bool;
    rr_ps : hst ps
  }.

  (** data/round_robin_data_source.cc:132-151. Returns the example (or an exception), [is_epoch_done_] and the pipelines. *)
  Definition rr_fetch (n i : nat) (done : list bool) (s : hst ps)
    : option ((option data + err) * list bool * hst ps) :=
    match hnext ps i n s with
    | None => None
    | Some (Err e, s1) => Some (inr e, done, s1)
    | Some (Val d, s1) =>
        Some (inl (Some d), (if fin_eqb (hfin ps i s1) PseudoInfinite then upd done i true else done), s1)
    | Some (Eod, s1) =>
        let done' := upd done i true in
        if allow_repeats then
          match hnext ps i n (hreset1 ps i false s1) with
          | None => None
          | Some (Err e, s2) => Some (inr e, done', s2)
          | Some (Val d, s2) => Some (inl (Some d), done', s2)
          | Some (Eod, s2) => Some (inl None, done', s2)
          end
        else Some (inl None, done', s1)
    end.

  (** data/round_robin_data_source.cc:50-53: gather the first round. An exception leaves a partial buffer. *)
  Fixpoint rr_gather (n k i : nat) (b : list (option data)) (done : list bool) (s : hst ps)
    : option (list (option data) * option err * list bool * hst ps) :=
    match k with
    | O => Some (b, None, done, s)
    | S k' =>
      match rr_fetch n i done s with
      | None => None
      | Some (inr e, done', s') => Some (b, Some e, done', s')
      | Some (inl o, done', s') => rr_gather n k' (S i) (b ++ [o]) done' s'
      end
    end.

  (** data/round_robin_data_source.cc:153-171. *)
  Definition rr_all_done (done : list bool) : bool :=
    if stop_at_shortest then existsb (fun b => b) done else forallb (fun b => b) done.

  (** data/round_robin_data_source.cc:59-64. [k]: buffer positions left. Returns the output or an exception. *)
  Fixpoint rr_scan (n k idx : nat) (b : list (option data)) (done : list bool) (s : hst ps)
    : option ((option data + err) * (nat * list (option data) * list bool * hst ps)) :=
    match k with
    | O => Some (inl None, (idx, b, done, s))
    | S k' =>
      match nth idx b None with
      | None => rr_scan n k' (S idx) b done s
      | Some d =>
        match rr_fetch n idx done s with
        | None => None
        | Some (inr e, done', s') => Some (inr e, (idx, b, done', s'))
        | Some (inl o, done', s') => Some (inl (Some d), (S idx, upd b idx o, done', s'))
        end
      end
    end.

  (** data/round_robin_data_source.cc:36-71. *)
  Definition rr_next (n : nat) (x : rr_st) : option (out * rr_st) :=
    if (length ps =? 0) || rr_eod x then Some (Eod, x)
    else if (rr_idx x =? 0) && rr_all_done (rr_done x)
    then Some (Eod, RrSt (rr_buf x) (rr_idx x) (rr_done x) true (rr_ps x))
    else
      let g := match rr_buf x with
               | [] => rr_gather n (length ps) 0 [] (rr_done x) (rr_ps x)
               | b => Some (b, None, rr_done x, rr_ps x)
               end in
      match g with
      | None => None
      | Some (b, Some e, done, s) => Some (Err e, RrSt b (rr_idx x) done false s)
      | Some (b, None, done, s) =>
        match rr_scan n (length b - rr_idx x) (rr_idx x) b done s with
        | None => None
        | Some (r, (idx, b', done', s')) =>
          match r with
          | inr e => Some (Err e, RrSt b' idx done' false s')
          | inl o =>
            let idx' := if idx =? length b' then 0 else idx in
            Some (match o with Some d => Val d | None => Eod end, RrSt b' idx' done' false s')
          end
        end
      end.

  Definition wr_bools (l : list bool) : tape := wr_vec wr_bool l.
  Definition rd_bools : reader (list bool) := rd_vec rd_bool.

  (** data/round_robin_data_source.cc:13-34, 73-130. *)
  Definition src_round_robin : source := {|
    St := rr_st;
    init := RrSt [] 0 (repeat false (length ps)) false (hinit ps);
    next := rr_next;
    reset := fun rng x => RrSt [] 0 (repeat false (length ps)) false (hreset ps rng (rr_ps x));
    record_pos := fun strict x =>
      match hrecord ps strict (rr_ps x) with
      | None => None
      | Some t => Some ((if strict then wr_vec (wr_opt wr_data) (rr_buf x) ++ wr_size (rr_idx x) ++ wr_bools (rr_done x)
                         else []) ++ t)
      end;
    reload_pos := fun strict x t =>
      let rest b i dn (t : tape) :=
        match hreload ps strict (rr_ps x) t with
        | None => None
        | Some (s', t') => Some (RrSt b i dn false s', t')
        end in
      if strict then
        match rd_vec (rd_opt rd_data) t with
        | None => None
        | Some (b, t1) =>
          match rd_size t1 with
          | None => None
          | Some (i, t2) =>
            match rd_bools t2 with
            | None => None
            | Some (dn, t3) => rest b i dn t3
            end
          end
        end
      else rest [] 0 (repeat false (length ps)) t;
    finitude_type := fun _ => fins_max (hfins ps (hinit ps))
  |}.
End RoundRobin.
Arguments RrSt {ps}. Arguments rr_buf {ps}. Arguments rr_idx {ps}. Arguments rr_done {ps}. Arguments rr_eod {ps}.
Arguments rr_ps {ps}.

(** ** sample_data_source: data/sample_data_source.cc:23-246.

    Weights are rational numbers, [None] is NaN; [are_close(sum, 1)] is equality. [rnd seed k] is the [k]-th 32-bit draw. *)
Section Sample.
  Variable rnd : Z -> nat -> Z.
  Variable ps : list source.
  Variable weights : list Q.
  Variable seed0 : Z.
  Variable allow_repeats : bool.

  Record sm_st : Type := SmSt {
    sm_buf : list (option data);
    sm_done : list bool;
    sm_seed : Z;
    sm_gen : Z * nat;
    sm_cum : list (option Q);
    sm_ps : hst ps
  }.

  (** data/sample_data_source.cc:38-44. *)
  Fixpoint cumsums (acc : Q) (ws : list Q) : list Q :=
    match ws with [] => [] | w :: r => (acc + w)%Q :: cumsums (acc + w)%Q r end.

  Definition opt2 (f : Q -> Q -> Q) (a b : option Q) : option Q :=
    match a, b with Some x, Some y => Some (f x y) | _, _ => None end.

  (** Division: 0/0 is NaN. (x/0 with x > 0, infinity, does not occur: the last cumulative sum is the largest.) *)
  Definition fdiv (a b : option Q) : option Q :=
    match a, b with
    | Some x, Some y => if Qeq_bool y 0 then None else Some (x / y)%Q
    | _, _ => None
    end.

  Definition flast (l : list (option Q)) : option Q := last l (Some 0%Q).

  (** data/sample_data_source.cc:46-50 and 228-233. *)
  Definition normalize (l : list (option Q)) : list (option Q) :=
    match flast l with
    | Some s => if Qeq_bool s 1 then l else map (fun x => fdiv x (Some s)) l
    | None => map (fun _ => None) l
    end.

  Definition init_cum : list (option Q) := normalize (map Some (cumsums 0 weights)).

  (** data/sample_data_source.cc:214-234. *)
  Definition sm_block (i : nat) (c : list (option Q)) : list (option Q) :=
    let ci := nth i c None in
    let '(w, c1) := match i with
                    | O => (ci, upd c 0 (Some 0%Q))
                    | S j => (opt2 Qminus ci (nth j c None), upd c i (nth j c None))
                    end in
    normalize (firstn (S i) c1 ++ map (fun x => opt2 Qminus x w) (skipn (S i) c1)).

  (** [sum < sample] for floats: false when either is NaN. *)
  Definition flt (a : option Q) (b : Q) : bool :=
    match a with Some x => negb (Qle_bool b x) | None => false end.

  (** data/sample_data_source.cc:161-171. The fuel is the length of the interval. *)
  Fixpoint bsearch (fuel l r : nat) (c : list (option Q)) (x : Q) : nat :=
    match fuel with
    | O => l
    | S f =>
        if 0 <? r - l then
          let m := l + (r - l) / 2 in
          if flt (nth m c None) x then bsearch f (S m) r c x else bsearch f l m c x
        else l
    end.

  (** data/sample_data_source.cc:176-184: skip to the next pipeline that is not done; [None]: out of bounds. *)
  Fixpoint skip_done (done : list bool) (l : nat) : option nat :=
    match done, l with
    | [], _ => None
    | b :: r, O => if b then match skip_done r 0 with Some j => Some (S j) | None => None end else Some 0
    | _ :: r, S l' => match skip_done r l' with Some j => Some (S j) | None => None end
    end.

  (** data/sample_data_source.cc:154-187; [uniform_real] of a 32-bit value takes its low 24 bits. *)
  Definition sm_draw (g : Z * nat) : Q := Qmake (rnd (fst g) (snd g) mod 2 ^ 24)%Z (2 ^ 24)%positive.

  Definition sm_index (g : Z * nat) (c : list (option Q)) (done : list bool) : option nat :=
    let l := bsearch (length c) 0 (length c - 1) c (sm_draw g) in
    if allow_repeats then Some l else skip_done done l.

  (** data/sample_data_source.cc:189-212. *)
  Definition sm_fetch (n i : nat) (done : list bool) (c : list (option Q)) (s : hst ps)
    : option ((option data + err) * list bool * list (option Q) * hst ps) :=
    match hnext ps i n s with
    | None => None
    | Some (Err e, s1) => Some (inr e, done, c, s1)
    | Some (Val d, s1) =>
        Some (inl (Some d), (if fin_eqb (hfin ps i s1) PseudoInfinite then upd done i true else done), c, s1)
    | Some (Eod, s1) =>
        let done' := upd done i true in
        if allow_repeats then
          match hnext ps i n (hreset1 ps i false s1) with
          | None => None
          | Some (Err e, s2) => Some (inr e, done', c, s2)
          | Some (Val d, s2) => Some (inl (Some d), done', c, s2)
          | Some (Eod, s2) => Some (inr Fatal, done', c, s2)
          end
        else Some (inl None, done', sm_block i c, s1)
    end.

  (** data/sample_data_source.cc:76-79. *)
  Fixpoint sm_gather (n k i : nat) (b : list (option data)) (done : list bool) (c : list (option Q)) (s : hst ps)
    : option (list (option data) * option err * list bool * list (option Q) * hst ps) :=
    match k with
    | O => Some (b, None, done, c, s)
    | S k' =>
      match sm_fetch n i done c s with
      | None => None
      | Some (inr e, done', c', s') => Some (b, Some e, done', c', s')
      | Some (inl o, done', c', s') => sm_gather n k' (S i) (b ++ [o]) done' c' s'
      end
    end.

  (** data/sample_data_source.cc:69-83. *)
  Definition sm_next (n : nat) (x : sm_st) : option (out * sm_st) :=
    if (length ps =? 0) || forallb (fun b => b) (sm_done x) then Some (Eod, x)
    else
      let g := match sm_buf x with
               | [] => sm_gather n (length ps) 0 [] (sm_done x) (sm_cum x) (sm_ps x)
               | b => Some (b, None, sm_done x, sm_cum x, sm_ps x)
               end in
      match g with
      | None => None
      | Some (b, Some e, done, c, s) => Some (Err e, SmSt b done (sm_seed x) (sm_gen x) c s)
      | Some (b, None, done, c, s) =>
        let gen := (fst (sm_gen x), S (snd (sm_gen x))) in
        match sm_index (sm_gen x) c done with
        | None => Some (Err Fatal, SmSt b done (sm_seed x) gen c s)   (* out of bounds *)
        | Some i =>
          match sm_fetch n i done c s with
          | None => None
          | Some (inr e, done', c', s') => Some (Err e, SmSt b done' (sm_seed x) gen c' s')
          | Some (inl o, done', c', s') =>
            Some (match nth i b None with Some d => Val d | None => Eod end,
                  SmSt (upd b i o) done' (sm_seed x) gen c' s')
          end
        end
      end.

  Definition rd_floats : reader (list Q) := rd_vec rd_float.

  (** data/sample_data_source.cc:23-67, 85-152. *)
  Definition src_sample : source := {|
    St := sm_st;
    init := SmSt [] (repeat false (length ps)) seed0 (seed0, 0) init_cum (hinit ps);
    next := sm_next;
    reset := fun rng x =>
      SmSt [] (repeat false (length ps)) (sm_seed x) (if rng then (sm_seed x, 0) else sm_gen x)
           (if allow_repeats then sm_cum x else init_cum) (hreset ps rng (sm_ps x));
    record_pos := fun strict x =>
      match hrecord ps strict (sm_ps x) with
      | None => None
      | Some t => Some ((if strict then wr_vec (wr_opt wr_data) (sm_buf x) ++ wr_vec wr_bool (sm_done x) else [])
                        ++ wr_u64 (sm_seed x) ++ wr_gen (sm_gen x) ++ wr_vec wr_float (sm_cum x) ++ t)
      end;
    reload_pos := fun strict x t =>
      let rest b dn (t : tape) :=
        match rd_u64 t with
        | None => None
        | Some (sd, t1) =>
          match rd_gen t1 with
          | None => None
          | Some (g, t2) =>
            match rd_floats t2 with
            | None => None
            | Some (c, t3) =>
              match hreload ps strict (sm_ps x) t3 with
              | None => None
              | Some (s', t4) => Some (SmSt b dn sd g (map Some c) s', t4)
              end
            end
          end
        end in
      if strict then
        match rd_vec (rd_opt rd_data) t with
        | None => None
        | Some (b, t1) =>
          match rd_vec rd_bool t1 with
          | None => None
          | Some (dn, t2) => rest b dn t2
          end
        end
      else rest [] (repeat false (length ps)) t;
    finitude_type := fun _ => fins_max (hfins ps (hinit ps))
  |}.
End Sample.
Arguments SmSt {ps}. Arguments sm_buf {ps}. Arguments sm_done {ps}. Arguments sm_seed {ps}. Arguments sm_gen {ps}.
Arguments sm_cum {ps}. Arguments sm_ps {ps}.
