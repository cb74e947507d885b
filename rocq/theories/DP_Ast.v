(** Data pipelines as the expressions a user writes, what they denote, and what they are supposed to contain.
    Definitions only. *)

From Coq Require Import QArith.
From Verif Require Import DP_Base DP_Spec DP_Sources_Model DP_Bucketing_Model DP_Multi_Model.

(** The factories and builder operators of /repo/src/fairseq2/data/data_pipeline.py:40-616 (bound in
    native/python/src/fairseq2n/bindings/data/data_pipeline.cc). [APipe maxw p] is [p.and_return(maxw)]; the children of
    concat, zip, round_robin and sample and the results of a [yield_from] callback are expected to be of that form.
    Prefetch, the file readers and Python iterators are not part of this language. *)
Inductive ast : Type :=
| AList (l : list data)
| ACount (start step : Z) (key : option string)
| AConst (d : data) (key : option string)
| AMap (f : data -> fres data) (npar : nat) (p : ast)
| AFilter (f : data -> fres bool) (p : ast)
| ASkip (k : nat) (p : ast)
| ATake (k : nat) (p : ast)
| AShard (idx num : nat) (uneven : bool) (p : ast)
| ABucket (size : nat) (drop : bool) (p : ast)
| ARepeat (num : option nat) (reset_rng : bool) (p : ast)
| AShuffle (moved : data -> data) (window : nat) (seed : Z) (p : ast)
| ABbl (sizes : list (nat * nat)) (len : data -> fres nat) (min_len : nat) (skip_below skip_above drop : bool) (p : ast)
| ADyn (threshold : Q) (cost : data -> fres Q) (minn maxn : option nat) (drop : bool) (p : ast)
| APack (capacity max_seq_len : nat) (pad : Z) (truncate drop : bool) (p : ast)
| AYield (F : data -> ast) (p : ast)
| APipe (maxw : nat) (p : ast)
| AConcat (ps : list ast)
| AZip (names : list string) (shortest flatten : bool) (ps : list ast)
| ARR (stop_at_shortest allow_repeats : bool) (ps : list ast)
| ASample (ws : list Q) (seed : Z) (allow_repeats : bool) (ps : list ast).

(** The pipeline built by the callback of [yield_from]. *)
Definition family_start (F : data -> source) (d : data) : fres (St (src_family F)) := FVal (existT _ d (init (F d))).

Section Denote.
  Variable rnd : Z -> nat -> Z.

  (** The data source built by an expression. *)
  Fixpoint denote (a : ast) : source :=
    match a with
    | AList l => src_list l
    | ACount x y k => src_count x y k
    | AConst d k => src_constant d k
    | AMap f npar p => src_map f npar (denote p)
    | AFilter f p => src_filter f (denote p)
    | ASkip k p => src_skip k (denote p)
    | ATake k p => src_take k (denote p)
    | AShard i n u p => src_shard i n u (denote p)
    | ABucket n d p => src_bucket n d (denote p)
    | ARepeat n g p => src_repeat n g (denote p)
    | AShuffle mv w sd p => src_shuffle rnd mv w sd (denote p)
    | ABbl sz ln mn sb sa dr p => src_bucket_by_length sz ln mn sb sa dr (denote p)
    | ADyn th c mn mx dr p => src_dynamic_bucket th c None mn mx dr (denote p)
    | APack cp mx pd tr dr p => src_pack cp mx pd tr dr (denote p)
    | AYield F p => src_yield_from (src_family (fun d => denote (F d))) (family_start (fun d => denote (F d))) (denote p)
    | APipe w p => src_pipe w (denote p)
    | AConcat ps => src_concat (map denote ps)
    | AZip nm sh fl ps => src_zip (map denote ps) nm sh fl
    | ARR st ar ps => src_round_robin (map denote ps) st ar
    | ASample ws sd ar ps => src_sample rnd (map denote ps) ws sd ar
    end.
End Denote.

(** What a user holds: the pipeline returned by [and_return], and the state it starts in. *)
Definition pl (rnd : Z -> nat -> Z) (maxw : nat) (a : ast) : source := src_pipe maxw (denote rnd a).
Definition fresh (rnd : Z -> nat -> Z) (a : ast) : pipe_st (denote rnd a) := pipe_fresh (denote rnd a).

(** The freshly built pipeline [a] yields exactly the list [l], then the end of data again and again. *)
Definition produces (rnd : Z -> nat -> Z) (a : ast) (l : list data) : Prop :=
  holds (denote rnd a) (init (denote rnd a)) l.

(** It yields the endless stream [f]. *)
Definition flows (rnd : Z -> nat -> Z) (a : ast) (f : nat -> data) : Prop :=
  streams (denote rnd a) (init (denote rnd a)) f.

Definition produces_content (rnd : Z -> nat -> Z) (a : ast) (c : content) : Prop :=
  match c with CList l => produces rnd a l | CStream f => flows rnd a f end.

(** The states of pipelines in use: created, advanced, reset, or created and loaded with the state saved from another one. *)
Inductive lives (rnd : Z -> nat -> Z) (maxw : nat) (a : ast) : pipe_st (denote rnd a) -> Prop :=
| lives_fresh : lives rnd maxw a (fresh rnd a)
| lives_next n o x x' : lives rnd maxw a x -> next (pl rnd maxw a) n x = Some (o, x') -> lives rnd maxw a x'
| lives_reset g x : lives rnd maxw a x -> lives rnd maxw a (reset (pl rnd maxw a) g x)
| lives_load x t x' : lives rnd maxw a x -> state_dict (denote rnd a) true x = Some t ->
    load_state_dict (denote rnd a) (fresh rnd a) t = Some x' -> lives rnd maxw a x'.

(** ** Finitude

    What [data_source::finitude_type] reports; it depends on the expression only. *)
Definition zip_fin (fs : list finitude) : option finitude :=
  let none_finite := forallb (fun f => negb (fin_eqb f Finite)) fs in
  let none_infinite := match fs with [] => false | _ => forallb (fun f => negb (fin_eqb f Infinite)) fs end in
  if none_finite && none_infinite then None
  else if none_finite then Some Finite
  else if none_infinite then Some Infinite
  else None.

Fixpoint fin (a : ast) : finitude :=
  match a with
  | AList _ | ATake _ _ => Finite
  | ACount _ _ _ | AConst _ _ => PseudoInfinite
  | AMap _ _ p | AFilter _ p | ASkip _ p | AShard _ _ _ p | ABucket _ _ p | AShuffle _ _ _ p | ABbl _ _ _ _ _ _ p
  | ADyn _ _ _ _ _ p | APack _ _ _ _ _ p | AYield _ p | APipe _ p => fin p
  | ARepeat (Some _) _ p => fin p
  | ARepeat None _ _ => Infinite
  | AConcat ps | ARR _ _ ps | ASample _ _ _ ps => fins_max (map fin ps)
  | AZip _ _ _ ps => match zip_fin (map fin ps) with Some f => f | None => Finite end
  end.

(** ** What an expression contains

    [sem a c]: [c] is a possible content of the pipeline [a]. Only operators that choose at random leave a choice. *)
Definition labelled (key : option string) (d : data) : data :=
  match key with Some k => DDict [(k, d)] | None => d end.

Definition is_list (c : content) : Prop := match c with CList _ => True | CStream _ => False end.

(** What a [filter] predicate or a [map] function returns, as far as the elements of [l] are concerned. *)
Definition mapped (f : data -> fres data) (l : list data) : list data :=
  flat_map (fun d => match f d with FVal d' => [d'] | _ => [] end) l.
Definition passing (f : data -> fres bool) (l : list data) : list data :=
  filter (fun d => match f d with FVal b => b | _ => false end) l.

Definition value {A} (dflt : A) (f : data -> fres A) (d : data) : A := match f d with FVal a => a | _ => dflt end.

Definition supply_of (c : content) : supply := match c with CList l => Epochs (fun _ => l) | CStream f => Endless f end.

Inductive sem : ast -> content -> Prop :=
| sem_list l : sem (AList l) (CList l)
| sem_count x y k : sem (ACount x y k) (CStream (fun i => labelled k (DInt (x + Z.of_nat i * y))))
| sem_const d k : sem (AConst d k) (CStream (fun _ => labelled k d))
| sem_map f npar p l : sem p (CList l) -> sem (AMap f npar p) (CList (mapped f l))
| sem_filter f p l : sem p (CList l) -> sem (AFilter f p) (CList (passing f l))
| sem_skip k p l : sem p (CList l) -> sem (ASkip k p) (CList (skipn k l))
| sem_take k p l : sem p (CList l) -> sem (ATake k p) (CList (firstn k l))
| sem_take_stream k p f : sem p (CStream f) -> sem (ATake k p) (CList (map f (seq 0 k)))
| sem_shard i n u p l : sem p (CList l) -> sem (AShard i n u p) (CList (shard_spec i n u l))
| sem_bucket n (dr : bool) p l bs : sem p (CList l) -> (if dr then cut_drop n l bs else cut n l bs) ->
    sem (ABucket n dr p) (CList (map DList bs))
| sem_repeat k g p l : sem p (CList l) -> sem (ARepeat (Some k) g p) (CList (concat (repeat l k)))
| sem_shuffle mv w sd p l out : sem p (CList l) -> shuffle_spec w l out -> sem (AShuffle mv w sd p) (CList out)
| sem_bbl sz ln mn sb sa dr p l bs : sem p (CList l) -> bbl_spec sz (value 0%nat ln) mn dr l bs ->
    sem (ABbl sz ln mn sb sa dr p) (CList (map DList bs))
| sem_dyn th c mn mx dr p l bs : sem p (CList l) -> dyn_groups th (value 0%Q c) mn mx dr l bs ->
    sem (ADyn th c mn mx dr p) (CList (map DList bs))
| sem_pack cp mx pd dr p ts bs : sem p (CList (map DTensor ts)) -> pack_spec cp ts bs ->
    sem (APack cp mx pd false dr p) (CList (map (packed_batch cp pd) bs))
| sem_trunc cp mx pd dr p ts bs : sem p (CList (map DTensor ts)) -> trunc_spec cp mx dr ts bs ->
    sem (APack cp mx pd true dr p) (CList (map (packed_batch cp pd) bs))
| sem_yield F p l rs : sem p (CList l) -> Forall2 (fun d r => sem (F d) (CList r)) l rs -> sem (AYield F p) (CList (concat rs))
| sem_pipe w p c : sem p c -> sem (APipe w p) c
| sem_concat ps ls : Forall2 (fun p l => sem p (CList l)) ps ls -> sem (AConcat ps) (CList (concat ls))
| sem_zip nm sh fl ps cs out : Forall2 sem ps cs ->
    (exists l, In (CList l) cs /\ length l = length out) ->
    (forall l, In (CList l) cs -> length out <= length l) ->
    (forall i d, nth_error out i = Some d -> zip_value nm fl (items cs i) d) ->
    sem (AZip nm sh fl ps) (CList out)
| sem_rr st ar ps cs : Forall2 sem ps cs ->
    sem (ARR st ar ps) (CList (flat_map (round_elems ar (map supply_of cs)) (seq 0 (rounds st (map supply_of cs)))))
| sem_sample ws sd ps ls draw out : Forall2 (fun p l => sem p (CList l)) ps ls ->
    (forall k, 0 <= draw k < 1)%Q -> sampled draw ws 0 ls out ->
    sem (ASample ws sd false ps) (CList out).

(** The consecutive pieces of [n] elements; a short last piece is kept unless [drop]. The first argument bounds their number. *)
Fixpoint chunks (fuel n : nat) (drop : bool) (l : list data) : list (list data) :=
  match fuel, l with
  | O, _ | _, [] => []
  | S k, _ => if drop && (length l <? n) then [] else firstn n l :: chunks k n drop (skipn n l)
  end.

(** The list functions of the operators that read one pipeline after the other and make no choices. *)
Fixpoint list_value (a : ast) : list data :=
  match a with
  | AList l => l
  | AMap f _ p => mapped f (list_value p)
  | AFilter f p => passing f (list_value p)
  | ASkip k p => skipn k (list_value p)
  | ATake k p => firstn k (list_value p)
  | AShard i n u p => shard_spec i n u (list_value p)
  | ABucket n dr p => map DList (chunks (length (list_value p)) n dr (list_value p))
  | ARepeat (Some k) _ p => concat (repeat (list_value p) k)
  | AYield F p => flat_map (fun d => list_value (F d)) (list_value p)
  | APipe _ p => list_value p
  | AConcat ps => concat (map list_value ps)
  | _ => []
  end.

(** Every expression of the list has the property. *)
Definition all_of (P : ast -> Prop) : list ast -> Prop :=
  fix all (ps : list ast) : Prop := match ps with [] => True | p :: r => P p /\ all r end.

(** The expressions built from these operators. *)
Fixpoint plain (a : ast) : Prop :=
  match a with
  | AList _ => True
  | AMap _ _ p | AFilter _ p | ASkip _ p | ATake _ p | AShard _ _ _ p | APipe _ p => plain p
  | ABucket n _ p => 0 < n /\ plain p
  | ARepeat (Some _) _ p => plain p
  | AYield F p => (forall d, plain (F d)) /\ plain p
  | AConcat ps => all_of plain ps
  | _ => False
  end.

(** ** Saving and restoring

    Which pipelines can be saved and restored at any point. [clean]: no call of [next] fails recoverably, so that no example
    is ever skipped over. [repeat] is excluded, and so are [sample] without repeats and [pack] or [bucket] inside a pipeline that
    swallows errors; the refuted statements in [DP_Props] show why. *)
Definition fres_ok {A} (clean : bool) (r : fres A) : Prop := match r with FThrow Recoverable => clean = false | _ => True end.

Definition seed_ok (seed : Z) : Prop := (0 <= seed < 2 ^ 63)%Z.

Fixpoint resumes (clean : bool) (a : ast) : Prop :=
  match a with
  | AList _ | ACount _ _ _ | AConst _ _ => True
  | AMap f _ p => (forall d, fres_ok clean (f d)) /\ resumes clean p
  | AFilter f p => (forall d, fres_ok clean (f d)) /\ resumes clean p
  | ASkip _ p | ATake _ p | AShard _ _ _ p | ABucket _ _ p => resumes clean p
  | ARepeat _ _ _ => False
  | AShuffle _ _ sd p => seed_ok sd /\ resumes clean p
  | ABbl sz ln mn sb sa _ p =>
      (forall d, match ln d with
                 | FVal l => (l < mn -> sb = false -> clean = false) /\ (max_len sz < l -> sa = false -> clean = false)
                 | FNone => False
                 | FThrow Recoverable => clean = false
                 | FThrow Fatal => True
                 end) /\ resumes clean p
  | ADyn _ c _ _ _ p => (forall d, match c d with FNone | FThrow Recoverable => False | _ => True end) /\ resumes true p
  | APack _ _ _ _ _ p => clean = false /\ resumes clean p
  | AYield F p => (forall d, fin (F d) = Finite /\ resumes clean (F d)) /\ resumes clean p
  | APipe w p => (clean = true \/ w = 0) /\ resumes clean p
  | AConcat ps => all_of (resumes clean) ps
  | AZip _ _ fl ps => (clean = true -> fl = false) /\ all_of (resumes clean) ps
  | ARR _ _ ps => all_of (resumes clean) ps
  | ASample ws sd ar ps =>
      ar = true /\ Forall (fun w => 0 < w)%Q ws /\ length ws = length ps /\ seed_ok sd /\ all_of (resumes clean) ps
  end.

(** No random choice: a reset without [reset_rng] starts over as well. *)
Fixpoint rngfree (a : ast) : Prop :=
  match a with
  | AList _ | ACount _ _ _ | AConst _ _ => True
  | AMap _ _ p | AFilter _ p | ASkip _ p | ATake _ p | AShard _ _ _ p | ABucket _ _ p | ARepeat _ _ p
  | ABbl _ _ _ _ _ _ p | ADyn _ _ _ _ _ p | APack _ _ _ _ _ p | APipe _ p | AYield _ p => rngfree p
  | AShuffle _ _ _ _ => False
  | AConcat ps | AZip _ _ _ ps | ARR _ _ ps => all_of rngfree ps
  | ASample _ _ _ _ => False
  end.

(** A saved position can be loaded into a pipeline that has been used already. ([pack] keeps the leftover of a
    sequence.) *)
Fixpoint reloads (a : ast) : Prop :=
  match a with
  | AList _ | ACount _ _ _ | AConst _ _ => True
  | AMap _ _ p | AFilter _ p | ASkip _ p | ATake _ p | AShard _ _ _ p | ABucket _ _ p | ARepeat _ _ p
  | AShuffle _ _ _ p | ABbl _ _ _ _ _ _ p | ADyn _ _ _ _ _ p | APipe _ p | AYield _ p => reloads p
  | APack _ _ _ _ _ _ => False
  | AConcat ps | AZip _ _ _ ps | ARR _ _ ps | ASample _ _ _ ps => all_of reloads ps
  end.

(** ** Well-formed expressions

    The parameters are accepted by the builders and the user's functions succeed on the elements they are applied to. *)
Definition holds_list (p : ast) (P : list data -> Prop) : Prop := forall c, sem p c -> exists l, c = CList l /\ P l.

Fixpoint wf (a : ast) : Prop :=
  match a with
  | AList _ | ACount _ _ _ | AConst _ _ => True
  | AMap f _ p => wf p /\ holds_list p (fun l => forall d e, In d l -> f d <> FThrow e)
  | AFilter f p => wf p /\ holds_list p (fun l => forall d, In d l -> exists b, f d = FVal b)
  | ASkip _ p => wf p /\ holds_list p (fun _ => True)
  | ATake _ p => wf p
  | AShard i n _ p => wf p /\ i < n /\ holds_list p (fun _ => True)
  | ABucket n _ p => wf p /\ 0 < n /\ holds_list p (fun _ => True)
  | ARepeat num g p =>
      wf p /\ num <> None /\ (exists clean, resumes clean p) /\ (g = true \/ rngfree p) /\ holds_list p (fun _ => True)
  | AShuffle _ _ _ p => wf p /\ holds_list p (fun _ => True)
  | ABbl sz ln mn sb sa _ p =>
      wf p /\ sz <> [] /\
      (forall i j x y, i < j -> nth_error sz i = Some x -> nth_error sz j = Some y -> snd x <= snd y) /\
      holds_list p (fun l => forall d, In d l -> exists n, ln d = FVal n /\ (n < mn -> sb = true) /\
        (class_of sz n >= length sz -> sa = true))
  | ADyn th c _ mx _ p =>
      wf p /\ (0 < th)%Q /\ (forall k, mx = Some k -> 0 < k) /\
      holds_list p (fun l => forall d, In d l -> exists q, c d = FVal q)
  | APack cp mx _ tr _ p =>
      wf p /\ holds_list p (fun l => exists ts, l = map DTensor ts /\
        if tr then 2 <= cp /\ 1 <= mx /\ forall t, In t ts -> 0 < length t
        else forall t, In t ts -> 0 < length t <= Nat.min cp mx)
  | AYield F p => wf p /\ (forall d, fin (F d) = Finite /\ wf (F d) /\ holds_list (F d) (fun _ => True)) /\
      holds_list p (fun _ => True)
  | APipe _ p => wf p
  | AConcat ps => all_of wf ps /\ forall p, In p ps -> holds_list p (fun _ => True)
  | AZip nm sh fl ps =>
      all_of wf ps /\ zip_fin (map fin ps) <> None /\
      (forall p l, In p ps -> sem p (CList l) -> fin p <> PseudoInfinite) /\
      forall cs, Forall2 sem ps cs -> exists out,
        (exists l, In (CList l) cs /\ length l = length out) /\
        (forall l, In (CList l) cs -> length out <= length l /\ (sh = false -> length l = length out)) /\
        (forall i d, nth_error out i = Some d -> zip_value nm fl (items cs i) d)
  | ARR st ar ps =>
      all_of wf ps /\ ps <> [] /\
      (forall p l, In p ps -> sem p (CList l) -> fin p <> PseudoInfinite /\
         (ar = true -> rngfree p /\ exists clean, resumes clean p)) /\
      forall cs, Forall2 sem ps cs ->
        forall r, r < rounds st (map supply_of cs) -> last (map (fun c => turn ar c r) (map supply_of cs)) None <> None
  | ASample ws _ ar ps =>
      all_of wf ps /\ ar = false /\ ps <> [] /\ Forall (fun w => 0 < w)%Q ws /\ length ws = length ps /\
      (forall p, In p ps -> fin p <> PseudoInfinite) /\
      (forall p, In p ps -> holds_list p (fun _ => True)) /\
      forall cs, Forall2 sem ps cs -> exists l, In (CList l) cs /\ l <> []
  end.

(** ** The children of zip, round_robin and sample *)
Definition child_ok (rnd : Z -> nat -> Z) (p : ast) (c : content) : Prop :=
  produces_content rnd p c /\
  match c with CList _ => fin p <> PseudoInfinite | CStream _ => fin p = PseudoInfinite end.

(** With repeats, a child yields one list after the other, one for every reset ([Epochs]); either all of them are empty or
    none. Count and constant pipelines are endless. *)
Definition supplier_ok (rnd : Z -> nat -> Z) (repeats : bool) (p : ast) (c : supply) : Prop :=
  match c with
  | Epochs ep => fin p <> PseudoInfinite /\
      if repeats then epochs (denote rnd p) (init (denote rnd p)) ep /\ ((forall k, ep k <> []) \/ (forall k, ep k = []))
      else produces rnd p (ep 0)
  | Endless f => fin p = PseudoInfinite /\ flows rnd p f
  end.
