(** The theorems about data pipelines. Each is stated with the vocabulary of [DP_Spec] and [DP_Ast] only and closed by a lemma
    proved elsewhere; [Print Assumptions] shows what it rests on. The examples show that the hypotheses can be met; the theorems
    whose names end in [_refuted] exhibit executions on which a property that a user would expect does not hold. *)

From Coq Require Import QArith Lia Permutation.
From Verif Require Import DP_Base DP_Spec DP_Sources_Model DP_Bucketing_Model DP_Multi_Model DP_Corollaries DP_NonStrict_Proofs DP_Ast DP_Ast_Proofs DP_Props_Lemmas.

(** Example data. *)
Definition ints (l : list Z) : ast := AList (map DInt l).
Definition vals (l : list Z) : list out := map (fun z => Val (DInt z)) l.
Definition rnd0 : Z -> nat -> Z := fun seed k => (seed + Z.of_nat k * 7919)%Z.
Definition double (d : data) : fres data := match d with DInt z => FVal (DInt (2 * z)) | _ => FThrow Fatal end.
Definition is_even (d : data) : fres bool := match d with DInt z => FVal (Z.even z) | _ => FThrow Fatal end.
(** A function that fails recoverably on one element. *)
Definition fails_on (bad : Z) (d : data) : fres data :=
  match d with DInt z => if (z =? bad)%Z then FThrow Recoverable else FVal (DInt (100 * z)) | _ => FVal d end.
Definition mul_len (d : data) : fres nat := match d with DInt z => FVal (Z.to_nat z) | _ => FVal 0 end.
Definition int_cost (d : data) : fres Q := match d with DInt z => FVal (inject_Z z) | _ => FVal 0%Q end.

(** * C01: list semantics of whole pipelines *)
Theorem C01_pipeline_contents : forall rnd maxw a, wf a -> exists c, sem a c /\
  match c with
  | CList l => holds (pl rnd maxw a) (fresh rnd a) l
  | CStream f => streams (pl rnd maxw a) (fresh rnd a) f
  end.
Proof. exact C01_pipeline_contents_lemma. Qed.
Print Assumptions C01_pipeline_contents.

(** For the sequential operators the content is the value of the corresponding list function. *)
Theorem C01_sequential : forall rnd maxw a, plain a -> wf a -> holds (pl rnd maxw a) (fresh rnd a) (list_value a).
Proof. exact C01_sequential_lemma. Qed.
Print Assumptions C01_sequential.

Definition ex_plain : ast :=
  ABucket 2 false (AConcat [APipe 0 (AMap double 4 (ASkip 1 (ints [1; 2; 3]%Z)));
                            APipe 0 (ATake 2 (AFilter is_even (ints [5; 6; 7; 8; 10]%Z)))]).

Example C01_example : plain ex_plain /\ wf ex_plain /\
  list_value ex_plain = [DList [DInt 4; DInt 6]; DList [DInt 6; DInt 8]].
Proof.
  split; [simpl; lia|]. split; [|vm_compute; reflexivity].
  assert (HH : forall p (P : list data -> Prop), plain p -> P (list_value p) -> holds_list p P).
  { intros p P H1 H2 c H3. exists (list_value p). split; [apply plain_sem; assumption|assumption]. }
  simpl. repeat split; try lia; try (apply HH; simpl; auto; fail).
  - apply HH; simpl; auto. intros d e [<-|[<-|[]]]; discriminate.
  - apply HH; simpl; auto. intros d H. repeat destruct H as [<-|H]; try (eexists; reflexivity). destruct H.
  - intros p [<-|[<-|[]]]; apply HH; simpl; auto.
Qed.

(** * C02: shards partition the data *)
Theorem C02_shards : forall rnd p n L, produces rnd p L -> 0 < n -> exists S T : nat -> list data,
  (forall i, i < n -> produces rnd (AShard i n true p) (S i) /\ produces rnd (AShard i n false p) (T i)) /\
  Permutation (flat_map S (seq 0 n)) L /\
  (forall i k, i < n -> nth_error (S i) k = nth_error L (i + k * n)) /\
  Permutation (flat_map T (seq 0 n)) (firstn (n * (length L / n)) L) /\
  (forall i, i < n -> length (T i) = length L / n).
Proof. exact C02_lemma. Qed.
Print Assumptions C02_shards.

(** Every list is the content of a pipeline, so the hypothesis of this and of the following theorems can be met. *)
Example produces_ints : forall rnd l, produces rnd (ints l) (map DInt l).
Proof. intros rnd l. apply list_produces. Qed.

(** * C03: bucket *)
Theorem C03_bucket : forall rnd p n L, produces rnd p L -> 0 < n ->
  (exists bs, produces rnd (ABucket n false p) (map DList bs) /\ concat bs = L /\
     forall hd b tl, bs = hd ++ b :: tl -> 1 <= length b <= n /\ (tl <> [] -> length b = n)) /\
  (exists bs tail, produces rnd (ABucket n true p) (map DList bs) /\ L = concat bs ++ tail /\ length tail < n /\
     forall b, In b bs -> length b = n).
Proof. exact C03_lemma. Qed.
Print Assumptions C03_bucket.

(** * C04: bucket_by_length *)
Theorem C04_bucket_by_length : forall rnd p sizes len min_len skip_below skip_above drop L, produces rnd p L ->
  sizes <> [] ->
  (forall i j a b, i < j -> nth_error sizes i = Some a -> nth_error sizes j = Some b -> snd a <= snd b) ->
  (forall d, In d L -> exists n, len d = FVal n /\ (n < min_len -> skip_below = true) /\
      (class_of sizes n >= length sizes -> skip_above = true)) ->
  exists bs, bbl_spec sizes (value 0 len) min_len drop L bs /\
    produces rnd (ABbl sizes len min_len skip_below skip_above drop p) (map DList bs).
Proof. exact C04_lemma. Qed.
Print Assumptions C04_bucket_by_length.

Example C04_example : let sizes := [(3, 2); (1, 5)] in
  (forall i j a b, i < j -> nth_error sizes i = Some a -> nth_error sizes j = Some b -> snd a <= snd b) /\
  (forall d, In d (map DInt [1; 4; 9; 2; 2; 1]%Z) -> exists n, mul_len d = FVal n /\ (n < 1 -> false = true) /\
      (class_of sizes n >= length sizes -> true = true)) /\
  option_map fst (run (pl rnd0 0 (ABbl sizes mul_len 1 false true false (ints [1; 4; 9; 2; 2; 1]%Z))) 50 4 (fresh rnd0 _)) =
  Some [Val (DList [DInt 4]); Val (DList [DInt 1; DInt 2; DInt 2]); Val (DList [DInt 1]); Eod].
Proof.
  split; [|split].
  - intros i j a b H Ha Hb. destruct i as [|[|[|i]]]; destruct j as [|[|[|j]]]; simpl in *; try lia; try discriminate.
    inversion Ha; inversion Hb; subst; simpl; lia.
  - intros d H. repeat destruct H as [<-|H]; try (eexists; split; [reflexivity|split; [intros; vm_compute in *; lia|auto]]). destruct H.
  - vm_compute. reflexivity.
Qed.

(** * C05: dynamic_bucket *)
Theorem C05_dynamic_bucket : forall rnd p threshold cost minn maxn drop L, produces rnd p L ->
  (0 < threshold)%Q -> (forall k, maxn = Some k -> 0 < k) ->
  (forall d, In d L -> exists q, cost d = FVal q) ->
  exists bs tail, produces rnd (ADyn threshold cost minn maxn drop p) (map DList bs) /\
    dyn_groups threshold (value 0%Q cost) minn maxn drop L bs /\
    L = concat bs ++ tail /\
    (tail <> [] -> drop = true /\ forall q r, tail = q ++ r -> ~ complete threshold (value 0%Q cost) minn maxn q) /\
    (forall k b, maxn = Some k -> In b bs -> length b <= k).
Proof. exact C05_lemma. Qed.
Print Assumptions C05_dynamic_bucket.

Example C05_example : (forall d, In d (map DInt [2; 3; 9; 1; 1; 1]%Z) -> exists q, int_cost d = FVal q) /\
  option_map fst (run (pl rnd0 0 (ADyn 5%Q int_cost (Some 2) (Some 3) false (ints [2; 3; 9; 1; 1; 1; 1]%Z))) 50 4 (fresh rnd0 _)) =
  Some [Val (DList [DInt 2; DInt 3]); Val (DList [DInt 9; DInt 1]); Val (DList [DInt 1; DInt 1; DInt 1]); Eod].
Proof. split; [intros d H; repeat destruct H as [<-|H]; try (eexists; reflexivity); destruct H|vm_compute; reflexivity]. Qed.

(** * C06: pack *)
Theorem C06_pack : forall rnd p capacity max_seq_len pad drop ts, produces rnd p (map DTensor ts) ->
  ((forall t, In t ts -> 0 < length t <= Nat.min capacity max_seq_len) ->
   exists bs, pack_spec capacity ts bs /\ concat bs = ts /\
     produces rnd (APack capacity max_seq_len pad false drop p) (map (packed_batch capacity pad) bs)) /\
  (2 <= capacity -> 1 <= max_seq_len -> (forall t, In t ts -> 0 < length t) ->
   exists bs, trunc_spec capacity max_seq_len drop ts bs /\
     produces rnd (APack capacity max_seq_len pad true drop p) (map (packed_batch capacity pad) bs)).
Proof. exact C06_lemma. Qed.
Print Assumptions C06_pack.

Example C06_example : produces rnd0 (AList (map DTensor [[1; 2]; [3; 4; 5; 6; 7]; [8]]%Z)) (map DTensor [[1; 2]; [3; 4; 5; 6; 7]; [8]]%Z) /\
  option_map fst (run (pl rnd0 0 (APack 4 4 0 true false (AList (map DTensor [[1; 2]; [3; 4; 5; 6; 7]; [8]]%Z)))) 50 4 (fresh rnd0 _)) =
  Some [Val (packed_batch 4 0 [[1; 2]; [3; 4]]%Z); Val (packed_batch 4 0 [[4; 5; 6; 7]]%Z); Val (packed_batch 4 0 [[8]]%Z); Eod].
Proof. split; [apply list_produces|vm_compute; reflexivity]. Qed.

(** * C07: shuffle *)
Theorem C07_shuffle : forall rnd p moved window seed L, produces rnd p L -> exists out,
  produces rnd (AShuffle moved window seed p) out /\
  Permutation out L /\
  (window = 1 -> out = L) /\
  (1 <= window -> forall t, 1 <= t -> exists rem, Permutation (firstn (window + t - 1) L) (firstn t out ++ rem)).
Proof. exact C07_lemma. Qed.
Print Assumptions C07_shuffle.

Example C07_example :
  option_map fst (run (pl rnd0 0 (AShuffle (fun _ => DStr "") 3 1 (ints [1; 2; 3; 4; 5]%Z))) 50 6 (fresh rnd0 _)) =
  Some (vals [3; 1; 2; 4; 5]%Z ++ [Eod]).
Proof. vm_compute. reflexivity. Qed.

(** When an upstream operator fails recoverably and the error is swallowed, one more example is lost and a value that has been
    moved from is yielded instead (data/shuffle_data_source.cc:60-91). *)
Theorem C07_swallowed_error_refuted : exists rnd moved,
  let p := AMap (fails_on 3) 1 (ints [1; 2; 3; 4; 5; 6]%Z) in
  (exists s, yields (pl rnd 3 p) (fresh rnd p) (vals [100; 200; 400; 500; 600]%Z ++ [Eod]) s) /\
  exists os s, yields (pl rnd 3 (AShuffle moved 2 0 p)) (fresh rnd _) (map Val os ++ [Eod]) s /\
    ~ In (DInt 200) os /\ In (moved (DInt 200)) os.
Proof.
  exists rnd0, (fun _ => DStr "moved-from"). split.
  - apply (run_ok _ 50 6). vm_compute. reflexivity.
  - exists [DStr "moved-from"; DInt 100; DInt 500; DInt 400; DInt 600].
    destruct (run_ok (pl rnd0 3 (AShuffle (fun _ => DStr "moved-from") 2 0 (AMap (fails_on 3) 1 (ints [1; 2; 3; 4; 5; 6]%Z)))) 50 6
      (fresh rnd0 _) (map Val [DStr "moved-from"; DInt 100; DInt 500; DInt 400; DInt 600] ++ [Eod])) as (s & Hs); [vm_compute; reflexivity|].
    exists s. split; [exact Hs|]. split; [|left; reflexivity]. intros H. repeat destruct H as [H|H]; try discriminate. destruct H.
Qed.
Print Assumptions C07_swallowed_error_refuted.

(** * C08: zip *)
Theorem C08_zip : forall rnd names shortest flatten ps cs out, Forall2 (child_ok rnd) ps cs ->
  (exists l, In (CList l) cs /\ length l = length out) ->
  (forall l, In (CList l) cs -> length out <= length l) ->
  (forall i d, nth_error out i = Some d -> zip_value names flatten (items cs i) d) ->
  (shortest = true \/ (forall l, In (CList l) cs -> length l = length out) -> produces rnd (AZip names shortest flatten ps) out) /\
  (shortest = false -> (exists l, In (CList l) cs /\ length out < length l) ->
    exists s', yields (denote rnd (AZip names shortest flatten ps)) (init (denote rnd (AZip names shortest flatten ps)))
      (map Val out ++ [Err Fatal]) s').
Proof. exact C08_lemma. Qed.
Print Assumptions C08_zip.

Example C08_example : Forall2 (child_ok rnd0) [ints [1; 2]%Z; ints [3; 4; 5]%Z; ACount 7 1 None]
    [CList (map DInt [1; 2]%Z); CList (map DInt [3; 4; 5]%Z); CStream (fun i => DInt (7 + Z.of_nat i * 1))] /\
  option_map fst (run (pl rnd0 0 (AZip ["a"; "b"; "c"]%string true false [ints [1; 2]%Z; ints [3; 4; 5]%Z; ACount 7 1 None])) 50 3 (fresh rnd0 _)) =
  Some [Val (DDict [("a", DInt 1); ("b", DInt 3); ("c", DInt 7)]%string);
        Val (DDict [("a", DInt 2); ("b", DInt 4); ("c", DInt 8)]%string); Eod].
Proof.
  split; [|vm_compute; reflexivity].
  constructor; [split; [apply list_produces|discriminate]|]. constructor; [split; [apply list_produces|discriminate]|].
  constructor; [|constructor]. split; [|reflexivity]. apply (count_flows rnd0 7 1 None).
Qed.

(** The zip of finite pipelines claims to be infinite, so that [yield_from] rejects it although all its data is finite
    (data/zip_data_source.cc:20-55). *)
Theorem C08_finitude_refuted : exists rnd,
  produces rnd (AZip [] false false [ints [1]%Z; ints [2]%Z]) [DList [DInt 1; DInt 2]] /\
  exists s, yields (pl rnd 0 (AYield (fun _ => AZip [] false false [ints [1]%Z; ints [2]%Z]) (ints [1]%Z))) (fresh rnd _)
    [Err Recoverable] s.
Proof.
  exists rnd0. split.
  - destruct (C08_zip rnd0 [] false false [ints [1]%Z; ints [2]%Z] [CList [DInt 1]; CList [DInt 2]] [DList [DInt 1; DInt 2]]) as [H _].
    + repeat constructor; try apply list_produces; discriminate.
    + exists [DInt 1]. simpl. auto.
    + intros l [E|[E|[]]]; inversion E; simpl; lia.
    + intros [|[|i]] d E; inversion E. apply zip_as_list.
    + apply H. right. intros l [E|[E|[]]]; inversion E; reflexivity.
  - apply (run_ok _ 50 1). vm_compute. reflexivity.
Qed.
Print Assumptions C08_finitude_refuted.

(** * C09: round_robin *)
Theorem C09_round_robin : forall rnd stop repeats ps cs, ps <> [] -> Forall2 (supplier_ok rnd repeats) ps cs ->
  (forall r, r < rounds stop cs -> last (map (fun c => turn repeats c r) cs) None <> None) ->
  produces rnd (ARR stop repeats ps) (flat_map (round_elems repeats cs) (seq 0 (rounds stop cs))).
Proof. exact C09_lemma. Qed.
Print Assumptions C09_round_robin.

Theorem C09_constant_supplier : forall rnd p l clean, produces rnd p l -> resumes clean p -> rngfree p -> fin p <> PseudoInfinite ->
  supplier_ok rnd true p (Epochs (fun _ => l)).
Proof. exact constant_supplier. Qed.
Print Assumptions C09_constant_supplier.

Example C09_example : let cs := [Epochs (fun _ => map DInt [1; 2; 3]%Z); Epochs (fun _ => map DInt [10; 20]%Z)] in
  Forall2 (supplier_ok rnd0 true) [ints [1; 2; 3]%Z; ints [10; 20]%Z] cs /\
  (forall r, r < rounds false cs -> last (map (fun c => turn true c r) cs) None <> None) /\
  flat_map (round_elems true cs) (seq 0 (rounds false cs)) = map DInt [1; 10; 2; 20; 3; 10]%Z.
Proof.
  split; [|split].
  - assert (H : forall l, supplier_ok rnd0 true (ints l) (Epochs (fun _ => map DInt l))).
    { intros l. apply (constant_supplier rnd0 _ _ true); [apply list_produces|exact Logic.I|exact Logic.I|discriminate]. }
    constructor; [apply H|]. constructor; [apply H|constructor].
  - intros r Hr. vm_compute in Hr. do 3 (destruct r as [|r]; [vm_compute; discriminate|]). lia.
  - vm_compute. reflexivity.
Qed.

(** An empty last pipeline, or one that is exhausted before the others when repeats are not allowed, makes round_robin report
    the end of data while examples are left (data/round_robin_data_source.cc:24-86). *)
Theorem C09_last_pipeline_refuted : exists rnd,
  (exists s, yields (pl rnd 0 (ARR false true [ints [1; 2]%Z; ints []])) (fresh rnd _) [Val (DInt 1); Eod] s) /\
  (exists s, yields (pl rnd 0 (ARR false false [ints [1; 2; 3]%Z; ints [10]%Z])) (fresh rnd _)
     (vals [1; 10; 2]%Z ++ [Eod]) s).
Proof. exists rnd0. split; [apply (run_ok _ 50 2)|apply (run_ok _ 50 4)]; vm_compute; reflexivity. Qed.
Print Assumptions C09_last_pipeline_refuted.

(** With stop_at_shortest, a count or constant pipeline ends the round robin after its first round. *)
Theorem C09_stop_at_shortest_refuted : exists rnd,
  exists s, yields (pl rnd 0 (ARR true true [ints [1; 2; 3]%Z; ACount 0 1 None])) (fresh rnd _) (vals [1; 0]%Z ++ [Eod]) s.
Proof. exists rnd0. apply (run_ok _ 50 3); vm_compute; reflexivity. Qed.
Print Assumptions C09_stop_at_shortest_refuted.

(** * C10: sample *)
Theorem C10_sample_once : forall rnd ws seed ps ls, ps <> [] -> length ws = length ps -> Forall (fun w => 0 < w)%Q ws ->
  Forall2 (fun p l => produces rnd p l /\ fin p <> PseudoInfinite) ps ls -> (exists l, In l ls /\ l <> []) ->
  exists draw out, produces rnd (ASample ws seed false ps) out /\ (forall k, 0 <= draw k < 1)%Q /\
    sampled draw ws 0 ls out /\ interleaving ls out.
Proof. exact C10_once_lemma. Qed.
Print Assumptions C10_sample_once.

Theorem C10_sample_repeats : forall rnd ws seed ps cs, ps <> [] -> length ws = length ps -> Forall (fun w => 0 < w)%Q ws ->
  Forall2 (supplier_ok rnd true) ps cs -> (forall ep k, In (Epochs ep) cs -> ep k <> []) ->
  exists (draw : nat -> Q) (picks : nat -> nat),
    (forall t, 0 <= draw t < 1)%Q /\
    (forall t, picked ws (repeat true (length ps)) (draw t) (picks t)) /\
    forall T, (forall t, t < T -> ~ sampling_over cs picks t) ->
      exists out, length out = T /\
        (forall t, t < T -> exists c, nth_error cs (picks t) = Some c /\ nth_error out t = turn true c (times picks t (picks t))) /\
        (exists s', yields (denote rnd (ASample ws seed true ps)) (init (denote rnd (ASample ws seed true ps))) (map Val out) s') /\
        (sampling_over cs picks T -> produces rnd (ASample ws seed true ps) out /\
           forall i ep d, nth_error cs i = Some (Epochs ep) -> In d (ep 0) -> In d out).
Proof. exact C10_repeat_lemma. Qed.
Print Assumptions C10_sample_repeats.

Definition rnd1 : Z -> nat -> Z := fun _ k => nth (k mod 3) [0; 16000000; 1000000]%Z 0%Z.

Example C10_example :
  Forall2 (fun p l => produces rnd1 p l /\ fin p <> PseudoInfinite) [ints [1; 2; 3]%Z; ints [10; 20]%Z] [map DInt [1; 2; 3]%Z; map DInt [10; 20]%Z] /\
  option_map fst (run (pl rnd1 0 (ASample [1; 1]%Q 0 false [ints [1; 2; 3]%Z; ints [10; 20]%Z])) 50 6 (fresh rnd1 _)) =
    Some (vals [1; 10; 2; 3; 20]%Z ++ [Eod]) /\
  option_map fst (run (pl rnd1 0 (ASample [1; 1]%Q 0 true [ints [1; 2; 3]%Z; ints [10; 20]%Z])) 50 6 (fresh rnd1 _)) =
    Some (vals [1; 10; 2; 3; 20]%Z ++ [Eod]).
Proof. split; [|split; vm_compute; reflexivity]. repeat constructor; try apply list_produces; discriminate. Qed.

(** Without repeats, sampling from empty pipelines only does not report the end of data: the pipeline that is asked for the next
    example does not exist (data/sample_data_source.cc:68-133; undefined behaviour in C++). *)
Theorem C10_all_empty_refuted : exists rnd,
  exists s, yields (pl rnd 0 (ASample [1; 1]%Q 0 false [ints []; ints []])) (fresh rnd _) [Err Fatal] s.
Proof. exists rnd0. apply (run_ok _ 50 1); vm_compute; reflexivity. Qed.
Print Assumptions C10_all_empty_refuted.

(** * C11: saving and restoring *)
Theorem C11_resume_fresh : forall rnd clean a maxw x, resumes clean a -> clean = true \/ maxw = 0 ->
  lives rnd maxw a x -> p_broken x = false ->
  exists t x1, state_dict (denote rnd a) true x = Some t /\ load_state_dict (denote rnd a) (fresh rnd a) t = Some x1 /\
    same_behaviour (pl rnd maxw a) x x1.
Proof. exact pl_resume. Qed.
Print Assumptions C11_resume_fresh.

Theorem C11_resume_used : forall rnd clean a maxw x x0, resumes clean a -> reloads a -> clean = true \/ maxw = 0 ->
  lives rnd maxw a x -> p_broken x = false -> lives rnd maxw a x0 -> p_broken x0 = false ->
  p_inited x = true \/ p_inited x0 = false \/ rngfree a ->
  exists t x1, state_dict (denote rnd a) true x = Some t /\ load_state_dict (denote rnd a) x0 t = Some x1 /\
    same_behaviour (pl rnd maxw a) x x1.
Proof. exact pl_resume_used. Qed.
Print Assumptions C11_resume_used.

Definition ex_resume : ast :=
  ABucket 2 false (AShuffle (fun d => d) 3 5 (ARR false true
    [APipe 0 (AFilter (fun d => match is_even d with FVal b => FVal b | _ => FVal false end) (ints [1; 2; 3; 4]%Z));
     APipe 0 (ATake 7 (ACount 0 3 None)); APipe 0 (AYield (fun d => AList [d; d]) (ints [5; 6]%Z))])).

Example C11_example : resumes true ex_resume /\ reloads ex_resume /\
  exists x, lives rnd0 0 ex_resume x /\ p_broken x = false /\ p_inited x = true /\
    option_map fst (run (pl rnd0 0 ex_resume) 100 1 x) = Some [Val (DList [DInt 5; DInt 4])].
Proof.
  split; [|split].
  - simpl. unfold seed_ok, fres_ok. repeat split; auto; try lia. intros d. unfold is_even. destruct d; exact Logic.I.
  - simpl. auto.
  - assert (HC : match run (pl rnd0 0 ex_resume) 100 2 (fresh rnd0 ex_resume) with
                 | Some (_, x) => p_broken x = false /\ p_inited x = true /\
                     option_map fst (run (pl rnd0 0 ex_resume) 100 1 x) = Some [Val (DList [DInt 5; DInt 4])]
                 | None => False
                 end) by (vm_compute; auto).
    destruct (run (pl rnd0 0 ex_resume) 100 2 (fresh rnd0 ex_resume)) as [[os x]|] eqn:E; [|destruct HC].
    exists x. split; [eapply run_lives; exact E|exact HC].
Qed.

(** The pipeline [a] after the outcomes [os] continues with [os1]; when its state is loaded into the pipeline after the outcomes
    [os0] (none: a fresh one), that one continues with [os2]. *)
Definition resumed (rnd : Z -> nat -> Z) (maxw : nat) (a : ast) (os os0 os1 os2 : list out) : Prop :=
  exists x x0 t x1, yields (pl rnd maxw a) (fresh rnd a) os x /\ yields (pl rnd maxw a) (fresh rnd a) os0 x0 /\
    state_dict (denote rnd a) true x = Some t /\ load_state_dict (denote rnd a) x0 t = Some x1 /\
    (exists s, yields (pl rnd maxw a) x os1 s) /\ (exists s, yields (pl rnd maxw a) x1 os2 s).

(** The state saved after the outcomes [os] is rejected by a fresh pipeline. *)
Definition rejected (rnd : Z -> nat -> Z) (maxw : nat) (a : ast) (os : list out) : Prop :=
  exists x t, yields (pl rnd maxw a) (fresh rnd a) os x /\ state_dict (denote rnd a) true x = Some t /\
    load_state_dict (denote rnd a) (fresh rnd a) t = None.

(** Saved with [strict=False], a shuffled pipeline continues after the examples its buffer held: whatever state the position
    is loaded into, nothing is returned twice and at most [window] examples are skipped. *)
Theorem C11_nonstrict_shuffle : forall rnd moved window seed L os x x0, (0 <= seed < 2 ^ 63)%Z ->
  let sh := src_shuffle rnd moved window seed (src_list L) in
  yields sh (init sh) (map Val os) x ->
  exists t x1, record_pos sh false x = Some t /\ reload_pos sh false x0 t = Some (x1, []) /\
    exists lost os2, holds sh x1 os2 /\ Permutation (os ++ lost ++ os2) L /\ (window <> 0 -> length lost <= window).
Proof. intros rnd moved window seed L os x x0 Hs sh. exact (nonstrict_shuffle_lemma rnd moved window seed L Hs os x x0). Qed.
Print Assumptions C11_nonstrict_shuffle.

Example C11_nonstrict_example : exists x,
  yields (src_shuffle rnd0 (fun d => d) 2 1 (src_list (map DInt [1; 2; 3; 4; 5]%Z))) (init _) (map Val (map DInt [1; 2]%Z)) x.
Proof. apply (run_ok _ 50 2). vm_compute. reflexivity. Qed.

(** [repeat] does not save that the epoch had data: saved after the last example of an epoch and loaded into a new pipeline, it
    stops (data/repeat_data_source.cc:19-76). *)
Theorem C11_repeat_refuted : exists rnd,
  resumed rnd 0 (ARepeat (Some 2) true (ints [1; 2]%Z)) (vals [1; 2]%Z) [] [Val (DInt 1)] [Eod].
Proof. exists rnd0. apply save_load_differ with (k := 1). vm_compute. auto. Qed.
Print Assumptions C11_repeat_refuted.

(** A seed of 2^63 or more is saved as a negative number, which is then rejected (data/shuffle_data_source.cc:119-178,
    data/tape-inl.h:46-47, utils/cast.h:44-60). *)
Theorem C11_large_seed_refuted : exists rnd, rejected rnd 0 (AShuffle (fun d => d) 2 (2 ^ 63) (ints [1; 2; 3]%Z)) (vals [2]%Z).
Proof. exists rnd0. apply save_load_rejected. vm_compute. auto. Qed.
Print Assumptions C11_large_seed_refuted.

(** [sample] without repeats divides by zero when everything has been sampled; the state saved then is rejected
    (data/sample_data_source.cc:83-133). *)
Theorem C11_sample_end_refuted : exists rnd, rejected rnd 0 (ASample [1; 1]%Q 0 false [ints [1]%Z; ints [2]%Z]) (vals [1; 2]%Z ++ [Eod]).
Proof. exists rnd0. apply save_load_rejected. vm_compute. auto. Qed.
Print Assumptions C11_sample_end_refuted.

(** The number of errors swallowed so far is not saved (data/data_pipeline.cc:116-189). *)
Definition not_negative (d : data) : fres bool :=
  match d with DInt z => if (z <? 0)%Z then FThrow Recoverable else FVal true | _ => FVal true end.

Theorem C11_warnings_refuted : exists rnd,
  resumed rnd 1 (AFilter not_negative (ints [-1; 1; -2; 2]%Z)) (vals [1]%Z) [] [Err Recoverable] (vals [2]%Z).
Proof. exists rnd0. apply save_load_differ with (k := 1). vm_compute. auto. Qed.
Print Assumptions C11_warnings_refuted.

(** [pack] keeps the leftover of a truncated sequence when a state without leftover is loaded
    (data/packed_data_source.cc:127-147). *)
Theorem C11_pack_used_refuted : exists rnd,
  resumed rnd 0 (APack 3 3 0 true false (AList (map DTensor [[1; 2; 3]; [4; 5; 6; 7]]%Z)))
    [Val (packed_batch 3 0 [[1; 2; 3]]%Z)]
    [Val (packed_batch 3 0 [[1; 2; 3]]%Z); Val (packed_batch 3 0 [[4; 5; 6]]%Z)]
    [Val (packed_batch 3 0 [[4; 5; 6]]%Z)]
    [Val (packed_batch 3 0 [[6; 7]; [4]]%Z)].
Proof. exists rnd0. apply save_load_differ with (k := 1). vm_compute. auto. Qed.
Print Assumptions C11_pack_used_refuted.

(** The state of a pipeline that has not been started yet does not carry the random state: loading it into a pipeline that is in
    use does not rewind the random generators (data/data_pipeline.cc:138-189). *)
Theorem C11_unstarted_refuted : exists rnd,
  resumed rnd 0 (AShuffle (fun d => d) 3 1 (ints [1; 2; 3; 4; 5]%Z)) [] (vals [3; 1; 2; 4]%Z) (vals [3]%Z) (vals [1]%Z).
Proof. exists rnd0. apply save_load_differ with (k := 1). vm_compute. auto. Qed.
Print Assumptions C11_unstarted_refuted.

(** * C12: the tape *)
Theorem C12_tape_roundtrip : forall vs rest, rds (map kind_of vs) (flat_map wr vs ++ rest) = Some (vs, rest).
Proof. exact rds_wr. Qed.
Print Assumptions C12_tape_roundtrip.

(** A tape that ends too early is rejected. *)
Theorem C12_truncated_rejected : forall vs k, k < length (flat_map wr vs) -> rds (map kind_of vs) (firstn k (flat_map wr vs)) = None.
Proof. exact rds_prefix. Qed.
Print Assumptions C12_truncated_rejected.

(** A value of another type is rejected. *)
Theorem C12_wrong_type_rejected : forall r,
  (forall d, (forall b, d <> DBool b) -> rd KBool (d :: r) = None /\ forall k, rd (KOpt k) (d :: r) = None) /\
  (forall d, (forall z, d <> DInt z) -> rd KInt (d :: r) = None /\ rd KSize (d :: r) = None) /\
  (forall d, (forall f, d <> DFloat f) -> rd KFloat (d :: r) = None) /\
  (forall d, (forall f, d <> DTensor f) -> rd KTensor (d :: r) = None) /\
  (forall d, (forall f, d <> DList f) -> rd KList (d :: r) = None).
Proof. exact rd_wrong. Qed.
Print Assumptions C12_wrong_type_rejected.

(** A saved state with something appended is rejected. *)
Theorem C12_leftover_rejected : forall rnd clean a maxw x t extra, resumes clean a -> clean = true \/ maxw = 0 ->
  lives rnd maxw a x -> p_broken x = false -> state_dict (denote rnd a) true x = Some t -> extra <> [] ->
  load_state_dict (denote rnd a) (fresh rnd a) (t ++ extra) = None.
Proof. exact leftover_lemma. Qed.
Print Assumptions C12_leftover_rejected.

(** * C13: errors *)
Theorem C13_warnings : forall rnd maxw a os s', yields (denote rnd a) (init (denote rnd a)) os s' -> ~ In (Err Fatal) os ->
  exists x', yields (pl rnd maxw a) (fresh rnd a) (swallow maxw os) x'.
Proof. exact warnings_lemma. Qed.
Print Assumptions C13_warnings.

Theorem C13_broken : forall rnd maxw a n x x', next (pl rnd maxw a) n x = Some (Err Fatal, x') ->
  forall x2, reaches (pl rnd maxw a) x' x2 ->
    (forall m, next (pl rnd maxw a) m x2 = Some (Err Fatal, x2)) /\
    (forall strict, state_dict (denote rnd a) strict x2 = None) /\
    (forall t, load_state_dict (denote rnd a) x2 t = None) /\
    (forall g, reset (pl rnd maxw a) g x2 = x2).
Proof. exact broken_lemma. Qed.
Print Assumptions C13_broken.

Definition ex_warn : ast := AMap (fails_on 2) 1 (ints [1; 2; 3; 2; 4]%Z).

Example C13_example :
  (exists s', yields (denote rnd0 ex_warn) (init (denote rnd0 ex_warn))
    [Val (DInt 100); Err Recoverable; Val (DInt 300); Err Recoverable; Val (DInt 400); Eod] s') /\
  swallow 1 [Val (DInt 100); Err Recoverable; Val (DInt 300); Err Recoverable; Val (DInt 400); Eod] =
  [Val (DInt 100); Val (DInt 300); Err Recoverable; Val (DInt 400); Eod].
Proof. split; [apply (run_ok _ 50 6); vm_compute; reflexivity|reflexivity]. Qed.

(** [bucket] loses the examples collected so far when an error is swallowed (data/bucket_data_source.cc:13-41). *)
Theorem C13_bucket_refuted : exists rnd, let p := AMap (fails_on 3) 1 (ints [1; 2; 3; 4; 5]%Z) in
  (exists s, yields (pl rnd 1 p) (fresh rnd p) (vals [100; 200; 400; 500]%Z ++ [Eod]) s) /\
  exists s, yields (pl rnd 1 (ABucket 3 false p)) (fresh rnd _) [Val (DList [DInt 400; DInt 500]); Eod] s.
Proof. exists rnd0. split; [apply (run_ok _ 50 5)|apply (run_ok _ 50 2)]; vm_compute; reflexivity. Qed.
Print Assumptions C13_bucket_refuted.

(** * C14: reset *)
Theorem C14_reset : forall rnd clean a maxw x g, resumes clean a -> clean = true \/ maxw = 0 ->
  lives rnd maxw a x -> p_broken x = false -> g = true \/ rngfree a ->
  same_behaviour (pl rnd maxw a) (reset (pl rnd maxw a) g x) (fresh rnd a).
Proof. exact pl_restart. Qed.
Print Assumptions C14_reset.

(** [dynamic_bucket] with a bucket creation function does not drop the buckets it has created but not yet returned
    (data/dynamic_bucket_data_source.cc:96-103). *)
Definition split_all (l : list data) : fres (list data * list data) := FVal (map (fun d => DList [d]) l, []).

Definition ex_dyn : source := src_dynamic_bucket 3 int_cost (Some split_all) None None false (src_list (map DInt [1; 2; 3]%Z)).

Theorem C14_dynamic_bucket_refuted : exists x, yields ex_dyn (init ex_dyn) [Val (DList [DInt 1])] x /\
  exists s, yields ex_dyn (reset ex_dyn true x) [Val (DList [DInt 2])] s.
Proof.
  assert (HC : match run ex_dyn 50 1 (init ex_dyn) with
               | Some (os, x) => os = [Val (DList [DInt 1])] /\
                   option_map fst (run ex_dyn 50 1 (reset ex_dyn true x)) = Some [Val (DList [DInt 2])]
               | None => False
               end) by (vm_compute; auto).
  destruct (run ex_dyn 50 1 (init ex_dyn)) as [[os x]|] eqn:E; [|destruct HC]. destruct HC as [-> HC].
  exists x. split; [eapply run_yields; exact E|eapply run_ok; exact HC].
Qed.
Print Assumptions C14_dynamic_bucket_refuted.

(** * C16: errors in parallel map

    When a call fails and the error is swallowed, examples of the same batch are yielded without having been mapped
    (data/map_data_source.cc:97-199). *)
Theorem C16_parallel_error_refuted : exists rnd, let l := ints [1; 2; 3; 4; 5; 6]%Z in
  (exists s, yields (pl rnd 1 (AMap (fails_on 3) 1 l)) (fresh rnd _) (vals [100; 200; 400; 500; 600]%Z ++ [Eod]) s) /\
  exists s, yields (pl rnd 1 (AMap (fails_on 3) 3 l)) (fresh rnd _) (vals [100; 200; 3; 400; 500; 600]%Z ++ [Eod]) s.
Proof. exists rnd0. split; [apply (run_ok _ 50 6)|apply (run_ok _ 50 7)]; vm_compute; reflexivity. Qed.
Print Assumptions C16_parallel_error_refuted.

(** * C17: repeat *)
Theorem C17_repeat : forall rnd p l k g clean, produces rnd p l -> resumes clean p -> g = true \/ rngfree p ->
  produces rnd (ARepeat (Some k) g p) (concat (repeat l k)) /\
  (l = [] -> produces rnd (ARepeat None g p) []) /\
  (l <> [] -> flows rnd (ARepeat None g p) (fun i => nth (i mod length l) l (DBool false))).
Proof. exact C17_lemma. Qed.
Print Assumptions C17_repeat.

Example C17_example : resumes true (ints [1; 2]%Z) /\ rngfree (ints [1; 2]%Z) /\
  option_map fst (run (pl rnd0 0 (ARepeat (Some 2) false (ints [1; 2]%Z))) 50 5 (fresh rnd0 _)) = Some (vals [1; 2; 1; 2]%Z ++ [Eod]).
Proof. split; [exact Logic.I|]. split; [exact Logic.I|]. vm_compute. reflexivity. Qed.
