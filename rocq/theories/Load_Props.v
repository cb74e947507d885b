(** C60: loading checkpoints into gangs of other sizes. *)
From Coq Require Import List Bool Arith ZArith Lia.
From Verif Require Import Shard_Model Shard_Spec Shard_Proofs Load_Model Load_Spec Load_Proofs.
From Verif Require Shard_Props Shard_Linear.
Import ListNotations.

(** ** Resharding *)
(** The pieces of a tensor that its data parallel processes saved: at least one, together all rows. *)
Definition pieces_of {A} (s_dp : nat) (m : mat A) (l : list (mat A)) : Prop :=
  l <> [] /\ Forall (fun p => width p = width m) l /\ concat (map rows l) = rows m /\ (s_dp = 1 -> length l = 1).
Lemma pieces_join {A} s_dp (m : mat A) l : pieces_of s_dp m l -> join_dp s_dp l = Ok m.
Proof.
  intros (N & F & E & L). unfold join_dp. destruct (Nat.eqb_spec s_dp 1) as [->|_].
  - specialize (L eq_refl). destruct l as [|p [|q l]]; [discriminate L| |discriminate L]. cbn [map concat] in E. rewrite app_nil_r in E. inversion F; subst. cbn. f_equal. destruct p, m; cbn in *. now subst.
  - rewrite (cat0_ok (width m)) by assumption. rewrite E. now destruct m.
Qed.
(** A tensor that [s] processes saved along a dimension, each in pieces of its data parallel processes, gives a process of a gang of [t]
    exactly its part of the whole. *)
Theorem C60_reshard {A} d (m : mat A) s s_dp t r ks kt splits :
  d < 2 -> 0 < s -> 0 < t -> 0 < ks -> size_of d m = s * ks -> size_of d m = t * kt -> r < t ->
  length splits = s -> (forall i, i < s -> pieces_of s_dp (shard d ks i m) (nth i splits [])) ->
  reshard (Some d) splits s s_dp t r = Ok (shard d kt r m).
Proof.
  intros D Sp T K Es Et R L H.
  replace splits with (map (fun i => nth i splits []) (seq 0 s)).
  - apply reshard_dim with ks; try assumption. intros i I. apply pieces_join. now apply H.
  - subst s. clear. induction splits as [|x l IH]; cbn [length seq map nth]; [reflexivity|]. f_equal. rewrite <- seq_shift, map_map. exact IH.
Qed.
Print Assumptions C60_reshard.
(** Three source processes, two target processes, uneven pieces. *)
Example C60_reshard_example : let m := Mat 1 [[1]; [2]; [3]; [4]; [5]; [6]]%Z in
  pieces_of 2 (shard 0 2 0 m) [Mat 1 [[1]; [2]]; Mat 1 []]%Z /\ pieces_of 2 (shard 0 2 1 m) [Mat 1 [[3]]; Mat 1 [[4]]]%Z /\ pieces_of 2 (shard 0 2 2 m) [Mat 1 [[5]; [6]]]%Z /\
  reshard (Some 0) [[Mat 1 [[1]; [2]]; Mat 1 []]; [Mat 1 [[3]]; Mat 1 [[4]]]; [Mat 1 [[5]; [6]]]]%Z 3 2 2 1 = Ok (Mat 1 [[4]; [5]; [6]])%Z.
Proof.
  cbv zeta. split; [|split; [|split; [|reflexivity]]]; (split; [discriminate|]); (split; [repeat constructor|]); (split; [reflexivity|discriminate]).
Qed.
(** Replicated tensors. *)
Theorem C60_replicated {A} (m : mat A) s s_dp t r splits : 0 < s -> r < t -> length splits = s ->
  (forall i, i < s -> pieces_of s_dp m (nth i splits [])) -> reshard None splits s s_dp t r = Ok m.
Proof.
  intros Sp R L H. replace splits with (map (fun i => nth i splits []) (seq 0 s)).
  - apply reshard_none; try assumption. intros i I. apply pieces_join. now apply H.
  - subst s. clear. induction splits as [|x l IH]; cbn [length seq map nth]; [reflexivity|]. f_equal. rewrite <- seq_shift, map_map. exact IH.
Qed.
Print Assumptions C60_replicated.
Example C60_replicated_example : reshard None [[Mat 1 [[1]]; Mat 1 [[2]]]; [Mat 1 [[1]]; Mat 1 [[2]]]]%Z 2 2 3 2 = Ok (Mat 1 [[1]; [2]])%Z.
Proof. reflexivity. Qed.
(** A dimension that the target size does not divide loses its last elements without an error. *)
Theorem C60_indivisible_refuted : exists m : mat Z, forall r, r < 2 -> reshard (Some 0) [[m]] 1 1 2 r = Ok (row_block 1 r m) /\ height m = 3.
Proof. exists (Mat 1 [[1]; [2]; [3]])%Z. intros [|[|r]] H; [split; reflexivity|split; reflexivity|lia]. Qed.
Print Assumptions C60_indivisible_refuted.

(** ** Native checkpoints *)
Section N.
  Context {A : Type} (dims : nat -> option nat).
  Implicit Types ps qs : list (param A).

  Lemma find_save s_tp s_dp ps t d p : NoDup (map name ps) -> In p ps -> find_key (name p) (save dims s_tp s_dp ps t d) = Some (object p, Some (saved_value dims s_tp s_dp t d p)).
  Proof.
    unfold find_key, save. induction ps as [|q ps IH]; cbn [map]; intros N I; [destruct I|]. inversion N as [|? ? N1 N2]; subst. cbn [find fst].
    destruct (Nat.eqb_spec (name q) (name p)) as [E|E].
    - destruct I as [->|I]; [reflexivity|]. exfalso. apply N1. rewrite E. now apply in_map.
    - destruct I as [->|I]; [contradiction|]. now apply IH.
  Qed.
  Lemma save_keys s_tp s_dp ps t d : map fst (save dims s_tp s_dp ps t d) = map name ps.
  Proof. unfold save. now rewrite map_map. Qed.
  Lemma dp_splits_save s_tp s_dp ps t p ds : NoDup (map name ps) -> In p ps ->
    dp_splits (name p) (map (save dims s_tp s_dp ps t) ds) = Some (map (fun d => (object p, saved_value dims s_tp s_dp t d p)) ds).
  Proof.
    intros N I. induction ds as [|d ds IH]; cbn [map dp_splits]; [reflexivity|]. rewrite find_save by assumption. rewrite IH. reflexivity.
  Qed.
  Lemma tp_splits_save s_tp s_dp ps p ds ts : NoDup (map name ps) -> In p ps ->
    tp_splits (name p) (map (fun t => map (save dims s_tp s_dp ps t) ds) ts) = Some (map (fun t => map (fun d => (object p, saved_value dims s_tp s_dp t d p)) ds) ts).
  Proof.
    intros N I. induction ts as [|t ts IH]; cbn [map tp_splits]; [reflexivity|]. rewrite dp_splits_save by assumption. rewrite IH. reflexivity.
  Qed.
  Lemma load_keys_ok s s_tp s_dp a b r ps ts (out : param A -> mat A) : NoDup (map name ps) -> ts <> [] -> 0 < s_dp ->
    (forall p, In p ps -> reshard (dims (name p)) (map (fun t => map (fun d => saved_value dims s_tp s_dp t d p) (seq 0 s_dp)) ts) s a b r = Ok (out p)) ->
    forall qs memo, incl qs ps ->
      load_keys dims s a b r (map (fun t => map (save dims s_tp s_dp ps t) (seq 0 s_dp)) ts) (map name qs) memo = Loaded (map (fun p => (name p, out p)) (first_uses memo qs)).
  Proof.
    intros N T D H. induction qs as [|q qs IH]; intros memo I; cbn [map load_keys first_uses]; [reflexivity|].
    assert (Q : In q ps) by (apply I; now left). assert (I' : incl qs ps) by (intros x X; apply I; now right).
    rewrite tp_splits_save by assumption. rewrite map_map. rewrite (map_ext (fun x => map snd (map (fun d => (object q, saved_value dims s_tp s_dp x d q)) (seq 0 s_dp))) (fun t => map (fun d => saved_value dims s_tp s_dp t d q) (seq 0 s_dp))) by (intros; now rewrite map_map).
    rewrite H by exact Q. destruct ts as [|t ts]; [contradiction|]. destruct s_dp as [|n]; [lia|]. cbn [map seq].
    assert (B : existsb (Nat.eqb (object q)) memo = if in_dec Nat.eq_dec (object q) memo then true else false).
    { destruct (in_dec Nat.eq_dec (object q) memo) as [M|M].
      - apply existsb_exists. exists (object q). now rewrite Nat.eqb_refl.
      - apply not_true_is_false. intros X. apply existsb_exists in X as (y & Y & E). apply Nat.eqb_eq in E. subst. contradiction. }
    rewrite B. destruct (in_dec Nat.eq_dec (object q) memo); [now apply IH|]. cbn [map seq] in IH. rewrite IH by exact I'. reflexivity.
  Qed.
End N.

Section Native.
  Context {A : Type} (dims : nat -> option nat).

  (** The parameters a gang of [s_tp] by [s_dp] processes saves and a gang of [t] processes loads. *)
  Definition loadable (s_tp s_dp t : nat) (ps : list (param A)) : Prop :=
    NoDup (map name ps) /\ forall p, In p ps -> divisible (dims (name p)) s_tp t (whole p) /\ (s_dp = 1 \/ dtensor p = true).

  Lemma saved_join s_tp s_dp t i (p : param A) : 0 < s_tp -> 0 < s_dp -> divisible (dims (name p)) s_tp t (whole p) -> s_dp = 1 \/ dtensor p = true ->
    join_dp s_dp (map (fun d => saved_value dims s_tp s_dp i d p) (seq 0 s_dp)) = Ok (target (dims (name p)) s_tp i (whole p)).
  Proof.
    intros Sp Dp Di De.
    assert (E : tp_part (dims (name p)) s_tp i (whole p) = target (dims (name p)) s_tp i (whole p)).
    { destruct (dims (name p)) as [d|]; [|reflexivity]. destruct Di as (D & _ & (ks & Es) & _). cbn [target]. rewrite Es, div_exact by exact Sp. now apply tp_part_shard. }
    unfold saved_value. rewrite E. destruct (Nat.eqb_spec s_dp 1) as [->|N]; [reflexivity|]. destruct De as [De|De]; [lia|]. rewrite De. cbn [orb negb]. apply fsdp_join. lia.
  Qed.
  Lemma reshard_saved s_tp s_dp t r ps p : 0 < s_tp -> 0 < s_dp -> r < t -> loadable s_tp s_dp t ps -> In p ps ->
    reshard (dims (name p)) (map (fun i => map (fun d => saved_value dims s_tp s_dp i d p) (seq 0 s_dp)) (seq 0 s_tp)) s_tp s_dp t r = Ok (target (dims (name p)) t r (whole p)).
  Proof.
    intros Sp Dp R [_ L] I. destruct (L p I) as [Di De]. assert (J : forall i, i < s_tp -> join_dp s_dp (map (fun d => saved_value dims s_tp s_dp i d p) (seq 0 s_dp)) = Ok (target (dims (name p)) s_tp i (whole p))) by (intros; now apply saved_join with t).
    destruct (dims (name p)) as [d|] eqn:Ed; [|now apply reshard_none]. destruct Di as (D & Po & (ks & Es) & (kt & Et)).
    cbn [target] in *. rewrite Et, div_exact by lia. rewrite Es, div_exact in J by exact Sp. apply reshard_dim with ks; try assumption; nia.
  Qed.
  Lemma reshard_own s_tp s_dp r ps p : 0 < s_dp -> r < s_tp -> loadable s_tp s_dp s_tp ps -> In p ps ->
    reshard (dims (name p)) [map (fun d => saved_value dims s_tp s_dp r d p) (seq 0 s_dp)] 1 s_dp 1 0 = Ok (target (dims (name p)) s_tp r (whole p)).
  Proof.
    intros Dp R [_ L] I. destruct (L p I) as [Di De]. unfold reshard. cbn [Nat.eqb get nth_error bind]. apply saved_join with s_tp; try assumption. lia.
  Qed.
  Definition loaded (t r : nat) (ps : list (param A)) : list (nat * mat A) := map (fun p => (name p, target (dims (name p)) t r (whole p))) (first_uses [] ps).

  Lemma regular_saved s_tp s_dp stages : 0 < s_tp -> 0 < s_dp -> stages <> [] -> regular (map (save_all (A := A) dims s_tp s_dp) stages) = true.
  Proof.
    intros Sp Dp N. assert (F : forallb (fun t' => (length t' =? s_tp) && forallb (fun d' => length d' =? s_dp) t') (map (save_all (A := A) dims s_tp s_dp) stages) = true).
    { apply forallb_forall. intros x X. apply in_map_iff in X as (ps & <- & _). unfold save_all. rewrite map_length, seq_length, Nat.eqb_refl. cbn [andb]. apply forallb_forall.
      intros y Y. apply in_map_iff in Y as (i & <- & _). now rewrite map_length, seq_length, Nat.eqb_refl. }
    destruct stages as [|ps stages]; [contradiction|]. destruct s_tp as [|a]; [lia|]. destruct s_dp as [|b]; [lia|].
    cbn [map]. unfold regular. destruct (save_all dims (S a) (S b) ps) as [|[|x d] t] eqn:E; [discriminate E|discriminate E|].
    assert (E1 : length ((x :: d) :: t) = S a) by (rewrite <- E; unfold save_all; now rewrite map_length, seq_length).
    assert (E2 : length (x :: d) = S b) by (unfold save_all in E; cbn [seq map] in E; injection E as <- <- _; cbn [length]; now rewrite map_length, seq_length).
    rewrite E1, E2, <- E. exact F.
  Qed.
  Lemma load_stages_all s_tp s_dp t r stages : 0 < s_tp -> 0 < s_dp -> r < t -> Forall (loadable s_tp s_dp t) stages ->
    load_stages dims s_tp s_dp t r (map (save_all dims s_tp s_dp) stages) = Loaded (concat (map (loaded t r) stages)).
  Proof.
    intros Sp Dp R F. induction F as [|ps stages L F IH]; cbn [map load_stages concat]; [reflexivity|]. rewrite IH.
    pose proof (load_keys_ok dims s_tp s_tp s_dp s_dp t r ps (seq 0 s_tp) (fun p => target (dims (name p)) t r (whole p)) (proj1 L)) as K.
    specialize (K ltac:(destruct s_tp; [lia|discriminate]) Dp (fun p I => reshard_saved s_tp s_dp t r ps p Sp Dp R L I) ps [] (incl_refl _)).
    unfold save_all in *. destruct s_tp as [|a]; [lia|]. destruct s_dp as [|b]; [lia|]. cbn [seq map] in *. rewrite save_keys. rewrite K. reflexivity.
  Qed.
  Lemma load_stage_own s_tp s_dp r ps : 0 < s_dp -> r < s_tp -> loadable s_tp s_dp s_tp ps ->
    load_stages dims 1 s_dp 1 0 [[map (save dims s_tp s_dp ps r) (seq 0 s_dp)]] = Loaded (loaded s_tp r ps).
  Proof.
    intros Dp R L. cbn [load_stages].
    pose proof (load_keys_ok dims 1 s_tp s_dp s_dp 1 0 ps [r] (fun p => target (dims (name p)) s_tp r (whole p)) (proj1 L)) as K.
    specialize (K ltac:(discriminate) Dp (fun p I => reshard_own s_tp s_dp r ps p Dp R L I) ps [] (incl_refl _)). cbn [map] in K.
    destruct s_dp as [|b]; [lia|]. cbn [seq map] in *. rewrite save_keys. rewrite K. now rewrite app_nil_r.
  Qed.
End Native.

(** The checkpoint that a model of any parameters saves with any gang sizes gives a process of any other gang exactly its part of every
    parameter: each once, in the saved order, an object that several parameters share only for the first of them. *)
Theorem C60_native {A} dims s_tp s_dp t r (ps : list (param A)) : 0 < s_tp -> 0 < s_dp -> r < t -> loadable dims s_tp s_dp t ps ->
  native_load dims [save_all dims s_tp s_dp ps] 1 0 t r = Loaded (loaded dims t r ps).
Proof.
  intros Sp Dp R L. unfold native_load. pose proof (regular_saved dims s_tp s_dp [ps] Sp Dp ltac:(discriminate)) as G. cbn [map] in G. rewrite G. cbn [negb length Nat.eqb andb].
  assert (E1 : length (save_all dims s_tp s_dp ps) = s_tp) by (unfold save_all; now rewrite map_length, seq_length). rewrite E1.
  assert (E2 : match [save_all dims s_tp s_dp ps] with (d :: _) :: _ => length d | _ => 0 end = s_dp).
  { unfold save_all. destruct s_tp; [lia|]. cbn [seq map]. now rewrite map_length, seq_length. }
  rewrite E2. destruct (Nat.eqb_spec t s_tp) as [->|N].
  - cbn [get nth_error bind]. unfold save_all. rewrite (get_map_seq (fun t => map (save dims s_tp s_dp ps t) (seq 0 s_dp))) by exact R. now apply load_stage_own.
  - change [save_all dims s_tp s_dp ps] with (map (save_all dims s_tp s_dp) [ps]). rewrite load_stages_all by (try assumption; now constructor). cbn [map concat]. now rewrite app_nil_r.
Qed.
Print Assumptions C60_native.
Definition params3 : list (param Z) :=
  [Param 1 10 (Mat 2 [[1; 2]; [3; 4]; [5; 6]; [7; 8]]%Z) true; Param 2 20 (Mat 4 [[1; 2; 3; 4]; [5; 6; 7; 8]]%Z) true; Param 3 10 (Mat 2 [[1; 2]; [3; 4]; [5; 6]; [7; 8]]%Z) true; Param 4 40 (Mat 1 [[9]; [8]; [7]]%Z) true].
Definition dims3 (k : nat) : option nat := match k with 1 | 3 => Some 0 | 2 => Some 1 | _ => None end.
Example C60_native_example : loadable dims3 2 2 4 params3 /\
  native_load dims3 [save_all dims3 2 2 params3] 1 0 4 1 = Loaded [(1%nat, Mat 2%nat [[3; 4]]); (2%nat, Mat 1%nat [[2]; [6]]); (4%nat, Mat 1%nat [[9]; [8]; [7]])]%Z /\
  native_load dims3 [save_all dims3 2 2 params3] 1 0 1 0 = Loaded [(1%nat, Mat 2%nat [[1; 2]; [3; 4]; [5; 6]; [7; 8]]); (2%nat, Mat 4%nat [[1; 2; 3; 4]; [5; 6; 7; 8]]); (4%nat, Mat 1%nat [[9]; [8]; [7]])]%Z.
Proof.
  split; [|split; reflexivity]. split; [repeat constructor; cbn; lia|]. intros p I. split; [|right; repeat (destruct I as [<-|I]; [reflexivity|]); destruct I].
  destruct I as [<-|[<-|[<-|[<-|[]]]]]; cbn; try exact Logic.I; (split; [lia|]); (split; [cbv; lia|]); (split; [now exists 2|now exists 1]).
Qed.
(** The general form: pieces of any sizes, and files without the parameter after the last piece. *)
Definition pieces_in {A} (s_dp : nat) (p : param A) (m : mat A) (files : list (dict A)) : Prop := exists vs,
  (forall d v, nth_error vs d = Some v -> exists o f, nth_error files d = Some f /\ find_key (name p) f = Some (o, Some v) /\ (d = 0 -> o = object p)) /\
  (forall f, nth_error files (length vs) = Some f -> find_key (name p) f = None) /\ pieces_of s_dp m vs.
Lemma pieces_splits {A} s_dp (p : param A) m files : pieces_in s_dp p m files ->
  exists x l, dp_splits (name p) files = Some ((object p, x) :: l) /\ pieces_of s_dp m (map snd ((object p, x) :: l)).
Proof.
  intros (vs & H1 & H2 & P).
  assert (G : forall (vs : list (mat A)) files, (forall d v, nth_error vs d = Some v -> exists o f, nth_error files d = Some f /\ find_key (name p) f = Some (o, Some v)) ->
    (forall f, nth_error files (length vs) = Some f -> find_key (name p) f = None) -> exists l, dp_splits (name p) files = Some l /\ map snd l = vs).
  { clear. induction vs as [|v vs IH]; intros files H1 H2.
    - exists []. split; [|reflexivity]. destruct files as [|f files]; [reflexivity|]. cbn [dp_splits]. now rewrite (H2 f eq_refl).
    - destruct (H1 0 v eq_refl) as (o & f & E & F). destruct files as [|f' files]; [discriminate E|]. injection E as ->.
      destruct (IH files) as (l & L & M); [intros d w W; exact (H1 (S d) w W)|intros g G'; exact (H2 g G')|].
      exists ((o, v) :: l). cbn [dp_splits map snd]. rewrite F, L, M. split; reflexivity. }
  destruct (G vs files) as (l & L & M); [intros d v V; destruct (H1 d v V) as (o & f & E & F & _); eauto|exact H2|].
  destruct vs as [|v vs]; [now destruct (proj1 P)|]. destruct (H1 0 v eq_refl) as (o & f & E & F & O). rewrite (O eq_refl) in F. destruct files as [|f' files]; [discriminate E|]. injection E as ->.
  cbn [dp_splits] in *. rewrite F in *. destruct (dp_splits (name p) files) as [l'|]; [|discriminate L]. cbn [option_map] in *. injection L as <-. exists v, l'. split; [reflexivity|]. now rewrite M.
Qed.
Lemma pieces_tp {A} s_dp (p : param A) (out : nat -> mat A) (tps : list (list (dict A))) : forall k, (forall i files, nth_error tps i = Some files -> pieces_in s_dp p (out (k + i)) files) ->
  exists sp, tp_splits (name p) tps = Some sp /\ join_all s_dp (map (map snd) sp) = Ok (map out (seq k (length tps))) /\ length sp = length tps /\
    forall i s, nth_error sp i = Some s -> join_dp s_dp (map snd s) = Ok (out (k + i)) /\ exists x l, s = (object p, x) :: l.
Proof.
  induction tps as [|files tps IH]; intros k H; [exists []; do 3 (split; [reflexivity|]); intros [|i] s E; discriminate E|].
  destruct (IH (S k)) as (sp & S1 & S2 & S3 & S4); [intros i f E; rewrite Nat.add_succ_comm; exact (H (S i) f E)|].
  destruct (pieces_splits _ _ _ _ (H 0 files eq_refl)) as (x & l & L & P). apply pieces_join in P. exists (((object p, x) :: l) :: sp). cbn [tp_splits]. rewrite L, S1. split; [reflexivity|].
  split; [|split; [cbn [length]; now rewrite S3|]].
  - cbn [map join_all length seq]. cbn [map] in P. rewrite P. cbn [bind]. rewrite S2. cbn [bind]. now rewrite Nat.add_0_r.
  - intros [|i] s E; cbn [nth_error] in E; [injection E as <-; split; [exact P|eauto]|]. rewrite <- Nat.add_succ_comm. now apply S4.
Qed.
Lemma load_keys_any {A} dims s s_dp t r (tps : list (list (dict A))) (out : param A -> mat A) : forall ps memo,
  (forall p, In p ps -> exists x l sp, tp_splits (name p) tps = Some (((object p, x) :: l) :: sp) /\ reshard (dims (name p)) (map (map snd) (((object p, x) :: l) :: sp)) s s_dp t r = Ok (out p)) ->
  load_keys dims s s_dp t r tps (map name ps) memo = Loaded (map (fun p => (name p, out p)) (first_uses memo ps)).
Proof.
  induction ps as [|q ps IH]; intros memo H; cbn [map load_keys first_uses]; [reflexivity|].
  destruct (H q (or_introl eq_refl)) as (x & l & sp & -> & ->).
  assert (B : existsb (Nat.eqb (object q)) memo = if in_dec Nat.eq_dec (object q) memo then true else false).
  { destruct (in_dec Nat.eq_dec (object q) memo) as [M|M].
    - apply existsb_exists. exists (object q). now rewrite Nat.eqb_refl.
    - apply not_true_is_false. intros X. apply existsb_exists in X as (y & Y & E). apply Nat.eqb_eq in E. subst. contradiction. }
  rewrite B. destruct (in_dec Nat.eq_dec (object q) memo); [apply IH; intros; apply H; now right|]. rewrite IH by (intros; apply H; now right). reflexivity.
Qed.
Theorem C60_uneven {A} dims s_dp t r (tps : list (list (dict A))) (ps : list (param A)) : tps <> [] -> 0 < s_dp -> r < t -> Forall (fun files => length files = s_dp) tps ->
  Forall (fun files => map fst (hd [] files) = map name ps) tps ->
  (forall p, In p ps -> divisible (dims (name p)) (length tps) t (whole p)) ->
  (forall p i files, In p ps -> nth_error tps i = Some files -> pieces_in s_dp p (target (dims (name p)) (length tps) i (whole p)) files) ->
  native_load dims [tps] 1 0 t r = Loaded (loaded dims t r ps).
Proof.
  intros N Dp R Fl Fk Di Pi. assert (Sp : 0 < length tps) by (destruct tps; [contradiction|cbn; lia]). unfold native_load.
  assert (Rg : regular [tps] = true).
  { destruct tps as [|[|f fs] tps]; [contradiction|inversion Fl; cbn in *; lia|]. unfold regular. cbn [forallb]. rewrite Nat.eqb_refl. cbn [andb]. inversion Fl as [|? ? E Fl']; subst. rewrite Nat.eqb_refl. cbn [andb].
    rewrite andb_true_r. apply forallb_forall. intros y Y. apply Nat.eqb_eq. rewrite Forall_forall in Fl'. now apply Fl'. }
  rewrite Rg. cbn [negb length Nat.eqb andb].
  assert (E2 : match [tps] with (d :: _) :: _ => length d | _ => 0 end = s_dp) by (destruct tps; [contradiction|]; now inversion Fl). rewrite E2.
  assert (SP : forall p, In p ps -> exists sp, tp_splits (name p) tps = Some sp /\ length sp = length tps /\
    (forall i s, nth_error sp i = Some s -> join_dp s_dp (map snd s) = Ok (target (dims (name p)) (length tps) i (whole p)) /\ exists x l, s = (object p, x) :: l)).
  { intros p I. destruct (pieces_tp s_dp p (fun i => target (dims (name p)) (length tps) i (whole p)) tps 0) as (sp & A1 & _ & A2 & A3); [intros i files E; now apply Pi|]. exists sp. split; [exact A1|]. split; [exact A2|exact A3]. }
  destruct (Nat.eqb_spec t (length tps)) as [->|NE].
  - cbn [get nth_error bind]. unfold get. destruct (nth_error tps r) as [files|] eqn:Er; [|apply nth_error_None in Er; lia]. cbn [load_stages].
    assert (Hf : In files tps) by (eapply nth_error_In; exact Er). rewrite Forall_forall in Fl, Fk. pose proof (Fl _ Hf) as L1. pose proof (Fk _ Hf) as K1. destruct files as [|f fs]; [cbn in L1; lia|]. cbn [hd] in K1. rewrite K1.
    rewrite (load_keys_any dims 1 s_dp 1 0 [f :: fs] (fun p => target (dims (name p)) (length tps) r (whole p))); [now rewrite app_nil_r|].
    intros p I. destruct (pieces_splits _ _ _ _ (Pi p r _ I Er)) as (x & l & L & P). exists x, l, []. cbn [tp_splits]. rewrite L. split; [reflexivity|]. unfold reshard. cbn [Nat.eqb map get nth_error bind]. now apply (pieces_join s_dp).
  - cbn [load_stages]. destruct tps as [|[|f fs] tps']; [contradiction|inversion Fl; cbn in *; lia|]. set (tps := (f :: fs) :: tps') in *.
    assert (K1 : map fst f = map name ps) by (inversion Fk; assumption). rewrite K1.
    rewrite (load_keys_any dims (length tps) s_dp t r tps (fun p => target (dims (name p)) t r (whole p))); [now rewrite app_nil_r|].
    intros p I. destruct (SP p I) as (sp & A1 & A2 & A3). destruct sp as [|s0 sp]; [cbn in A2; discriminate A2|]. destruct (A3 0 s0 eq_refl) as (_ & x & l & ->). exists x, l, sp. split; [exact A1|].
    specialize (Di p I). set (sp' := ((object p, x) :: l) :: sp) in *.
    replace (map (map snd) sp') with (map (fun i => map snd (nth i sp' [])) (seq 0 (length tps))).
    + destruct (dims (name p)) as [d|] eqn:Ed.
      * destruct Di as (D & Po & (ks & Es) & (kt & Et)). cbn [target] in *. rewrite Et, div_exact by lia. apply reshard_dim with ks; try assumption; try lia; try nia.
        intros i J. rewrite Es, div_exact in A3 by exact Sp. apply A3. apply nth_error_nth'. lia.
      * apply reshard_none; [exact Sp|exact R|]. intros i J. apply (A3 i). apply nth_error_nth'. lia.
    + rewrite <- A2. clear. clearbody sp'. induction sp' as [|y sp' IH]; cbn [length seq map nth]; [reflexivity|]. f_equal. rewrite <- seq_shift, map_map. exact IH.
Qed.
Print Assumptions C60_uneven.
(** The second parameter has only one row, so that the file of the second process does not have it. *)
Example C60_uneven_example : let tps := [[[(1, (1, Some (Mat 1%nat [[5]; [6]]%Z))); (2, (2, Some (Mat 1%nat [[7]]%Z)))]; [(1, (1, Some (Mat 1%nat [[8]]%Z)))]]] in
  let p := Param 2 2 (Mat 1%nat [[7]]%Z) true in
  pieces_in 2 p (whole p) (hd [] tps) /\ native_load (fun _ => None) [tps] 1 0 3 2 = Loaded [(1, Mat 1%nat [[5]; [6]; [8]]%Z); (2, Mat 1%nat [[7]]%Z)].
Proof.
  cbv zeta. split; [|reflexivity]. exists [Mat 1%nat [[7]]%Z]. split; [|split].
  - intros [|[|d]] v E; [|discriminate E|discriminate E]. injection E as <-. do 2 eexists. split; [reflexivity|]. split; [reflexivity|reflexivity].
  - intros f E. injection E as <-. reflexivity.
  - split; [discriminate|]. split; [repeat constructor|]. split; [reflexivity|discriminate].
Qed.
(** With several pipeline stages and the same sizes, a process loads the parameters of its stage. *)
Theorem C60_stages {A} dims s_tp s_dp pp_rank r (stages : list (list (param A))) ps : 0 < s_dp -> r < s_tp -> nth_error stages pp_rank = Some ps -> loadable dims s_tp s_dp s_tp ps ->
  native_load dims (map (save_all dims s_tp s_dp) stages) (length stages) pp_rank s_tp r = Loaded (loaded dims s_tp r ps).
Proof.
  intros Dp R E L. assert (N : stages <> []) by (intros ->; destruct pp_rank; discriminate E). unfold native_load.
  rewrite regular_saved by (try assumption; lia). cbn [negb]. rewrite map_length, Nat.eqb_refl. cbn [andb].
  assert (E1 : match map (save_all (A := A) dims s_tp s_dp) stages with t :: _ => length t | [] => 0 end = s_tp) by (destruct stages; [contradiction|]; cbn [map]; unfold save_all; now rewrite map_length, seq_length).
  assert (E2 : match map (save_all (A := A) dims s_tp s_dp) stages with (d :: _) :: _ => length d | _ => 0 end = s_dp).
  { destruct stages; [contradiction|]. cbn [map]. unfold save_all at 1. destruct s_tp; [lia|]. cbn [seq map]. now rewrite map_length, seq_length. }
  rewrite E1, E2, Nat.eqb_refl. unfold get at 1. rewrite (map_nth_error (save_all dims s_tp s_dp) _ _ E). cbn [bind]. unfold save_all.
  rewrite (get_map_seq (fun t => map (save dims s_tp s_dp ps t) (seq 0 s_dp))) by exact R. now apply load_stage_own.
Qed.
Print Assumptions C60_stages.
Example C60_stages_example : native_load dims3 (map (save_all dims3 2 1) [params3; [Param 7 70 (Mat 1%nat [[1]])%Z true]]) 2 1 2 0 = Loaded [(7%nat, Mat 1%nat [[1]])]%Z.
Proof. reflexivity. Qed.
(** If only the tensor parallel sizes differ, it gets the parameters of all stages. *)
Theorem C60_stages_refuted : exists dims (stage0 stage1 : list (param Z)) k,
  loadable dims 2 1 1 stage0 /\ loadable dims 2 1 1 stage1 /\ ~ In k (map name stage0) /\
  exists ps m, native_load dims (map (save_all dims 2 1) [stage0; stage1]) 2 0 1 0 = Loaded ps /\ In (k, m) ps.
Proof.
  exists (fun _ => None), [Param 1 1 (Mat 1%nat [[5]])%Z true], [Param 2 2 (Mat 1%nat [[6]])%Z true], 2.
  split; [split; [repeat constructor; cbn; lia|cbn; auto]|]. split; [split; [repeat constructor; cbn; lia|cbn; auto]|]. split; [cbn; lia|].
  exists [(1%nat, Mat 1%nat [[5]]); (2%nat, Mat 1%nat [[6]])]%Z, (Mat 1%nat [[6]])%Z. split; [reflexivity|cbn; auto].
Qed.
Print Assumptions C60_stages_refuted.
(** A tensor that FSDP does not shard, such as a buffer, comes back repeated once for each process of the saving gang. *)
Theorem C60_buffer_refuted : exists (p : param Z), native_load (fun _ => None) [save_all (fun _ => None) 1 2 [p]] 1 0 1 0 = Loaded [(name p, Mat 1%nat (rows (whole p) ++ rows (whole p)))] /\ whole p = Mat 1%nat [[5]; [6]]%Z.
Proof. exists (Param 1 1 (Mat 1%nat [[5]; [6]])%Z false). split; reflexivity. Qed.
Print Assumptions C60_buffer_refuted.

(** ** Single files and directories of safetensors *)
Definition whole_dict {A} (ps : list (param A)) : dict A := map (fun p => (name p, (object p, Some (whole p)))) ps.
Lemma reshard_whole {A} dim (m : mat A) t r : tensor m -> divisible dim 1 t m -> r < t -> reshard dim [[m]] 1 1 t r = Ok (target dim t r m).
Proof.
  intros Te Di R. destruct dim as [d|].
  - destruct Di as (D & Po & _ & (kt & Et)). cbn [target]. rewrite Et, div_exact by lia.
    apply (reshard_dim d m 1 1 t r (size_of d m) kt (fun _ => [m])); try assumption; try lia. intros i I. replace i with 0 by lia. unfold join_dp. cbn [Nat.eqb get nth_error]. f_equal.
    destruct d as [|[|d]]; [| |lia]; cbn [shard size_of].
    + unfold row_block, block. cbn [Nat.mul skipn]. unfold height. rewrite firstn_all. now destruct m.
    + unfold col_block. destruct m as [w rs]. cbn [width rows] in *. f_equal. rewrite <- (map_id rs) at 1. apply map_ext_in. intros x X. unfold block. cbn [Nat.mul skipn].
      symmetry. apply firstn_all2. pose proof (tensor_row _ x Te X) as Lx. cbn [width] in Lx. lia.
  - apply (reshard_none m 1 1 t r (fun _ => [m])); [lia|exact R|]. reflexivity.
Qed.
Definition splittable {A} (dims : nat -> option nat) (t : nat) (ps : list (param A)) : Prop :=
  forall p, In p ps -> tensor (whole p) /\ divisible (dims (name p)) 1 t (whole p).
Lemma single_ok {A} e dims t r (ps : list (param A)) : r < t -> splittable dims t ps -> forall memo,
  single_load e dims t r (whole_dict ps) memo = Loaded (map (fun p => (name p, target (dims (name p)) t r (whole p))) (first_uses memo ps)).
Proof.
  intros R. induction ps as [|q ps IH]; intros S0 memo; cbn [whole_dict map single_load first_uses]; [reflexivity|].
  assert (S1 : splittable dims t ps) by (intros p I; apply S0; now right). destruct (S0 q (or_introl eq_refl)) as [Te Di].
  assert (B : existsb (Nat.eqb (object q)) memo = if in_dec Nat.eq_dec (object q) memo then true else false).
  { destruct (in_dec Nat.eq_dec (object q) memo) as [M|M].
    - apply existsb_exists. exists (object q). now rewrite Nat.eqb_refl.
    - apply not_true_is_false. intros X. apply existsb_exists in X as (y & Y & E). apply Nat.eqb_eq in E. subst. contradiction. }
  rewrite B. destruct (in_dec Nat.eq_dec (object q) memo); [now apply IH|]. rewrite reshard_whole by assumption.
  change (map (fun p => (name p, (object p, Some (whole p)))) ps) with (whole_dict ps). rewrite IH by exact S1. reflexivity.
Qed.
(** An unsharded file gives every process of a gang of any size its part of every parameter. *)
Theorem C60_basic {A} dims t r (ps : list (param A)) : r < t -> splittable dims t ps -> basic_load dims t r (whole_dict ps) = Loaded (loaded dims t r ps).
Proof. intros R S0. now apply single_ok. Qed.
Print Assumptions C60_basic.
Example C60_basic_example : splittable dims3 2 params3 /\ basic_load dims3 2 1 (whole_dict params3) = Loaded [(1%nat, Mat 2%nat [[5; 6]; [7; 8]]); (2%nat, Mat 2%nat [[3; 4]; [7; 8]]); (4%nat, Mat 1%nat [[9]; [8]; [7]])]%Z.
Proof.
  split; [|reflexivity]. intros p I. destruct I as [<-|[<-|[<-|[<-|[]]]]]; (split; [repeat constructor|]); cbn; try exact Logic.I; (split; [lia|]); (split; [cbv; lia|]); (split; [now exists 4|now exists 2]).
Qed.
(** Parameters spread over files in any way, as long as no name is in two places. *)
Lemma add_all_ok {A} (shard acc : dict A) : NoDup (map fst (acc ++ shard)) -> add_all shard acc = Some (acc ++ shard).
Proof.
  revert acc. induction shard as [|[k v] shard IH]; intros acc N; cbn [add_all]; [now rewrite app_nil_r|].
  assert (F : existsb (fun kv => fst kv =? k) acc = false).
  { apply not_true_is_false. intros X. apply existsb_exists in X as (y & Y & E). apply Nat.eqb_eq in E. rewrite map_app in N. cbn [map fst] in N.
    apply NoDup_remove_2 in N. apply N. apply in_or_app. left. rewrite <- E. now apply in_map. }
  rewrite F. replace (acc ++ (k, v) :: shard) with ((acc ++ [(k, v)]) ++ shard) in * by (rewrite <- app_assoc; reflexivity). now apply IH.
Qed.
Lemma NoDup_l {T} (l m : list T) : NoDup (l ++ m) -> NoDup l.
Proof. induction l; cbn; intros H; [constructor|]. inversion H; subst. constructor; [intros I; apply H2; apply in_or_app; now left|auto]. Qed.
Lemma merge_ok {A} (files : list (dict A)) : forall acc, NoDup (map fst (acc ++ concat files)) -> merge files acc = Some (acc ++ concat files).
Proof.
  induction files as [|f files IH]; intros acc N; cbn [merge concat] in *; [now rewrite app_nil_r|]. rewrite add_all_ok.
  - rewrite IH; [now rewrite app_assoc|]. now rewrite <- app_assoc.
  - rewrite app_assoc, map_app in N. now apply NoDup_l in N.
Qed.
Theorem C60_safetensors {A} dims t r (files : list (list (param A))) : files <> [] -> r < t -> NoDup (map name (concat files)) -> splittable dims t (concat files) ->
  safetensors_load dims t r (map whole_dict files) = Loaded (loaded dims t r (concat files)).
Proof.
  intros N R D S0. unfold safetensors_load. assert (E : concat (map whole_dict files) = whole_dict (concat files)) by (unfold whole_dict; symmetry; apply concat_map).
  rewrite merge_ok; cbn [app]; rewrite E.
  - destruct files; [contradiction|]. cbn [map]. now apply single_ok.
  - unfold whole_dict. rewrite map_map. exact D.
Qed.
Print Assumptions C60_safetensors.
Example C60_safetensors_example : NoDup (map name (concat [firstn 1 params3; skipn 1 params3])) /\
  safetensors_load dims3 2 1 [whole_dict (firstn 1 params3); whole_dict (skipn 1 params3)] = basic_load dims3 2 1 (whole_dict params3).
Proof. split; [repeat constructor; cbn; lia|reflexivity]. Qed.
(** A name in two files ends in an error before anything is loaded. *)
Theorem C60_duplicate {A} dims t r (files : list (dict A)) i j fi fj k : i < j -> nth_error files i = Some fi -> nth_error files j = Some fj -> In k (map fst fi) -> In k (map fst fj) ->
  safetensors_load dims t r files = Failed [] Corrupt.
Proof.
  intros L Ei Ej Ki Kj.
  assert (H1 : forall (f acc : dict A) acc', add_all f acc = Some acc' -> forall k, In k (map fst acc) \/ In k (map fst f) -> In k (map fst acc')).
  { induction f as [|[k0 v] f IH]; intros acc acc' E k' K'; cbn [add_all] in E; [injection E as <-; destruct K' as [K'|[]]; exact K'|].
    destruct (existsb _ acc); [discriminate E|]. apply IH with (k := k') in E; [exact E|]. rewrite map_app. cbn [map fst] in *. destruct K' as [K'|[K'|K']]; [left; apply in_or_app; now left|left; apply in_or_app; right; now left|now right]. }
  assert (H2 : forall (f acc : dict A) k, In k (map fst acc) -> In k (map fst f) -> add_all f acc = None).
  { induction f as [|[k0 v] f IH]; intros acc k' K1 K2; [destruct K2|]. cbn [add_all]. destruct (existsb (fun kv => fst kv =? k0) acc) eqn:X; [reflexivity|]. destruct K2 as [K2|K2].
    - cbn [fst] in K2. subst. exfalso. apply not_true_iff_false in X. apply X. apply in_map_iff in K1 as (y & Y & Y'). apply existsb_exists. exists y. split; [exact Y'|]. now apply Nat.eqb_eq.
    - apply IH with k'; [|exact K2]. rewrite map_app. apply in_or_app. now left. }
  assert (H3 : forall (fs : list (dict A)) acc j fj k, In k (map fst acc) -> nth_error fs j = Some fj -> In k (map fst fj) -> merge fs acc = None).
  { induction fs as [|f fs IH]; intros acc j' fj' k' K1 E K2; [destruct j'; discriminate E|]. cbn [merge]. destruct j' as [|j']; cbn [nth_error] in E.
    - injection E as ->. now rewrite (H2 fj' acc k').
    - destruct (add_all f acc) as [acc'|] eqn:X; [|reflexivity]. apply IH with j' fj' k'; [|exact E|exact K2]. apply (H1 _ _ _ X). now left. }
  assert (H4 : forall (fs : list (dict A)) acc i j, i < j -> nth_error fs i = Some fi -> nth_error fs j = Some fj -> merge fs acc = None).
  { induction fs as [|f fs IH]; intros acc i' j' L' E1 E2; [destruct i'; discriminate E1|]. cbn [merge]. destruct (add_all f acc) as [acc'|] eqn:X; [|reflexivity].
    destruct j' as [|j']; [lia|]. cbn [nth_error] in E2. destruct i' as [|i']; cbn [nth_error] in E1.
    - injection E1 as ->. apply H3 with j' fj k; [|exact E2|exact Kj]. apply (H1 _ _ _ X). now right.
    - apply IH with i' j'; [lia|exact E1|exact E2]. }
  unfold safetensors_load. rewrite (H4 files [] i j L Ei Ej). destruct files; reflexivity.
Qed.
Print Assumptions C60_duplicate.
Example C60_duplicate_example : safetensors_load dims3 2 1 [whole_dict params3; whole_dict (skipn 3 params3)] = Failed [] Corrupt.
Proof. reflexivity. Qed.

(** ** The shards that are loaded are those of the sharded modules *)
Definition column {A} (v : list A) : mat A := Mat 1 (map (fun x => [x]) v).
Lemma size_pos {A} (m : mat A) t k r d : d < 2 -> r < t -> 0 < k -> size_of d m = t * k -> divisible (Some d) 1 t m.
Proof. intros D R K E. split; [exact D|]. split; [nia|]. split; [exists (size_of d m); lia|exists k; exact E]. Qed.
(** get_shard_dims of the four modules: dimension 0 for both parameters of column-sharded projections and for vocabulary-sharded embeddings,
    dimension 1 for the weight of row-sharded projections and for sharded embeddings. *)
Theorem C60_column_linear {A} (l : lin A) b t k r ls l' : Shard_Linear.linear_ok l -> bias l = Some b -> height (weight l) = t * k -> 0 < k ->
  column_from_linear t l = Ok ls -> nth_error ls r = Some l' ->
  exists b', bias l' = Some b' /\ basic_load (fun _ => Some 0) t r [(1, (1, Some (weight l))); (2, (2, Some (column b)))] = Loaded [(1, weight l'); (2, column b')].
Proof.
  intros Ok' B E K C N. assert (R : r < length ls) by (apply nth_error_Some; congruence).
  assert (T : 0 < t) by (destruct t as [|t']; [unfold column_from_linear in C; cbn in C; injection C as <-; cbn in R|]; lia).
  rewrite (Shard_Linear.column_shards t k) in C by assumption. injection C as <-. rewrite map_length, seq_length in R.
  rewrite (nth_error_nth' _ (Shard_Linear.column_part k 0 l)) in N by now rewrite map_length, seq_length. rewrite (map_nth (fun r => Shard_Linear.column_part k r l)), seq_nth in N by exact R. injection N as <-.
  exists (block k r b). cbn [Nat.add]. unfold Shard_Linear.column_part. cbn [bias weight]. rewrite B. split; [reflexivity|].
  destruct Ok' as [Te Lb]. rewrite B in Lb.
  pose proof (C60_basic (fun _ => Some 0) t r [Param 1 1 (weight l) true; Param 2 2 (column b) true] R) as X. unfold whole_dict in X. cbn [map name object whole] in X. rewrite X.
  - unfold loaded. cbn [first_uses object in_dec map name whole target size_of shard]. cbn. unfold row_block, column, height. cbn [width rows]. rewrite map_length, Lb. unfold height in *. rewrite E. rewrite div_exact by exact T. now rewrite <- block_map.
  - intros p [<-|[<-|[]]]; cbn [whole].
    + split; [exact Te|]. apply (size_pos _ t k r); try assumption; lia.
    + split; [apply Forall_map, Forall_forall; reflexivity|]. apply (size_pos _ t k r); try assumption; [lia|]. unfold size_of, height, column. cbn [rows]. rewrite map_length, Lb. exact E.
Qed.
Print Assumptions C60_column_linear.
Example C60_column_linear_example : exists ls l', column_from_linear 2 Shard_Linear.lin4 = Ok ls /\ nth_error ls 1 = Some l' /\ bias l' = Some [300; 400]%Z /\
  basic_load (fun _ => Some 0) 2 1 [(1, (1, Some (weight Shard_Linear.lin4))); (2, (2, Some (column [100; 200; 300; 400]%Z)))] = Loaded [(1, weight l'); (2, column [300; 400]%Z)].
Proof. do 2 eexists. split; [reflexivity|]. split; [reflexivity|]. split; reflexivity. Qed.
Lemma nth_map_seq {T} (f : nat -> T) n r x : nth_error (map f (seq 0 n)) r = Some x -> r < n /\ x = f r.
Proof.
  intros N. assert (R : r < n) by (rewrite <- (seq_length n 0), <- (map_length f); apply nth_error_Some; congruence). split; [exact R|].
  rewrite (nth_error_nth' _ (f 0)) in N by now rewrite map_length, seq_length. rewrite map_nth, seq_nth in N by exact R. now injection N as <-.
Qed.
Theorem C60_row_linear {A} (l : lin A) b t k r ls l' : tensor (weight l) -> bias l = Some b -> width (weight l) = t * k -> 0 < k -> 0 < t ->
  row_from_linear t l = Ok ls -> nth_error ls r = Some l' ->
  bias l' = Some b /\ basic_load (fun key => if key =? 1 then Some 1 else None) t r [(1, (1, Some (weight l))); (2, (2, Some (column b)))] = Loaded [(1, weight l'); (2, column b)].
Proof.
  intros Te B E K T C N. rewrite (Shard_Linear.row_shards t k) in C by assumption. injection C as <-. apply nth_map_seq in N as [R ->].
  unfold Shard_Linear.row_part. cbn [bias weight]. split; [exact B|].
  pose proof (C60_basic (fun key => if key =? 1 then Some 1 else None) t r [Param 1 1 (weight l) true; Param 2 2 (column b) true] R) as X. unfold whole_dict in X. cbn [map name object whole] in X. rewrite X.
  - unfold loaded. cbn. rewrite E, div_exact by exact T. reflexivity.
  - intros p [<-|[<-|[]]]; cbn [whole name Nat.eqb].
    + split; [exact Te|]. apply (size_pos _ t k r); try assumption; lia.
    + split; [apply Forall_map, Forall_forall; reflexivity|exact Logic.I].
Qed.
Print Assumptions C60_row_linear.
Example C60_row_linear_example : exists ls l', row_from_linear 2 Shard_Linear.lin24 = Ok ls /\ nth_error ls 1 = Some l' /\ weight l' = Mat 2%nat [[3; 4]; [7; 8]]%Z /\ width (weight Shard_Linear.lin24) = 2 * 2.
Proof. do 2 eexists. split; [reflexivity|]. split; [reflexivity|]. split; reflexivity. Qed.
Theorem C60_embeddings {A} (e : embed A) t k r : tensor (table e) -> 0 < k -> r < t ->
  (height (table e) = t * k -> forall ws w, vocab_from_embedding t e = Ok ws -> nth_error ws r = Some w -> basic_load (fun _ => Some 0) t r [(1, (1, Some (table e)))] = Loaded [(1, w)]) /\
  (width (table e) = t * k -> forall ws w, dim_from_embedding t e = Ok ws -> nth_error ws r = Some w -> basic_load (fun _ => Some 1) t r [(1, (1, Some (table e)))] = Loaded [(1, w)]).
Proof.
  intros Te K R. assert (G : forall d, d < 2 -> size_of d (table e) = t * k -> basic_load (fun _ => Some d) t r [(1, (1, Some (table e)))] = Loaded [(1, shard d k r (table e))]).
  { intros d D E. pose proof (C60_basic (fun _ => Some d) t r [Param 1 1 (table e) true] R) as X. unfold whole_dict in X. cbn [map name object whole] in X. rewrite X.
    - unfold loaded. cbn [first_uses object]. destruct (in_dec Nat.eq_dec 1 []) as [[]|_]. cbn [map name whole target]. rewrite E, div_exact by lia. reflexivity.
    - intros p [<-|[]]. split; [exact Te|]. now apply (size_pos _ t k r). }
  split; intros E ws w C N.
  - rewrite (Shard_Props.vocab_shards t k) in C by (assumption || lia). injection C as <-. apply nth_map_seq in N as [_ ->]. apply (G 0); [lia|exact E].
  - rewrite (Shard_Props.dim_shards t k) in C by (assumption || lia). injection C as <-. apply nth_map_seq in N as [_ ->]. apply (G 1); [lia|exact E].
Qed.
Print Assumptions C60_embeddings.
Example C60_embeddings_example : tensor Shard_Props.table4 /\ exists ws, vocab_from_embedding 2 (Embed Shard_Props.table4 None) = Ok ws /\ nth_error ws 1 = Some (Mat 2%nat [[5; 6]; [7; 8]]%Z).
Proof. split; [repeat constructor|]. eexists. split; reflexivity. Qed.
