From Coq Require Import List Bool Arith ZArith Lia Sorted Permutation.
From Verif Require Import Gang_Model Gang_Spec Gang_Proofs.
Import ListNotations.

(** A gang of process [me] as the other functions make them. *)
Definition sound (me : nat) (g : gang) : Prop := match g with Fake r n => r < n | Pg w m me' => me' = me /\ NoDup m /\ In me m /\ (w = true -> exists n, m = seq 0 n) end.
Definition world (g : gang) : Prop := match g with Fake _ _ => True | Pg w _ _ => w = true end.

Lemma index_lt me l : In me l -> index_of me l < length l.
Proof. induction l as [|y l IH]; intros H; [destruct H|]. simpl. destruct (Nat.eqb_spec me y); [lia|]. destruct H; [congruence|]. specialize (IH H). lia. Qed.
Lemma nth_index me l : In me l -> nth (index_of me l) l 0 = me.
Proof. induction l as [|y l IH]; intros H; [destruct H|]. simpl. destruct (Nat.eqb_spec me y); [auto|]. destruct H; [congruence|auto]. Qed.
Lemma sound_rank me g : sound me g -> grank g < gsize g.
Proof. destruct g as [r n|w m me']; simpl; [auto|]. intros (-> & _ & I & _). apply index_lt, I. Qed.
Lemma sound_flat me g : sound me g -> world g -> flat g.
Proof. destruct g as [r n|w m me']; simpl; [auto|]. intros (-> & _ & I & K) ->. split; [reflexivity|]. destruct (K eq_refl) as (n & ->). exists n. split; [reflexivity|]. apply in_seq in I. lia. Qed.
Lemma sound_buildable me cuda g : sound me g -> (cuda = true \/ world g) -> buildable cuda g.
Proof.
  intros S [->|W]; [|left; eapply sound_flat; eassumption]. destruct g as [r n|w m me']; [left; exact S|]. right. split; [reflexivity|]. destruct S as (-> & N & I & _). exists w, m, me. auto.
Qed.

(** What [build] gives for the group [s] of this process. *)
Definition built (me : nat) (parent : gang) (s : list nat) (g : gang) : Prop :=
  gsize g = length s /\ grank g = index_of (grank parent) s /\ sound me g /\
  match parent with
  | Fake _ _ => exists k n, g = Fake k n
  | Pg _ m _ => members me g = map (fun i => nth i m 0) s /\ (length s <> 1 -> exists w l, g = Pg w l me)
  end.
Lemma full_sorted s n : StronglySorted lt s -> (forall x, In x s -> x < n) -> length s = n -> s = seq 0 n.
Proof.
  intros S B L. apply sorted_ext; [exact S|apply sorted_seq|]. intros x. split; [intros H; apply in_seq; specialize (B x H); lia|].
  assert (I : incl s (seq 0 n)) by (intros y Hy; apply in_seq; specialize (B y Hy); lia).
  apply (NoDup_length_incl (sorted_NoDup _ S)); [rewrite seq_length; lia|exact I].
Qed.
Lemma map_nth_all (m : list nat) : map (fun i => nth i m 0) (seq 0 (length m)) = m.
Proof.
  apply nth_ext with (d := 0) (d' := 0); [rewrite map_length, seq_length; reflexivity|]. intros i Hi. rewrite map_length, seq_length in Hi.
  rewrite nth_indep with (d' := nth 0 m 0) by (rewrite map_length, seq_length; exact Hi).
  change (nth 0 m 0) with ((fun i => nth i m 0) 0). rewrite map_nth, seq_nth by exact Hi. reflexivity.
Qed.
Lemma NoDup_map_nth (m s : list nat) : NoDup m -> NoDup s -> (forall x, In x s -> x < length m) -> NoDup (map (fun i => nth i m 0) s).
Proof.
  intros N. induction 1 as [|x s Nx Ns IH]; intros B; simpl; constructor.
  - rewrite in_map_iff. intros (y & E & Hy). rewrite NoDup_nth in N. assert (y = x) by (apply N; [apply B; right; exact Hy|apply B; left; reflexivity|exact E]). congruence.
  - apply IH. intros; apply B; right; assumption.
Qed.
Lemma build_gang me cuda g groups coord s : sound me g -> (cuda = true \/ world g) ->
  Forall (fun s => StronglySorted lt s /\ forall x, In x s -> x < gsize g) groups -> nth_error groups coord = Some s -> In (grank g) s ->
  (forall j s', nth_error groups j = Some s' -> In (grank g) s' -> j = coord) ->
  exists g' cs, build cuda (Fake 0 1) g (length s) groups coord = (cs, Ok g') /\ built me g s g' /\
    cs = if Nat.eqb (length s) 1 then [] else if Nat.eqb (length s) (gsize g) then []
         else if cuda && supports_pg g then [SplitGroup (members 0 g) groups] else match g with Fake _ _ => [] | _ => map NewGroup groups end.
Proof.
  intros Hs Hc HF E I U. assert (HS := HF). rewrite Forall_forall in HS. destruct (HS s (nth_error_In _ _ E)) as [S B]. clear HS.
  pose proof (sound_rank me g Hs) as R.
  destruct (Nat.eqb_spec (length s) 1) as [L1|L1].
  { unfold build. rewrite L1. simpl Nat.eqb. cbn iota. do 2 eexists. split; [reflexivity|]. split; [|reflexivity].
    destruct s as [|x [|y s]]; try discriminate L1. destruct I as [->|[]]. unfold built. split; [reflexivity|]. split; [simpl; rewrite Nat.eqb_refl; reflexivity|]. split; [simpl; lia|].
    destruct g as [r n|w m me']; [eauto|]. destruct Hs as (-> & N & IM & _). simpl. rewrite nth_index by exact IM. split; [reflexivity|]. intros K. exfalso. apply K. reflexivity. }
  destruct (Nat.eqb_spec (length s) (gsize g)) as [L2|L2].
  { unfold build. destruct (Nat.eqb_spec (length s) 1) as [X1|X1]; [lia|]. destruct (Nat.eqb_spec (length s) (gsize g)) as [X2|X2]; [|lia]. do 2 eexists. split; [reflexivity|]. split; [|reflexivity].
    assert (Es : s = seq 0 (gsize g)) by (apply full_sorted; assumption). unfold built. split; [auto|]. split; [rewrite Es, index_seq; auto|]. split; [exact Hs|].
    destruct g as [r n|w m me']; [eauto|]. simpl. simpl in Es. rewrite Es, map_nth_all. destruct Hs as (-> & _). split; [reflexivity|]. intros _. eauto. }
  destruct (build_ok cuda (Fake 0 1) g (length s) groups coord s (sound_buildable _ _ _ Hs Hc) L1 L2 HF E I U) as (g' & cs & E' & SG & C).
  exists g', cs. split; [exact E'|]. split; [|exact C]. unfold built. destruct g as [r n|w m me'].
  - unfold sub_gang in SG. subst g'. simpl. split; [reflexivity|]. split; [reflexivity|]. split; [apply index_lt, I|eauto].
  - unfold sub_gang in SG. subst g'. destruct Hs as (-> & N & IM & _). simpl in *. rewrite map_length. split; [reflexivity|]. split; [apply index_map_sub; assumption|].
    split; [|split; [reflexivity|eauto]]. split; [reflexivity|]. split; [apply NoDup_map_nth; [exact N|apply sorted_NoDup, S|exact B]|]. split; [|discriminate].
    apply in_map_iff. exists (index_of me m). split; [apply nth_index, IM|exact I].
Qed.

(** The two dimensions of a mesh over the parent. *)
Lemma nth_mapseq {A} (f : nat -> A) n i : i < n -> nth_error (map f (seq 0 n)) i = Some (f i).
Proof. intros H. rewrite nth_error_map. rewrite (nth_error_nth' _ 0) by (rewrite seq_length; exact H). rewrite seq_nth by exact H. reflexivity. Qed.
Lemma nth_mapseq_inv {A} (f : nat -> A) n i x : nth_error (map f (seq 0 n)) i = Some x -> i < n /\ x = f i.
Proof. intros H. assert (L : i < n). { assert (K : nth_error (map f (seq 0 n)) i <> None) by congruence. apply nth_error_Some in K. rewrite map_length, seq_length in K. exact K. } split; [exact L|]. rewrite nth_mapseq in H by exact L. congruence. Qed.

Definition calls_of (cuda : bool) (g : gang) (size : nat) (groups : list (list nat)) : list call :=
  if Nat.eqb size 1 then [] else if Nat.eqb size (gsize g) then []
  else if cuda && supports_pg g then [SplitGroup (members 0 g) groups] else match g with Fake _ _ => [] | _ => map NewGroup groups end.
Lemma build_cols me cuda g r c : sound me g -> (cuda = true \/ world g) -> gsize g = r * c ->
  exists g', build cuda (Fake 0 1) g r (mesh_cols r c) (snd (coords r c (grank g))) = (calls_of cuda g r (mesh_cols r c), Ok g') /\
    built me g (mesh_col r c (grank g mod c)) g' /\ grank g' = grank g / c.
Proof.
  intros Hs Hc E. pose proof (sound_rank _ _ Hs) as R. rewrite E in R. assert (1 <= c) by nia. pose proof (Nat.mod_upper_bound (grank g) c ltac:(lia)) as M.
  rewrite coords_ok by exact R. simpl snd.
  destruct (build_gang me cuda g (mesh_cols r c) (grank g mod c) (mesh_col r c (grank g mod c)) Hs Hc) as (g' & cs & B & K & C).
  - apply Forall_forall. intros s Hs'. apply in_map_iff in Hs'. destruct Hs' as (j & <- & Hj). apply in_seq in Hj. split; [apply sorted_col; lia|]. intros x Hx. apply in_col in Hx; lia.
  - apply nth_mapseq, M.
  - apply in_col; auto.
  - intros j s' N I. apply nth_mapseq_inv in N. destruct N as [L ->]. apply in_col in I; lia.
  - rewrite col_length in B, C. exists g'. rewrite B. split; [rewrite C; reflexivity|]. split; [exact K|]. destruct K as (_ & K & _). rewrite K. apply index_col, R.
Qed.
Lemma build_rows me cuda g r c : sound me g -> (cuda = true \/ world g) -> gsize g = r * c ->
  exists g', build cuda (Fake 0 1) g c (mesh_rows r c) (fst (coords r c (grank g))) = (calls_of cuda g c (mesh_rows r c), Ok g') /\
    built me g (mesh_row c (grank g / c)) g' /\ grank g' = grank g mod c.
Proof.
  intros Hs Hc E. pose proof (sound_rank _ _ Hs) as R. rewrite E in R. assert (1 <= c) by nia.
  assert (M : grank g / c < r) by (apply Nat.div_lt_upper_bound; lia).
  rewrite coords_ok by exact R. simpl fst.
  destruct (build_gang me cuda g (mesh_rows r c) (grank g / c) (mesh_row c (grank g / c)) Hs Hc) as (g' & cs & B & K & C).
  - apply Forall_forall. intros s Hs'. apply in_map_iff in Hs'. destruct Hs' as (j & <- & Hj). apply in_seq in Hj. split; [apply sorted_row|]. intros x Hx. unfold mesh_row in Hx. apply in_map_iff in Hx. destruct Hx as (i & <- & Hi). apply in_seq in Hi. nia.
  - apply nth_mapseq, M.
  - apply in_row; auto.
  - intros j s' N I. apply nth_mapseq_inv in N. destruct N as [L ->]. apply in_row in I; lia.
  - rewrite row_length in B, C. exists g'. rewrite B. split; [rewrite C; reflexivity|]. split; [exact K|]. destruct K as (_ & K & _). rewrite K. apply index_row. lia.
Qed.

(** create_parallel_gangs *)
Lemma parallel_gen me cuda root t : sound me root -> world root -> 1 <= t -> gsize root mod t = 0 ->
  let d := gsize root / t in
  exists g, create_parallel_gangs cuda root t = (calls_of cuda root d (mesh_cols d t) ++ calls_of cuda root t (mesh_rows d t), Ok g) /\
    Gang_Model.root g = root /\ pp g = Fake 0 1 /\ sdp g = Fake 0 1 /\ rdp g = dp g /\
    built me root (mesh_col d t (grank root mod t)) (dp g) /\ grank (dp g) = grank root / t /\
    built me root (mesh_row t (grank root / t)) (tp g) /\ grank (tp g) = grank root mod t.
Proof.
  intros Hs Hw Ht Hm d. assert (E : gsize root = d * t). { unfold d. pose proof (Nat.div_mod (gsize root) t ltac:(lia)). lia. }
  destruct (build_cols me cuda root d t Hs (or_intror Hw) E) as (g1 & B1 & K1 & R1). destruct (build_rows me cuda root d t Hs (or_intror Hw) E) as (g2 & B2 & K2 & R2).
  unfold create_parallel_gangs. destruct (Nat.ltb_spec t 1); [lia|]. rewrite Hm. simpl negb. cbn iota. fold d. rewrite B1, B2. exists (Gangs root g1 g1 (Fake 0 1) g2 (Fake 0 1)).
  split; [|cbn [Gang_Model.root dp tp pp sdp rdp]; auto 10].
  unfold make_gangs. cbn [Gang_Model.root dp tp pp sdp rdp]. destruct (Nat.eqb_spec (grank root) 0) as [Z|Z]; [|reflexivity]. rewrite R1, R2, Z, Nat.div_0_l, Nat.mod_0_l by lia. reflexivity.
Qed.

(** create_fsdp_gangs *)
Lemma fsdp_gen me cuda g k : sound me (dp g) -> (cuda = true \/ world (dp g)) -> 2 <= k -> gsize (dp g) mod k = 0 ->
  (grank (root g) = 0 -> grank (dp g) = 0 /\ grank (tp g) = 0) ->
  let d := gsize (dp g) / k in
  exists g', create_fsdp_gangs cuda g (Some k) = (calls_of cuda (dp g) d (mesh_cols d k) ++ calls_of cuda (dp g) k (mesh_rows d k), Ok g') /\
    root g' = root g /\ dp g' = dp g /\ tp g' = tp g /\ pp g' = pp g /\
    built me (dp g) (mesh_col d k (grank (dp g) mod k)) (rdp g') /\ grank (rdp g') = grank (dp g) / k /\
    built me (dp g) (mesh_row k (grank (dp g) / k)) (sdp g') /\ grank (sdp g') = grank (dp g) mod k.
Proof.
  intros Hs Hw Hk Hm H0 d. assert (E : gsize (dp g) = d * k). { unfold d. pose proof (Nat.div_mod (gsize (dp g)) k ltac:(lia)). lia. }
  destruct (build_cols me cuda (dp g) d k Hs Hw E) as (g1 & B1 & K1 & R1). destruct (build_rows me cuda (dp g) d k Hs Hw E) as (g2 & B2 & K2 & R2).
  unfold create_fsdp_gangs. destruct (Nat.leb_spec k 1); [lia|]. rewrite Hm. simpl negb. cbn iota. fold d. rewrite B1, B2. exists (Gangs (root g) (dp g) g1 g2 (tp g) (pp g)).
  split; [|cbn [Gang_Model.root dp tp pp sdp rdp]; auto 12].
  unfold make_gangs. cbn [Gang_Model.root dp tp pp sdp rdp]. destruct (Nat.eqb_spec (grank (root g)) 0) as [Z|Z]; [|reflexivity]. destruct (H0 Z) as [-> ->]. reflexivity.
Qed.

(** Scopes *)
Section S.
  Variable dev : nat -> nat.
  Variable fake_gangs : nat -> nat.
  Definition matches (m : mgr) (defs env : nat -> option nat) : Prop := forall d, defaults m d = defs d /\ hd_error (stacks m d) = env d.
  Lemma run_scoped p : forall m defs env, matches m defs env ->
    let '(m', o, ok) := run dev fake_gangs p m in
    let '(defs', o', ok') := scoped dev fake_gangs p defs env in
    o = o' /\ ok = ok' /\ (forall d, stacks m' d = stacks m d) /\ forall d, defaults m' d = defs' d.
  Proof.
    induction p as [| |d k IH|g meta k IH|g meta b IHb k IHk]; intros m defs env M; simpl.
    - split; [reflexivity|]. split; [reflexivity|]. split; [reflexivity|]. intros d; apply M.
    - split; [reflexivity|]. split; [reflexivity|]. split; [reflexivity|]. intros d; apply M.
    - specialize (IH m defs env M). destruct (run _ _ k m) as [[m' o] ok]. destruct (scoped _ _ k defs env) as [[defs' o'] ok']. destruct IH as (-> & -> & A & B). split; [|auto].
      f_equal. unfold get_current, resolve, get_default. destruct (M d) as [M1 M2]. rewrite <- M2, <- M1. destruct (stacks m d); reflexivity.
    - specialize (IH (set_default dev m g meta) (bind dev defs g meta) env).
      destruct (run _ _ k _) as [[m' o] ok]. destruct (scoped _ _ k _ env) as [[defs' o'] ok']. destruct IH as (-> & -> & A & B); [|auto].
      intros d. destruct (M d) as [M1 M2]. split; [|exact M2]. unfold set_default, bind, upd. simpl. destruct meta; simpl.
      + destruct (Nat.eqb d META); [rewrite orb_true_r; reflexivity|]. rewrite orb_false_r. destruct (Nat.eqb d (dev g)); [reflexivity|exact M1].
      + rewrite orb_false_r. destruct (Nat.eqb d (dev g)); [reflexivity|exact M1].
    - specialize (IHb (push dev m g meta) defs (bind dev env g meta)).
      destruct (run _ _ b _) as [[m1 o1] ok1]. destruct (scoped _ _ b _ _) as [[defs1 o1'] ok1']. destruct IHb as (-> & -> & A & B).
      { intros d. destruct (M d) as [M1 M2]. split; [exact M1|]. unfold push, bind, upd. simpl. destruct meta; simpl.
        + destruct (Nat.eqb d META); [rewrite orb_true_r; reflexivity|]. rewrite orb_false_r. destruct (Nat.eqb d (dev g)); [reflexivity|exact M2].
        + rewrite orb_false_r. destruct (Nat.eqb d (dev g)); [reflexivity|exact M2]. }
      assert (P : forall d, stacks (pop m1 (dev g) meta) d = stacks m d).
      { intros d. unfold pop, push, upd in *. cbn [stacks] in *. generalize META A. intros Me A'. clear A. destruct meta.
        - pose proof (A' d) as Ad. pose proof (A' (dev g)) as Ag. pose proof (A' Me) as Am. rewrite Nat.eqb_refl in Ag, Am.
          destruct (Nat.eqb_spec d Me) as [E1|N1]; destruct (Nat.eqb_spec Me (dev g)) as [E2|N2].
          + rewrite <- E2 in Ag. rewrite ?Nat.eqb_refl in *. rewrite <- E2, Ag, E1. reflexivity.
          + rewrite Am, E1. reflexivity.
          + destruct (Nat.eqb_spec d (dev g)); [congruence|]. exact Ad.
          + destruct (Nat.eqb_spec d (dev g)) as [->|N3]; [|exact Ad]. rewrite Ag. destruct (Nat.eqb_spec (dev g) Me); [congruence|reflexivity].
        - pose proof (A' d) as Ad. pose proof (A' (dev g)) as Ag. rewrite Nat.eqb_refl in Ag. rewrite Ag, Ad. destruct (Nat.eqb_spec d (dev g)) as [->|N3]; reflexivity. }
      destruct ok1'.
      + specialize (IHk (pop m1 (dev g) meta) defs1 env). destruct (run _ _ k _) as [[m3 o3] ok3]. destruct (scoped _ _ k _ _) as [[defs3 o3'] ok3']. destruct IHk as (-> & -> & A' & B').
        { intros d. split; [rewrite <- B; unfold pop; reflexivity|]. rewrite P. apply M. }
        split; [reflexivity|]. split; [reflexivity|]. split; [|exact B']. intros d. rewrite A'. apply P.
      + split; [reflexivity|]. split; [reflexivity|]. split; [exact P|]. intros d. rewrite <- B. reflexivity.
  Qed.
End S.
