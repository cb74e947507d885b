From Coq Require Import List Bool Arith ZArith Lia Sorted Permutation.
From Verif Require Import Gang_Model Gang_Spec.
Import ListNotations.

Lemma mem_iff x l : mem x l = true <-> In x l.
Proof. unfold mem. rewrite existsb_exists. split; [intros (y & H & E); apply Nat.eqb_eq in E; subst; exact H|intros H; exists x; split; [exact H|apply Nat.eqb_refl]]. Qed.
Lemma has_dup_false l : has_dup l = false <-> NoDup l.
Proof.
  induction l as [|x l IH]; simpl; [split; [constructor|reflexivity]|]. rewrite orb_false_iff, IH. split.
  - intros [A B]. constructor; [|exact B]. rewrite <- mem_iff, A. discriminate.
  - intros H. inversion H; subst. split; [|assumption]. destruct (mem x l) eqn:E; [|reflexivity]. apply mem_iff in E. tauto.
Qed.
Lemma sorted_insert_id x l : Forall (fun y => x <= y) l -> insert x l = x :: l.
Proof. destruct l as [|y l]; intros H; simpl; [reflexivity|]. inversion H; subst. destruct (Nat.leb_spec x y); [reflexivity|lia]. Qed.
Lemma sort_id l : StronglySorted lt l -> sort l = l.
Proof. induction 1 as [|x l S IH F]; simpl; [reflexivity|]. rewrite IH. apply sorted_insert_id. eapply Forall_impl; [|exact F]. simpl. lia. Qed.

(** Ascending lists *)
Lemma sorted_map_mono (f : nat -> nat) l : (forall x y, x < y -> f x < f y) -> StronglySorted lt l -> StronglySorted lt (map f l).
Proof. intros H. induction 1 as [|x l S IH F]; simpl; constructor; auto. rewrite Forall_map. eapply Forall_impl; [|exact F]. intros a Ha. apply H, Ha. Qed.
Lemma sorted_seq n : forall a, StronglySorted lt (seq a n).
Proof. induction n as [|n IH]; intros a; simpl; constructor; auto. apply Forall_forall. intros x Hx. apply in_seq in Hx. lia. Qed.
Lemma sorted_filter (f : nat -> bool) l : StronglySorted lt l -> StronglySorted lt (filter f l).
Proof. induction 1 as [|x l S IH F]; simpl; [constructor|]. destruct (f x); [|exact IH]. constructor; [exact IH|]. rewrite Forall_forall in *. intros y Hy. apply filter_In in Hy. apply F, Hy. Qed.
Lemma sorted_ext l1 l2 : StronglySorted lt l1 -> StronglySorted lt l2 -> (forall x, In x l1 <-> In x l2) -> l1 = l2.
Proof.
  intros S1. revert l2. induction S1 as [|x l1 S1 IH F1]; intros l2 S2 E.
  - destruct l2 as [|y l2]; [reflexivity|]. destruct (proj2 (E y)). left; reflexivity.
  - destruct S2 as [|y l2 S2 F2]; [destruct (proj1 (E x)); left; reflexivity|]. rewrite Forall_forall in F1, F2.
    assert (x = y). { destruct (proj1 (E x) (or_introl eq_refl)) as [K|K]; [auto|]. destruct (proj2 (E y) (or_introl eq_refl)) as [K'|K']; [auto|]. specialize (F1 _ K'). specialize (F2 _ K). lia. }
    subst y. f_equal. apply IH; [exact S2|]. intros z. split; intros Hz.
    + destruct (proj1 (E z) (or_intror Hz)) as [<-|K]; [specialize (F1 _ Hz); lia|exact K].
    + destruct (proj2 (E z) (or_intror Hz)) as [<-|K]; [specialize (F2 _ Hz); lia|exact K].
Qed.
Lemma sorted_NoDup l : StronglySorted lt l -> NoDup l.
Proof. induction 1 as [|x l S IH F]; constructor; auto. intros H. rewrite Forall_forall in F. specialize (F x H). lia. Qed.

(** The mesh *)
Lemma divmod i j c : j < c -> (i * c + j) / c = i /\ (i * c + j) mod c = j.
Proof. intros H. split; [rewrite Nat.div_add_l, (Nat.div_small j) by lia; lia|]. rewrite Nat.add_comm, Nat.mod_add by lia. apply Nat.mod_small, H. Qed.
Lemma sorted_row c i : StronglySorted lt (mesh_row c i).
Proof. apply sorted_map_mono; [intros; lia|apply sorted_seq]. Qed.
Lemma sorted_col r c j : 1 <= c -> StronglySorted lt (mesh_col r c j).
Proof. intros H. apply sorted_map_mono; [intros; nia|apply sorted_seq]. Qed.
Lemma in_row c i x : 1 <= c -> (In x (mesh_row c i) <-> x / c = i).
Proof.
  intros H. unfold mesh_row. rewrite in_map_iff. split.
  - intros (j & <- & Hj). apply in_seq in Hj. apply divmod. lia.
  - intros <-. exists (x mod c). split; [|apply in_seq; pose proof (Nat.mod_upper_bound x c ltac:(lia)); lia]. pose proof (Nat.div_mod x c ltac:(lia)). lia.
Qed.
Lemma in_col r c j x : j < c -> (In x (mesh_col r c j) <-> x < r * c /\ x mod c = j).
Proof.
  intros H. unfold mesh_col. rewrite in_map_iff. split.
  - intros (i & <- & Hi). apply in_seq in Hi. split; [nia|]. apply divmod, H.
  - intros [A B]. exists (x / c). split; [pose proof (Nat.div_mod x c ltac:(lia)); lia|]. apply in_seq. split; [lia|]. simpl. apply Nat.div_lt_upper_bound; lia.
Qed.
Lemma row_those r c i : 1 <= c -> i < r -> mesh_row c i = those (r * c) (fun q => Nat.eqb (q / c) i).
Proof.
  intros H Hi. apply sorted_ext; [apply sorted_row|apply sorted_filter, sorted_seq|]. intros x. unfold those. rewrite in_row, filter_In, in_seq, Nat.eqb_eq by lia. split; [|tauto].
  intros E. split; [|exact E]. pose proof (Nat.div_mod x c ltac:(lia)). pose proof (Nat.mod_upper_bound x c ltac:(lia)). nia.
Qed.
Lemma col_those r c j : j < c -> mesh_col r c j = those (r * c) (fun q => Nat.eqb (q mod c) j).
Proof.
  intros H. apply sorted_ext; [apply sorted_col; lia|apply sorted_filter, sorted_seq|]. intros x. unfold those. rewrite in_col, filter_In, in_seq, Nat.eqb_eq by lia. simpl. intuition lia.
Qed.
Lemma coords_ok r c x : x < r * c -> coords r c x = (x / c, x mod c).
Proof.
  intros H. assert (C : 1 <= c) by nia. unfold coords.
  assert (I : In (x / c, x mod c) (filter (fun ij => Nat.eqb (fst ij * c + snd ij) x) (list_prod (seq 0 r) (seq 0 c)))).
  { apply filter_In. pose proof (Nat.div_mod x c ltac:(lia)). pose proof (Nat.mod_upper_bound x c ltac:(lia)). split; [|apply Nat.eqb_eq; simpl; lia].
    apply in_prod; apply in_seq; split; try lia. simpl. apply Nat.div_lt_upper_bound; lia. }
  destruct (filter _ _) as [|[i j] l] eqn:E; [destruct I|]. assert (K : In (i, j) (filter (fun ij => Nat.eqb (fst ij * c + snd ij) x) (list_prod (seq 0 r) (seq 0 c)))) by (rewrite E; left; reflexivity).
  apply filter_In in K. destruct K as [K1 K2]. apply in_prod_iff in K1. destruct K1 as [_ K1]. apply in_seq in K1. apply Nat.eqb_eq in K2. simpl in K2.
  destruct (divmod i j c ltac:(lia)) as [A B]. rewrite <- K2, A, B. reflexivity.
Qed.
Lemma index_map (f : nat -> nat) k l a : (forall x y, f x = f y -> x = y) -> k < l -> index_of (f (a + k)) (map f (seq a l)) = k.
Proof.
  intros I. revert a k. induction l as [|l IH]; intros a k H; [lia|]. simpl. destruct (Nat.eqb_spec (f (a + k)) (f a)) as [E|E].
  - apply I in E. lia.
  - destruct k as [|k]; [rewrite Nat.add_0_r in E; congruence|]. f_equal. replace (a + S k) with (S a + k) by lia. apply IH. lia.
Qed.
Lemma index_row c x : 1 <= c -> index_of x (mesh_row c (x / c)) = x mod c.
Proof.
  intros H. pose proof (Nat.div_mod x c ltac:(lia)) as E. pose proof (Nat.mod_upper_bound x c ltac:(lia)). unfold mesh_row.
  assert (K := index_map (fun j => x / c * c + j) (x mod c) c 0 ltac:(cbv beta; intros; lia) ltac:(lia)). simpl in K. replace (x / c * c + x mod c) with x in K by lia. exact K.
Qed.
Lemma index_col r c x : x < r * c -> index_of x (mesh_col r c (x mod c)) = x / c.
Proof.
  intros H. assert (1 <= c) by nia. pose proof (Nat.div_mod x c ltac:(lia)) as E. pose proof (Nat.mod_upper_bound x c ltac:(lia)). unfold mesh_col.
  assert (L : x / c < r) by (apply Nat.div_lt_upper_bound; lia).
  assert (K := index_map (fun i => i * c + x mod c) (x / c) r 0 ltac:(cbv beta; intros; nia) L). simpl in K. replace (x / c * c + x mod c) with x in K by lia. exact K.
Qed.
Lemma row_length c i : length (mesh_row c i) = c.
Proof. unfold mesh_row. rewrite map_length, seq_length. reflexivity. Qed.
Lemma col_length r c j : length (mesh_col r c j) = r.
Proof. unfold mesh_col. rewrite map_length, seq_length. reflexivity. Qed.

(** The gang that the loop or the split picks. *)
Definition sub_gang (parent : gang) (s : list nat) (k : nat) (g : gang) : Prop :=
  match parent with
  | Fake _ _ => g = Fake k (length s)
  | Pg _ m me => g = Pg false (map (fun i => nth i m 0) s) me
  end.
Lemma check_ok l n : StronglySorted lt l -> (forall x, In x l -> x < n) -> check_ranks l n = true.
Proof.
  intros S B. unfold check_ranks. apply andb_true_iff. split.
  - apply negb_true_iff, has_dup_false, sorted_NoDup, S.
  - apply forallb_forall. intros x Hx. specialize (B x Hx). apply Nat.leb_le. lia.
Qed.
Lemma map_nth_seq_id n l : (forall x, In x l -> x < n) -> map (fun i => nth i (seq 0 n) 0) l = l.
Proof. induction l as [|x l IH]; intros H; simpl; [reflexivity|]. rewrite seq_nth by (apply H; left; reflexivity). simpl. f_equal. apply IH. intros; apply H; right; assumption. Qed.

(** A gang whose sub-gangs can be created by create_gang: fake or the world. *)
Definition flat (g : gang) : Prop := match g with Fake r n => r < n | Pg w m me => w = true /\ exists n, m = seq 0 n /\ me < n end.
Lemma index_seq k n : k < n -> index_of k (seq 0 n) = k.
Proof. intros H. assert (K := index_map (fun x => x) k n 0 ltac:(cbv beta; auto) H). rewrite map_id in K. exact K. Qed.
Lemma flat_rank g : flat g -> grank g < gsize g.
Proof. destruct g as [r n|w m me]; simpl; [auto|]. intros (_ & n & -> & H). rewrite index_seq, seq_length by exact H. exact H. Qed.
Lemma create_flat g s : flat g -> StronglySorted lt s -> (forall x, In x s -> x < gsize g) ->
  exists cs o, create_gang g s = (cs, Ok o) /\ cs = (match g with Fake _ _ => [] | _ => [NewGroup s] end) /\
    (In (grank g) s -> exists g', o = Some g' /\ sub_gang g s (index_of (grank g) s) g').
Proof.
  intros F S B. unfold create_gang. rewrite check_ok by assumption. simpl. destruct g as [r n|w m me].
  - do 2 eexists. split; [reflexivity|]. split; [reflexivity|]. intros I. simpl in I. apply mem_iff in I. rewrite I. eexists. split; [reflexivity|]. reflexivity.
  - destruct F as (-> & n & -> & Hme). simpl negb. cbn iota. assert (FB : forallb (fun r => r <? length (seq 0 n)) s = true). { apply forallb_forall. intros x Hx. specialize (B x Hx). apply Nat.ltb_lt. exact B. }
    rewrite FB. do 2 eexists. split; [reflexivity|]. split; [reflexivity|]. intros I. apply mem_iff in I. rewrite I. eexists. split; [reflexivity|]. unfold sub_gang. rewrite sort_id by exact S.
    rewrite map_nth_seq_id; [reflexivity|]. intros x Hx. specialize (B x Hx). simpl in B. rewrite seq_length in B. exact B.
Qed.
Lemma create_each_ok g coord : flat g -> forall groups i acc,
  Forall (fun s => StronglySorted lt s /\ forall x, In x s -> x < gsize g) groups ->
  exists o, create_each g coord i groups acc = ((match g with Fake _ _ => [] | _ => map NewGroup groups end), Ok o) /\
    (forall s, i <= coord -> nth_error groups (coord - i) = Some s -> In (grank g) s -> exists g', o = Some g' /\ sub_gang g s (index_of (grank g) s) g') /\
    (coord < i -> o = acc).
Proof.
  intros F. induction groups as [|s groups IH]; intros i acc H; simpl.
  - exists acc. split; [destruct g; reflexivity|]. split; [|auto]. intros s _ E. destruct (coord - i); discriminate.
  - inversion H as [|? ? [H1 H2] H3]; subst. destruct (create_flat g s F H1 H2) as (cs & o & E & C & K). rewrite E.
    destruct (IH (i + 1) (if Nat.eqb i coord then o else acc) H3) as (o' & E' & A & B). rewrite E'. exists o'. split; [rewrite C; destruct g; reflexivity|]. split.
    + intros s' L N I. destruct (Nat.eq_dec i coord) as [->|Ne].
      * rewrite Nat.sub_diag in N. simpl in N. inversion N; subst s'. rewrite B by lia. rewrite Nat.eqb_refl. apply K, I.
      * apply A; [lia| |exact I]. replace (coord - i) with (S (coord - (i + 1))) in N by lia. exact N.
    + intros L. rewrite B by lia. destruct (Nat.eqb_spec i coord); [lia|reflexivity].
Qed.

(** [build] gives the group with number [coord]. *)
Definition buildable (cuda : bool) (g : gang) : Prop := flat g \/ cuda = true /\ exists w m me, g = Pg w m me /\ NoDup m /\ In me m.
Lemma find_first (f : list nat -> bool) l k s : nth_error l k = Some s -> f s = true -> (forall j s', j < k -> nth_error l j = Some s' -> f s' = false) -> find f l = Some s.
Proof.
  revert k; induction l as [|x l IH]; intros k N F B; [destruct k; discriminate|]. destruct k as [|k]; simpl in N; simpl.
  - inversion N; subst. rewrite F. reflexivity.
  - rewrite (B 0 x ltac:(lia) eq_refl). apply (IH k N F). intros j s' L E. apply (B (S j) s'); [lia|exact E].
Qed.
Lemma build_ok cuda fake g size groups coord s : buildable cuda g -> size <> 1 -> size <> gsize g ->
  Forall (fun s => StronglySorted lt s /\ forall x, In x s -> x < gsize g) groups -> nth_error groups coord = Some s -> In (grank g) s ->
  (forall j s', nth_error groups j = Some s' -> In (grank g) s' -> j = coord) ->
  exists g' cs, build cuda fake g size groups coord = (cs, Ok g') /\ sub_gang g s (index_of (grank g) s) g' /\
    cs = (if cuda && supports_pg g then [SplitGroup (members 0 g) groups] else match g with Fake _ _ => [] | _ => map NewGroup groups end).
Proof.
  intros Hb N1 N2 HF E I U. unfold build. destruct (Nat.eqb_spec size 1); [lia|]. destruct (Nat.eqb_spec size (gsize g)); [lia|].
  destruct (cuda && supports_pg g) eqn:C.
  - apply andb_true_iff in C. destruct C as [_ C]. destruct g as [|w m me]; [discriminate|]. unfold split_group.
    assert (FD : find (mem (grank (Pg w m me))) groups = Some s).
    { apply find_first with (k := coord); [exact E|apply mem_iff, I|]. intros j s' L Ej. destruct (mem (grank (Pg w m me)) s') eqn:M; [|reflexivity]. apply mem_iff in M. specialize (U j s' Ej M). lia. }
    rewrite FD. do 2 eexists. split; [reflexivity|]. split; [|reflexivity]. unfold sub_gang. rewrite Forall_forall in HF. destruct (HF s (nth_error_In _ _ E)) as [S _]. rewrite sort_id by exact S. reflexivity.
  - assert (F : flat g). { destruct Hb as [F|(-> & w & m & me & -> & _)]; [exact F|discriminate]. }
    destruct (create_each_ok g coord F groups 0 None HF) as (o & E' & A & _). rewrite E'. destruct (A s) as (g' & -> & SG); [lia|rewrite Nat.sub_0_r; exact E|exact I|].
    do 2 eexists. split; [reflexivity|]. split; [exact SG|reflexivity].
Qed.

Lemma index_map_sub m me s : NoDup m -> (forall x, In x s -> x < length m) -> In (index_of me m) s -> In me m ->
  index_of me (map (fun i => nth i m 0) s) = index_of (index_of me m) s.
Proof.
  intros N B I M. induction s as [|x s IH]; simpl; [reflexivity|].
  assert (G : forall l, In me l -> nth (index_of me l) l 0 = me). { clear. induction l as [|y l IH]; intros H; [destruct H|]. simpl. destruct (Nat.eqb_spec me y); [auto|]. destruct H; [congruence|auto]. }
  assert (GL : forall l, In me l -> index_of me l < length l). { clear. induction l as [|y l IH]; intros H; [destruct H|]. simpl. destruct (Nat.eqb_spec me y); [lia|]. destruct H; [congruence|]. specialize (IH H). lia. }
  destruct (Nat.eqb_spec (index_of me m) x) as [<-|Nx].
  - rewrite G by exact M. rewrite Nat.eqb_refl. reflexivity.
  - destruct (Nat.eqb_spec me (nth x m 0)) as [E|E].
    + exfalso. apply Nx. rewrite NoDup_nth in N. apply N; [apply GL, M|apply B; left; reflexivity|]. rewrite G by exact M. exact E.
    + f_equal. apply IH; [intros; apply B; right; assumption|]. destruct I as [I|I]; [exfalso; apply Nx; symmetry; exact I|exact I].
Qed.
