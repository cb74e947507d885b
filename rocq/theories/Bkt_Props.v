(** Bucket sizes: each length finds a bucket, which takes as many sequences of that length as the budget allows. *)
From Coq Require Import List Bool ZArith Lia Sorted.
From Verif Require Import Bkt_Model.
Import ListNotations.
Local Open Scope Z_scope.

(** The first bucket that is long enough for a sequence of length [n], as chosen by bucket_by_length *)
Fixpoint bucket_for (n : Z) (l : list (Z * Z)) : option (Z * Z) := match l with [] => None | b :: l' => if n <=? snd b then Some b else bucket_for n l' end.
Definition increasing (l : list (Z * Z)) : Prop := StronglySorted Z.lt (map snd l).

Section P.
  Variables (m top lo : Z).
  Hypotheses (Htop : 1 <= top) (Hm : top <= m) (Hlo : 1 <= lo <= top).
  Lemma next : forall s, 1 <= s < top -> let b := m / (s + 1) in 0 < b /\ s < m / b /\ (forall n, s < n <= m / b -> m / n = b).
  Proof.
    intros s H b. assert (B : 0 < b) by (apply Z.div_str_pos; lia). split; auto. split.
    - apply Z.lt_le_trans with (s + 1); [lia|]. apply Z.div_le_lower_bound; auto. unfold b. pose proof (Z.mul_div_le m (s + 1)). lia.
    - intros n Hn. apply Z.le_antisymm.
      + unfold b. apply Z.div_le_compat_l; lia.
      + apply Z.div_le_lower_bound; [lia|]. pose proof (Z.mul_div_le m b B). nia.
  Qed.
  (** At [seq_len], the lengths from [from] on have been left to the bucket of [seq_len] *)
  Lemma loop_spec : forall fuel from s b, 1 <= from -> from <= s -> from <= top -> (forall n, from <= n <= s -> m / n = b) -> (Z.of_nat fuel > Z.max 0 (top - s)) ->
    exists l, loop fuel m top lo s b = Some l /\ (forall x, In x l -> from <= snd x <= top /\ lo <= snd x /\ fst x = m / snd x) /\
      increasing l /\ (exists l0 z, l = l0 ++ [(z, top)]) /\ forall n, from <= n <= top -> lo <= n -> exists q, bucket_for n l = Some q /\ fst q = m / n.
  Proof.
    induction fuel as [|fuel IH]; intros from s b F1 F2 F3 E Fu; cbn [loop].
    { exfalso. lia. }
    destruct (s <? top) eqn:L.
    - apply Z.ltb_lt in L. destruct (next s ltac:(lia)) as (B & N1 & N2). cbv zeta.
      destruct (IH (s + 1) (m / (m / (s + 1))) (m / (s + 1))) as (l & E1 & X & Y & (l0 & z & Z1) & W); try lia.
      { intros n Hn. apply N2. lia. }
      rewrite E1. cbn [option_map]. rewrite Z.geb_leb. destruct (lo <=? s) eqn:G; [apply Z.leb_le in G|apply Z.leb_gt in G].
      + eexists. split; [reflexivity|]. split; [|split; [|split]].
        * intros x [<-|H]; cbn [fst snd]; [repeat split; try lia; symmetry; apply E; lia|]. destruct (X _ H) as (? & ? & ?). repeat split; auto; lia.
        * unfold increasing in *. cbn. constructor; auto. apply Forall_forall. intros k Hk. apply in_map_iff in Hk as (x & <- & Hx). destruct (X _ Hx). lia.
        * exists ((b, s) :: l0), z. rewrite Z1. reflexivity.
        * intros n Hn Hl. cbn. destruct (n <=? s) eqn:Q; [apply Z.leb_le in Q|apply Z.leb_gt in Q].
          -- eexists. split; [reflexivity|]. cbn. symmetry. apply E. lia.
          -- apply W; lia.
      + eexists. split; [reflexivity|]. split; [|split; [|split]]; auto.
        * intros x H. destruct (X _ H) as (? & ? & ?). repeat split; auto; lia.
        * exists l0, z. exact Z1.
        * intros n Hn Hl. apply W; lia.
    - apply Z.ltb_ge in L. eexists. split; [reflexivity|]. split; [|split; [|split]].
      + intros x [<-|[]]. cbn. repeat split; try lia. symmetry. apply E. lia.
      + unfold increasing. cbn. repeat constructor.
      + exists [], b. reflexivity.
      + intros n Hn Hl. cbn. replace (n <=? top) with true by (symmetry; apply Z.leb_le; lia). eexists. split; [reflexivity|]. cbn. symmetry. apply E. lia.
  Qed.
End P.
Lemma bucket_for_map : forall (f : Z -> Z) n l q, bucket_for n l = Some q -> bucket_for n (map (fun b => (f (fst b), snd b)) l) = Some (f (fst q), snd q).
Proof. induction l as [|b l IH]; intros q; cbn; [discriminate|]. destruct (n <=? snd b); [injection 1 as <-; reflexivity|apply IH]. Qed.
Lemma bucket_for_in : forall n l q, bucket_for n l = Some q -> In q l /\ n <= snd q.
Proof. induction l as [|b l IH]; intros q; cbn; [discriminate|]. destruct (n <=? snd b) eqn:E; [injection 1 as <-; apply Z.leb_le in E; auto|]. intros H. destruct (IH _ H). auto. Qed.

(** What may be asked for *)
Definition valid (m top lo k : Z) : Prop := 1 <= lo <= top /\ top <= m /\ 1 <= k /\ (top | m).
(** The number of sequences of length [n] that fit the budget [m], cropped to a multiple of [k] if there are more than [k] of them *)
Definition fits (m k n c : Z) : Prop :=
  exists g, 0 <= m - g * n < n /\ ((g <= k /\ c = g) \/ (k < g /\ (k | c) /\ c <= g < c + k)).

(** Other requests are rejected, and no request makes it loop forever. *)
Theorem C75_rejected : forall m top lo k, (create_bucket_sizes m top lo k = ValueError <-> ~ valid m top lo k) /\ create_bucket_sizes m top lo k <> Endless.
Proof.
  intros m top lo k. unfold create_bucket_sizes, valid. rewrite !Z.gtb_ltb.
  destruct (m <? top) eqn:A; [apply Z.ltb_lt in A; split; [split; intros; [lia|reflexivity]|discriminate]|apply Z.ltb_ge in A].
  destruct (lo <? 1) eqn:B; [apply Z.ltb_lt in B; split; [split; intros; [lia|reflexivity]|discriminate]|apply Z.ltb_ge in B].
  destruct (top <? lo) eqn:C; [apply Z.ltb_lt in C; split; [split; intros; [lia|reflexivity]|discriminate]|apply Z.ltb_ge in C].
  destruct (k <? 1) eqn:D; [apply Z.ltb_lt in D; split; [split; intros; [lia|reflexivity]|discriminate]|apply Z.ltb_ge in D].
  destruct (m mod top =? 0) eqn:E; cbn [negb].
  - apply Z.eqb_eq in E. destruct (loop_spec m top lo ltac:(lia) ltac:(lia) (S (Z.to_nat top)) 1 1 m) as (l & -> & _); try lia.
    { intros n Hn. replace n with 1 by lia. apply Z.div_1_r. }
    assert (V : (top | m)) by (apply Z.mod_divide; lia).
    destruct (k =? 1); split; try discriminate; split; try discriminate; intros X; exfalso; apply X; repeat split; auto; lia.
  - apply Z.eqb_neq in E. split; [|discriminate]. split; [|reflexivity]. intros _ (_ & _ & _ & X). apply E. apply Z.mod_divide; auto. lia.
Qed.
Print Assumptions C75_rejected.

(** The buckets are in the order of their lengths, the last of which is the greatest length; every length that is asked for finds a bucket, which takes exactly as many sequences as the budget
    allows for sequences of that very length, not only for sequences of the bucket's length. *)
Theorem C75_buckets : forall m top lo k l, create_bucket_sizes m top lo k = Sizes l ->
  increasing l /\ (exists l0 z, l = l0 ++ [(z, top)]) /\
  (forall b, In b l -> lo <= snd b /\ 0 < fst b /\ fst b * snd b <= m /\ fits m k (snd b) (fst b)) /\
  forall n, lo <= n <= top -> exists b, bucket_for n l = Some b /\ fits m k n (fst b).
Proof.
  intros m top lo k l. unfold create_bucket_sizes. rewrite !Z.gtb_ltb.
  destruct (m <? top) eqn:A; [discriminate|]. apply Z.ltb_ge in A.
  destruct (lo <? 1) eqn:B; [discriminate|]. apply Z.ltb_ge in B.
  destruct (top <? lo) eqn:C; [discriminate|]. apply Z.ltb_ge in C.
  destruct (k <? 1) eqn:D; [discriminate|]. apply Z.ltb_ge in D.
  destruct (m mod top =? 0) eqn:E; [|discriminate]. cbn [negb].
  destruct (loop_spec m top lo ltac:(lia) ltac:(lia) (S (Z.to_nat top)) 1 1 m) as (l1 & -> & X & Y & (l0 & z & Z1) & W); try lia.
  { intros n Hn. replace n with 1 by lia. apply Z.div_1_r. }
  assert (F1 : forall n, 1 <= n <= top -> 0 < m / n /\ 0 <= m - m / n * n < n).
  { intros n Hn. split; [apply Z.div_str_pos; lia|]. pose proof (Z.div_mod m n ltac:(lia)). pose proof (Z.mod_pos_bound m n ltac:(lia)). lia. }
  assert (F2 : forall n, 1 <= n <= top -> fits m k n (crop k (m / n)) /\ 0 < crop k (m / n) <= m / n).
  { intros n Hn. destruct (F1 n Hn) as (P1 & P2). unfold crop. rewrite Z.gtb_ltb. pose proof (Z.mod_pos_bound (m / n) k ltac:(lia)) as P3. destruct (k <? m / n) eqn:Q.
    - apply Z.ltb_lt in Q. split; [|lia]. exists (m / n). split; auto. right. split; auto. split; [|lia].
      exists (m / n / k). pose proof (Z.div_mod (m / n) k ltac:(lia)). lia.
    - apply Z.ltb_ge in Q. split; [|lia]. exists (m / n). split; auto. }
  destruct (k =? 1) eqn:K; intros [= <-].
  - apply Z.eqb_eq in K. subst k.
    assert (F3 : forall n, 1 <= n <= top -> crop 1 (m / n) = m / n). { intros n Hn. unfold crop. rewrite Z.mod_1_r. destruct (m / n >? 1); lia. }
    split; auto. split; [exists l0, z; auto|]. split.
    + intros b Hb. destruct (X _ Hb) as (X1 & X2 & X3). destruct (F1 (snd b) X1) as (P1 & P2). rewrite X3. repeat split; try lia. rewrite <- (F3 _ X1). apply F2. lia.
    + intros n Hn. destruct (W n ltac:(lia) ltac:(lia)) as (q & Q1 & Q2). exists q. split; auto. rewrite Q2, <- (F3 n ltac:(lia)). apply F2. lia.
  - split; [|split; [|split]].
    + unfold increasing in *. rewrite map_map. exact Y.
    + rewrite Z1, map_app. eexists _, _. reflexivity.
    + intros b Hb. apply in_map_iff in Hb as (x & <- & Hx). destruct (X _ Hx) as (X1 & X2 & X3). cbn [fst snd]. rewrite X3. destruct (F1 _ X1) as (P1 & P2). destruct (F2 _ X1) as (P3 & P4).
      repeat split; auto; try lia. nia.
    + intros n Hn. destruct (W n ltac:(lia) ltac:(lia)) as (q & Q1 & Q2). eexists. split; [apply bucket_for_map; exact Q1|]. cbn [fst]. rewrite Q2. apply F2. lia.
Qed.
Print Assumptions C75_buckets.
Example C75_buckets_example : create_bucket_sizes 24 8 2 4 = Sizes [(12, 2); (8, 3); (4, 4); (4, 6); (3, 8)].
Proof. vm_compute. reflexivity. Qed.

(** The documentation says that the number of sequences in a bucket is a multiple of num_seqs_multiple_of. It is not when fewer than that many sequences fit: the bucket is then left as it is,
    and no error is raised. *)
Theorem C75_multiple_refuted : ~ (forall m top lo k l, create_bucket_sizes m top lo k = Sizes l -> forall b, In b l -> (k | fst b)).
Proof.
  intros H. assert (X : (4 | 3)). { apply (H 24 8 2 4 _ C75_buckets_example (3, 8)). cbn; auto 10. }
  destruct X. lia.
Qed.
Print Assumptions C75_multiple_refuted.
