(** Proofs about shard, bucket, map, pipelines and repeat. *)

From Verif Require Import DP_Base DP_Spec DP_Laws DP_Sources_Model DP_Sources_Proofs.
From Coq Require Import Lia.

Lemma equiv_holds X a b l : equiv X a b -> holds X a l -> holds X b l.
Proof.
  intros HE [HA HB]. split.
  - intros k. destruct (HA k) as [s' Hs']. destruct (equiv_yields _ _ _ _ _ HE Hs') as (s'' & ? & _). eauto.
  - intros os s' Hy. destruct (equiv_yields _ _ _ _ _ (equiv_sym _ _ _ HE) Hy) as (s'' & ? & _). eauto.
Qed.

Lemma firstn_skipn_nil {A} k (L : list A) : firstn k L = [] -> k <> 0 -> L = [].
Proof. destruct k, L; simpl; congruence. Qed.

(** ** shard *)
Section Every.
  Variables idx num : nat.
  Hypothesis Hidx : idx < num.

  Definition every_from (b : nat) (l : list data) : list data :=
    map snd (filter (fun p => fst p mod num =? idx) (combine (seq b (length l)) l)).

  Lemma every_from_app b l r : every_from b (l ++ r) = every_from b l ++ every_from (b + length l) r.
  Proof.
    unfold every_from. revert b. induction l as [|x l IH]; intros b; simpl.
    - rewrite Nat.add_0_r. reflexivity.
    - replace (b + S (length l)) with (S b + length l) by lia.
      destruct (b mod num =? idx); simpl; rewrite IH; reflexivity.
  Qed.

  Lemma every_from_shift b l : every_from (b + num) l = every_from b l.
  Proof.
    unfold every_from. revert b. induction l as [|x l IH]; intros b; simpl; auto.
    replace ((b + num) mod num) with (b mod num).
    - pose proof (IH (S b)) as IHb; simpl in IHb. destruct (b mod num =? idx); simpl; rewrite IHb; reflexivity.
    - replace (b + num) with (b + 1 * num) by lia. rewrite Nat.mod_add by lia. reflexivity.
  Qed.

  Lemma every_from_short b l : b + length l <= num ->
    every_from b l = if idx <? b then [] else match nth_error l (idx - b) with Some x => [x] | None => [] end.
  Proof.
    unfold every_from. revert b. induction l as [|x l IH]; intros b Hb; simpl.
    - destruct (idx <? b); destruct (idx - b); reflexivity.
    - simpl in Hb. rewrite (Nat.mod_small b) by lia.
      destruct (Nat.eqb_spec b idx) as [->|Hne]; simpl.
      + rewrite IH by lia. destruct (Nat.ltb_spec idx (S idx)); [|lia].
        destruct (Nat.ltb_spec idx idx); [lia|]. rewrite Nat.sub_diag. reflexivity.
      + rewrite IH by lia. destruct (Nat.ltb_spec idx (S b)), (Nat.ltb_spec idx b); try lia; auto.
        replace (idx - b) with (S (idx - S b)) by lia. reflexivity.
  Qed.

  Lemma every_block A R : length A = num ->
    every idx num (A ++ R) = match nth_error A idx with Some x => [x] | None => [] end ++ every idx num R.
  Proof.
    intros HA. change (every idx num) with (every_from 0). rewrite every_from_app. simpl.
    rewrite HA. pose proof (every_from_shift 0 R) as HS. simpl in HS. rewrite HS.
    f_equal. rewrite every_from_short by (simpl; lia). simpl. rewrite Nat.sub_0_r. reflexivity.
  Qed.

  Lemma every_tail A : length A <= num ->
    every idx num A = match nth_error A idx with Some x => [x] | None => [] end.
  Proof.
    intros HA. change (every idx num) with (every_from 0).
    rewrite every_from_short by (simpl; lia). simpl. rewrite Nat.sub_0_r. reflexivity.
  Qed.

  Lemma shard_spec_block u A R : length A = num ->
    shard_spec idx num u (A ++ R) = match nth_error A idx with Some x => [x] | None => [] end ++ shard_spec idx num u R.
  Proof.
    intros HA. unfold shard_spec. destruct u; [apply every_block; assumption|].
    rewrite app_length, HA.
    replace ((num + length R) / num) with (S (length R / num)).
    2:{ replace (num + length R) with (length R + 1 * num) by lia. rewrite Nat.div_add by lia. lia. }
    replace (num * S (length R / num)) with (length A + num * (length R / num)) by lia.
    rewrite firstn_app_2. apply every_block; assumption.
  Qed.

  Lemma shard_spec_tail u A : length A < num ->
    shard_spec idx num u A = if u then match nth_error A idx with Some x => [x] | None => [] end else [].
  Proof.
    intros HA. unfold shard_spec. destruct u; [apply every_tail; lia|].
    rewrite Nat.div_small by lia. rewrite Nat.mul_0_r. reflexivity.
  Qed.
End Every.

Lemma nth_error_split_at {A} i (L : list A) x : nth_error L i = Some x ->
  skipn i L = x :: skipn (S i) L.
Proof.
  revert L. induction i as [|i IH]; intros [|y L] H; simpl in *; try discriminate.
  - congruence.
  - rewrite (IH _ H). destruct L; reflexivity.
Qed.

Lemma skipn_skipn' {A} a b (L : list A) : skipn a (skipn b L) = skipn (b + a) L.
Proof. revert L; induction b as [|b IH]; intros L; simpl; auto. destruct L; [rewrite !skipn_nil; auto|apply IH]. Qed.

Section ShardP.
  Variables idx num : nat.
  Variable u : bool.
  Variable I : source.

  Lemma advance_mono : mono I -> forall j m m' s r, m <= m' ->
    advance I m j s = Some r -> advance I m' j s = Some r.
  Proof.
    intros HM j. induction j as [|j IH]; intros m m' s r Hm H; simpl in *; auto.
    destruct (next I m s) as [[o s']|] eqn:E; [|discriminate].
    rewrite (HM _ _ _ _ Hm E). destruct o; eauto.
  Qed.

  Lemma shard_mono : mono I -> mono (src_shard idx num u I).
  Proof.
    intros HM n m s r Hn. simpl. unfold shard_next.
    destruct (num =? 1); [apply HM; assumption|].
    destruct (advance I n idx s) as [[a s1]|] eqn:E; [|discriminate].
    rewrite (advance_mono HM _ _ _ _ _ Hn E). destruct a as [[]|]; auto.
    destruct (next I n s1) as [[o s2]|] eqn:E2; [|discriminate].
    rewrite (HM _ _ _ _ Hn E2). destruct o; auto.
    destruct (advance I n (num - idx - 1) s2) as [[a s3]|] eqn:E3; [|discriminate].
    rewrite (advance_mono HM _ _ _ _ _ Hn E3). auto.
  Qed.

  Lemma advance_run : mono I -> forall j L s, holds I s L ->
    if j <=? length L
    then exists n s', advance I n j s = Some (inl false, s') /\ holds I s' (skipn j L)
    else exists n s', advance I n j s = Some (inl true, s') /\ holds I s' [].
  Proof.
    intros HM j. induction j as [|j IH]; intros L s Hs; simpl.
    - exists 0, s; auto.
    - destruct L as [|d L]; simpl; destruct (holds_step I HM _ _ Hs) as (n & s' & Hn & Hs').
      + exists n, s'. rewrite Hn. auto.
      + specialize (IH _ _ Hs'). destruct (j <=? length L);
        destruct IH as (n1 & s1 & H1 & H2); exists (n + n1), s1;
        rewrite (HM n (n + n1) _ _ ltac:(lia) Hn); (split; [|auto]);
        (eapply advance_mono; [assumption| |eassumption]; lia).
  Qed.

  Lemma shard_holds s L : mono I -> idx < num -> holds I s L ->
    holds (src_shard idx num u I) s (shard_spec idx num u L).
  Proof.
    intros HM Hidx HL.
    apply (progress_holds (src_shard idx num u I) (fun (s : St I) l => exists L, holds I s L /\ l = shard_spec idx num u L));
      [apply shard_mono; assumption| |eauto].
    clear s L HL. intros s l (L & HL & ->). simpl. unfold shard_next.
    destruct (Nat.eqb_spec num 1) as [E1|Hn1].
    { (* a single shard *)
      assert (E0 : idx = 0) by lia. change (St (src_shard idx num u I)) with (St I) in s. rewrite E0, E1 in *.
      pose proof (holds_step I HM _ _ HL) as HP. destruct L as [|x L]; destruct HP as (n & s' & Hn & Hs').
      - assert (EN : shard_spec 0 1 u [] = []) by (rewrite shard_spec_tail by (simpl; lia); destruct u; reflexivity).
        rewrite EN. exists n, s'. eauto.
      - change (x :: L) with ([x] ++ L). rewrite shard_spec_block by (simpl; lia). simpl.
        exists n, s'. eauto. }
    destruct (le_lt_dec num (length L)) as [Hlen|Hlen].
    - (* a complete group *)
      rewrite <- (firstn_skipn num L) in HL |- *. set (A := firstn num L) in *. set (R := skipn num L) in *.
      assert (HA : length A = num) by (unfold A; rewrite firstn_length; lia).
      rewrite shard_spec_block by assumption.
      destruct (nth_error A idx) as [x|] eqn:Ex; [|apply nth_error_None in Ex; lia]. simpl.
      pose proof (advance_run HM idx _ _ HL) as H1. rewrite (proj2 (Nat.leb_le _ _)) in H1 by (rewrite app_length; lia).
      destruct H1 as (n1 & s1 & H1 & Hs1).
      rewrite skipn_app, (nth_error_split_at _ _ _ Ex), <- app_comm_cons in Hs1.
      destruct (holds_step I HM _ _ Hs1) as (n2 & s2 & H2 & Hs2).
      pose proof (advance_run HM (num - idx - 1) _ _ Hs2) as H3.
      replace (idx - length A) with 0 in * by lia. rewrite skipn_O in *.
      assert (Hrest : length (skipn (S idx) A) = num - idx - 1) by (rewrite skipn_length; lia).
      rewrite (proj2 (Nat.leb_le _ _)) in H3 by (rewrite app_length; lia).
      destruct H3 as (n3 & s3 & H3 & Hs3). exists (n1 + n2 + n3), s3.
      rewrite (advance_mono HM _ n1 (n1 + n2 + n3) _ _ ltac:(lia) H1).
      rewrite (HM n2 (n1 + n2 + n3) _ _ ltac:(lia) H2).
      rewrite (advance_mono HM _ n3 (n1 + n2 + n3) _ _ ltac:(lia) H3). split; auto.
      exists R. split; auto. rewrite skipn_app, Hrest, Nat.sub_diag in Hs3.
      rewrite skipn_all2 in Hs3 by lia. simpl in Hs3. assumption.
    - (* an incomplete group *)
      rewrite shard_spec_tail by assumption.
      assert (HNil : exists L', holds I s L' -> True) by (exists []; auto). clear HNil.
      assert (HE : [] = shard_spec idx num u []).
      { rewrite shard_spec_tail by (simpl; lia). destruct idx, u; reflexivity. }
      pose proof (advance_run HM idx _ _ HL) as H1.
      destruct (Nat.leb_spec idx (length L)) as [Hi|Hi].
      + destruct H1 as (n1 & s1 & H1 & Hs1).
        destruct (nth_error L idx) as [x|] eqn:Ex.
        * rewrite (nth_error_split_at _ _ _ Ex) in Hs1.
          destruct (holds_step I HM _ _ Hs1) as (n2 & s2 & H2 & Hs2).
          pose proof (advance_run HM (num - idx - 1) _ _ Hs2) as H3.
          assert (Hlt : idx < length L) by (apply nth_error_Some; congruence).
          destruct (Nat.leb_spec (num - idx - 1) (length (skipn (S idx) L))) as [Hc|Hc];
            [rewrite skipn_length in Hc; lia|].
          destruct H3 as (n3 & s3 & H3 & Hs3).
          assert (HX : exists n s', shard_next idx num u I n s = Some (if u then Val x else Eod, s') /\ holds I s' []).
          { exists (n1 + n2 + n3), s3. unfold shard_next. destruct (Nat.eqb_spec num 1); [lia|].
            rewrite (advance_mono HM _ n1 (n1 + n2 + n3) _ _ ltac:(lia) H1).
            rewrite (HM n2 (n1 + n2 + n3) _ _ ltac:(lia) H2).
            rewrite (advance_mono HM _ n3 (n1 + n2 + n3) _ _ ltac:(lia) H3).
            split; auto. destruct u; reflexivity. }
          destruct HX as (n & s' & HX & HX'). unfold shard_next in HX. destruct (Nat.eqb_spec num 1); [lia|]. destruct u; exists n, s'; (split; [exact HX|exists []; auto]).
        * apply nth_error_None in Ex. rewrite skipn_all2 in Hs1 by lia.
          destruct (holds_step I HM _ _ Hs1) as (n2 & s2 & H2 & Hs2).
          replace (if u then [] else []) with (@nil data) by (destruct u; reflexivity).
          exists (n1 + n2), s2.
          rewrite (advance_mono HM _ n1 (n1 + n2) _ _ ltac:(lia) H1).
          rewrite (HM n2 (n1 + n2) _ _ ltac:(lia) H2). eauto.
      + destruct H1 as (n1 & s1 & H1 & Hs1).
        destruct (nth_error L idx) as [x|] eqn:Ex.
        { assert (idx < length L) by (apply nth_error_Some; congruence). lia. }
        replace (if u then [] else []) with (@nil data) by (destruct u; reflexivity).
        exists n1, s1. rewrite H1. eauto.
  Qed.

  Lemma advance_equiv m j a b : equiv I a b ->
    match advance I m j a, advance I m j b with
    | None, None => True
    | Some (e, a'), Some (e', b') => e = e' /\ equiv I a' b'
    | _, _ => False
    end.
  Proof.
    revert a b. induction j as [|j IH]; intros a b H; simpl; auto.
    estep I a b m H; auto. destruct o; auto. apply IH; assumption.
  Qed.

  Lemma shard_cong a b : equiv I a b -> equiv (src_shard idx num u I) a b.
  Proof.
    intros H. exists (equiv I). split; [|assumption]. clear a b H. intros a b H. repeat split; simpl.
    - intros n. unfold shard_next. destruct (num =? 1); [apply equiv_next; assumption|].
      pose proof (advance_equiv n idx a b H) as H1.
      destruct (advance I n idx a) as [[x a1]|], (advance I n idx b) as [[y b1]|]; simpl; auto; try contradiction.
      destruct H1 as [<- H1]. destruct x as [[]|]; simpl; auto.
      estep I a1 b1 n H1; simpl; auto. destruct o; simpl; auto.
      pose proof (advance_equiv n (num - idx - 1) _ _ HN) as H2.
      destruct (advance I n (num - idx - 1) s) as [[x a2]|], (advance I n (num - idx - 1) s0) as [[y b2]|]; simpl; auto; try contradiction.
      destruct H2 as [<- H2]. destruct x as [[]|]; [destruct u| |]; simpl; auto.
    - intros g. apply equiv_reset; assumption.
    - apply equiv_fin; assumption.
  Qed.

  Lemma advance_inv clean (Inv : St I -> Prop) :
    (forall n s o s', Inv s -> next I n s = Some (o, s') -> okstep clean (Inv s') o) ->
    forall m j s e s', Inv s -> advance I m j s = Some (e, s') ->
      match e with inr e => okstep clean (Inv s') (Err e) | _ => Inv s' end.
  Proof.
    intros HI m j. induction j as [|j IH]; intros s e s' Hs H; simpl in H.
    - inv H; auto.
    - destruct (next I m s) as [[o s1]|] eqn:E; [|discriminate].
      pose proof (HI _ _ _ _ Hs E) as H1. destruct o; [eapply IH; eassumption|inv H; auto|inv H; auto].
  Qed.

  Lemma shard_resumable clean Inv Tgt : resumable clean I Inv Tgt ->
    resumable clean (src_shard idx num u I) Inv Tgt.
  Proof.
    intros [H1 H2 H3 H4 H5]. constructor; simpl; auto.
    - intros n s o s' Hs H. unfold shard_next in H.
      destruct (num =? 1); [eapply H3; eassumption|].
      destruct (advance I n idx s) as [[a s1]|] eqn:E; [|discriminate].
      pose proof (advance_inv clean Inv H3 _ _ _ _ _ Hs E) as Ha.
      destruct a as [[]|]; [inv H; simpl; auto| |inv H; auto].
      destruct (next I n s1) as [[o1 s2]|] eqn:E2; [|discriminate].
      pose proof (H3 _ _ _ _ Ha E2) as Hc.
      destruct o1; [|inv H; auto|inv H; auto].
      destruct (advance I n (num - idx - 1) s2) as [[a s3]|] eqn:E3; [|discriminate].
      pose proof (advance_inv clean Inv H3 _ _ _ _ _ Hc E3) as He.
      destruct a as [[]|]; [destruct u| |]; inv H; simpl; auto.
    - intros s s0 Hs Ht. destruct (H5 _ _ Hs Ht) as (t & Hr & Hl). exists t. split; auto.
      intros rest. destruct (Hl rest) as (s1 & ? & ? & ?). exists s1. auto using shard_cong.
  Qed.

  Lemma shard_restarts Inv g : restarts I Inv g -> restarts (src_shard idx num u I) Inv g.
  Proof. intros H s Hs. apply shard_cong. apply H; assumption. Qed.
End ShardP.

(** ** bucket *)
Section BucketP.
  Variable I : source.

  Lemma fill_mono : mono I -> forall j m m' s r, m <= m' ->
    bucket_fill I m j s = Some r -> bucket_fill I m' j s = Some r.
  Proof.
    intros HM j. induction j as [|j IH]; intros m m' s r Hm H; simpl in *; auto.
    destruct (next I m s) as [[o s']|] eqn:E; [|discriminate].
    rewrite (HM _ _ _ _ Hm E). destruct o; auto.
    destruct (bucket_fill I m j s') as [[[? ?] ?]|] eqn:E2; [|discriminate].
    rewrite (IH _ _ _ _ Hm E2). assumption.
  Qed.

  Lemma fill_run : mono I -> forall j L s, holds I s L ->
    exists n s', bucket_fill I n j s = Some (firstn j L, None, s') /\ holds I s' (skipn j L).
  Proof.
    intros HM j. induction j as [|j IH]; intros L s Hs; simpl.
    - exists 0, s; auto.
    - destruct L as [|d L]; simpl; destruct (holds_step I HM _ _ Hs) as (n & s' & Hn & Hs').
      + exists n, s'. rewrite Hn. auto.
      + destruct (IH _ _ Hs') as (n1 & s1 & H1 & H2). exists (n + n1), s1.
        rewrite (HM n (n + n1) _ _ ltac:(lia) Hn).
        rewrite (fill_mono HM _ n1 (n + n1) _ _ ltac:(lia) H1). auto.
  Qed.

  Lemma fill_equiv m j a b : equiv I a b ->
    match bucket_fill I m j a, bucket_fill I m j b with
    | None, None => True
    | Some (l, e, a'), Some (l', e', b') => l = l' /\ e = e' /\ equiv I a' b'
    | _, _ => False
    end.
  Proof.
    revert a b. induction j as [|j IH]; intros a b H; simpl; auto.
    estep I a b m H; auto. destruct o; auto.
    specialize (IH _ _ HN).
    destruct (bucket_fill I m j s) as [[[? ?] ?]|], (bucket_fill I m j s0) as [[[? ?] ?]|]; try contradiction; auto.
    destruct IH as (-> & -> & ?). auto.
  Qed.

  Lemma fill_inv clean (Inv : St I -> Prop) :
    (forall n s o s', Inv s -> next I n s = Some (o, s') -> okstep clean (Inv s') o) ->
    forall m j s l e s', Inv s -> bucket_fill I m j s = Some (l, e, s') ->
      match e with Some e => okstep clean (Inv s') (Err e) | _ => Inv s' end.
  Proof.
    intros HI m j. induction j as [|j IH]; intros s l e s' Hs H; simpl in H.
    - inv H; auto.
    - destruct (next I m s) as [[o s1]|] eqn:E; [|discriminate].
      pose proof (HI _ _ _ _ Hs E) as H1. destruct o; [|inv H; auto|inv H; auto].
      destruct (bucket_fill I m j s1) as [[[? ?] ?]|] eqn:E2; [|discriminate].
      inv H. eapply IH; eassumption.
  Qed.

  Variable size : nat.
  Variable drop : bool.

  Lemma bucket_mono : mono I -> mono (src_bucket size drop I).
  Proof.
    intros HM n m s r Hn. simpl. unfold bucket_next.
    destruct (bucket_fill I n size s) as [[[? ?] ?]|] eqn:E; [|discriminate].
    rewrite (fill_mono HM _ _ _ _ _ Hn E). auto.
  Qed.

  Lemma cut_exists : size > 0 -> forall L, exists bs, cut size L bs.
  Proof.
    intros Hs L. remember (length L) as n eqn:E. revert L E.
    induction n as [n IH] using lt_wf_ind. intros L ->.
    destruct (le_lt_dec size (length L)) as [Hl|Hl].
    - destruct (IH (length (skipn size L))) with (L := skipn size L) as [bs Hbs]; auto.
      { rewrite skipn_length. lia. }
      exists (firstn size L :: bs). rewrite <- (firstn_skipn size L) at 1. constructor; auto.
      rewrite firstn_length. lia.
    - destruct L as [|x L]; [exists []; constructor|]. exists [x :: L]. constructor. simpl in *. lia.
  Qed.

  Lemma cut_drop_exists : size > 0 -> forall L, exists bs, cut_drop size L bs.
  Proof.
    intros Hs L. remember (length L) as n eqn:E. revert L E.
    induction n as [n IH] using lt_wf_ind. intros L ->.
    destruct (le_lt_dec size (length L)) as [Hl|Hl].
    - destruct (IH (length (skipn size L))) with (L := skipn size L) as [bs Hbs]; auto.
      { rewrite skipn_length. lia. }
      exists (firstn size L :: bs). rewrite <- (firstn_skipn size L) at 1. constructor; auto.
      rewrite firstn_length. lia.
    - exists []. constructor. assumption.
  Qed.

  Lemma bucket_holds s L bs : mono I -> size > 0 -> holds I s L ->
    (if drop then cut_drop size L bs else cut size L bs) ->
    holds (src_bucket size drop I) s (map DList bs).
  Proof.
    intros HM Hs HL Hc.
    apply (progress_holds (src_bucket size drop I) (fun (s : St I) l => exists L bs, holds I s L /\
      (if drop then cut_drop size L bs else cut size L bs) /\ l = map DList bs));
      [apply bucket_mono; assumption| |eauto 6].
    clear s L bs HL Hc. intros s l (L & bs & HL & Hc & ->). simpl. unfold bucket_next.
    destruct (fill_run HM size L s HL) as (n & s' & H1 & H2).
    assert (HZ : skipn size (@nil data) = []) by apply skipn_nil.
    assert (HB : forall l r bs, length l = size ->
      (if drop then cut_drop size r bs else cut size r bs) -> L = l ++ r ->
      exists n0 s'0, match bucket_fill I n0 size s with
         | Some (_, Some e, s'1) => Some (Err e, s'1)
         | Some ([], None, s'1) => Some (Eod, s'1)
         | Some ((_ :: _) as l0, None, s'1) => if drop && (length l0 <? size) then Some (Eod, s'1) else Some (Val (DList l0), s'1)
         | None => None end = Some (Val (DList l), s'0) /\
         (exists L bs0, holds I s'0 L /\ (if drop then cut_drop size L bs0 else cut size L bs0) /\ map DList bs = map DList bs0)).
    { intros l r bs' Hl Hr ->. exists n, s'. rewrite H1.
      rewrite firstn_app, Hl, Nat.sub_diag, firstn_O, app_nil_r.
      rewrite firstn_all2 by lia. rewrite skipn_app, Hl, Nat.sub_diag, skipn_O in H2.
      rewrite skipn_all2 in H2 by lia. simpl in H2.
      destruct l as [|x l]; [simpl in Hl; lia|].
      rewrite Hl, Nat.ltb_irrefl, andb_false_r. split; auto. exists r, bs'. auto. }
    destruct drop.
    - inv Hc.
      + simpl. exists n, s'. rewrite H1. rewrite firstn_all2 by lia. rewrite skipn_all2 in H2 by lia.
        assert (cut_drop size [] []) by (constructor; simpl; lia).
        destruct L as [|x L]; [split; auto; exists [], []; auto|].
        destruct (Nat.ltb_spec (length (x :: L)) size); [|lia]. split; auto. exists [], []; auto.
      + simpl. eapply HB; eauto.
    - inv Hc.
      + simpl. exists n, s'. rewrite H1, firstn_nil. rewrite HZ in H2. split; auto.
        exists [], []; split; [assumption|split; [constructor|reflexivity]].
      + simpl. exists n, s'. rewrite H1. rewrite firstn_all2 by lia. rewrite skipn_all2 in H2 by lia.
        destruct L as [|x L]; [simpl in *; lia|]. split; auto. exists [], []; split; [assumption|split; [constructor|reflexivity]].
      + simpl. eapply HB; eauto.
  Qed.

  Lemma bucket_cong a b : equiv I a b -> equiv (src_bucket size drop I) a b.
  Proof.
    intros H. exists (equiv I). split; [|assumption]. clear a b H. intros a b H. repeat split; simpl.
    - intros n. unfold bucket_next. pose proof (fill_equiv n size a b H) as HF.
      destruct (bucket_fill I n size a) as [[[? ?] ?]|], (bucket_fill I n size b) as [[[? ?] ?]|]; try contradiction; simpl; auto.
      destruct HF as (<- & <- & HF). destruct l, o; simpl; auto.
      destruct (drop && _); simpl; auto.
    - intros g. apply equiv_reset; assumption.
    - apply equiv_fin; assumption.
  Qed.

  Lemma bucket_resumable clean Inv Tgt : resumable clean I Inv Tgt ->
    resumable clean (src_bucket size drop I) Inv Tgt.
  Proof.
    intros [H1 H2 H3 H4 H5]. constructor; simpl; auto.
    - intros n s o s' Hs H. unfold bucket_next in H.
      destruct (bucket_fill I n size s) as [[[l e] s1]|] eqn:E; [|discriminate].
      pose proof (fill_inv clean Inv H3 _ _ _ _ _ _ Hs E) as Ha.
      destruct e; [destruct l; inv H; auto|]. destruct l; [inv H; simpl; auto|].
      destruct (drop && _); inv H; simpl; auto.
    - intros s s0 Hs Ht. destruct (H5 _ _ Hs Ht) as (t & Hr & Hl). exists t. split; auto.
      intros rest. destruct (Hl rest) as (s1 & ? & ? & ?). exists s1. auto using bucket_cong.
  Qed.

  Lemma bucket_restarts Inv g : restarts I Inv g -> restarts (src_bucket size drop I) Inv g.
  Proof. intros H s Hs. apply bucket_cong. apply H; assumption. Qed.
End BucketP.

(** ** map *)
Section MapP.
  Variable f : data -> fres data.
  Variable npar : nat.
  Variable I : source.

  Fixpoint somes (l : list (option data)) : list data :=
    match l with [] => [] | Some d :: r => d :: somes r | None :: r => somes r end.

  Lemma map_pick_none b pos : map_pick b pos = None -> somes (skipn pos b) = [].
  Proof.
    revert pos. induction b as [|x b IH]; intros [|pos] H; simpl in *; auto.
    - destruct x; [discriminate|]. destruct (map_pick b 0) as [[[? ?] ?]|] eqn:E; [discriminate|].
      apply (IH 0 E).
    - destruct (map_pick b pos) as [[[? ?] ?]|] eqn:E; [discriminate|]. auto.
  Qed.

  Lemma map_pick_some b pos d b' q : map_pick b pos = Some (d, b', q) ->
    somes (skipn pos b) = d :: somes (skipn q b').
  Proof.
    revert pos b' q. induction b as [|x b IH]; intros [|pos] b' q H; simpl in *; try discriminate.
    - destruct x; [inv H; reflexivity|]. destruct (map_pick b 0) as [[[? ?] ?]|] eqn:E; [|discriminate].
      inv H. simpl. apply (IH 0 _ _ E).
    - destruct (map_pick b pos) as [[[? ?] ?]|] eqn:E; [|discriminate]. inv H. simpl. apply (IH _ _ _ E).
  Qed.

  Lemma map_read_fill m k s : map_read I m k s = bucket_fill I m k s.
  Proof. reflexivity. Qed.

  Lemma par_loop_mono : mono I -> forall n n' m m' b pos s r, n <= n' -> m <= m' ->
    map_par_loop f npar I m n b pos s = Some r -> map_par_loop f npar I m' n' b pos s = Some r.
  Proof.
    intros HM n. induction n as [|n IH]; intros n' m m' b pos s r Hn Hm H; [discriminate|].
    destruct n' as [|n']; [lia|]. simpl in *.
    destruct (map_pick b pos) as [[[? ?] ?]|]; auto.
    rewrite map_read_fill in *.
    destruct (bucket_fill I m npar s) as [[[l e] s']|] eqn:E; [|discriminate].
    rewrite (fill_mono I HM _ _ _ _ _ Hm E). destruct e; auto. destruct l; auto.
    destruct (map_apply f (d :: l)) as [b' [e|]]; auto. eapply IH; [| |eassumption]; lia.
  Qed.

  Lemma map_mono : mono I -> mono (src_map f npar I).
  Proof.
    intros HM n m [[b pos] s] r Hn. simpl. destruct (npar <=? 1).
    - destruct (map_loop f I n n s) as [[o s']|] eqn:E; [|discriminate].
      rewrite (map_loop_mono f I HM _ m _ m _ _ Hn Hn E). auto.
    - apply par_loop_mono; auto.
  Qed.

  Lemma map_apply_ok l : (forall d e, In d l -> f d <> FThrow e) ->
    exists b, map_apply f l = (b, None) /\ somes b = flat_map (fout f) l.
  Proof.
    induction l as [|d l IHl]; intros Hf; simpl; [exists []; auto|].
    destruct IHl as (b & IH & IHs); [intros; apply Hf; right; assumption|].
    unfold fout at 1. destruct (f d) as [d'| |e] eqn:E; [| |exfalso; eapply Hf; [left; reflexivity|eassumption]]; rewrite IH.
    - exists (Some d' :: b). simpl. rewrite IHs. auto.
    - exists (None :: b). auto.
  Qed.

  Lemma par_loop_run : mono I -> 1 < npar ->
    forall k L s b pos, length L <= k -> holds I s L -> (forall d e, In d L -> f d <> FThrow e) ->
    match somes (skipn pos b) ++ flat_map (fout f) L with
    | [] => exists n b' q s', map_par_loop f npar I n n b pos s = Some (Eod, (b', q, s')) /\
                        somes (skipn q b') = [] /\ holds I s' []
    | x :: l' => exists n b' q s' L', map_par_loop f npar I n n b pos s = Some (Val x, (b', q, s')) /\
                        holds I s' L' /\ somes (skipn q b') ++ flat_map (fout f) L' = l' /\ incl L' L
    end.
  Proof.
    intros HM Hnp k. induction k as [k IH] using lt_wf_ind. intros L s b pos Hk HL Hf.
    destruct (map_pick b pos) as [[[d b'] q]|] eqn:E.
    - rewrite (map_pick_some _ _ _ _ _ E). simpl. exists 1, b', q, s, L. simpl. rewrite E. auto using incl_refl.
    - rewrite (map_pick_none _ _ E). simpl.
      destruct (fill_run I HM npar L s HL) as (n1 & s1 & H1 & H2).
      destruct L as [|d0 L0].
      + simpl. rewrite firstn_nil, skipn_nil in *. exists (S n1), [], 0, s1. simpl. rewrite E, map_read_fill.
        rewrite (fill_mono I HM _ n1 (S n1) _ _ ltac:(lia) H1). auto.
      + set (L := d0 :: L0) in *.
        assert (Hsk : incl (skipn npar L) L) by (intros y Hy; rewrite <- (firstn_skipn npar L); apply in_or_app; auto).
        destruct (map_apply_ok (firstn npar L)) as (b' & Hb & Hbs).
        { intros y e Hy. apply Hf. rewrite <- (firstn_skipn npar L). apply in_or_app. auto. }
        assert (HLk : length (skipn npar L) < k).
        { rewrite skipn_length. assert (length L = S (length L0)) by reflexivity. lia. }
        specialize (IH _ HLk (skipn npar L) s1 b' 0 (le_n _) H2 ltac:(intros; apply Hf; auto)). simpl in IH.
        rewrite Hbs, <- flat_map_app, firstn_skipn in IH.
        assert (HS : forall n r, map_par_loop f npar I n n b' 0 s1 = Some r ->
                  map_par_loop f npar I (S (n1 + n)) (S (n1 + n)) b pos s = Some r).
        { intros n r Hr. simpl. rewrite E, map_read_fill.
          rewrite (fill_mono I HM _ n1 (S (n1 + n)) _ _ ltac:(lia) H1).
          assert (HN : exists y r', firstn npar L = y :: r').
          { unfold L. destruct npar; [lia|]. simpl. eauto. }
          destruct HN as (y & r' & HN). rewrite HN in *. rewrite Hb.
          eapply par_loop_mono; [assumption| | |eassumption]; lia. }
        destruct (flat_map (fout f) L) as [|x l'].
        * destruct IH as (n & b2 & q & s' & HA & HB). exists (S (n1 + n)), b2, q, s'. eauto.
        * destruct IH as (n & b2 & q & s' & L' & HA & HB & HC & HD). exists (S (n1 + n)), b2, q, s', L'.
          split; [apply HS; assumption|]. split; [assumption|]. split; [assumption|]. eapply incl_tran; eassumption.
  Qed.

  Lemma map_holds s L : mono I -> (forall d e, In d L -> f d <> FThrow e) -> holds I s L ->
    holds (src_map f npar I) ([], 0, s) (flat_map (fout f) L).
  Proof.
    intros HM Hf HL. destruct (le_lt_dec npar 1) as [Hnp|Hnp].
    - apply (progress_holds (src_map f npar I) (fun (x : map_st I) l => exists L, holds I (snd x) L /\ l = flat_map (fout f) L /\
          (forall d e, In d L -> f d <> FThrow e)));
        [apply map_mono; assumption| |simpl; eauto].
      clear s L HL Hf. intros [[b pos] s] l (L & HL & -> & Hf). simpl in *.
      rewrite (proj2 (Nat.leb_le _ _) Hnp).
      pose proof (map_loop_run f I HM L s HL Hf) as H.
      destruct (flat_map (fout f) L) as [|x l'].
      + destruct H as (n & s' & H1 & H2). exists n, (b, pos, s'). rewrite H1. simpl. split; auto. exists []. simpl. intuition.
      + destruct H as (n & s' & L' & H1 & H2 & H3 & H4). exists n, (b, pos, s'). rewrite H1. simpl. split; [reflexivity|]. exists L'. auto.
    - apply (progress_holds (src_map f npar I) (fun (x : map_st I) l => let '(b, pos, s) := x in
          exists L, holds I s L /\ l = somes (skipn pos b) ++ flat_map (fout f) L /\ (forall d e, In d L -> f d <> FThrow e)));
        [apply map_mono; assumption| |simpl; eauto].
      clear s L HL Hf. intros [[b pos] s] l (L & HL & -> & Hf). simpl in *.
      destruct (Nat.leb_spec npar 1) as [Hx|_]; [lia|].
      pose proof (par_loop_run HM Hnp (length L) L s b pos (le_n _) HL Hf) as H.
      destruct (somes (skipn pos b) ++ flat_map (fout f) L) as [|x l'].
      + destruct H as (n & b' & q & s' & H1 & H2 & H3). exists n, (b', q, s'). split; auto.
        exists []. rewrite H2. simpl. intuition.
      + destruct H as (n & b' & q & s' & L' & H1 & H2 & H3 & H4). exists n, (b', q, s'). split; auto.
        exists L'. auto.
  Qed.

  Definition map_R (x y : map_st I) : Prop :=
    let '(b, pos, s) := x in let '(b', pos', s') := y in b = b' /\ pos = pos' /\ equiv I s s'.

  Lemma par_loop_equiv m n b pos x y : equiv I x y ->
    res_rel map_R (map_par_loop f npar I m n b pos x) (map_par_loop f npar I m n b pos y).
  Proof.
    revert b pos x y. induction n as [|n IH]; intros b pos x y H; [simpl; auto|]. cbn [map_par_loop].
    destruct (map_pick b pos) as [[[? ?] ?]|]; simpl; auto.
    rewrite (map_read_fill m npar x), (map_read_fill m npar y). pose proof (fill_equiv I m npar x y H) as HF.
    destruct (bucket_fill I m npar x) as [[[? ?] ?]|], (bucket_fill I m npar y) as [[[? ?] ?]|]; try contradiction; simpl; auto.
    destruct HF as (<- & <- & HF). destruct l as [|d l], o; try (simpl; repeat split; auto; fail). 
    destruct (map_apply f (d :: l)) as [b' [e|]]; simpl; auto.
  Qed.

  Lemma map_cong b pos x y : equiv I x y -> equiv (src_map f npar I) (b, pos, x) (b, pos, y).
  Proof.
    intros H. exists map_R. split; [|simpl; auto]. clear b pos x y H.
    intros [[b pos] x] [[b' pos'] y] (<- & <- & H). repeat split; simpl.
    - intros n. destruct (npar <=? 1); [|apply par_loop_equiv; assumption].
      pose proof (map_loop_equiv f I n n x y H) as HM.
      destruct (map_loop f I n n x) as [[? ?]|], (map_loop f I n n y) as [[? ?]|]; simpl in *; intuition.
    - apply equiv_reset; assumption.
    - apply equiv_fin; assumption.
  Qed.

  Lemma map_apply_err clean : (forall d e, f d = FThrow e -> okerr clean (Err e)) ->
    forall l b e, map_apply f l = (b, Some e) -> okerr clean (Err e).
  Proof.
    intros Hf l. induction l as [|d l IH]; intros b e H; simpl in H; [inv H|].
    destruct (f d) as [d'| |e'] eqn:E.
    - destruct (map_apply f l) as [b' e'] eqn:E'. inv H. eauto.
    - destruct (map_apply f l) as [b' e'] eqn:E'. inv H. eauto.
    - inv H. eauto.
  Qed.

  Lemma par_loop_inv clean (Inv : St I -> Prop) :
    (forall n s o s', Inv s -> next I n s = Some (o, s') -> okstep clean (Inv s') o) ->
    (forall d e, f d = FThrow e -> okerr clean (Err e)) ->
    forall m n b pos s o x, Inv s -> map_par_loop f npar I m n b pos s = Some (o, x) -> okstep clean (Inv (snd x)) o.
  Proof.
    intros HI Hf m n. induction n as [|n IH]; intros b pos s o x Hs H; [discriminate|]. cbn [map_par_loop] in H.
    destruct (map_pick b pos) as [[[? ?] ?]|]; [inv H; simpl; auto|].
    rewrite map_read_fill in H.
    destruct (bucket_fill I m npar s) as [[[l e] s']|] eqn:E; [|discriminate].
    pose proof (fill_inv I clean Inv HI _ _ _ _ _ _ Hs E) as Ha.
    destruct e; [destruct l; inv H; auto|]. destruct l; [inv H; simpl; auto|].
    destruct (map_apply f (d :: l)) as [b' [e|]] eqn:Em; [|eauto].
    inv H. apply okstep_intro; [assumption|]. eapply map_apply_err; eassumption.
  Qed.

  Lemma map_resumable clean Inv Tgt :
    (forall d e, f d = FThrow e -> okerr clean (Err e)) ->
    resumable clean I Inv Tgt ->
    resumable clean (src_map f npar I) (fun x => Inv (snd x)) (fun x => Tgt (snd x)).
  Proof.
    intros Hf [H1 H2 H3 H4 H5]. constructor; simpl; auto.
    - intros n [[b pos] s] o s' Hs H. simpl in *. destruct (npar <=? 1).
      + destruct (map_loop f I n n s) as [[o1 s1]|] eqn:E; [|discriminate]. inv H. simpl.
        eapply map_loop_inv; eassumption.
      + eapply par_loop_inv; eassumption.
    - intros [[b pos] s] [[b0 pos0] s0] Hs Ht. simpl in *. destruct (H5 _ _ Hs Ht) as (t & Hr & Hl). rewrite Hr.
      eexists. split; [reflexivity|]. intros rest. destruct (Hl rest) as (s1 & Hs1 & He & Hi).
      rewrite <- !app_assoc, rd_wr_optvec, rd_wr_size, Hs1. exists (b, pos, s1). auto using map_cong.
  Qed.

  Lemma map_restarts Inv g : restarts I Inv g -> restarts (src_map f npar I) (fun x => Inv (snd x)) g.
  Proof. intros H [[b pos] s] Hs. apply map_cong. apply H; assumption. Qed.
End MapP.

(** ** pipelines *)
Section PipeP.
  Variable maxw : nat.
  Variable I : source.

  Lemma pipe_loop_mono : mono I -> forall n n' m m' w s r, n <= n' -> m <= m' ->
    pipe_loop maxw I m n w s = Some r -> pipe_loop maxw I m' n' w s = Some r.
  Proof.
    intros HM n. induction n as [|n IH]; intros n' m m' w s r Hn Hm H; [discriminate|].
    destruct n' as [|n']; [lia|]. simpl in *.
    destruct (next I m s) as [[o s']|] eqn:E; [|discriminate].
    rewrite (HM _ _ _ _ Hm E). destruct o as [d| |[]]; auto.
    destruct (w <? maxw); auto. eapply IH; [| |eassumption]; lia.
  Qed.

  Lemma pipe_mono : mono I -> mono (src_pipe maxw I).
  Proof.
    intros HM n m x r Hn. simpl. unfold pipe_next. destruct (p_broken x); auto. apply pipe_loop_mono; auto.
  Qed.

  Lemma pipe_holds x L : mono I -> p_broken x = false -> holds I (p_src x) L -> holds (src_pipe maxw I) x L.
  Proof.
    intros HM Hb HL.
    apply (progress_holds (src_pipe maxw I) (fun (x : pipe_st I) l => p_broken x = false /\ holds I (p_src x) l));
      [apply pipe_mono; assumption| |auto].
    clear x L Hb HL. intros x L [Hb HL]. simpl. unfold pipe_next. rewrite Hb.
    pose proof (holds_step I HM _ _ HL) as HP.
    destruct L as [|d L]; destruct HP as (n & s' & Hn & Hs');
      exists (S n), (PipeSt false (p_warn x) true s'); simpl;
      rewrite (HM n (S n) _ _ ltac:(lia) Hn); auto.
  Qed.

  Variable clean : bool.
  Variables Inv Tgt : St I -> Prop.
  Hypothesis HW : clean = true \/ maxw = 0.
  Hypothesis HR : resumable clean I Inv Tgt.

  Definition fatal_out (o : out) : bool := match o with Err Fatal => true | _ => false end.

  Definition pipe_R (x y : pipe_st I) : Prop :=
    p_broken x = true /\ p_broken y = true /\ equiv I (p_src x) (p_src y) \/
    p_broken x = false /\ p_broken y = false /\ p_inited x = true /\ p_inited y = true /\
    Inv (p_src x) /\ Inv (p_src y) /\ equiv I (p_src x) (p_src y).

  Lemma pipe_loop_one n w s : Inv s ->
    pipe_loop maxw I (S n) (S n) w s =
    match next I (S n) s with
    | None => None
    | Some (o, s') => Some (o, PipeSt (fatal_out o) w true s')
    end.
  Proof.
    intros Hs. simpl. destruct (next I (S n) s) as [[o s']|] eqn:E; auto.
    pose proof (rs_next _ _ _ _ HR _ _ _ _ Hs E) as H.
    destruct o as [d| |[]]; simpl in H; auto. destruct H as [_ H].
    destruct HW as [HC|HC]; [congruence|]. rewrite HC. reflexivity.
  Qed.

  Lemma pipe_R_bisim : bisim (src_pipe maxw I) pipe_R.
  Proof.
    intros x y [(Hb & Hb' & HE)|(Hb & Hb' & Hi & Hi' & HIx & HIy & HE)].
    { split; [|split]; simpl.
      - intros n. unfold pipe_next. rewrite Hb, Hb'. simpl. split; [reflexivity|]. left. auto.
      - intros g. unfold pipe_reset. rewrite Hb, Hb'. left. auto.
      - apply equiv_fin. assumption. }
    split; [|split]; simpl.
    - intros n. unfold pipe_next. rewrite Hb, Hb'. destruct n as [|n]; [simpl; auto|].
      rewrite !pipe_loop_one by assumption.
      pose proof (rs_next _ _ _ _ HR (S n) (p_src x)) as Nx.
      pose proof (rs_next _ _ _ _ HR (S n) (p_src y)) as Ny.
      estep I (p_src x) (p_src y) (S n) HE; simpl; auto.
      split; auto. pose proof (Nx _ _ HIx eq_refl) as Nx1. pose proof (Ny _ _ HIy eq_refl) as Ny1.
      destruct o as [d| |[]]; simpl in Nx1, Ny1; [right|right|right|left]; repeat split; simpl; auto; try apply Nx1; try apply Ny1.
    - intros g. unfold pipe_reset. rewrite Hb, Hb', Hi, Hi'. right.
      repeat split; simpl; auto using equiv_reset; apply (rs_reset _ _ _ _ HR); assumption.
    - apply equiv_fin. assumption.
  Qed.

  (** As a child of another source, or after the first call of [next]. *)
  Definition pipe_inv (x : pipe_st I) : Prop := p_broken x = false /\ p_inited x = true /\ Inv (p_src x).
  Definition pipe_tgt (x : pipe_st I) : Prop := p_broken x = false /\ Tgt (p_src x).

  Lemma pipe_resumable : resumable clean (src_pipe maxw I) pipe_inv pipe_tgt.
  Proof.
    pose proof HR as [H1 H2 H3 H4 H5]. constructor; simpl.
    - repeat split; auto.
    - split; auto.
    - intros n x o x' (Hb & Hi & HI) H. unfold pipe_next in H. rewrite Hb in H. destruct n as [|n]; [discriminate|].
      rewrite pipe_loop_one in H by assumption. destruct (next I (S n) (p_src x)) as [[o1 s']|] eqn:E; [|discriminate].
      inv H. pose proof (H3 _ _ _ _ HI E) as HX. destruct o as [d| |[]]; simpl in HX |- *; auto; repeat split; auto; apply HX.
    - intros g x (Hb & Hi & HI). unfold pipe_reset. rewrite Hb, Hi. repeat split; simpl; auto.
    - intros x x0 (Hb & Hi & HI) (Hb0 & HT). destruct (H5 _ _ HI HT) as (t & Hr & Hl).
      unfold pipe_record. rewrite Hb, Hi, Hr. eexists. split; [reflexivity|].
      intros rest. destruct (Hl rest) as (s1 & Hs1 & He & Hi1).
      unfold pipe_reload. rewrite Hb0. rewrite <- !app_assoc, !rd_wr_bool, Hs1.
      eexists. split; [reflexivity|]. split.
      + exists pipe_R. split; [apply pipe_R_bisim|]. right. repeat split; simpl; auto.
      + repeat split; auto.
  Qed.

  Lemma pipe_restarts g : restarts I Inv g -> restarts (src_pipe maxw I) pipe_inv g.
  Proof.
    intros H x (Hb & Hi & HI). exists pipe_R. split; [apply pipe_R_bisim|].
    simpl. unfold pipe_reset. rewrite Hb, Hi. right. repeat split; simpl; auto.
    - apply (rs_reset _ _ _ _ HR). assumption.
    - apply (rs_init _ _ _ _ HR).
  Qed.

  (** *** The pipeline a user holds: it may not have been started yet. *)
  Definition top_inv (x : pipe_st I) : Prop :=
    p_broken x = false /\ Inv (p_src x) /\ (p_inited x = false -> p_src x = init I).

  Definition top_R (x y : pipe_st I) : Prop :=
    p_broken x = true /\ p_broken y = true /\ equiv I (p_src x) (p_src y) \/
    top_inv x /\ top_inv y /\ equiv I (p_src x) (p_src y) /\
    (p_inited x <> p_inited y -> forall g, equiv I (reset I g (init I)) (init I)).

  Lemma top_next_inv n x o x' : top_inv x -> pipe_next maxw I n x = Some (o, x') ->
    p_broken x' = true /\ o = Err Fatal \/ top_inv x' /\ okerr clean o /\ p_inited x' = true.
  Proof.
    intros (Hb & HI & Hf) H. unfold pipe_next in H. rewrite Hb in H. destruct n as [|n]; [discriminate|].
    rewrite pipe_loop_one in H by assumption. destruct (next I (S n) (p_src x)) as [[o1 s']|] eqn:E; [|discriminate].
    inv H. pose proof (rs_next _ _ _ _ HR _ _ _ _ HI E) as HX.
    destruct o as [d| |[]]; simpl in HX; [right|right|right|left; auto]; repeat split; simpl; auto; try discriminate; apply HX.
  Qed.

  Lemma top_reset_inv g x : top_inv x -> top_inv (pipe_reset I g x).
  Proof.
    intros (Hb & HI & Hf). unfold pipe_reset. rewrite Hb. destruct (p_inited x) eqn:E.
    - repeat split; simpl; auto; [apply (rs_reset _ _ _ _ HR); assumption|discriminate].
    - repeat split; auto.
  Qed.

  Lemma top_fresh_inv : top_inv (pipe_fresh I).
  Proof. repeat split; simpl; auto. apply (rs_init _ _ _ _ HR). Qed.

  Lemma top_R_bisim : bisim (src_pipe maxw I) top_R.
  Proof.
    intros x y [(Hb & Hb' & HE)|(Hx & Hy & HE & HQ)].
    { split; [|split]; simpl.
      - intros n. unfold pipe_next. rewrite Hb, Hb'. simpl. split; [reflexivity|]. left. auto.
      - intros g. unfold pipe_reset. rewrite Hb, Hb'. left. auto.
      - apply equiv_fin. assumption. }
    pose proof Hx as (Hb & HIx & Hfx). pose proof Hy as (Hb' & HIy & Hfy).
    split; [|split]; simpl.
    - intros n. destruct n as [|n]; [unfold pipe_next; rewrite Hb, Hb'; simpl; auto|].
      pose proof (top_next_inv (S n) x) as Nx. pose proof (top_next_inv (S n) y) as Ny.
      unfold pipe_next in *. rewrite Hb, Hb' in *. rewrite !pipe_loop_one in * by assumption.
      estep I (p_src x) (p_src y) (S n) HE; simpl; auto.
      split; auto.
      destruct (Nx _ _ Hx eq_refl) as [(A1 & A2)|(A1 & A2 & A3)], (Ny _ _ Hy eq_refl) as [(B1 & B2)|(B1 & B2 & B3)].
      + left. auto.
      + subst o. destruct B1 as [B1 _]. discriminate.
      + subst o. destruct A1 as [A1 _]. discriminate.
      + right. split; [assumption|]. split; [assumption|]. simpl. split; [assumption|]. congruence.
    - intros g. right. split; [apply top_reset_inv; assumption|]. split; [apply top_reset_inv; assumption|].
      unfold pipe_reset. rewrite Hb, Hb'.
      destruct (p_inited x) eqn:Ex, (p_inited y) eqn:Ey; simpl.
      + split; [apply equiv_reset; assumption|congruence].
      + rewrite (Hfy eq_refl) in *. split.
        * eapply equiv_trans; [apply equiv_reset; eassumption|]. apply HQ. discriminate.
        * intros _. apply HQ. discriminate.
      + rewrite (Hfx eq_refl) in *. split.
        * eapply equiv_trans; [|apply equiv_reset; eassumption]. apply equiv_sym. apply HQ. discriminate.
        * intros _. apply HQ. discriminate.
      + rewrite Ex, Ey. split; [assumption|congruence].
    - apply equiv_fin. assumption.
  Qed.

  (** A reachable pipeline is broken, or its position can be saved. *)
  Lemma top_reaches x x' : top_inv x -> reaches (src_pipe maxw I) x x' -> p_broken x' = true \/ top_inv x'.
  Proof.
    intros Hx H. induction H as [|n o s1 s2 H IH Hn|g s1 H IH]; auto.
    - destruct IH as [IH|IH].
      + cbn [next src_pipe] in Hn. unfold pipe_next in Hn. rewrite IH in Hn. inv Hn. auto.
      + destruct (top_next_inv _ _ _ _ IH Hn) as [(A & _)|(A & _)]; auto.
    - destruct IH as [IH|IH].
      + left. cbn [reset src_pipe]. unfold pipe_reset. rewrite IH. assumption.
      + right. apply top_reset_inv. assumption.
  Qed.

  (** Saving any reachable position and loading it into a freshly built pipeline resumes the saved one. *)
  Lemma top_resume_fresh x : top_inv x ->
    exists t, state_dict I true x = Some t /\
    exists x1, load_state_dict I (pipe_fresh I) t = Some x1 /\ equiv (src_pipe maxw I) x x1 /\ top_inv x1.
  Proof.
    intros Hx. pose proof Hx as (Hb & HI & Hf). unfold state_dict, pipe_record. rewrite Hb.
    destruct (p_inited x) eqn:Ei.
    - destruct (rs_resume _ _ _ _ HR _ _ HI (rs_tinit _ _ _ _ HR)) as (t & Hr & Hl). rewrite Hr.
      eexists. split; [reflexivity|]. destruct (Hl []) as (s1 & Hs1 & He & Hi1). rewrite app_nil_r in Hs1.
      unfold load_state_dict, pipe_reload. simpl p_broken. cbv iota.
      rewrite rd_wr_bool, rd_wr_bool. simpl p_src. rewrite Hs1.
      eexists. split; [reflexivity|].
      match goal with |- _ /\ ?P => assert (Hx1 : P) by (repeat split; simpl; auto; discriminate) end.
      split; [|assumption]. exists top_R. split; [apply top_R_bisim|]. right.
      split; [assumption|]. split; [assumption|].
      split; [assumption|]. simpl. rewrite Ei. congruence.
    - eexists. split; [reflexivity|]. unfold load_state_dict, pipe_reload. simpl p_broken. cbv iota.
      rewrite <- (app_nil_r (wr_bool false)), rd_wr_bool. simpl.
      eexists. split; [reflexivity|]. split; [|apply top_fresh_inv]. exists top_R. split; [apply top_R_bisim|]. right.
      split; [assumption|]. split; [apply top_fresh_inv|]. simpl.
      rewrite (Hf eq_refl). split; [apply equiv_refl|]. rewrite Ei. congruence.
  Qed.

  (** Into any state reached later, when every such state is an admissible target. *)
  Lemma top_resume_any x x0 : (forall s, Inv s -> Tgt s) ->
    (p_inited x = false -> p_inited x0 = true -> forall g, restarts I Inv g) ->
    top_inv x -> top_inv x0 ->
    exists t, state_dict I true x = Some t /\
    exists x1, load_state_dict I x0 t = Some x1 /\ equiv (src_pipe maxw I) x x1 /\ top_inv x1.
  Proof.
    intros HT HQ Hx Hx0. pose proof Hx as (Hb & HI & Hf). pose proof Hx0 as (Hb0 & HI0 & Hf0).
    unfold state_dict, pipe_record. rewrite Hb.
    destruct (p_inited x) eqn:Ei.
    - destruct (rs_resume _ _ _ _ HR _ _ HI (HT _ HI0)) as (t & Hr & Hl). rewrite Hr.
      eexists. split; [reflexivity|]. destruct (Hl []) as (s1 & Hs1 & He & Hi1). rewrite app_nil_r in Hs1.
      unfold load_state_dict, pipe_reload. rewrite Hb0.
      rewrite rd_wr_bool, rd_wr_bool. rewrite Hs1.
      eexists. split; [reflexivity|].
      match goal with |- _ /\ ?P => assert (Hx1 : P) by (repeat split; simpl; auto; discriminate) end.
      split; [|assumption]. exists top_R. split; [apply top_R_bisim|]. right.
      split; [assumption|]. split; [assumption|].
      split; [assumption|]. simpl. rewrite Ei. congruence.
    - eexists. split; [reflexivity|]. unfold load_state_dict, pipe_reload. rewrite Hb0.
      rewrite <- (app_nil_r (wr_bool false)), rd_wr_bool.
      eexists. split; [reflexivity|]. split; [|apply top_reset_inv; assumption]. exists top_R. split; [apply top_R_bisim|]. right.
      split; [assumption|]. split; [apply top_reset_inv; assumption|].
      unfold pipe_reset. rewrite Hb0, (Hf eq_refl).
      destruct (p_inited x0) eqn:Ei0; simpl.
      + split; [apply equiv_sym; apply HQ; auto|]. intros _ g. apply HQ; auto. apply (rs_init _ _ _ _ HR).
      + rewrite (Hf0 eq_refl). split; [apply equiv_refl|]. rewrite Ei, Ei0. congruence.
  Qed.

  (** [reset] leads back to the state of a freshly built pipeline. *)
  Lemma top_restart g x : (forall g, equiv I (reset I g (init I)) (init I)) -> restarts I Inv g -> top_inv x ->
    equiv (src_pipe maxw I) (pipe_reset I g x) (pipe_fresh I).
  Proof.
    intros HQ HG Hx. exists top_R. split; [apply top_R_bisim|]. right.
    split; [apply top_reset_inv; assumption|]. split; [apply top_fresh_inv|].
    destruct Hx as (Hb & HI & Hf). unfold pipe_reset. rewrite Hb.
    destruct (p_inited x) eqn:Ei; simpl.
    - split; [apply HG; assumption|auto].
    - rewrite (Hf eq_refl). split; [apply equiv_refl|auto].
  Qed.
End PipeP.

(** ** repeat *)
Section RepeatP.
  Variable num : option nat.
  Variable rng_flag : bool.
  Variable I : source.

  Lemma repeat_loop_mono : mono I -> forall n n' m m' x r, n <= n' -> m <= m' ->
    repeat_loop num rng_flag I m n x = Some r -> repeat_loop num rng_flag I m' n' x = Some r.
  Proof.
    intros HM n. induction n as [|n IH]; intros n' m m' x r Hn Hm H; [discriminate|].
    destruct n' as [|n']; [lia|]. destruct x as [[has nr] s]. simpl in *.
    destruct (next I m s) as [[o s']|] eqn:E; [|discriminate].
    rewrite (HM _ _ _ _ Hm E). destruct o; auto. destruct (negb has); auto.
    destruct num as [k|]; [destruct k; [|destruct (nr =? k)]|]; auto; (eapply IH; [| |eassumption]; lia).
  Qed.

  Lemma num_dec (o : option nat) : {o = Some 0} + {o <> Some 0}.
  Proof. destruct o as [[|k]|]; auto; right; discriminate. Qed.

  Lemma repeat_next_loop n x : num <> Some 0 ->
    repeat_next num rng_flag I n x = repeat_loop num rng_flag I n n x.
  Proof. unfold repeat_next. destruct num as [[|k]|]; congruence. Qed.

  Lemma repeat_mono : mono I -> mono (src_repeat num rng_flag I).
  Proof.
    intros HM n m x r Hn. simpl.
    destruct (num_dec num) as [E|E]; [unfold repeat_next; rewrite E; auto|].
    rewrite !repeat_next_loop by assumption. apply repeat_loop_mono; auto.
  Qed.

  Variables (clean : bool) (Inv Tgt : St I -> Prop) (L : list data).
  Hypothesis HM : mono I.
  Hypothesis HR : resumable clean I Inv Tgt.
  Hypothesis HG : restarts I Inv rng_flag.
  Hypothesis HL : holds I (init I) L.

  Definition rep_ok (x : repeat_st I) (rest : list data) : Prop :=
    let '(has, nr, s) := x in
    Inv s /\ holds I s rest /\ (has = false -> rest = L) /\ (L = [] -> has = false).

  (** One call, in the middle of an epoch. *)
  Lemma repeat_step_val x d rest : rep_ok x (d :: rest) -> (forall k, num = Some k -> k <> 0) ->
    exists n x', repeat_next num rng_flag I n x = Some (Val d, x') /\ rep_ok x' rest /\ snd (fst x') = snd (fst x).
  Proof.
    destruct x as [[has nr] s]. intros (HI & Hh & Ha & Hb) Hk.
    destruct (holds_step I HM _ _ Hh) as (n & s' & Hn & Hs').
    exists (S n), (true, nr, s'). split.
    - rewrite repeat_next_loop by (intros E; apply (Hk 0); auto).
      cbn [repeat_loop]. rewrite (HM n (S n) _ _ ltac:(lia) Hn). reflexivity.
    - split; [|reflexivity]. pose proof (rs_next _ _ _ _ HR _ _ _ _ HI Hn) as HX. simpl in HX. repeat split; auto; try discriminate; try apply Hs'.
      intros HN. rewrite HN in *. specialize (Hb eq_refl). specialize (Ha Hb). discriminate.
  Qed.

  (** The last epoch, or no data at all. *)
  Lemma repeat_step_eod has nr s : rep_ok (has, nr, s) [] -> (L = [] \/ num = Some (S nr)) ->
    exists n x', repeat_next num rng_flag I n (has, nr, s) = Some (Eod, x') /\ rep_ok x' [] /\ snd (fst x') = nr.
  Proof.
    intros (HI & Hh & Ha & Hb) Hk.
    destruct (holds_step I HM _ _ Hh) as (n & s' & Hn & Hs').
    pose proof (rs_next _ _ _ _ HR _ _ _ _ HI Hn) as HI'. simpl in HI'.
    assert (HOK : rep_ok (has, nr, s') []) by (repeat split; auto; apply Hs').
    assert (HOK0 : rep_ok (has, nr, s) []) by (repeat split; auto; apply Hh).
    destruct (num_dec num) as [E|E].
    - exists 0, (has, nr, s). unfold repeat_next. rewrite E. auto.
    - exists (S n), (has, nr, s'). split; [|auto]. rewrite repeat_next_loop by assumption.
      cbn [repeat_loop]. rewrite (HM n (S n) _ _ ltac:(lia) Hn).
      destruct has; simpl; auto. destruct Hk as [Hk|Hk].
      + specialize (Hb Hk). discriminate.
      + rewrite Hk, Nat.eqb_refl. reflexivity.
  Qed.

  (** The first call of the next epoch. *)
  Lemma repeat_step_wrap has nr s d L' : rep_ok (has, nr, s) [] -> L = d :: L' ->
    (forall k, num = Some k -> S nr < k) ->
    exists n x', repeat_next num rng_flag I n (has, nr, s) = Some (Val d, x') /\ rep_ok x' L' /\ snd (fst x') = S nr.
  Proof.
    intros (HI & Hh & Ha & Hb) HLd Hk.
    destruct has; [|rewrite HLd in Ha; specialize (Ha eq_refl); discriminate].
    destruct (holds_step I HM _ _ Hh) as (n & s' & Hn & Hs').
    pose proof (rs_next _ _ _ _ HR _ _ _ _ HI Hn) as HI'. simpl in HI'.
    pose proof (rs_reset _ _ _ _ HR rng_flag _ HI') as HI2.
    assert (HL2 : holds I (reset I rng_flag s') L).
    { eapply equiv_holds; [apply equiv_sym; apply HG; assumption|]. assumption. }
    destruct (repeat_step_val (true, S nr, reset I rng_flag s') d L') as (n2 & x' & H2 & H3 & H4).
    - rewrite HLd in HL2. repeat split; auto; try apply HL2; intros; congruence.
    - intros k Hk'. specialize (Hk _ Hk'). lia.
    - exists (S (n + n2)), x'. split; [|split; auto]. clear H3 H4.
      assert (E : num <> Some 0) by (intros E; specialize (Hk _ E); lia).
      rewrite repeat_next_loop in * by assumption.
      cbn [repeat_loop]. rewrite (HM n (S (n + n2)) _ _ ltac:(lia) Hn). simpl negb. cbv iota.
      replace (match num with Some k => S nr =? k | None => false end) with false.
      + eapply repeat_loop_mono; [assumption| | |exact H2]; destruct n2; try discriminate; lia.
      + destruct num as [k|]; auto. specialize (Hk _ eq_refl). symmetry. apply Nat.eqb_neq. lia.
  Qed.

  Lemma rep_ok_init : rep_ok (false, 0, init I) L.
  Proof. repeat split; auto; try apply HL. apply (rs_init _ _ _ _ HR). Qed.

  (** A finite number of repetitions. *)
  Lemma repeat_holds k : num = Some k -> holds (src_repeat num rng_flag I) (false, 0, init I) (concat (repeat L k)).
  Proof.
    intros Hk. destruct k as [|k].
    { apply (progress_holds (src_repeat num rng_flag I) (fun _ l => l = [])); [apply repeat_mono; assumption| |reflexivity].
      intros x l ->. exists 0, x. simpl. unfold repeat_next. rewrite Hk. auto. }
    apply (progress_holds (src_repeat num rng_flag I) (fun (x : repeat_st I) l =>
       snd (fst x) <= k /\ exists rest, rep_ok x rest /\ l = rest ++ concat (repeat L (k - snd (fst x)))));
      [apply repeat_mono; assumption| |].
    - intros x l (Hnr & rest & Hok & ->). destruct rest as [|d rest].
      + destruct x as [[has nr] s]. simpl in Hnr.
        assert (HC : L = [] \/ exists d L', L = d :: L') by (destruct L; eauto).
        destruct HC as [HN|(d & L' & HLd)].
        * assert (HE : forall j, concat (repeat L j) = []) by (intros j; rewrite HN; induction j; auto).
          destruct (repeat_step_eod has nr s Hok) as (n & x' & H1 & H2 & H3); auto.
          simpl. rewrite HE. exists n, x'. split; auto. split; [lia|]. exists []. rewrite HE. auto.
        * simpl. destruct (Nat.eq_dec nr k) as [->|Hne].
          -- rewrite Nat.sub_diag. simpl. destruct (repeat_step_eod has k s Hok) as (n & x' & H1 & H2 & H3); auto.
             exists n, x'. split; auto. split; [lia|]. exists []. rewrite H3, Nat.sub_diag. auto.
          -- destruct (repeat_step_wrap has nr s d L' Hok HLd) as (n & x' & H1 & H2 & H3).
             { intros k' Hk'. rewrite Hk in Hk'. inv Hk'. lia. }
             replace (k - nr) with (S (k - S nr)) by lia. cbn [repeat concat].
             assert (HC : forall X, L ++ X = d :: (L' ++ X)) by (intros X; rewrite HLd; reflexivity).
             rewrite HC.
             exists n, x'. split; auto. split; [lia|]. exists L'. rewrite H3. auto.
      + destruct (repeat_step_val x d rest Hok) as (n & x' & H1 & H2 & H3).
        { intros k' Hk'. rewrite Hk in Hk'. inv Hk'. discriminate. }
        simpl. exists n, x'. rewrite H3. split; auto. split; auto. exists rest. auto.
    - simpl. split; [lia|]. exists L. split; [apply rep_ok_init|]. rewrite Nat.sub_0_r. reflexivity.
  Qed.

  (** Without a limit: any number of epochs can be read. *)
  Lemma repeat_epoch x rest : num = None -> rep_ok x rest ->
    exists x', yields (src_repeat num rng_flag I) x (map Val rest) x' /\ rep_ok x' [].
  Proof.
    intros Hn. revert x. induction rest as [|d rest IH]; intros x Hok; simpl.
    - exists x. split; [constructor|assumption].
    - destruct (repeat_step_val x d rest Hok) as (n & x1 & H1 & H2 & _); [congruence|].
      destruct (IH _ H2) as (x2 & H3 & H4). exists x2. split; auto. econstructor; eassumption.
  Qed.

  Lemma repeat_next_epoch x : num = None -> rep_ok x [] ->
    exists x', yields (src_repeat num rng_flag I) x (map Val L) x' /\ rep_ok x' [].
  Proof.
    intros Hn Hok. assert (HC : L = [] \/ exists d L', L = d :: L') by (destruct L; eauto).
    destruct HC as [HN|(d & L' & HLd)].
    - assert (E : map Val L = []) by (rewrite HN; reflexivity). rewrite E. exists x. split; [constructor|assumption].
    - destruct x as [[has nr] s].
      destruct (repeat_step_wrap has nr s d L' Hok HLd) as (n & x1 & H1 & H2 & _); [congruence|].
      destruct (repeat_epoch x1 L' Hn H2) as (x2 & H3 & H4).
      assert (E : map Val L = Val d :: map Val L') by (rewrite HLd; reflexivity).
      rewrite E. exists x2. split; auto. econstructor; eassumption.
  Qed.

  Lemma repeat_forever k : num = None ->
    exists x, yields (src_repeat num rng_flag I) (false, 0, init I) (map Val (concat (repeat L k))) x.
  Proof.
    intros Hn.
    assert (HX : exists x, yields (src_repeat num rng_flag I) (false, 0, init I) (map Val (concat (repeat L k))) x /\
              (k = 0 /\ x = (false, 0, init I) \/ rep_ok x [])).
    { induction k as [|k (x & H1 & H2)].
      - exists (false, 0, init I). split; [constructor|auto].
      - assert (HE : concat (repeat L (S k)) = concat (repeat L k) ++ L).
        { clear. simpl. induction k as [|k IH]; simpl; [rewrite app_nil_r; reflexivity|].
          rewrite <- app_assoc, <- IH. reflexivity. }
        rewrite HE, map_app. destruct H2 as [[-> ->]|H2].
        + destruct (repeat_epoch _ _ Hn rep_ok_init) as (x2 & H3 & H4). exists x2. simpl. auto.
        + destruct (repeat_next_epoch _ Hn H2) as (x2 & H3 & H4). exists x2. split; auto. eapply yields_app; eassumption. }
    destruct HX as (x & H & _). eauto.
  Qed.
End RepeatP.
