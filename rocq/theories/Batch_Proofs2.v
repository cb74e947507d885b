From Coq Require Import ZArith List Bool Arith Lia ZifyBool.
From Verif Require Import Batch_Model Batch_Spec Batch_Proofs.
Import ListNotations.
Local Open Scope Z_scope.

(** ** Position by position *)
Lemma begins_nth l : forall b k, (k <= length l)%nat -> nth k (begins b l) 0 = b + total (firstn k l).
Proof. induction l as [|n l IH]; intros b [|k] H; simpl in *; try lia. rewrite IH by lia. lia. Qed.
Lemma begins_length l : forall b, length (begins b l) = S (length l).
Proof. induction l; intros; simpl; auto. Qed.

Lemma nth_iota n j d : 0 <= j < n -> nth (Z.to_nat j) (iota n) d = j.
Proof. intros H. unfold iota. rewrite (nth_indep _ d (Z.of_nat 0)) by (rewrite map_length, seq_length; lia). rewrite map_nth, seq_nth by lia. lia. Qed.

Lemma packed_nth l r d : Forall (fun n => 1 <= n) l -> forall k j, (k < length l)%nat -> 0 <= j < nth k l 0 ->
  nth (Z.to_nat (total (firstn k l) + j)) (concat (map iota l) ++ r) d = j.
Proof.
  induction 1 as [|n l Hn HF IH]; intros k j Hk Hj; [simpl in Hk; lia|]. destruct k as [|k]; simpl in *.
  - rewrite <- app_assoc, app_nth1 by (rewrite iota_length; lia). apply nth_iota. lia.
  - assert (0 <= total (firstn k l)) by (apply total_nonneg; apply Forall_forall; intros x Hx; rewrite Forall_forall in HF; apply HF; rewrite <- (firstn_skipn k l); apply in_or_app; auto).
    rewrite <- app_assoc, app_nth2 by (rewrite iota_length; lia). rewrite iota_length.
    replace (Z.to_nat (n + total (firstn k l) + j) - Z.to_nat n)%nat with (Z.to_nat (total (firstn k l) + j)) by lia. apply IH; [lia|assumption].
Qed.
Lemma packed_cover l : Forall (fun n => 1 <= n) l -> forall p, 0 <= p < total l -> exists k j, (k < length l)%nat /\ 0 <= j < nth k l 0 /\ p = total (firstn k l) + j.
Proof.
  induction 1 as [|n l Hn HF IH]; intros p Hp; simpl in *; [lia|]. destruct (Z.lt_ge_cases p n).
  - exists 0%nat, p. simpl. lia.
  - destruct (IH (p - n)) as (k & j & H1 & H2 & H3); [lia|]. exists (S k), j. simpl. lia.
Qed.
Lemma nth_rows {A} (rows : list (list A)) w d : Forall (fun r => length r = w) rows -> forall k j, (k < length rows)%nat -> (j < w)%nat ->
  nth (k * w + j) (concat rows) d = nth j (nth k rows []) d.
Proof.
  induction 1 as [|r rows Hr HF IH]; intros k j Hk Hj; [simpl in Hk; lia|]. destruct k as [|k]; simpl in *.
  - apply app_nth1. lia.
  - rewrite app_nth2 by lia. rewrite Hr. replace (w + k * w + j - w)%nat with (k * w + j)%nat by lia. apply IH; lia.
Qed.
Lemma rows_length {A} (rows : list (list A)) w : Forall (fun r => length r = w) rows -> length (concat rows) = (length rows * w)%nat.
Proof. induction 1; simpl; [reflexivity|]. rewrite app_length, IHForall. lia. Qed.
Lemma padded_row_length w n : 1 <= n <= w -> length (padded_row w n) = Z.to_nat w.
Proof. intros. unfold padded_row. rewrite app_length, iota_length, repeat_length. lia. Qed.
Lemma repeat_nth {A} n (x d : A) k : (k < n)%nat -> nth k (repeat x n) d = x.
Proof. revert k. induction n; intros [|k] H; simpl; try lia; auto. apply IHn. lia. Qed.
Lemma nth_padded w l k : (k < length l)%nat -> nth k (map (padded_row w) l) [] = padded_row w (nth k l 0).
Proof. intros H. rewrite (nth_indep _ [] (padded_row w 0)) by (rewrite map_length; exact H). apply map_nth. Qed.
Lemma Forall_nth' {A} (P : A -> Prop) l k d : Forall P l -> (k < length l)%nat -> P (nth k l d).
Proof. intros H Hk. rewrite Forall_forall in H. apply H. apply nth_In. exact Hk. Qed.
Lemma Forall_weaken w (l : list Z) : Forall (fun n => 1 <= n <= w) l -> Forall (fun n => 1 <= n) l.
Proof. apply Forall_impl. intros; lia. Qed.

Lemma nth_mult w n k : (k <= n)%nat -> nth k (map (fun i => Z.of_nat i * w) (seq 0 (S n))) 0 = Z.of_nat k * w.
Proof. intros Hk. rewrite (nth_indep _ 0 (Z.of_nat 0 * w)) by (rewrite map_length, seq_length; lia). rewrite (map_nth (fun i => Z.of_nat i * w)), seq_nth by lia. reflexivity. Qed.

Lemma layout_cases sh ls p y : batch_layout sh ls p = Ok y ->
  (exists w l, p = true /\ sh = [w] /\ 1 <= w /\ l = default_lens [w] ls /\ Forall (fun n => 1 <= n) l /\ total l <= w /\ y = packed_layout w l) \/
  (exists n w l, p = false /\ sh = [n; w] /\ 1 <= w /\ l = default_lens (repeat w (Z.to_nat n)) ls /\ n = Z.of_nat (length l) /\ Forall (fun x => 1 <= x <= w) l /\ y = padded_layout n w l).
Proof.
  intros H. destruct p.
  - left. destruct sh as [|w [|? ?]]; try discriminate. apply packed_layout_lemma in H. destruct H as [(H1 & H2 & H3) ->].
    exists w, (default_lens [w] ls). auto 10.
  - right. destruct sh as [|n [|w [|? ?]]]; try discriminate. apply padded_layout_lemma in H. destruct H as [(H1 & H2 & H3) ->].
    exists n, w, (default_lens (repeat w (Z.to_nat n)) ls). auto 10.
Qed.

Lemma positions_real sh ls p y : batch_layout sh ls p = Ok y -> forall k j, (k < length (seq_lens y))%nat -> 0 <= j < nth k (seq_lens y) 0 ->
  nth (Z.to_nat (nth k (seq_begin y) 0 + j)) (concat (positions y)) 0 = j.
Proof.
  intros H k j Hk Hj. destruct (layout_cases _ _ _ _ H) as [(w & l & _ & _ & Hw & _ & HF & HT & ->)|(n & w & l & _ & _ & Hw & _ & Hn & HF & ->)]; cbn [seq_begin seq_lens positions packed_layout padded_layout concat] in *.
  - rewrite app_nil_r, begins_nth by lia. rewrite Z.add_0_l. apply packed_nth; assumption.
  - pose proof (Forall_nth' _ _ _ 0 HF Hk) as Hx. simpl in Hx.
    rewrite nth_mult by lia.
    replace (Z.to_nat (Z.of_nat k * w + j)) with (k * Z.to_nat w + Z.to_nat j)%nat by nia.
    rewrite (nth_rows _ (Z.to_nat w)); [|apply Forall_forall; intros r Hr; apply in_map_iff in Hr; destruct Hr as (x & <- & Hr); rewrite Forall_forall in HF; apply padded_row_length; auto|rewrite map_length; lia|lia].
    rewrite nth_padded by assumption. unfold padded_row. rewrite app_nth1 by (rewrite iota_length; lia). apply nth_iota. lia.
Qed.

Lemma positions_padding sh ls p y : batch_layout sh ls p = Ok y -> forall q, 0 <= q < Z.of_nat (length (concat (positions y))) -> ~ real y q ->
  nth (Z.to_nat q) (concat (positions y)) 0 = -1.
Proof.
  intros H q Hq HR. destruct (layout_cases _ _ _ _ H) as [(w & l & _ & _ & Hw & _ & HF & HT & ->)|(n & w & l & _ & _ & Hw & _ & Hn & HF & ->)].
  - cbn [positions packed_layout concat app] in *. rewrite app_nil_r in *. unfold packed_row in *. rewrite app_length, concat_iota_length, repeat_length in Hq by assumption.
    pose proof (total_nonneg l HF). destruct (Z.lt_ge_cases q (total l)) as [HL|HL].
    + exfalso. apply HR. destruct (packed_cover l HF q) as (k & j & H1 & H2 & H3); [lia|]. exists k, j. simpl. rewrite begins_nth by lia. rewrite Z.add_0_l. auto.
    + rewrite app_nth2 by (rewrite concat_iota_length by assumption; lia). rewrite concat_iota_length by assumption. apply repeat_nth. lia.
  - cbn [positions padded_layout] in *.
    assert (HR' : Forall (fun r => length r = Z.to_nat w) (map (padded_row w) l)).
    { apply Forall_forall; intros r Hr; apply in_map_iff in Hr; destruct Hr as (x & <- & Hr); rewrite Forall_forall in HF; apply padded_row_length; auto. }
    rewrite (rows_length _ _ HR'), map_length in Hq.
    set (k := Z.to_nat (q / w)). set (j := q mod w). pose proof (Z.mod_pos_bound q w). pose proof (Z.div_mod q w).
    assert (Hq' : q / w < Z.of_nat (length l)) by (apply Z.div_lt_upper_bound; nia). assert (0 <= q / w) by (apply Z.div_pos; lia).
    assert (Hk : (k < length l)%nat) by lia.
    pose proof (Forall_nth' _ _ _ 0 HF Hk) as Hx. simpl in Hx.
    replace (Z.to_nat q) with (k * Z.to_nat w + Z.to_nat j)%nat by nia.
    rewrite (nth_rows _ _ _ HR') by (rewrite ?map_length; lia). rewrite nth_padded by assumption. unfold padded_row.
    destruct (Z.lt_ge_cases j (nth k l 0)) as [HL|HL].
    + exfalso. apply HR. exists k, j. cbn [seq_lens padded_layout seq_begin]. split; [assumption|]. split; [lia|].
      rewrite nth_mult by lia. lia.
    + rewrite app_nth2 by (rewrite iota_length; lia). rewrite iota_length. apply repeat_nth. lia.
Qed.

Lemma begins_disjoint sh ls p y : batch_layout sh ls p = Ok y -> length (seq_begin y) = S (length (seq_lens y)) /\ nth 0 (seq_begin y) 0 = 0 /\
  (forall k, (k < length (seq_lens y))%nat -> nth k (seq_begin y) 0 + nth k (seq_lens y) 0 <= nth (S k) (seq_begin y) 0) /\
  last (seq_begin y) 0 <= Z.of_nat (length (concat (positions y))).
Proof.
  intros H. destruct (layout_cases _ _ _ _ H) as [(w & l & _ & _ & Hw & _ & HF & HT & ->)|(n & w & l & _ & _ & Hw & _ & Hn & HF & ->)]; cbn [seq_begin seq_lens positions packed_layout padded_layout].
  - split; [apply begins_length|]. split; [destruct l; reflexivity|]. split.
    + intros k Hk. rewrite !begins_nth by lia. rewrite <- (firstn_skipn k l) at 3. 
      assert (E : firstn (S k) l = firstn k l ++ [nth k l 0]).
      { clear - Hk. revert k Hk. induction l as [|n l IH]; intros [|k] Hk; simpl in *; try lia; [reflexivity|]. f_equal. apply IH. lia. }
      rewrite firstn_skipn, E, total_app. simpl. lia.
    + assert (E : forall b, last (begins b l) 0 = b + total l).
      { clear. induction l as [|n l IH]; intros b; simpl; [lia|]. specialize (IH (b + n)). destruct (begins (b + n) l) eqn:EB; [destruct l; discriminate|]. rewrite IH. lia. }
      rewrite E. simpl. rewrite app_nil_r. unfold packed_row. rewrite app_length, concat_iota_length, repeat_length by assumption. pose proof (total_nonneg l HF). lia.
  - rewrite map_length, seq_length. split; [reflexivity|]. split; [reflexivity|].
    assert (HN : forall k, (k <= length l)%nat -> nth k (map (fun i => Z.of_nat i * w) (seq 0 (S (length l)))) 0 = Z.of_nat k * w).
    { intros k Hk. rewrite (nth_indep _ 0 (Z.of_nat 0 * w)) by (rewrite map_length, seq_length; lia). rewrite (map_nth (fun i => Z.of_nat i * w)), seq_nth by lia. reflexivity. }
    split.
    + intros k Hk. rewrite !HN by lia. pose proof (Forall_nth' _ _ _ 0 HF Hk) as Hx. simpl in Hx. nia.
    + rewrite seq_S, map_app. simpl. rewrite last_last.
      rewrite (rows_length _ (Z.to_nat w)), map_length by (apply Forall_forall; intros r Hr; apply in_map_iff in Hr; destruct Hr as (x & <- & Hr); rewrite Forall_forall in HF; apply padded_row_length; auto). nia.
Qed.

Lemma filter_iota n : filter (fun x => x =? -1) (iota n) = [].
Proof. unfold iota. generalize 0%nat. induction (Z.to_nat n); intros c; simpl; [reflexivity|]. destruct (Z.of_nat c =? -1) eqn:E; [lia|]. apply IHn0. Qed.
Lemma filter_pad k : filter (fun x => x =? -1) (repeat (-1) k) = repeat (-1) k.
Proof. induction k; simpl; [reflexivity|]. f_equal. exact IHk. Qed.
Lemma filter_concat_iota l : filter (fun x => x =? -1) (concat (map iota l)) = [].
Proof. induction l; simpl; [reflexivity|]. rewrite filter_app, filter_iota, IHl. reflexivity. Qed.
Lemma num_padding_packed w l : total l <= w -> num_padding (packed_layout w l) = w - total l.
Proof. intros. unfold num_padding. simpl. rewrite app_nil_r. unfold packed_row. rewrite filter_app, filter_concat_iota, filter_pad. simpl. rewrite repeat_length. lia. Qed.
Lemma num_padding_padded n w l : Forall (fun x => 1 <= x <= w) l -> num_padding (padded_layout n w l) = Z.of_nat (length l) * w - total l.
Proof.
  intros HF. unfold num_padding. cbn [positions padded_layout]. induction HF as [|x l Hx HF IH]; [reflexivity|]. cbn [map concat length total fold_right].
  rewrite filter_app, app_length. unfold padded_row at 1. rewrite filter_app, filter_iota, filter_pad. simpl app. rewrite repeat_length. fold (total l). rewrite Nat2Z.inj_add, IH, Z2Nat.id by lia. lia.
Qed.
Lemma padded_lemma sh ls p y : batch_layout sh ls p = Ok y -> padded y = true <-> 0 < num_padding y.
Proof.
  intros H. destruct (layout_cases _ _ _ _ H) as [(w & l & _ & _ & Hw & _ & HF & HT & ->)|(n & w & l & _ & _ & Hw & _ & Hn & HF & ->)].
  - rewrite num_padding_packed by assumption. simpl. lia.
  - rewrite num_padding_padded by assumption. cbn [padded padded_layout]. clear - HF. induction HF as [|x l Hx HF IH]; [simpl; lia|].
    assert (total l <= Z.of_nat (length l) * w). { clear - HF. induction HF; [simpl; lia|]. cbn [total fold_right length]. fold (total l). lia. }
    cbn [existsb total fold_right length]. fold (total l). rewrite orb_true_iff, IH. lia.
Qed.
