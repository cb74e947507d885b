From Coq Require Import List Bool Arith ZArith Lia.
Import ListNotations.
From Verif Require Import Cnv_Model.

Section Frames.
Variable E : Type.
Variable zero : E.
Notation window := (window E).
Notation conv1d := (conv1d E zero).

Lemma window_eq k i (l : list E) : window k i l = skipn i (firstn (i + k) l).
Proof. unfold Cnv_Model.window. rewrite firstn_skipn_comm. reflexivity. Qed.

(** A window depends on the frames up to its end. *)
Lemma window_prefix k i (a b c : list E) : i + k <= length a -> window k i (a ++ b) = window k i (a ++ c).
Proof.
  intros H. rewrite !window_eq. f_equal. rewrite !firstn_app.
  replace (i + k - length a) with 0 by lia. reflexivity.
Qed.

Lemma firstn_zeros m (a : list E) n : m <= length a + n ->
  firstn m (a ++ repeat zero n) = firstn m a ++ repeat zero (m - length a).
Proof.
  intros H. rewrite firstn_app. f_equal.
  replace n with ((m - length a) + (n - (m - length a))) by lia.
  rewrite repeat_app, firstn_app, repeat_length.
  replace (m - length a - (m - length a)) with 0 by lia. cbn [firstn]. rewrite app_nil_r.
  apply firstn_all2. rewrite repeat_length. lia.
Qed.

Lemma window_zeros k i (a : list E) n n' : i + k <= length a + n -> i + k <= length a + n' ->
  window k i (a ++ repeat zero n) = window k i (a ++ repeat zero n').
Proof. intros H H'. rewrite !window_eq, !firstn_zeros by lia. reflexivity. Qed.

Lemma conv1d_length f k s pl pr l o : conv1d f k s pl pr l = Some o ->
  k <= pl + length l + pr /\ length o = (pl + length l + pr - k) / s + 1.
Proof.
  unfold Cnv_Model.conv1d. rewrite !app_length, !repeat_length.
  destruct (Nat.ltb_spec (pl + (length l + pr)) k); [discriminate|].
  intros H0. injection H0 as <-. rewrite map_length, seq_length.
  split; [lia|]. do 2 f_equal. lia.
Qed.

Lemma conv1d_none f k s pl pr l : conv1d f k s pl pr l = None <-> pl + length l + pr < k.
Proof.
  unfold Cnv_Model.conv1d. rewrite !app_length, !repeat_length.
  destruct (Nat.ltb_spec (pl + (length l + pr)) k); split; intros; try discriminate; try lia; auto.
Qed.

Lemma seq_split n m : n <= m -> seq 0 m = seq 0 n ++ seq n (m - n).
Proof. intros H. replace m with (n + (m - n)) at 1 by lia. apply seq_app. Qed.

(** Without padding of its own, a convolution of a longer row starts with the
    convolution of the row. *)
Lemma conv1d_extend f k s x y o : s <> 0 -> conv1d f k s 0 0 x = Some o ->
  exists r, conv1d f k s 0 0 (x ++ y) = Some (o ++ r).
Proof.
  intros Hs. unfold Cnv_Model.conv1d. cbn [repeat app]. rewrite !app_nil_r, app_length.
  destruct (Nat.ltb_spec (length x) k); [discriminate|].
  intros H0. injection H0 as <-.
  destruct (Nat.ltb_spec (length x + length y) k); [lia|].
  set (n := (length x - k) / s + 1). set (m := (length x + length y - k) / s + 1).
  assert (L : n <= m).
  { unfold n, m. apply Nat.add_le_mono_r. apply Nat.div_le_mono; lia. }
  rewrite (seq_split n m L), map_app. eexists. do 2 f_equal.
  apply map_ext_in. intros i Hi. apply in_seq in Hi. f_equal.
  transitivity (window k (i * s) (x ++ [])); [apply window_prefix|rewrite app_nil_r; reflexivity].
  assert (i * s <= (length x - k) / s * s) by (apply Nat.mul_le_mono_r; unfold n in Hi; lia).
  pose proof (Nat.mul_div_le (length x - k) s Hs). lia.
Qed.

(** A convolution of stride 1 that pads [k - 1] frames or more does not see
    whether zeros follow. *)
Lemma conv1d_zeros f k pl pr x n o : 1 <= k -> k - 1 <= pl + pr ->
  conv1d f k 1 pl pr x = Some o ->
  exists r, conv1d f k 1 pl pr (x ++ repeat zero n) = Some (firstn (length x) o ++ r) /\
            length r = length o - length x + n.
Proof.
  intros Hk Hp E0. pose proof (conv1d_length _ _ _ _ _ _ _ E0) as (L1 & L2).
  unfold Cnv_Model.conv1d in *. cbv zeta in *. rewrite !app_length, !repeat_length in *.
  destruct (Nat.ltb_spec (pl + (length x + pr)) k); [discriminate|].
  rewrite Nat.div_1_r in E0. injection E0 as E0.
  destruct (Nat.ltb_spec (pl + (length x + n + pr)) k); [lia|].
  rewrite !Nat.div_1_r in *.
  set (m := pl + (length x + n + pr) - k + 1).
  rewrite (seq_split (length x) m) by (unfold m; lia). rewrite map_app.
  eexists. split.
  - do 2 f_equal. rewrite <- E0, firstn_map.
    assert (Es : firstn (length x) (seq 0 (pl + (length x + pr) - k + 1)) = seq 0 (length x)).
    { rewrite (seq_split (length x)) by lia.
      rewrite firstn_app, seq_length, Nat.sub_diag. cbn [firstn]. rewrite app_nil_r.
      apply firstn_all2. rewrite seq_length. lia. }
    rewrite Es. apply map_ext_in. intros i Hi. apply in_seq in Hi. f_equal.
    rewrite Nat.mul_1_r, <- !app_assoc, <- repeat_app, !app_assoc.
    apply window_zeros; rewrite app_length, repeat_length; lia.
  - rewrite map_length, seq_length, L2. unfold m. lia.
Qed.

Definition ok (L : layer E) : Prop :=
  1 <= kernel_size _ L /\ 1 <= stride _ L /\ group_norm _ L = None.

Lemma contract_le Ls : Forall ok Ls -> forall n, (n <= 0)%Z -> (contract E Ls n <= 0)%Z.
Proof.
  induction 1 as [|L Ls (Hk & Hs & _) H IH]; intros n Hn; [exact Hn|].
  cbn. apply IH.
  assert ((n - Z.of_nat (kernel_size E L)) / Z.of_nat (stride E L) < 0)%Z; [|lia].
  apply Z.div_lt_upper_bound; lia.
Qed.

Lemma contract_spec Ls : Forall ok Ls -> forall x,
  match layers_forward E zero Ls x with
  | Some o =>
      contract E Ls (Z.of_nat (length x)) = Z.of_nat (length o) /\
      (length x <> 0 -> length o <> 0) /\
      forall y, exists r, layers_forward E zero Ls (x ++ y) = Some (o ++ r)
  | None => (contract E Ls (Z.of_nat (length x)) <= 0)%Z
  end.
Proof.
  induction 1 as [|L Ls (Hk & Hs & Hg) H IH]; intros x.
  - cbn. split; [reflexivity|]. split; [auto|]. intros y. exists y. reflexivity.
  - cbn [layers_forward contract]. unfold layer_forward. rewrite Hg.
    destruct (conv1d (conv E L) (kernel_size E L) (stride E L) 0 0 x) as [o|] eqn:Ec.
    + pose proof (conv1d_length _ _ _ _ _ _ _ Ec) as (L1 & L2). rewrite Nat.add_0_r in *. cbn in L1, L2.
      assert (Ez : ((Z.of_nat (length x) - Z.of_nat (kernel_size E L)) / Z.of_nat (stride E L) + 1)%Z =
                   Z.of_nat (length (map (norm_act E L) o))).
      { rewrite map_length, L2, Nat2Z.inj_add, Nat2Z.inj_div, Nat2Z.inj_sub by lia. reflexivity. }
      rewrite Ez. specialize (IH (map (norm_act E L) o)).
      destruct (layers_forward E zero Ls (map (norm_act E L) o)) as [q|]; [|exact IH].
      destruct IH as (I1 & I2 & I3). split; [exact I1|]. split.
      * intros _. apply I2. rewrite map_length, L2. lia.
      * intros y. destruct (conv1d_extend (conv E L) (kernel_size E L) (stride E L) x y o ltac:(lia) Ec) as (r & ->).
        rewrite map_app. apply I3.
    + apply conv1d_none in Ec. apply contract_le; [exact H|].
      assert ((Z.of_nat (length x) - Z.of_nat (kernel_size E L)) / Z.of_nat (stride E L) < 0)%Z; [|lia].
      apply Z.div_lt_upper_bound; lia.
Qed.

Lemma each_row_spec g rows :
  match each_row E g rows with
  | Some os => Forall2 (fun r o => g r = Some o) rows os
  | None => exists r, In r rows /\ g r = None
  end.
Proof.
  induction rows as [|r rows IH]; cbn; [constructor|].
  destruct (g r) as [o|] eqn:Eg.
  - destruct (each_row E g rows) as [os|].
    + constructor; assumption.
    + destruct IH as (r' & I & N). exists r'. auto.
  - exists r. auto.
Qed.

End Frames.
