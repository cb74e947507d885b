From Coq Require Import ZArith List Bool Arith Lia ZifyBool.
From Verif Require Import Batch_Model Batch_Spec Batch_Proofs Batch_Proofs2 Batch_Proofs3.
Import ListNotations.
Local Open Scope Z_scope.

Lemma total_le w l : Forall (fun x => 1 <= x <= w) l -> total l <= Z.of_nat (length l) * w.
Proof. induction 1; [simpl; lia|]. cbn [total fold_right length]. fold (total l). lia. Qed.

Lemma accounting_lemma {A} (t : tensor A) ls p m b : sequence_batch t ls p m = Ok b ->
  seqs b = t /\ is_packed b = p /\ mask b = m /\ num_examples b = Z.of_nat (length (lens b)) /\ batch_size b = (if p then 1 else num_examples b) /\
  num_elements b = total (lens b) /\ 0 <= padding b /\ num_elements b + padding b = size p t /\ Forall (fun n => 1 <= n) (lens b) /\
  (match ls with Some l => lens b = l | None => padding b = 0 end) /\
  num_targets b = match m with None => num_elements b | Some k => mask_sum k end.
Proof.
  intros H. apply batch_ok in H. destruct H as (l & bs & ne & nel & pad & Hne & HD & HM & ->). cbn [seqs lens is_packed mask batch_size num_examples num_elements num_targets padding].
  split; [reflexivity|]. split; [reflexivity|]. split; [reflexivity|].
  destruct p.
  - apply packed_dims_ok in HD. destruct HD as (w & r & HS & HW & HF & HT & HE). injection HE as -> -> -> -> ->.
    split; [reflexivity|]. split; [reflexivity|]. split; [reflexivity|]. split; [lia|].
    split. { destruct t as [x|v|w' rows]; simpl in *; [discriminate| |]; injection HS as <- <-; lia. }
    split; [assumption|]. split; [destruct ls; [reflexivity|simpl; lia]|]. destruct m; reflexivity.
  - apply padded_dims_ok in HD. destruct HD as (n & w & r & HS & HW & HN & HF & HE). injection HE as -> -> -> -> ->.
    pose proof (total_le _ _ HF). pose proof (Forall_weaken _ _ HF).
    split; [auto|]. split; [reflexivity|]. split; [reflexivity|]. split; [nia|].
    split. { destruct t as [x|v|w' rows]; simpl in *; try discriminate. injection HS as <- <- <-. lia. }
    split; [assumption|]. split; [|destruct m; reflexivity]. destruct ls; [reflexivity|]. simpl in *.
    assert (E : forall k, total (repeat w k) = Z.of_nat k * w). { clear. induction k; [reflexivity|]. cbn [repeat total fold_right]. fold (total (repeat w k)). lia. }
    rewrite E. rewrite repeat_length in HN. lia.
Qed.

Lemma as_input_lemma {A} (t : tensor A) ls p m b : sequence_batch t ls p m = Ok b ->
  exists y, as_input b = Ok (t, y) /\ seq_lens y = lens b /\ packed y = p /\ num_padding y = padding b /\ (padded y = true <-> 0 < padding b).
Proof.
  intros H. pose proof H as H0. apply batch_ok in H. destruct H as (l & bs & ne & nel & pad & Hne & HD & HM & ->).
  assert (G : exists y, as_input (Batch t l p m bs ne nel (targets m nel) pad) = Ok (t, y) /\ seq_lens y = l /\ packed y = p /\ num_padding y = pad).
  { unfold as_input. cbn [seqs lens is_packed]. destruct p.
    - apply packed_dims_ok in HD. destruct HD as (w & r & HS & HW & HF & HT & HE). injection HE as -> -> -> -> ->. rewrite HS. cbn [firstn].
      assert (1 <= w). { destruct t; simpl in HS; [discriminate| |]; injection HS as <- <-; lia. }
      set (l := default_lens [w] ls) in *. exists (packed_layout w l).
      replace (batch_layout [w] (Some l) true) with (@Ok layout (packed_layout w l)) by (symmetry; apply packed_layout_lemma; simpl; auto).
      split; [reflexivity|]. split; [reflexivity|]. split; [reflexivity|]. apply num_padding_packed. assumption.
    - apply padded_dims_ok in HD. destruct HD as (n & w & r & HS & HW & HN & HF & HE). injection HE as -> -> -> -> ->. rewrite HS. cbn [firstn].
      assert (1 <= w). { destruct t; simpl in HS; try discriminate; injection HS as <- <- <-; lia. }
      set (l := default_lens (repeat w (Z.to_nat n)) ls) in *. exists (padded_layout n w l).
      replace (batch_layout [n; w] (Some l) false) with (@Ok layout (padded_layout n w l)) by (symmetry; apply padded_layout_lemma; simpl; auto).
      split; [reflexivity|]. split; [reflexivity|]. split; [reflexivity|]. rewrite num_padding_padded by assumption. rewrite HN. reflexivity. }
  destruct G as (y & G1 & G2 & G3 & G4). exists y. split; [assumption|]. split; [assumption|]. split; [assumption|]. split; [assumption|].
  cbn [padding]. rewrite <- G4. unfold as_input in G1. cbn [seqs lens is_packed] in G1.
  destruct (batch_layout (firstn (if p then 1 else 2)%nat (shape t)) (Some l) p) as [y'|e] eqn:EB; [|discriminate]. injection G1 as <-. eapply padded_lemma. exact EB.
Qed.

(** ** as_auto_regressive, padded *)
Lemma trim_all_ok l : Forall (fun n => 2 <= n) l -> forall idx, trim_all idx l = Ok (map (fun n => n - 1) l).
Proof. induction 1 as [|n l Hn HF IH]; intros idx; simpl; [reflexivity|]. destruct (n =? 1) eqn:E; [lia|]. rewrite IH. reflexivity. Qed.
Lemma trim_all_err l : Forall (fun n => 1 <= n) l -> forall k, nth_error l k = Some 1 -> (forall j, (j < k)%nat -> nth_error l j <> Some 1) ->
  forall idx, trim_all idx l = Err (CannotTrim (idx + k)).
Proof.
  induction 1 as [|n l Hn HF IH]; intros [|k] Hk Hj idx; simpl in *; try discriminate.
  - injection Hk as ->. simpl. rewrite Nat.add_0_r. reflexivity.
  - pose proof (Hj 0%nat ltac:(lia)) as H0. simpl in H0. destruct (n =? 1) eqn:E; [exfalso; apply H0; f_equal; lia|].
    rewrite (IH k) by (auto; intros j Hj'; apply (Hj (S j)); lia). f_equal. f_equal. lia.
Qed.

Lemma firstn_removelast {A} (r : list A) n : (n <= length r)%nat -> firstn (n - 1) (removelast r) = removelast (firstn n r).
Proof.
  intros H. rewrite (removelast_firstn_len r), (removelast_firstn_len (firstn n r)). rewrite !firstn_firstn. rewrite firstn_length. f_equal. lia.
Qed.
Lemma firstn_tl {A} (r : list A) n : firstn (n - 1) (tl r) = tl (firstn n r).
Proof. destruct r, n; simpl; rewrite ?firstn_nil, ?Nat.sub_0_r; reflexivity. Qed.

Lemma list_eqb_refl l : list_eqb l l = true.
Proof. unfold list_eqb. destruct (list_eq_dec Z.eq_dec l l); congruence. Qed.
Lemma list_eqb_eq a b : list_eqb a b = true -> a = b.
Proof. unfold list_eqb. destruct (list_eq_dec Z.eq_dec a b); congruence. Qed.
Lemma mask_shape_2 {A} (t : tensor A) k : mask_ok false t k = true -> forall w rows, t = T2 w rows -> exists rows', k = T2 w rows' /\ length rows' = length rows.
Proof.
  unfold mask_ok. intros H w rows ->. apply andb_true_iff in H. destruct H as [H1 H2]. destruct k as [x|v|w' rows']; simpl in H1; try discriminate.
  apply list_eqb_eq in H2. rename H2 into E. simpl in E. injection E as E1 E2. exists rows'. split; [f_equal; lia|lia].
Qed.
Lemma mask_ok_2 {A} w (rows : list (list A)) rows' : length rows' = length rows -> mask_ok false (T2 w rows) (T2 w rows') = true.
Proof. intros E. unfold mask_ok. cbn [ndim shape firstn]. rewrite E, list_eqb_refl. reflexivity. Qed.

Lemma total_pred l : total (map (fun n => n - 1) l) = total l - Z.of_nat (length l).
Proof. induction l as [|n l IH]; [reflexivity|]. cbn [map total fold_right length]. fold (total l) (total (map (fun n => n - 1) l)). lia. Qed.

Lemma split_padded {A} (t : tensor A) ls m b : sequence_batch t ls false m = Ok b -> rectangular t -> lens b <> [] -> Forall (fun n => 2 <= n) (lens b) ->
  exists b1 b2, as_auto_regressive b = Ok (b1, b2) /\ lens b1 = map (fun n => n - 1) (lens b) /\ lens b2 = lens b1 /\
    num_elements b1 = num_elements b - num_examples b /\ num_elements b2 = num_elements b1 /\ num_examples b1 = num_examples b /\ num_examples b2 = num_examples b /\
    padding b1 = padding b /\ padding b2 = padding b /\ mask b1 = None /\ mask b2 = option_map drop_first_col m /\ is_packed b1 = false /\ is_packed b2 = false /\
    forall k, (k < length (lens b))%nat -> nth_seq b1 k = removelast (nth_seq b k) /\ nth_seq b2 k = tl (nth_seq b k).
Proof.
  intros H HR HNE H2. apply batch_ok in H. destruct H as (l & bs & ne & nel & pad & Hne & HD & HM & ->).
  apply padded_dims_ok in HD. destruct HD as (n & w & r & HS & HW & HN & HF & HE). injection HE as -> -> -> -> ->.
  cbn [seqs lens is_packed mask batch_size num_examples num_elements num_targets padding] in *.
  set (l := default_lens (repeat w (Z.to_nat n)) ls) in *. clearbody l.
  destruct t as [x|v|w' rows]; simpl in HS; try discriminate. injection HS as Hn Hw <-. 
  assert (W2 : (2 <= w')%nat). { destruct l as [|x l]; [congruence|]. inversion H2; inversion HF; subst. lia. }
  set (l' := map (fun n => n - 1) l).
  assert (HL : length l' = length l) by apply map_length.
  assert (HF' : Forall (fun x => 1 <= x <= Z.of_nat (w' - 1)) l').
  { apply Forall_forall. intros x Hx. apply in_map_iff in Hx. destruct Hx as (y & <- & Hy). rewrite Forall_forall in H2, HF. specialize (H2 y Hy). specialize (HF y Hy). lia. }
  assert (NE' : Some l' <> Some []). { intros E. injection E as E. destruct l; [congruence|discriminate]. }
  assert (D : forall rows' : list (list A), length rows' = length rows -> padded_dims (T2 (w' - 1) rows') (Some l') = Ok (l', n, n, total l', n * Z.of_nat (w' - 1) - total l')).
  { intros rows' E. apply padded_dims_ok. exists n, (Z.of_nat (w' - 1)), []. simpl. rewrite E. repeat split; try lia; auto; congruence. }
  assert (B : forall (rows' : list (list A)) m', length rows' = length rows -> mask_fits false (T2 (w' - 1) rows') m' ->
    sequence_batch (T2 (w' - 1) rows') (Some l') false m' = Ok (Batch (T2 (w' - 1) rows') l' false m' n n (total l') (targets m' (total l')) (n * Z.of_nat (w' - 1) - total l'))).
  { intros rows' m' E HM'. apply batch_ok. exists l', n, n, (total l'), (n * Z.of_nat (w' - 1) - total l'). auto. }
  unfold as_auto_regressive. cbn [seqs lens is_packed mask]. rewrite (trim_all_ok l H2). fold l'. cbn [drop_last_col drop_first_col].
  rewrite (B (map (@removelast A) rows) None) by (rewrite ?map_length; simpl; auto).
  rewrite (B (map (@tl A) rows) (option_map drop_first_col m)).
  2: apply map_length.
  2: { destruct m as [k|]; cbn [mask_fits option_map] in HM |- *; [|constructor]. destruct (mask_shape_2 _ _ HM _ _ eq_refl) as (rows' & -> & E). cbn [drop_first_col]. apply mask_ok_2. rewrite !map_length. exact E. }
  eexists. eexists. split; [destruct m; reflexivity|]. cbn [seqs lens is_packed mask batch_size num_examples num_elements num_targets padding].
  assert (TP : total l' = total l - Z.of_nat (length l)) by apply total_pred. rewrite TP. replace (Z.of_nat (w' - 1)) with (w - 1) by lia. rewrite Z.mul_sub_distr_l.
  split; [reflexivity|]. split; [reflexivity|]. split; [lia|]. split; [reflexivity|]. split; [reflexivity|]. split; [reflexivity|].
  split; [lia|]. split; [lia|]. split; [reflexivity|]. split; [reflexivity|]. split; [reflexivity|]. split; [reflexivity|].
  intros k Hk. unfold nth_seq. cbn [seqs lens].
  assert (Ek : nth k l' 0 = nth k l 0 - 1).
  { unfold l'. rewrite (nth_indep _ 0 (0 - 1)) by (rewrite map_length; exact Hk). apply (map_nth (fun n => n - 1)). }
  rewrite Ek. change (@nil A) with (removelast (@nil A)) at 1. rewrite map_nth. change (@nil A) with (tl (@nil A)) at 3. rewrite map_nth.
  pose proof (Forall_nth' _ _ _ 0 HF Hk) as Hx. pose proof (Forall_nth' _ _ k [] HR) as HRk. simpl in Hx, HRk.
  replace (Z.to_nat (nth k l 0 - 1)) with (Z.to_nat (nth k l 0%Z) - 1)%nat by lia.
  split; [apply firstn_removelast; rewrite HRk by lia; lia|apply firstn_tl].
Qed.

Lemma split_padded_err {A} (t : tensor A) ls m b k : sequence_batch t ls false m = Ok b -> nth_error (lens b) k = Some 1 ->
  (forall j, (j < k)%nat -> nth_error (lens b) j <> Some 1) -> as_auto_regressive b = Err (CannotTrim k).
Proof.
  intros H Hk Hj. pose proof (accounting_lemma _ _ _ _ _ H) as (_ & EP & _ & _ & _ & _ & _ & _ & HF & _). unfold as_auto_regressive. rewrite EP.
  rewrite (trim_all_err _ HF k Hk Hj 0). reflexivity.
Qed.

(** ** as_auto_regressive, packed *)
Lemma mask_shape_1 {A} (t : tensor A) k : mask_ok true t k = true -> forall v, t = T1 v -> exists v', k = T1 v' /\ length v' = length v.
Proof.
  unfold mask_ok. intros H v ->. apply andb_true_iff in H. destruct H as [H1 H2]. destruct k as [x|v'|w' rows']; simpl in H1; try discriminate.
  apply list_eqb_eq in H2. rename H2 into E. simpl in E. injection E as E1. exists v'. split; [reflexivity|lia].
Qed.
Lemma mask_ok_1 {A} (v : list A) v' : length v' = length v -> mask_ok true (T1 v) (T1 v') = true.
Proof. intros E. unfold mask_ok. cbn [ndim shape firstn]. rewrite E, list_eqb_refl. reflexivity. Qed.
Lemma removelast_length {A} (v : list A) : length (removelast v) = (length v - 1)%nat.
Proof. rewrite removelast_firstn_len, firstn_length. lia. Qed.

Lemma split_packed {A} (v : list A) ls m b : sequence_batch (T1 v) ls true m = Ok b -> lens b <> [1] ->
  exists b1 b2, as_auto_regressive b = Ok (b1, b2) /\ lens b2 = lens b1 /\
    lens b1 = removelast (lens b) ++ (if last (lens b) 0 =? 1 then [] else [last (lens b) 0 - 1]) /\
    num_elements b1 = num_elements b - 1 /\ num_elements b2 = num_elements b1 /\ padding b1 = padding b /\ padding b2 = padding b /\
    mask b1 = None /\ mask b2 = option_map drop_first m /\ is_packed b1 = true /\ is_packed b2 = true /\
    packed_elements b1 = removelast (packed_elements b) /\ packed_elements b2 = tl (packed_elements b).
Proof.
  intros H H1. apply batch_ok in H. destruct H as (l & bs & ne & nel & pad & Hne & HD & HM & ->).
  apply packed_dims_ok in HD. destruct HD as (w & r & HS & HW & HF & HT & HE). injection HE as -> -> -> -> ->.
  cbn [seqs lens is_packed mask batch_size num_examples num_elements num_targets padding] in *.
  assert (HNE : default_lens [w] ls <> []) by (destruct ls as [l|]; simpl; congruence).
  set (l := default_lens [w] ls) in *. clearbody l. injection HS as Hw <-.
  destruct (exists_last HNE) as (a & x & ->). rewrite last_last, removelast_last.
  apply Forall_app in HF. destruct HF as [HFa HFx]. inversion HFx as [|? ? Hx _]; subst. rewrite total_app in HT. simpl in HT.
  set (l' := a ++ (if x =? 1 then [] else [x - 1])).
  assert (HL : trim_packed (a ++ [x]) = Ok l').
  { unfold trim_packed. rewrite last_last, removelast_last, app_length. simpl. unfold l'. destruct a as [|y a']; simpl.
    - destruct (x =? 1) eqn:E; [exfalso; apply H1; simpl; f_equal; lia|reflexivity].
    - replace (length a' + 1)%nat with (S (length a')) by lia. destruct (x =? 1); [rewrite app_nil_r; reflexivity|reflexivity]. }
  assert (TL : total l' = total a + x - 1). { unfold l'. rewrite total_app. destruct (x =? 1) eqn:E; simpl; lia. }
  assert (HF' : Forall (fun n => 1 <= n) l').
  { unfold l'. apply Forall_app. split; [assumption|]. destruct (x =? 1) eqn:E; constructor; [lia|constructor]. }
  assert (NE' : l' <> []). { unfold l'. destruct a; [|discriminate]. destruct (x =? 1) eqn:E; [|discriminate]. exfalso. apply H1. simpl. f_equal. lia. }
  assert (PL : 1 <= total l'). { destruct l' as [|y l'']; [congruence|]. inversion HF'; subst. simpl. fold (total l''). pose proof (total_nonneg l'' ltac:(assumption)). lia. }
  assert (NS : Some l' <> Some []) by congruence.
  assert (B : forall (v' : list A) m', length v' = (length v - 1)%nat -> mask_fits true (T1 v') m' ->
    sequence_batch (T1 v') (Some l') true m' = Ok (Batch (T1 v') l' true m' 1 (Z.of_nat (length l')) (total l') (targets m' (total l')) (Z.of_nat (length v - 1) - total l'))).
  { intros v' m' E HM'. apply batch_ok. exists l', 1, (Z.of_nat (length l')), (total l'), (Z.of_nat (length v - 1) - total l'). split; [assumption|]. split; [|auto].
    apply packed_dims_ok. exists (Z.of_nat (length v')), []. simpl. rewrite E. repeat split; auto; lia. }
  unfold as_auto_regressive. cbn [seqs lens is_packed mask]. rewrite HL. cbn [drop_last drop_first].
  rewrite (B (removelast v) None) by (simpl; auto using removelast_length).
  assert (TV : length (tl v) = (length v - 1)%nat) by (destruct v; simpl; lia).
  rewrite (B (tl v) (option_map drop_first m) TV).
  2: { destruct m as [k|]; cbn [mask_fits option_map] in HM |- *; [|constructor]. destruct (mask_shape_1 _ _ HM _ eq_refl) as (v' & -> & E). cbn [drop_first]. apply mask_ok_1. destruct v, v'; simpl in *; lia. }
  eexists. eexists. split; [destruct m; reflexivity|]. unfold packed_elements. cbn [seqs lens is_packed mask batch_size num_examples num_elements num_targets padding].
  rewrite TL. rewrite total_app. replace (total [x]) with x by (simpl; lia).
  split; [reflexivity|]. split; [reflexivity|]. split; [lia|]. split; [reflexivity|].
  split; [lia|]. split; [lia|]. split; [reflexivity|]. split; [reflexivity|]. split; [reflexivity|]. split; [reflexivity|].
  pose proof (total_nonneg a HFa). replace (Z.to_nat (total a + x - 1)) with (Z.to_nat (total a + x) - 1)%nat by lia.
  split; [apply firstn_removelast; lia|apply firstn_tl].
Qed.
Lemma split_packed_err {A} (t : tensor A) ls m b : sequence_batch t ls true m = Ok b -> lens b = [1] -> as_auto_regressive b = Err (CannotTrim 0).
Proof.
  intros H H1. pose proof (accounting_lemma _ _ _ _ _ H) as (_ & EP & _). unfold as_auto_regressive. rewrite EP, H1. reflexivity.
Qed.

Lemma skipn_skipn' {A} a b (l : list A) : skipn a (skipn b l) = skipn (b + a) l.
Proof. revert l. induction b; intros l; simpl; [reflexivity|]. destruct l; [apply skipn_nil|]. apply IHb. Qed.
Lemma firstn_add {A} a b (l : list A) : firstn (a + b) l = firstn a l ++ firstn b (skipn a l).
Proof. revert l. induction a; intros l; simpl; [reflexivity|]. destruct l; simpl; [rewrite firstn_nil; reflexivity|]. f_equal. apply IHa. Qed.
Lemma chunks {A} (l : list Z) : Forall (fun n => 1 <= n) l -> forall v : list A,
  concat (map (fun k => firstn (Z.to_nat (nth k l 0)) (skipn (Z.to_nat (total (firstn k l))) v)) (seq 0 (length l))) = firstn (Z.to_nat (total l)) v.
Proof.
  induction 1 as [|n l Hn HF IH]; intros v; [reflexivity|]. cbn [length seq map concat nth firstn total fold_right]. fold (total l).
  pose proof (total_nonneg l HF). rewrite Z2Nat.inj_add by lia. rewrite firstn_add. f_equal. rewrite <- IH, <- seq_shift, map_map. f_equal. apply map_ext. intros k.
  cbn [nth firstn total fold_right]. fold (total (firstn k l)). rewrite skipn_skipn'. do 2 f_equal.
  assert (0 <= total (firstn k l)). { apply total_nonneg. apply Forall_forall. intros x Hx. rewrite Forall_forall in HF. apply HF. rewrite <- (firstn_skipn k l). apply in_or_app. auto. }
  lia.
Qed.
Lemma packed_sequences {A} (v : list A) ls m b : sequence_batch (T1 v) ls true m = Ok b ->
  packed_elements b = concat (map (nth_seq b) (seq 0 (length (lens b)))).
Proof.
  intros H. pose proof (accounting_lemma _ _ _ _ _ H) as (E & _ & _ & _ & _ & _ & _ & _ & HF & _).
  unfold packed_elements, nth_seq. rewrite E. rewrite <- (chunks (lens b) HF v). reflexivity.
Qed.
