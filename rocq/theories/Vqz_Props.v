(** The vector quantizer of wav2vec 2.0 (C98). *)

Require Import List Arith ZArith QArith Qminmax Bool Lia Lqa.
From Verif Require Import Vqz_Model Vqz_Spec.
Import ListNotations.
Local Open Scope nat_scope.

Lemma argmax_lt : forall l, l <> [] -> argmax l < length l.
Proof.
  induction l as [|x l IH]; intro H; [contradiction|]. destruct l as [|y l]; [cbn; lia|].
  change (argmax (x :: y :: l)) with (let k := argmax (y :: l) in if (nth k (y :: l) 0 <=? x)%Z then 0 else S k). cbv zeta.
  destruct (_ <=? _)%Z; [cbn; lia|]. specialize (IH ltac:(discriminate)). cbn [length] in *. lia.
Qed.

Lemma argmax_max : forall l v, v < length l -> (nth v l 0 <= nth (argmax l) l 0)%Z.
Proof.
  induction l as [|x l IH]; intros v H; [cbn in H; lia|]. destruct l as [|y l].
  { cbn in H. assert (v = 0) as -> by lia. cbn. lia. }
  change (argmax (x :: y :: l)) with (let k := argmax (y :: l) in if (nth k (y :: l) 0 <=? x)%Z then 0 else S k). cbv zeta.
  destruct (Z.leb_spec (nth (argmax (y :: l)) (y :: l) 0%Z) x) as [L|L].
  - destruct v as [|v]; [cbn; lia|]. change (nth (S v) (x :: y :: l) 0%Z) with (nth v (y :: l) 0%Z). change (nth 0 (x :: y :: l) 0%Z) with x.
    specialize (IH v ltac:(cbn in *; lia)). lia.
  - change (nth (S (argmax (y :: l))) (x :: y :: l) 0%Z) with (nth (argmax (y :: l)) (y :: l) 0%Z).
    destruct v as [|v]; [change (nth 0 (x :: y :: l) 0%Z) with x; lia|]. change (nth (S v) (x :: y :: l) 0%Z) with (nth v (y :: l) 0%Z).
    apply IH. cbn in *; lia.
Qed.

Lemma one_hot_length : forall n k, length (one_hot n k) = n.
Proof. intros. unfold one_hot. rewrite map_length. apply seq_length. Qed.

Lemma nth_one_hot : forall n k v, v < n -> nth v (one_hot n k) 0%Z = if v =? k then 1%Z else 0%Z.
Proof.
  intros n k v H. unfold one_hot. rewrite (nth_indep _ 0%Z ((fun w => if w =? k then 1%Z else 0%Z) 0)) by (rewrite map_length, seq_length; exact H).
  rewrite (map_nth (fun w => if w =? k then 1%Z else 0%Z)). rewrite seq_nth by exact H. reflexivity.
Qed.

Lemma argmax_one_hot : forall n k, k < n -> argmax (one_hot n k) = k.
Proof.
  intros n k H. assert (L : argmax (one_hot n k) < n).
  { rewrite <- (one_hot_length n k) at 2. apply argmax_lt. intro E. apply (f_equal (@length Z)) in E. rewrite one_hot_length in E. cbn in E. lia. }
  pose proof (argmax_max (one_hot n k) k ltac:(rewrite one_hot_length; exact H)) as M.
  rewrite !nth_one_hot in M by assumption. rewrite Nat.eqb_refl in M. destruct (Nat.eqb_spec (argmax (one_hot n k)) k) as [E|E]; [exact E|lia].
Qed.

(** Blocks of equal length. *)
Lemma nth_concat : forall {A} n (bs : list (list A)) g v d, Forall (fun b => length b = n) bs -> g < length bs -> v < n ->
  nth (g * n + v) (concat bs) d = nth v (nth g bs []) d.
Proof.
  intros A n. induction bs as [|b bs IH]; intros g v d F Hg Hv; [cbn in Hg; lia|].
  pose proof (Forall_inv F) as E. cbn beta in E. cbn [concat]. destruct g as [|g].
  - cbn [Nat.mul Nat.add nth]. apply app_nth1. lia.
  - rewrite app_nth2 by (cbn; lia). cbn [nth]. replace (S g * n + v - length b) with (g * n + v) by (cbn; lia).
    apply IH; [exact (Forall_inv_tail F)|cbn in Hg; lia|exact Hv].
Qed.

Lemma skipn_concat : forall {A} n (bs : list (list A)) g, Forall (fun b => length b = n) bs -> g < length bs ->
  firstn n (skipn (g * n) (concat bs)) = nth g bs [].
Proof.
  intros A n. induction bs as [|b bs IH]; intros g F Hg; [cbn in Hg; lia|].
  pose proof (Forall_inv F) as E. cbn beta in E. cbn [concat]. destruct g as [|g].
  - cbn [Nat.mul skipn nth]. rewrite firstn_app, <- E, Nat.sub_diag, firstn_all, firstn_O. apply app_nil_r.
  - cbn [nth]. rewrite skipn_app. rewrite (skipn_all2 b) by (cbn; lia). replace (S g * n - length b) with (g * n) by (cbn; lia).
    apply IH; [exact (Forall_inv_tail F)|cbn in Hg; lia].
Qed.

Lemma nth_firstn_lt : forall {A} n (l : list A) i d, i < n -> nth i (firstn n l) d = nth i l d.
Proof.
  intros A. induction n as [|n IH]; intros l i d H; [lia|]. destruct l as [|x l]; [destruct i; reflexivity|].
  destruct i as [|i]; [reflexivity|]. cbn. apply IH. lia.
Qed.

Lemma nth_skipn_add : forall {A} k (l : list A) i d, nth i (skipn k l) d = nth (k + i) l d.
Proof.
  intros A. induction k as [|k IH]; intros l i d; [reflexivity|]. destruct l as [|x l]; [destruct i; reflexivity|]. cbn. apply IH.
Qed.

Lemma sum_zero : forall (f : nat -> Z) vs, (forall v, In v vs -> f v = 0%Z) -> sum (map f vs) = 0%Z.
Proof.
  intros f. induction vs as [|v vs IH]; intro H; [reflexivity|]. cbn. rewrite (H v) by (left; reflexivity). change (fold_right Z.add 0%Z (map f vs)) with (sum (map f vs)).
  rewrite IH; [reflexivity|]. intros; apply H; right; assumption.
Qed.

Lemma sum_one : forall (f : nat -> Z) n a k, a <= k < a + n -> (forall v, v <> k -> f v = 0%Z) -> sum (map f (seq a n)) = f k.
Proof.
  intros f. induction n as [|n IH]; intros a k H Z0; [lia|]. cbn [seq map]. change (sum (f a :: map f (seq (S a) n))) with (f a + sum (map f (seq (S a) n)))%Z.
  destruct (Nat.eq_dec a k) as [->|N].
  - rewrite sum_zero; [lia|]. intros v I. apply in_seq in I. apply Z0. lia.
  - rewrite (Z0 a N). rewrite (IH (S a) k) by (auto; lia). reflexivity.
Qed.

Section Quantizer.
  Variables (G V D : nat) (entries : nat -> nat -> Z).
  Hypothesis HV : 0 < V.

  Definition blocks (x : list Z) : list (list Z) := map (fun c => one_hot V (argmax c)) (view G V x).

  Lemma blocks_len : forall x, length (blocks x) = G.
  Proof. intro x. unfold blocks, view. rewrite !map_length. apply seq_length. Qed.

  Lemma blocks_all : forall x, Forall (fun b => length b = V) (blocks x).
  Proof. intro x. apply Forall_forall. intros b I. unfold blocks in I. apply in_map_iff in I as (c & <- & _). apply one_hot_length. Qed.

  Definition choice (x : list Z) (g : nat) : nat := argmax (firstn V (skipn (g * V) x)).

  Lemma nth_blocks : forall x g, g < G -> nth g (blocks x) [] = one_hot V (choice x g).
  Proof.
    intros x g H. unfold blocks, view. rewrite map_map.
    rewrite (nth_indep _ [] ((fun g => one_hot V (argmax (firstn V (skipn (g * V) x)))) 0)) by (rewrite map_length, seq_length; exact H).
    rewrite (map_nth (fun g => one_hot V (argmax (firstn V (skipn (g * V) x))))). rewrite seq_nth by exact H. reflexivity.
  Qed.

  Lemma choice_best : forall x g, length x = G * V -> g < G -> best V (fun i => nth i x 0%Z) g (choice x g).
  Proof.
    intros x g L H. assert (LB : length (firstn V (skipn (g * V) x)) = V).
    { rewrite firstn_length, skipn_length. nia. }
    assert (K : choice x g < V).
    { assert (X : choice x g < length (firstn V (skipn (g * V) x))) by (apply argmax_lt; intro E; rewrite E in LB; cbn in LB; lia). rewrite LB in X. exact X. }
    split; [exact K|]. intros v Hv.
    pose proof (argmax_max (firstn V (skipn (g * V) x)) v ltac:(rewrite LB; exact Hv)) as M.
    fold (choice x g) in M. rewrite !nth_firstn_lt, !nth_skipn_add in M by assumption. exact M.
  Qed.

  Lemma component_choice : forall x g j, length x = G * V -> g < G -> component V entries (concat (blocks x)) g j = entries (g * V + choice x g) j.
  Proof.
    intros x g j L H. destruct (choice_best x g L H) as [K _]. unfold component.
    rewrite (map_ext_in _ (fun v => ((if (v =? choice x g)%nat then 1 else 0) * entries (g * V + v)%nat j)%Z)).
    - rewrite (sum_one _ V 0 (choice x g)); [rewrite Nat.eqb_refl; lia|lia|]. intros v N. destruct (Nat.eqb_spec v (choice x g)); [contradiction|lia].
    - intros v I. apply in_seq in I. rewrite nth_concat by (rewrite ?blocks_len; auto using blocks_all; lia). rewrite nth_blocks by exact H. rewrite nth_one_hot by lia. reflexivity.
  Qed.

  Lemma targets_choice : forall x, length x = G * V -> get_target_indices G V (concat (blocks x)) = map (choice x) (seq 0 G).
  Proof.
    intros x L. unfold get_target_indices. rewrite firstn_all2 by (unfold view; rewrite !map_length, seq_length; lia).
    unfold view. rewrite map_map. apply map_ext_in. intros g I. apply in_seq in I.
    rewrite skipn_concat by (rewrite ?blocks_len; auto using blocks_all; lia). rewrite nth_blocks by lia. apply argmax_one_hot.
    apply (proj1 (choice_best x g L ltac:(lia))).
  Qed.
End Quantizer.

(** A vector is replaced by the entries with the best scores, one of each codebook,
    in the order of the codebooks; in training, the scores have noise.  The targets
    of w2v-BERT are the numbers of exactly these entries. *)
Theorem C98_quantized : forall G V D entries (training : bool) noise row, 0 < V -> length row = G * V -> length noise = G * V ->
  exists ks, length ks = G /\
    (forall g, g < G -> best V (fun i => (nth i row 0 + (if training then nth i noise 0 else 0))%Z) g (nth g ks 0)) /\
    quantized_vector G V D entries (codes G V training noise row) = flat_map (fun g => map (entries (g * V + nth g ks 0)) (seq 0 D)) (seq 0 G) /\
    get_target_indices G V (codes G V training noise row) = ks.
Proof.
  intros G V D entries training noise row HV L LN.
  set (x := if training then plus_noise row noise else row).
  assert (LX : length x = G * V). { subst x. destruct training; [unfold plus_noise; rewrite map_length, combine_length; lia|exact L]. }
  assert (NX : forall i, i < G * V -> nth i x 0%Z = (nth i row 0 + (if training then nth i noise 0 else 0))%Z).
  { intros i Hi. subst x. destruct training; [|lia]. unfold plus_noise.
    change 0%Z with ((fun p => (fst p + snd p)%Z) (0%Z, 0%Z)) at 1. rewrite map_nth. rewrite combine_nth by lia. reflexivity. }
  change (codes G V training noise row) with (concat (blocks G V x)). exists (map (choice V x) (seq 0 G)).
  assert (NK : forall g, g < G -> nth g (map (choice V x) (seq 0 G)) 0 = choice V x g).
  { intros g Hg. rewrite (nth_indep _ 0 (choice V x 0)) by (rewrite map_length, seq_length; exact Hg). rewrite map_nth, seq_nth by exact Hg. reflexivity. }
  split; [rewrite map_length; apply seq_length|]. split; [|split].
  - intros g Hg. rewrite (NK g Hg). destruct (choice_best G V HV x g LX Hg) as [K B]. split; [exact K|]. intros v Hv. specialize (B v Hv). cbn beta in *.
    rewrite <- !NX by nia. exact B.
  - unfold quantized_vector. rewrite !flat_map_concat_map. f_equal. apply map_ext_in. intros g I. apply in_seq in I. apply map_ext. intro j.
    rewrite (NK g) by lia. apply component_choice; [exact HV|exact LX|lia].
  - apply targets_choice; assumption.
Qed.

Example C98_quantized_ex : let entries i j := Z.of_nat (10 * i + j) in let cb := codes 2 3 false (repeat 0%Z 6) [3; 9; 4; 1; 1; 5]%Z in
  quantized_vector 2 3 2 entries cb = [10; 11; 50; 51]%Z /\ get_target_indices 2 3 cb = [1; 2].
Proof. split; reflexivity. Qed.

(** w2v-BERT has as many targets per element as codebooks, however many target
    codebooks are configured. *)
Theorem C98_target_codebooks_refuted : forall G V num_target_codebooks cb, num_target_codebooks < G ->
  length (get_target_indices G V cb) <> num_target_codebooks.
Proof.
  intros G V t cb H. unfold get_target_indices. rewrite firstn_length, map_length. unfold view. rewrite map_length, seq_length. lia.
Qed.

(** ** The temperature *)

Lemma qpow_range : forall q n, (0 <= q <= 1)%Q -> (0 <= qpow q n <= 1)%Q.
Proof.
  intros q n Hq. induction n as [|n IH]; cbn [qpow]; [lra|]. nra.
Qed.

Lemma qpow_step : forall q n, (0 <= q <= 1)%Q -> (qpow q (S n) <= qpow q n)%Q.
Proof. intros q n H. cbn [qpow]. pose proof (qpow_range q n H). nra. Qed.

(** The temperature never rises, begins with the maximum and never falls below the
    minimum. *)
Theorem C98_temp : forall max_temp min_temp decay, (0 <= min_temp <= max_temp)%Q -> (0 <= decay <= 1)%Q ->
  (current_temp max_temp min_temp decay 0 == max_temp)%Q /\
  (forall n, min_temp <= current_temp max_temp min_temp decay n <= max_temp)%Q /\
  (forall n m, (n <= m)%nat -> (current_temp max_temp min_temp decay m <= current_temp max_temp min_temp decay n)%Q).
Proof.
  intros M m d Hm Hd. unfold current_temp. split; [|split].
  - cbn [qpow]. rewrite Q.max_l; lra.
  - intro n. pose proof (qpow_range d n Hd). split; [apply Q.le_max_r|]. apply Q.max_lub; nra.
  - intros n k H. induction H as [|k H IH]; [apply Qle_refl|]. eapply Qle_trans; [|exact IH].
    apply Q.max_le_compat_r. pose proof (qpow_step d k Hd). nra.
Qed.

Example C98_temp_ex : (current_temp 2 (1 # 10) (1 # 2) 2 == 1 # 2)%Q /\ (current_temp 2 (1 # 10) (1 # 2) 9 == 1 # 10)%Q.
Proof. split; reflexivity. Qed.

Lemma updates_from : forall ps n, fold_left (fun n t => after_forward t n) ps n = n + length (filter (fun t => t) ps).
Proof.
  induction ps as [|[] ps IH]; intro n; cbn [fold_left after_forward filter length]; rewrite ?IH; lia.
Qed.

(** It is that of the number of passes in training; validation does not count. *)
Theorem C98_updates : forall passes, num_updates passes = length (filter (fun t => t) passes).
Proof. intro passes. unfold num_updates. rewrite updates_from. reflexivity. Qed.

Lemma filter_true : forall a, filter (fun t : bool => t) (repeat true a) = repeat true a.
Proof. induction a as [|a IH]; cbn; [reflexivity|]. rewrite IH. reflexivity. Qed.

Lemma passes_count : forall steps a, num_updates (passes_of steps a) = steps * a.
Proof.
  intros steps a. rewrite C98_updates. unfold passes_of. induction steps as [|s IH]; [reflexivity|]. cbn [repeat concat]. rewrite filter_app, app_length, IH.
  rewrite filter_true, repeat_length. lia.
Qed.

(** With gradient accumulation it is not the number of updates. *)
Theorem C98_updates_refuted : forall steps grad_accumulation, 1 <= steps -> 2 <= grad_accumulation ->
  num_updates (passes_of steps grad_accumulation) = steps * grad_accumulation /\ steps < num_updates (passes_of steps grad_accumulation).
Proof. intros steps a Hs Ha. rewrite passes_count. split; [reflexivity|nia]. Qed.

(** ** The layers of w2v-BERT *)

Lemma run_capture : forall {T} (layers : list (T -> T)) idx x st c, 
  let hook i (out : T) (s : T) := if (Z.of_nat i =? c)%Z then out else s in
  fst (run_layers T hook layers idx x st) = apply_all layers x /\
  snd (run_layers T hook layers idx x st) = if ((Z.of_nat idx <=? c) && (c <? Z.of_nat (idx + length layers)))%Z
    then apply_all (firstn (Z.to_nat c - idx + 1) layers) x else st.
Proof.
  intros T. induction layers as [|f fs IH]; intros idx x st c hook; cbn [run_layers].
  - cbn [fst snd length]. split; [reflexivity|]. destruct (Z.leb_spec (Z.of_nat idx) c), (Z.ltb_spec c (Z.of_nat (idx + 0))); try reflexivity. lia.
  - destruct (IH (S idx) (f x) (hook idx (f x) st) c) as [A B]. fold hook in A, B. split; [exact A|]. rewrite B. unfold hook. cbn [length].
    destruct (Z.eqb_spec (Z.of_nat idx) c) as [E|E].
    + destruct (Z.leb_spec (Z.of_nat (S idx)) c); [lia|]. cbn [andb]. destruct (Z.leb_spec (Z.of_nat idx) c); [|lia]. destruct (Z.ltb_spec c (Z.of_nat (idx + S (length fs)))); [|lia]. cbn [andb].
      replace (Z.to_nat c - idx + 1) with 1 by lia. reflexivity.
    + destruct (Z.leb_spec (Z.of_nat (S idx)) c), (Z.leb_spec (Z.of_nat idx) c), (Z.ltb_spec c (Z.of_nat (S idx + length fs))), (Z.ltb_spec c (Z.of_nat (idx + S (length fs)))); cbn [andb]; try lia; try reflexivity.
      replace (Z.to_nat c - idx + 1) with (S (Z.to_nat c - S idx + 1)) by lia. reflexivity.
Qed.

(** The last [num_bert_encoder_layers] layers are those of the masked prediction:
    what is contrasted is the output of the layers before them, and the prediction
    is from the output of all, normalised.  A model without layers before them is
    refused. *)
Theorem C98_layers : forall {T} (layers : list (T -> T)) layer_norm b x,
  bert_forward T layers layer_norm b x =
    if b <? length layers then Some (layer_norm (apply_all layers x), apply_all (firstn (length layers - b) layers) x) else None.
Proof.
  intros T layers ln b x. unfold bert_forward. destruct (Nat.leb_spec (length layers) b), (Nat.ltb_spec b (length layers)); try lia; [reflexivity|].
  pose proof (run_capture layers 0 x x (Z.of_nat (length layers) - Z.of_nat b - 1)%Z) as R. cbv zeta in R.
  destruct (run_layers _ _ _ _ _ _) as [o c]. destruct R as [A B]. cbn [fst snd] in A, B. subst o c.
  destruct (Z.leb_spec (Z.of_nat 0) (Z.of_nat (length layers) - Z.of_nat b - 1)); [|lia].
  destruct (Z.ltb_spec (Z.of_nat (length layers) - Z.of_nat b - 1) (Z.of_nat (0 + length layers))); [|lia]. cbn [andb].
  replace (Z.to_nat (Z.of_nat (length layers) - Z.of_nat b - 1) - 0 + 1) with (length layers - b) by lia. reflexivity.
Qed.

Example C98_layers_ex : bert_forward (list nat) (map (fun i l => l ++ [i]) [1; 2; 3]) (fun l => l ++ [9]) 1 [] = Some ([1; 2; 3; 9], [1; 2]).
Proof. reflexivity. Qed.

Print Assumptions C98_quantized.
Print Assumptions C98_target_codebooks_refuted.
Print Assumptions C98_temp.
Print Assumptions C98_updates.
Print Assumptions C98_updates_refuted.
Print Assumptions C98_layers.
