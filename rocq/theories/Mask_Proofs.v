From Coq Require Import List Bool Arith Lia.
From Verif Require Import Mask_Model Mask_Spec.
Import ListNotations.

Lemma length_repeat_interleave : forall {A} (l : list A) k, length (repeat_interleave l k) = length l * k.
Proof. unfold repeat_interleave; induction l; intros; cbn; auto. rewrite app_length, repeat_length, IHl; auto. Qed.

Lemma min_of_le : forall l x, In x l -> min_of l <= x.
Proof.
  intros [|a l] x; [intros []|]. cbn.
  assert (H : forall l a, fold_left Nat.min l a <= a /\ forall x, In x l -> fold_left Nat.min l a <= x).
  { clear; induction l; intros; cbn; [split; [lia|intros ? []]|]. destruct (IHl (Nat.min a0 a)) as [H1 H2]. split; [lia|]. intros x [->|I]; [lia|auto]. }
  intros [->|I]; [apply (proj1 (H l x))|apply (proj2 (H l a)); auto].
Qed.
Lemma min_of_in : forall l, l <> [] -> In (min_of l) l.
Proof.
  intros [|a l] H; [easy|]. cbn. clear H. revert a. induction l; intros; cbn; auto.
  destruct (IHl (Nat.min a0 a)) as [E|I]; auto. rewrite <- E. destruct (Nat.min_dec a0 a) as [->| ->]; auto.
Qed.

(** The offsets, row by row *)
Lemma offsets_rows : forall (g : nat -> nat) rand rd m lens s a,
  view (length lens) m (map (fun p => fst p * rand (snd p) / rd)
    (combine (repeat_interleave (map g lens) m) (seq (s + a * m) (length (repeat_interleave (map g lens) m)))))
  = map (fun p => map (fun j => g (snd p) * rand (s + fst p * m + j) / rd) (seq 0 m)) (combine (seq a (length lens)) lens).
Proof.
  induction lens; intros; [reflexivity|].
  change (repeat_interleave (map g (a :: lens)) m) with (repeat (g a) m ++ repeat_interleave (map g lens) m).
  rewrite app_length, repeat_length, seq_app. 
  set (t := repeat_interleave (map g lens) m).
  assert (C : forall {A B} (l1 : list A) (k1 : list B) l2 k2, length l1 = length k1 -> combine (l1 ++ l2) (k1 ++ k2) = combine l1 k1 ++ combine l2 k2).
  { clear; induction l1; destruct k1; cbn; intros; try discriminate; auto. f_equal; auto. }
  rewrite C by (rewrite repeat_length, seq_length; auto). rewrite map_app.
  set (h := map _ (combine (repeat (g a) m) _)).
  assert (Lh : length h = m). { subst h. rewrite map_length, combine_length, repeat_length, seq_length; lia. }
  cbn [length view seq combine map]. f_equal.
  - rewrite firstn_app, Lh, Nat.sub_diag, firstn_O, app_nil_r, firstn_all2 by lia. subst h. cbn [fst snd].
    clear. generalize (s + a0 * m). intros b. rewrite <- (Nat.add_0_r b) at 1. generalize 0. induction m; intros; cbn; auto. f_equal.
    rewrite <- IHm. rewrite <- Nat.add_succ_r; auto.
  - rewrite skipn_app, Lh, Nat.sub_diag, skipn_O, skipn_all2 by lia. cbn [app]. rewrite <- IHlens. 
    replace (s + S a0 * m) with (s + a0 * m + m) by lia. reflexivity.
Qed.
Lemma indices_row : forall L row,
  map (fun p => fst p + snd p) (combine (repeat_interleave row L) (concat (repeat (seq 0 L) (length row)))) = flat_map (fun o => map (Nat.add o) (seq 0 L)) row.
Proof.
  induction row; [reflexivity|]. change (repeat_interleave (a :: row) L) with (repeat a L ++ repeat_interleave row L). cbn [length repeat concat flat_map].
  rewrite <- IHrow. clear IHrow. rename row into r.
  generalize (repeat_interleave r L) (concat (repeat (seq 0 L) (length r))). clear r. intros u v.
  generalize 0. induction L; intros; cbn; auto. f_equal. auto.
Qed.

Section S.
  Variables span_len pn pd rd : nat.
  Variable rand : nat -> nat.
  Lemma spans_rows : forall lens mn idx, compute_mask_spans span_len pn pd rd rand lens mn = Spans idx ->
    let m := num_spans span_len pn pd lens in lens <> [] /\ 0 < m /\ mn <= m /\
    idx = map (fun p => flat_map (fun o => map (Nat.add o) (seq 0 span_len)) (map (fun j => (snd p - span_len + 1) * rand (fst p * m + j) / rd) (seq 0 m)))
              (combine (seq 0 (length lens)) lens).
  Proof.
    intros lens mn idx H m. unfold compute_mask_spans in H. destruct lens as [|n0 l0]; [discriminate|]. set (lens := n0 :: l0) in *. fold m in H.
    destruct (m <? mn) eqn:E1; [discriminate|]. destruct (m =? 0) eqn:E2; [discriminate|]. apply Nat.ltb_ge in E1. apply Nat.eqb_neq in E2.
    apply (f_equal (fun s => match s with Spans i => i | _ => [] end)) in H. cbv beta iota zeta in H. rewrite <- H. clear H idx.
    split; [discriminate|]. split; [lia|]. split; [lia|].
    pose proof (offsets_rows (fun n => n - span_len + 1) rand rd m lens 0 0) as O. cbn [Nat.add Nat.mul] in O. rewrite O. rewrite !map_map.
    apply map_ext. intros [r n]. cbn [fst snd]. set (row := map _ (seq 0 m)).
    assert (E : m = length row) by (subst row; rewrite map_length, seq_length; auto). rewrite E at 1. apply indices_row.
  Qed.
End S.

Lemma nth_scatter : forall w idx i, nth_error (scatter w idx) i = Some true <-> i < w /\ In i idx.
Proof.
  intros. unfold scatter. split.
  - intros H. rewrite nth_error_map in H. destruct (nth_error (seq 0 w) i) eqn:E; [|discriminate]. cbn in H. injection H as H.
    assert (i < w). { rewrite <- (seq_length w 0). apply nth_error_Some. congruence. }
    apply nth_error_nth with (d := 0) in E. rewrite seq_nth in E by auto. cbn in E. subst n. split; auto. apply existsb_exists in H as (x & I & E). apply Nat.eqb_eq in E. subst; auto.
  - intros [L I]. rewrite nth_error_map, (nth_error_nth' _ 0) by (rewrite seq_length; auto). rewrite seq_nth by auto. cbn. f_equal. apply existsb_exists. exists i. split; auto. apply Nat.eqb_refl.
Qed.
Lemma length_scatter : forall w idx, length (scatter w idx) = w.
Proof. intros; unfold scatter. rewrite map_length, seq_length; auto. Qed.
Definition marked (w : nat) (idx : list nat) := filter (fun i => existsb (Nat.eqb i) idx) (seq 0 w).
Lemma count_marked : forall w idx, count (scatter w idx) = length (marked w idx).
Proof. intros. unfold count, scatter, marked. generalize (seq 0 w). induction l; cbn; auto. destruct (existsb _ idx); cbn; auto. Qed.
Lemma in_marked : forall w idx i, In i (marked w idx) <-> i < w /\ In i idx.
Proof.
  intros. unfold marked. rewrite filter_In, in_seq, existsb_exists. split.
  - intros [? (x & I & E)]. apply Nat.eqb_eq in E. subst. split; auto; lia.
  - intros []. split; [lia|]. exists i. split; auto. apply Nat.eqb_refl.
Qed.
Lemma nodup_marked : forall w idx, NoDup (marked w idx).
Proof. intros. apply NoDup_filter, seq_NoDup. Qed.
Lemma count_le : forall w idx, count (scatter w idx) <= length idx.
Proof. intros. rewrite count_marked. apply NoDup_incl_length; [apply nodup_marked|]. intros i I. apply in_marked in I. tauto. Qed.
Lemma count_ge : forall w idx l, NoDup l -> (forall i, In i l -> i < w /\ In i idx) -> length l <= count (scatter w idx).
Proof. intros. rewrite count_marked. apply NoDup_incl_length; auto. intros i I. apply in_marked. auto. Qed.

Lemma nth_random : forall weight r row i, nth i (random_values weight r row) 0 = if nth i row false then weight r i else 0.
Proof.
  intros. unfold random_values. cut (forall a, nth i (map (fun p : nat * bool => if snd p then weight r (fst p) else 0) (combine (seq a (length row)) row)) 0 = if nth i row false then weight r (a + i) else 0).
  { intros H. apply (H 0). }
  revert i. induction row; intros i a'; [destruct i; reflexivity|]. destruct i; cbn; [rewrite Nat.add_0_r; auto|]. rewrite IHrow. rewrite Nat.add_succ_r; auto.
Qed.
Lemma length_random : forall weight r row, length (random_values weight r row) = length row.
Proof. intros. unfold random_values. rewrite map_length, combine_length, seq_length. lia. Qed.

Lemma topk_masked : forall weight r w idx k pick, (forall r i, 0 < weight r i) -> k <= count (scatter w idx) ->
  topk (random_values weight r (scatter w idx)) k pick -> forall i, In i pick -> i < w /\ In i idx.
Proof.
  intros weight r w idx k pick Hw Hk (Lk & Nd & Rg & Top) i Ii.
  assert (Rg' : forall i, In i pick -> i < w). { intros j Ij. apply Rg in Ij. rewrite length_random, length_scatter in Ij. auto. }
  split; [auto|]. destruct (in_dec Nat.eq_dec i idx) as [|Hn]; auto. exfalso.
  assert (Z : nth i (random_values weight r (scatter w idx)) 0 = 0).
  { rewrite nth_random. destruct (nth i (scatter w idx) false) eqn:E; auto. exfalso. apply Hn.
    apply (proj1 (nth_scatter w idx i)). rewrite (nth_error_nth' _ false) by (rewrite length_scatter; auto). congruence. }
  apply in_split in Ii as (a & b & ->).
  assert (Sub : incl (marked w idx) (a ++ b)).
  { intros j Ij. apply in_marked in Ij as [Lj Ij]. destruct (in_dec Nat.eq_dec j (a ++ i :: b)) as [I|I].
    - apply in_app_iff in I as [I|[<-|I]]; [apply in_app_iff; auto|contradiction|apply in_app_iff; auto].
    - exfalso. specialize (Top i j). rewrite length_random, length_scatter, Z, nth_random in Top.
      assert (E : nth j (scatter w idx) false = true). { apply nth_error_nth. apply nth_scatter; auto. }
      rewrite E in Top. specialize (Hw r j). assert (0 < 0); [|lia]. eapply Nat.lt_le_trans; [exact Hw|]. apply Top; auto. apply in_app_iff; right; left; auto. }
  apply NoDup_incl_length in Sub; [|apply nodup_marked]. rewrite <- count_marked in Sub. rewrite app_length in *. cbn in Lk. lia.
Qed.
Lemma Forall2_nth : forall {A B} (R : A -> B -> Prop) l k, Forall2 R l k -> length l = length k /\ forall i x y, nth_error l i = Some x -> nth_error k i = Some y -> R x y.
Proof.
  induction 1; cbn; split; auto; [intros [] ? ?; discriminate|destruct IHForall2; lia|]. intros [|i] x' y'; cbn; [congruence|]. apply IHForall2.
Qed.
Lemma nth_error_combine : forall {A B} (l : list A) (k : list B) i, nth_error (combine l k) i = match nth_error l i, nth_error k i with Some x, Some y => Some (x, y) | _, _ => None end.
Proof. induction l; destruct k, i; cbn; auto. destruct (nth_error l i); auto. Qed.
Lemma nth_error_seq : forall n a i, nth_error (seq a n) i = if i <? n then Some (a + i) else None.
Proof.
  intros. destruct (i <? n) eqn:E. - apply Nat.ltb_lt in E. rewrite (nth_error_nth' _ 0) by (rewrite seq_length; auto). rewrite seq_nth; auto.
  - apply Nat.ltb_ge in E. apply nth_error_None. rewrite seq_length; auto.
Qed.

(** _generate_mask *)
Lemma generate_mask : forall weight w idx m, (forall r i, 0 < weight r i) -> generate weight w idx (Mask m) ->
  length m = length idx /\ (forall row, In row m -> length row = w) /\ let k := min_of (map (fun l => count (scatter w l)) idx) in
  forall r l, nth_error idx r = Some l -> exactly k (masked m r) /\ forall i, masked m r i -> In i l.
Proof.
  intros weight w idx m Hw H. inversion H as [|picks R rows k P E]. subst. apply Forall2_nth in P as [PL P].
  assert (Lr : length rows = length idx) by (subst rows; apply map_length).
  rewrite combine_length, seq_length, Lr, Nat.min_id in PL. split; [rewrite map_length; auto|]. split.
  { intros row I. apply in_map_iff in I as (p & <- & _). apply length_scatter. }
  subst k. set (k := min_of (map count rows)) in *. replace (min_of _) with k by (subst k rows; rewrite map_map; auto).
  intros k' r l El. subst k'.
  assert (Hr : nth_error rows r = Some (scatter w l)) by (subst rows; rewrite nth_error_map, El; auto).
  assert (Lt : r < length idx) by (apply nth_error_Some; congruence).
  destruct (nth_error picks r) as [p|] eqn:Ep; [|apply nth_error_None in Ep; lia].
  assert (T : topk (random_values weight r (scatter w l)) k p).
  { specialize (P r (r, scatter w l) p). apply P; auto. rewrite nth_error_combine, Hr, nth_error_seq. apply Nat.ltb_lt in Lt. rewrite Lr, Lt. auto. }
  assert (Kc : k <= count (scatter w l)). { subst k. apply min_of_le, in_map. eapply nth_error_In; eauto. }
  assert (M : forall i, masked (map (scatter w) picks) r i <-> i < w /\ In i p).
  { intros i. rewrite <- nth_scatter. unfold masked. rewrite nth_error_map, Ep. cbn. split; [intros (row & [= <-] & ?); auto|eauto]. }
  pose proof (topk_masked _ _ _ _ _ _ Hw Kc T) as TM. split.
  - exists p. destruct T as (? & ? & ? & ?). split; auto. split; auto. intros i. rewrite M. split; [tauto|]. intros I; split; auto. apply TM; auto.
  - intros i Hi. apply M in Hi. apply TM. tauto.
Qed.

Lemma mul_rand : forall g r d, r < d -> 0 < g -> g * r / d < g.
Proof. intros. apply Nat.div_lt_upper_bound; [lia|]. nia. Qed.

Section Thm.
  Variables (rand : nat -> nat) (rd : nat) (weight : nat -> nat -> nat) (num_rows max_row_len span_len pn pd : nat) (lens : list nat) (mn : nat).
  Hypotheses (Hspan : 0 < span_len) (Hpd : 0 < pd) (Hrand : forall i, rand i < rd) (Hw : forall r i, 0 < weight r i)
    (Hlens : forall n, In n lens -> span_len < n <= max_row_len).
  Lemma num_spans_le : forall n, In n lens -> num_spans span_len pn pd lens * span_len * pd <= pn * (n - 1).
  Proof.
    intros. assert (E : num_spans span_len pn pd lens <= pn * (n - 1) / (pd * span_len)). { apply min_of_le. apply in_map_iff. exists n; auto. }
    pose proof (Nat.mul_div_le (pn * (n - 1)) (pd * span_len) ltac:(nia)) as H1. rewrite (Nat.mul_comm _ pd), Nat.mul_assoc, (Nat.mul_comm pd), <- Nat.mul_assoc, (Nat.mul_comm _ (pd * span_len)). etransitivity; [|exact H1]. apply Nat.mul_le_mono_l. exact E.
  Qed.
  Lemma mask_ok : forall idx m, compute_mask_spans span_len pn pd rd rand lens mn = Spans idx -> generate weight max_row_len idx (Mask m) ->
    length m = length lens /\ (forall row, In row m -> length row = max_row_len) /\
    (forall r n i, nth_error lens r = Some n -> masked m r i -> i < n) /\
    exists k, span_len <= k /\ (forall n, In n lens -> k * pd <= pn * (n - 1)) /\ forall r, r < length lens -> exactly k (masked m r).
  Proof.
    intros idx m Hs Hg. apply spans_rows in Hs as (Hne & Hm & _ & ->). set (M := num_spans span_len pn pd lens) in *. set (idx := map _ _) in *.
    apply generate_mask in Hg as (L1 & L2 & G); auto. 
    assert (Li : length idx = length lens). { subst idx. rewrite map_length, combine_length, seq_length. lia. }
    assert (Row : forall r n, nth_error lens r = Some n -> exists l, nth_error idx r = Some l /\ (forall i, In i l -> i < n) /\ length l = M * span_len /\
      exists o, o + span_len <= n /\ forall i, o <= i < o + span_len -> In i l).
    { intros r n E. eexists. split. { subst idx. rewrite nth_error_map, nth_error_combine, E, nth_error_seq. assert (r < length lens) by (apply nth_error_Some; congruence). apply Nat.ltb_lt in H. rewrite H. cbn. reflexivity. }
      cbn [fst snd]. set (offs := map _ (seq 0 M)).
      assert (Ho : forall o, In o offs -> o + span_len <= n).
      { intros o I. apply in_map_iff in I as (j & <- & _). assert (span_len < n) by (apply Hlens; eapply nth_error_In; eauto). pose proof (mul_rand (n - span_len + 1) (rand (r * M + j)) rd (Hrand _) ltac:(lia)). lia. }
      assert (Loffs : length offs = M) by (subst offs; rewrite map_length, seq_length; auto).
      split; [|split].
      - intros i I. apply in_flat_map in I as (o & Io & I). apply Ho in Io. apply in_map_iff in I as (x & <- & I). apply in_seq in I. lia.
      - rewrite <- Loffs. clear. induction offs; cbn; auto. rewrite app_length, map_length, seq_length. lia.
      - destruct offs as [|o t]; [cbn in Loffs; lia|]. exists o. split; [apply Ho; left; auto|]. intros i Hi. cbn. apply in_app_iff. left. apply in_map_iff. exists (i - o). split; [lia|]. apply in_seq. lia. }
    split; [lia|]. split; [auto|]. split.
    { intros r n i E Hi. destruct (Row r n E) as (l & El & B & _). apply B. eapply G; eauto. }
    set (k := min_of (map (fun l => count (scatter max_row_len l)) idx)) in *. 
    assert (Rowi : forall l, In l idx -> exists r n, nth_error idx r = Some l /\ nth_error lens r = Some n).
    { intros l I. apply In_nth_error in I as [r E]. exists r. destruct (nth_error lens r) as [n|] eqn:E'; eauto. apply nth_error_None in E'. assert (r < length idx) by (apply nth_error_Some; congruence). lia. }
    exists k. split; [|split].
    - assert (I : In k (map (fun l => count (scatter max_row_len l)) idx)). { apply min_of_in. destruct lens, idx; cbn in *; try discriminate; easy. }
      apply in_map_iff in I as (l & E & I). rewrite <- E. destruct (Rowi l I) as (r & n & E1 & E2). destruct (Row r n E2) as (l' & E3 & B & _ & o & Ho & Hin).
      rewrite E1 in E3. injection E3 as <-. rewrite <- (seq_length span_len o) at 1. apply count_ge; [apply seq_NoDup|].
      intros i Ii. apply in_seq in Ii. assert (Iin : In i l) by (apply Hin; lia). split; auto. apply B in Iin. assert (n <= max_row_len) by (apply Hlens; eapply nth_error_In; eauto). lia.
    - intros n I. apply Nat.le_trans with (M * span_len * pd); [|apply num_spans_le; auto]. apply Nat.mul_le_mono_r.
      apply In_nth_error in I as [r E]. destruct (Row r n E) as (l & El & _ & Ll & _). rewrite <- Ll. etransitivity; [|apply (count_le max_row_len)]. apply min_of_le. apply in_map_iff. exists l; split; auto. eapply nth_error_In; eauto.
    - intros r Hr. destruct (nth_error lens r) as [n|] eqn:E; [|apply nth_error_None in E; lia]. destruct (Row r n E) as (l & El & _). eapply G; eauto.
  Qed.
  Lemma generate_ok : forall idx, compute_mask_spans span_len pn pd rd rand lens mn = Spans idx -> ~ generate weight max_row_len idx Raised.
  Proof.
    intros idx Hs Hg. inversion Hg as [(l & i & Il & Ii & B)|]. apply spans_rows in Hs as (Hne & Hm & _ & ->).
    apply in_map_iff in Il as ([r n] & <- & Ip). cbn [fst snd] in Ii. apply in_combine_r in Ip as In'. apply in_flat_map in Ii as (o & Io & Ii). apply in_map_iff in Io as (j & <- & _). apply in_map_iff in Ii as (x & <- & Ix). apply in_seq in Ix.
    apply Hlens in In'. pose proof (mul_rand (n - span_len + 1) (rand (r * num_spans span_len pn pd lens + j)) rd (Hrand _) ltac:(lia)). lia.
  Qed.
End Thm.
