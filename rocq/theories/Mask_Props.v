(** C64: random row masks. C65: distractors. *)
From Coq Require Import List Bool Arith Lia FinFun.
From Verif Require Import Mask_Model Mask_Spec Mask_Proofs.
Import ListNotations.

(** What the caller may pass: lengths of the rows, at most the width *)
Definition row_lengths (num_rows width : nat) (lens : option (list nat)) : list nat := match lens with Some l => l | None => repeat width num_rows end.
Definition lengths_fit (num_rows width : nat) (lens : option (list nat)) : Prop :=
  match lens with Some l => length l = num_rows /\ forall n, In n l -> n <= width | None => True end.

(** Whatever the random numbers are, a mask has the requested shape, masks only elements inside the length of their row, the same number in every row, at
    least a whole span, and at most the given share of every row less one element. *)
Theorem C64_mask : forall rand rd weight num_rows width span_len pn pd lens min_num_spans m,
  0 < span_len -> 0 < pd -> (forall i, rand i < rd) -> (forall r i, 0 < weight r i) -> lengths_fit num_rows width lens ->
  compute_row_mask rand rd weight num_rows width span_len pn pd lens min_num_spans (Mask m) ->
  length m = num_rows /\ (forall row, In row m -> length row = width) /\
  (forall r n i, nth_error (row_lengths num_rows width lens) r = Some n -> masked m r i -> i < n) /\
  exists k, span_len <= k /\ (forall n, In n (row_lengths num_rows width lens) -> k * pd <= pn * (n - 1)) /\
            forall r, r < num_rows -> exactly k (masked m r).
Proof.
  intros rand rd weight num_rows width L pn pd lens mn m HL Hpd Hr Hw Hl H. inversion H as [|r rl Hs Hc E]; subst.
  destruct (compute_mask_spans L pn pd rd rand rl mn) as [| |idx] eqn:Ec; try discriminate.
  assert (Hlens : forall n, In n rl -> L < n <= width).
  { subst rl. destruct lens as [l|]; intros n I; [split; [apply Hs; auto|apply Hl; auto]|apply repeat_spec in I; subst; lia]. }
  assert (Len : length rl = num_rows) by (subst rl; destruct lens; [apply Hl|apply repeat_length]).
  destruct (mask_ok rand rd weight width L pn pd rl mn HL Hpd Hr Hw Hlens idx m Ec Hc) as (A & B & C & k & D). rewrite Len in *.
  split; [auto|]. split; [auto|]. split; [exact C|]. exists k. exact D.
Qed.
Print Assumptions C64_mask.

(** With a probability of at most 1, every row keeps an unmasked element *)
Theorem C64_unmasked : forall rand rd weight num_rows width span_len pn pd lens min_num_spans m,
  0 < span_len -> 0 < pd -> pn <= pd -> (forall i, rand i < rd) -> (forall r i, 0 < weight r i) -> lengths_fit num_rows width lens ->
  compute_row_mask rand rd weight num_rows width span_len pn pd lens min_num_spans (Mask m) ->
  forall r n, nth_error (row_lengths num_rows width lens) r = Some n -> exists i, i < n /\ ~ masked m r i.
Proof.
  intros rand rd weight num_rows width L pn pd lens mn m HL Hpd Hp Hr Hw Hl H r n E.
  destruct (C64_mask _ _ _ _ _ _ _ _ _ _ _ HL Hpd Hr Hw Hl H) as (Lm & Rm & Own & k & Kl & Kn & Ex).
  assert (Hrn : r < num_rows).
  { assert (r < length (row_lengths num_rows width lens)) by (apply nth_error_Some; congruence). unfold row_lengths in *. destruct lens; [destruct Hl; lia|rewrite repeat_length in *; auto]. }
  destruct (Ex r Hrn) as (l & Nd & Ll & M). assert (Kk : k * pd <= pn * (n - 1)) by (apply Kn; eapply nth_error_In; eauto).
  assert (k <= n - 1) by nia.
  destruct (Forall_Exists_dec (fun i => In i l) (fun i => in_dec Nat.eq_dec i l) (seq 0 n)) as [F|X].
  - exfalso. assert (incl (seq 0 n) l) by (intros i I; rewrite Forall_forall in F; auto). apply NoDup_incl_length in H1; [|apply seq_NoDup]. rewrite seq_length in H1. 
    assert (0 < n); [|lia]. destruct n; [|lia]. cbn in *. nia.
  - apply Exists_exists in X as (i & I & N). apply in_seq in I. exists i. split; [lia|]. rewrite M. auto.
Qed.
Print Assumptions C64_unmasked.

(** A call raises exactly if a row is not longer than a span, or a row has no room for the requested number of spans *)
Theorem C64_raises : forall rand rd weight num_rows width span_len pn pd lens min_num_spans,
  0 < span_len -> 0 < pd -> (forall i, rand i < rd) -> (forall r i, 0 < weight r i) -> lengths_fit num_rows width lens ->
  compute_row_mask rand rd weight num_rows width span_len pn pd lens min_num_spans Raised <->
    (lens = None /\ width <= span_len) \/ (exists n, In n (row_lengths num_rows width lens) /\ n <= span_len) \/
    (exists n, In n (row_lengths num_rows width lens) /\ pn * (n - 1) < min_num_spans * (pd * span_len)).
Proof.
  intros rand rd weight num_rows width L pn pd lens mn HL Hpd Hr Hw Hl.
  assert (Div : forall a, a / (pd * L) < mn <-> a < mn * (pd * L)).
  { intros a. assert (pd * L <> 0) by nia. split; intros H1.
    - pose proof (Nat.mul_succ_div_gt a (pd * L) H). nia.
    - apply Nat.div_lt_upper_bound; auto. lia. }
  split.
  - intros H. inversion H as [Hs|r rl Hs Hc E]; subst.
    + destruct lens; [right; left; exact Hs|left; auto].
    + destruct (compute_mask_spans L pn pd rd rand rl mn) as [| |idx] eqn:Ec; try discriminate.
      * right. right. unfold compute_mask_spans in Ec. destruct rl as [|n0 l0] eqn:Er; [discriminate|]. destruct (num_spans L pn pd (n0 :: l0) <? mn) eqn:E1; [|destruct (_ =? 0); discriminate].
        apply Nat.ltb_lt in E1. unfold num_spans in E1. pose proof (min_of_in (map (fun n => pn * (n - 1) / (pd * L)) (n0 :: l0)) ltac:(discriminate)) as I. apply in_map_iff in I as (n & E & I).
        exists n. split; [rewrite <- Er in I; destruct lens; exact I|]. apply Div. rewrite E. auto.
      * exfalso. eapply (generate_ok rand rd weight width L pn pd rl mn); eauto. subst rl. destruct lens as [l|]; intros n I; [split; [apply Hs; auto|apply Hl; auto]|apply repeat_spec in I; subst; lia].
  - intros H. destruct (match lens with None => width <=? L | Some l => existsb (fun n => n <=? L) l end) eqn:Es.
    + apply m_short. destruct lens; [|apply Nat.leb_le; auto]. apply existsb_exists in Es as (n & I & E). exists n; split; auto. apply Nat.leb_le; auto.
    + assert (Hs : match lens with None => L < width | Some l => forall n, In n l -> L < n end).
      { destruct lens; [|apply Nat.leb_gt; auto]. intros n I. apply Nat.nle_gt. intros B. assert (X : existsb (fun n => n <=? L) l = true); [|congruence]. apply existsb_exists. exists n. split; auto. apply Nat.leb_le; auto. }
      destruct H as [[-> B]|[(n & I & B)|(n & I & B)]]; [lia| |].
      { exfalso. unfold row_lengths in I. destruct lens; [apply Hs in I; lia|apply repeat_spec in I; subst; lia]. }
      apply m_spans; auto. unfold compute_mask_spans. fold (row_lengths num_rows width lens). destruct (row_lengths num_rows width lens) as [|n0 l0] eqn:Er; [destruct I|].
      apply Div in B. assert (X : num_spans L pn pd (n0 :: l0) < mn). { eapply Nat.le_lt_trans; [|exact B]. apply min_of_le. apply in_map_iff. exists n; auto. }
      apply Nat.ltb_lt in X. rewrite X. auto.
Qed.
Print Assumptions C64_raises.

(** Every choice of spans inside the rows is possible: for starts chosen for each row there are random numbers that give them *)
Theorem C64_any_spans : forall span_len pn pd lens min_num_spans starts rd,
  0 < span_len -> 0 < pd -> lens <> [] -> (forall n, In n lens -> span_len < n /\ n <= rd) ->
  let m := num_spans span_len pn pd lens in 0 < m -> min_num_spans <= m ->
  length starts = length lens -> (forall r l n o, nth_error starts r = Some l -> nth_error lens r = Some n -> length l = m /\ (In o l -> o + span_len <= n)) ->
  exists rand idx, (forall i, rand i < rd) /\ compute_mask_spans span_len pn pd rd rand lens min_num_spans = Spans idx /\
    length idx = length lens /\ forall r l i, nth_error starts r = Some l -> (exists row, nth_error idx r = Some row /\ In i row) <-> in_span span_len l i.
Proof.
  intros L pn pd lens mn starts rd HL Hpd Hne Hlens m Hm Hmn Ls Hst.
  pose (o i := nth (i mod m) (nth (i / m) starts []) 0). pose (g i := nth (i / m) lens 0 - L + 1).
  pose (rand i := if i <? m * length lens then (o i * rd + (g i - 1)) / g i else 0).
  assert (R0 : 0 < rd). { destruct lens as [|n l]; [easy|]. destruct (Hlens n (or_introl eq_refl)). lia. }
  assert (Og : forall i, i < m * length lens -> o i < g i /\ g i <= rd /\ 0 < g i).
  { intros i Hi. assert (Hd : i / m < length lens) by (apply Nat.div_lt_upper_bound; lia).
    assert (Hmo : i mod m < m) by (apply Nat.mod_upper_bound; lia).
    destruct (Hst (i / m) (nth (i / m) starts []) (nth (i / m) lens 0) (o i)) as [Hl Ho]; try (apply nth_error_nth'; lia).
    assert (In (o i) (nth (i / m) starts [])). { unfold o. apply nth_In. lia. } specialize (Ho H).
    destruct (Hlens (nth (i / m) lens 0)) as [? ?]; [apply nth_In; auto|]. unfold g. lia. }
  assert (Hrand : forall i, rand i < rd).
  { intros i. unfold rand. destruct (i <? m * length lens) eqn:E; auto. apply Nat.ltb_lt in E. destruct (Og i E) as (A & B & C). apply Nat.div_lt_upper_bound; [lia|]. nia. }
  assert (Off : forall i, i < m * length lens -> g i * rand i / rd = o i).
  { intros i Hi. destruct (Og i Hi) as (A & B & C). assert (Hi' := Hi). apply Nat.ltb_lt in Hi'. unfold rand. rewrite Hi'. symmetry.
    set (q := (o i * rd + (g i - 1)) / g i). pose proof (Nat.div_mod (o i * rd + (g i - 1)) (g i) ltac:(lia)) as D. pose proof (Nat.mod_upper_bound (o i * rd + (g i - 1)) (g i) ltac:(lia)) as U. fold q in D.
    apply Nat.div_unique with (r := g i * q - o i * rd); lia. }
  destruct (compute_mask_spans L pn pd rd rand lens mn) as [| |idx] eqn:Ec.
  - exfalso. unfold compute_mask_spans in Ec. destruct lens; [easy|]. fold m in Ec. assert (X : (m <? mn) = false) by (apply Nat.ltb_ge; auto). rewrite X in Ec. destruct (m =? 0); discriminate.
  - exfalso. unfold compute_mask_spans in Ec. destruct lens; [easy|]. fold m in Ec. assert (X : (m <? mn) = false) by (apply Nat.ltb_ge; auto). rewrite X in Ec. assert (Y : (m =? 0) = false) by (apply Nat.eqb_neq; lia). rewrite Y in Ec. discriminate.
  - exists rand, idx. split; auto. split; auto. apply spans_rows in Ec as (_ & _ & _ & ->). fold m. split; [rewrite map_length, combine_length, seq_length; lia|].
    intros r l i El. assert (Hr : r < length lens) by (rewrite <- Ls; apply nth_error_Some; congruence).
    destruct (nth_error lens r) as [n|] eqn:En; [|apply nth_error_None in En; lia].
    assert (E : nth_error (map (fun p => flat_map (fun o0 => map (Nat.add o0) (seq 0 L)) (map (fun j => (snd p - L + 1) * rand (fst p * m + j) / rd) (seq 0 m))) (combine (seq 0 (length lens)) lens)) r = Some (flat_map (fun o0 => map (Nat.add o0) (seq 0 L)) l)).
    { rewrite nth_error_map, nth_error_combine, En, nth_error_seq. assert (Hr' := Hr). apply Nat.ltb_lt in Hr'. rewrite Hr'. cbn [option_map fst snd Nat.add]. f_equal. f_equal.
      destruct (Hst r l n 0 El En) as [Ll _]. apply nth_error_nth with (d := 0) in En. apply nth_error_nth with (d := []) in El.
      apply nth_ext with (d := 0) (d' := 0); [rewrite map_length, seq_length; auto|]. intros j Hj. rewrite map_length, seq_length in Hj.
      apply nth_error_nth. rewrite nth_error_map, nth_error_seq. assert (Hj' := Hj). apply Nat.ltb_lt in Hj'. rewrite Hj'. cbn [option_map Nat.add]. f_equal.
      assert (D1 : (r * m + j) / m = r) by (symmetry; apply Nat.div_unique with j; lia). assert (D2 : (r * m + j) mod m = j) by (symmetry; apply Nat.mod_unique with r; lia).
      specialize (Off (r * m + j) ltac:(nia)). unfold g, o in Off. rewrite D1, D2, En, El in Off. exact Off. }
    rewrite E. split.
    + intros (row & [= <-] & I). apply in_flat_map in I as (o0 & I1 & I2). apply in_map_iff in I2 as (x & <- & I2). apply in_seq in I2. exists o0. split; auto. lia.
    + intros (o0 & I1 & I2). eexists. split; [reflexivity|]. apply in_flat_map. exists o0. split; auto. apply in_map_iff. exists (i - o0). split; [lia|]. apply in_seq. lia.
Qed.
Print Assumptions C64_any_spans.

(** The mask has the requested shape: false if a row has no room for a span (and none is required). The result is then an empty integer tensor of shape
    (0, 0). Here: two rows of 10 elements, spans of 6, probability one half. *)
Theorem C64_shape_refuted : forall rand rd weight, compute_row_mask rand rd weight 2 10 6 1 2 None 0 REmpty /\
  forall r, compute_row_mask rand rd weight 2 10 6 1 2 None 0 r -> r = REmpty.
Proof.
  intros. assert (E : compute_mask_spans 6 1 2 rd rand (repeat 10 2) 0 = SNone) by reflexivity. split.
  - apply m_spans; [lia|]. rewrite E. reflexivity.
  - intros r H. inversion H as [|r' rl Hs Hc]; [lia|]. subst rl. rewrite E in Hc. auto.
Qed.
Print Assumptions C64_shape_refuted.

(** The elements under a mask with the same number in every row come out row by row, in order *)
Theorem C64_extract : forall (A : Type) (seqs : list (list A)) mask k, 0 < length seqs -> 0 < k ->
  length mask = length seqs -> (forall r s row, nth_error seqs r = Some s -> nth_error mask r = Some row -> length s = length row) ->
  (forall r, r < length seqs -> exactly k (masked mask r)) ->
  exists out, extract_masked_elements seqs mask = Some out /\ length out = length seqs /\
    forall r s, nth_error seqs r = Some s -> exists o idx, nth_error out r = Some o /\ map (fun i => nth_error s i) idx = map Some o /\
      (forall i, In i idx <-> masked mask r i) /\ forall a b, a < b < length idx -> nth a idx 0 < nth b idx 0.
Proof.
  intros A seqs mask k Hn Hk Lm Hs He.
  assert (Sel : forall (s : list A) row, length s = length row -> exists idx, map (fun i => nth_error s i) idx = map Some (select s row) /\ (forall i, In i idx <-> nth_error row i = Some true) /\
    NoDup idx /\ forall a b, a < b < length idx -> nth a idx 0 < nth b idx 0).
  { clear. induction s as [|x s IH]; destruct row as [|b row]; intros L; try discriminate L.
    - exists []. split; [reflexivity|]. split; [|split]; [intros [|i]; split; (discriminate||intros [])|constructor|cbn [length]; intros; lia].
    - destruct (IH row ltac:(cbn in L; lia)) as (idx & E & I & N & O). unfold select in *. cbn [combine filter snd].
      assert (I' : forall i, In i (map S idx) <-> exists j, i = S j /\ nth_error row j = Some true). { intros i. rewrite in_map_iff. split; intros (j & H); exists j; [destruct H as [<- H]; split; auto; apply I; auto|destruct H as [-> H]; split; auto; apply I; auto]. }
      assert (E' : map (fun i => nth_error (x :: s) i) (map S idx) = map Some (map fst (filter snd (combine s row)))) by (rewrite map_map; exact E).
      assert (N' : NoDup (map S idx)) by (apply Injective_map_NoDup; [intros ? ?; congruence|auto]).
      assert (O' : forall a b, a < b < length (map S idx) -> nth a (map S idx) 0 < nth b (map S idx) 0).
      { intros a c H. rewrite map_length in H. rewrite !nth_indep with (d := 0) (d' := S 0) (l := map S idx) by (rewrite map_length; lia). rewrite !map_nth. specialize (O a c H). lia. }
      destruct b.
      + exists (0 :: map S idx). split; [cbn [map fst]; f_equal; exact E'|]. split; [|split].
        * intros i. cbn [In]. rewrite I'. destruct i; cbn; split; auto; [intros [H|(j & H & ?)]; [discriminate|injection H as <-; auto]|intros; right; eauto].
        * constructor; auto. rewrite I'. intros (j & H & _); discriminate.
        * intros [|a] [|c] H; cbn [nth length] in *; try lia. { assert (X : In (nth c (map S idx) 0) (map S idx)) by (apply nth_In; lia). apply I' in X as (j & -> & _). lia. } apply O'. lia.
      + exists (map S idx). split; [exact E'|]. split; [|split; auto]. intros i. rewrite I'. destruct i; cbn; split; try discriminate; [intros (j & H & _); discriminate|intros (j & H & ?); injection H as <-; auto|eauto]. }
  assert (Kl : forall r s row, nth_error seqs r = Some s -> nth_error mask r = Some row -> length (select s row) = k).
  { intros r s row E1 E2. destruct (Sel s row (Hs _ _ _ E1 E2)) as (idx & E & I & N & _). destruct (He r) as (l & Nl & Ll & M); [apply nth_error_Some; congruence|].
    rewrite <- Ll. rewrite <- (map_length Some (select s row)), <- E, map_length. apply Nat.le_antisymm; apply NoDup_incl_length; auto.
    - intros i X. apply M. apply I in X. exists row; auto.
    - intros i X. apply M in X as (row' & X1 & X2). apply I. congruence. }
  set (rows := map (fun p => select (fst p) (snd p)) (combine seqs mask)).
  assert (Lr : length rows = length seqs). { subst rows. rewrite map_length, combine_length. lia. }
  assert (Fr : forall l, In l rows -> length l = k).
  { intros l X. apply In_nth_error in X as [r X]. subst rows. rewrite nth_error_map, nth_error_combine in X. destruct (nth_error seqs r) eqn:E1; [|discriminate]. destruct (nth_error mask r) eqn:E2; [|discriminate]. injection X as <-. eauto. }
  assert (Lc : length (concat rows) = length rows * k). { clear - Fr. induction rows; cbn; auto. rewrite app_length, (Fr a (or_introl eq_refl)), IHrows; auto. intros; apply Fr; right; auto. }
  assert (V : view (length rows) k (concat rows) = rows).
  { clear - Fr. induction rows; cbn; auto. assert (La : length a = k) by (apply Fr; left; auto). rewrite firstn_app, La, Nat.sub_diag, firstn_O, app_nil_r, firstn_all2 by lia. rewrite skipn_app, La, Nat.sub_diag, skipn_O, skipn_all2 by lia. cbn. f_equal. apply IHrows. intros; apply Fr; right; auto. }
  exists rows. split; [|split; auto].
  - unfold extract_masked_elements. fold rows. rewrite Lc, Lr. rewrite (Nat.mul_comm _ k), Nat.mod_mul, Nat.div_mul by lia. replace (view (length seqs) k (concat rows)) with rows by (rewrite <- Lr; symmetry; exact V). cbn [Nat.eqb andb].
    destruct (0 <? length seqs) eqn:E1; [|apply Nat.ltb_ge in E1; lia]. destruct (0 <? k * length seqs) eqn:E2; [reflexivity|apply Nat.ltb_ge in E2; nia].
  - intros r s E1. destruct (nth_error mask r) as [row|] eqn:E2; [|apply nth_error_None in E2; assert (r < length seqs) by (apply nth_error_Some; congruence); lia].
    destruct (Sel s row (Hs _ _ _ E1 E2)) as (idx & E & I & _ & O). exists (select s row), idx. split; [subst rows; rewrite nth_error_map, nth_error_combine, E1, E2; auto|]. split; auto. split; auto.
    intros i. rewrite I. split; [intros; exists row; auto|intros (row' & ? & ?); congruence].
Qed.
Print Assumptions C64_extract.

(** Every distractor of a masked element is another masked element of the same sequence; a random number below the length less one corresponds to each of
    the others exactly once. *)
Theorem C65_distractors : forall seq_len s, s < seq_len -> exists pick, one_to_one pick (seq_len - 1) (fun y => y < seq_len /\ y <> s) /\
  forall (V : Type) randint batch_size num_distractors (targets : list V) b l, (forall b i, randint b i < seq_len - 1) ->
    length targets = batch_size * seq_len -> b < batch_size -> l < num_distractors ->
    length (sample_distractors randint batch_size seq_len num_distractors targets) = batch_size * (seq_len * num_distractors) /\
    exists v, nth_error targets (b * seq_len + pick (randint b (s * num_distractors + l))) = Some v /\
      nth_error (sample_distractors randint batch_size seq_len num_distractors targets) (b * (seq_len * num_distractors) + (s * num_distractors + l)) = Some (Some v).
Proof.
  intros S s Hs. exists (fun r => if s <=? r then r + 1 else r).
  assert (O : one_to_one (fun r => if s <=? r then r + 1 else r) (S - 1) (fun y => y < S /\ y <> s)).
  { split.
    - intros x Hx. destruct (s <=? x) eqn:E; [apply Nat.leb_le in E|apply Nat.leb_gt in E]; lia.
    - intros y [Hy Hn]. destruct (le_lt_dec s y) as [B|B].
      + exists (y - 1). split; [lia|]. split; [destruct (s <=? y - 1) eqn:E; [lia|apply Nat.leb_gt in E; lia]|]. intros x _ Hx. destruct (s <=? x) eqn:E; [lia|apply Nat.leb_gt in E; lia].
      + exists y. split; [lia|]. split; [destruct (s <=? y) eqn:E; [apply Nat.leb_le in E; lia|lia]|]. intros x _ Hx. destruct (s <=? x) eqn:E; [apply Nat.leb_le in E; lia|lia]. }
  split; [exact O|]. intros V randint N D targets b l Hr Lt Hb Hl.
  assert (RI : forall (f : nat -> list nat) w, (forall b, length (f b) = w) -> forall n a, length (concat (map f (seq a n))) = n * w /\ forall b i, b < n -> i < w -> nth_error (concat (map f (seq a n))) (b * w + i) = nth_error (f (a + b)) i).
  { clear. intros f w Hf. induction n; intros a; [split; [reflexivity|lia]|]. destruct (IHn (S a)) as [L X]. cbn [seq map concat]. split; [rewrite app_length, L, Hf; cbn; lia|]. intros b i Hb Hi.
    destruct b; [rewrite nth_error_app1 by (rewrite Hf; lia); rewrite Nat.add_0_r; auto|]. rewrite nth_error_app2 by (rewrite Hf; cbn; lia). rewrite Hf. replace (Datatypes.S b * w + i - w) with (b * w + i) by (cbn; lia). rewrite X by lia. f_equal. f_equal. lia. }
  assert (Rep : forall n a s l, s < n -> l < D -> nth_error (repeat_interleave (seq a n) D) (s * D + l) = Some (a + s)).
  { clear. unfold repeat_interleave. induction n; intros a s l Hs Hl; [lia|]. cbn [seq flat_map]. destruct s.
    - cbn. rewrite nth_error_app1 by (rewrite repeat_length; auto). rewrite (nth_error_nth' _ a) by (rewrite repeat_length; auto). rewrite nth_repeat. f_equal; lia.
    - rewrite nth_error_app2 by (rewrite repeat_length; cbn; lia). rewrite repeat_length. replace (Datatypes.S s * D + l - D) with (s * D + l) by (cbn; lia). rewrite IHn by lia. f_equal; lia. }
  set (f := fun b => map (fun p => let r := randint b (fst p) in (if snd p <=? r then r + 1 else r) + b * S) (combine (seq 0 (length (repeat_interleave (seq 0 S) D))) (repeat_interleave (seq 0 S) D))).
  assert (Lf : forall b, length (f b) = S * D). { intros. unfold f. rewrite map_length, combine_length, seq_length, length_repeat_interleave, seq_length. lia. }
  destruct (RI f (S * D) Lf N 0) as [RL RX]. unfold sample_distractors, rand_indices. fold f. split; [rewrite map_length; exact RL|].
  destruct O as [O1 _]. destruct (O1 (randint b (s * D + l)) (Hr _ _)) as [P1 _]. cbv beta in P1. set (q := if s <=? randint b (s * D + l) then _ else _) in *.
  destruct (nth_error targets (b * S + q)) as [v|] eqn:Ev; [|apply nth_error_None in Ev; nia]. exists v. split; [reflexivity|].
  rewrite nth_error_map, RX by nia. cbn [Nat.add]. unfold f. rewrite nth_error_map, nth_error_combine, nth_error_seq, length_repeat_interleave, seq_length.
  assert (X : (s * D + l <? S * D) = true) by (apply Nat.ltb_lt; nia). rewrite X, Rep by auto. cbn [option_map fst snd Nat.add]. fold q. rewrite (Nat.add_comm q), Ev. reflexivity.
Qed.
Print Assumptions C65_distractors.

(** Two rows of lengths 9 and 7 in width 9, spans of 2, probability 1/2: one span each; the rows get the starts 3 and 0. *)
Example C64_example : exists rand weight m, (forall i, rand i < 10) /\ (forall r i, 0 < weight r i) /\ lengths_fit 2 9 (Some [9; 7]) /\
  compute_row_mask rand 10 weight 2 9 2 1 2 (Some [9; 7]) 1 (Mask m) /\ masked m 0 3 /\ masked m 1 1 /\ ~ masked m 1 2.
Proof.
  exists (fun i => if i =? 0 then 4 else 0), (fun r i => S (r + i)), (map (scatter 9) [[3; 4]; [1; 0]]).
  split; [intros i; destruct (i =? 0); lia|]. split; [intros; lia|]. split; [split; [reflexivity|]; intros n [<-|[<-|[]]]; lia|]. split.
  - apply m_spans; [intros n [<-|[<-|[]]]; lia|]. replace (compute_mask_spans 2 1 2 10 _ [9; 7] 1) with (Spans [[3; 4]; [0; 1]]) by reflexivity.
    apply g_mask. { intros l i [<-|[<-|[]]] I; cbn in I; lia. }
    assert (T : forall v idx, NoDup idx -> forallb (fun i => (i <? length v) && forallb (fun j => existsb (Nat.eqb j) idx || (nth j v 0 <=? nth i v 0)) (seq 0 (length v))) idx = true -> topk v (length idx) idx).
    { intros v idx Nd F. rewrite forallb_forall in F. split; auto. split; auto. split.
      - intros i I. apply F, andb_prop in I as [I _]. apply Nat.ltb_lt; auto.
      - intros i j I J Lj. apply F, andb_prop in I as [_ I]. rewrite forallb_forall in I. specialize (I j ltac:(apply in_seq; lia)). apply orb_prop in I as [I|I]; [|apply Nat.leb_le; auto].
        apply existsb_exists in I as (x & I & E). apply Nat.eqb_eq in E. subst x. contradiction. }
    constructor; [|constructor; [|constructor]]; apply T; try reflexivity; repeat constructor; cbn; lia.
  - unfold masked. cbn. split; [eexists; split; reflexivity|]. split; [eexists; split; reflexivity|]. intros (row & [= <-] & H). discriminate.
Qed.
Example C65_example : sample_distractors (fun b i => i mod 2) 2 3 2 [10; 11; 12; 20; 21; 22] = map Some [11; 12; 10; 12; 10; 11; 21; 22; 20; 22; 20; 21].
Proof. reflexivity. Qed.
