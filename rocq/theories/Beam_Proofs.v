(** Lists, the sums of scores, and the prefill. *)
From Coq Require Import List Bool Arith Lia Sorted.
From Verif Require Import Beam_Model Beam_Spec.
Import ListNotations.

Lemma set_nth_length {A} i (v : A) l : length (set_nth i v l) = length l.
Proof. revert i; induction l; intros [|i]; simpl; auto. Qed.
Lemma nth_set_nth {A} i j (v d : A) l : nth j (set_nth i v l) d = if Nat.eqb i j && (i <? length l) then v else nth j l d.
Proof.
  revert i j; induction l as [|x l IH]; intros i j; simpl; [rewrite andb_false_r; destruct i, j; auto|].
  destruct i as [|i], j as [|j]; simpl; auto. rewrite IH. reflexivity.
Qed.
Lemma firstn_set_nth {A} i (v : A) l : firstn i (set_nth i v l) = firstn i l.
Proof. revert i; induction l as [|x l IH]; intros [|i]; simpl; auto. f_equal. auto. Qed.
Lemma firstn_set_nth_le {A} i j (v : A) l : i <= j -> firstn i (set_nth j v l) = firstn i l.
Proof. revert i j; induction l as [|x l IH]; intros [|i] [|j] H; simpl; auto; try lia. f_equal. apply IH; lia. Qed.
Lemma firstn_S {A} j (d : A) l : j < length l -> firstn (j + 1) l = firstn j l ++ [nth j l d].
Proof.
  revert j; induction l as [|x l IH]; intros j H; simpl in H; [lia|]. destruct j; [reflexivity|]. simpl. f_equal. apply IH. lia.
Qed.
Lemma firstn_set_nth_S {A} i (v : A) l : i < length l -> firstn (i + 1) (set_nth i v l) = firstn i l ++ [v].
Proof. intros H. rewrite (firstn_S i v) by (rewrite set_nth_length; lia). rewrite firstn_set_nth, nth_set_nth, Nat.eqb_refl. destruct (Nat.ltb_spec i (length l)); [reflexivity|lia]. Qed.
Lemma mapi_from_length {A B} (f : nat -> A -> B) i l : length (mapi_from f i l) = length l.
Proof. revert i; induction l; simpl; auto. Qed.
Lemma mapi_length {A B} (f : nat -> A -> B) l : length (mapi f l) = length l.
Proof. apply mapi_from_length. Qed.
Lemma nth_mapi_from {A B} (f : nat -> A -> B) i l j d d' : j < length l -> nth j (mapi_from f i l) d' = f (i + j) (nth j l d).
Proof.
  revert i j; induction l as [|x l IH]; intros i j H; simpl in H; [lia|]. destruct j; simpl; [f_equal; lia|].
  rewrite IH by lia. f_equal; lia.
Qed.
Lemma nth_mapi {A B} (f : nat -> A -> B) l j d d' : j < length l -> nth j (mapi f l) d' = f j (nth j l d).
Proof. intros H. unfold mapi. rewrite (nth_mapi_from f 0 l j d d') by assumption. reflexivity. Qed.
Lemma nth_error_mapi_from {A B} (f : nat -> A -> B) i l j : nth_error (mapi_from f i l) j = option_map (f (i + j)) (nth_error l j).
Proof. revert i j; induction l as [|x l IH]; intros i [|j]; simpl; auto; [f_equal; f_equal; lia|]. rewrite IH. f_equal. f_equal. lia. Qed.

Lemma fold_min_spec l : forall x, fold_left Nat.min l x <= x /\ (forall y, In y l -> fold_left Nat.min l x <= y) /\ (fold_left Nat.min l x = x \/ In (fold_left Nat.min l x) l).
Proof.
  induction l as [|z l IH]; intros x; simpl; [repeat split; auto; tauto|].
  destruct (IH (Nat.min x z)) as (A & B & C). split; [lia|]. split.
  - intros y [<-|H]; [lia|auto].
  - destruct C as [C|C]; [|auto]. destruct (Nat.min_dec x z) as [E|E]; rewrite E in *; auto.
Qed.
Lemma fold_max_spec l : forall x, x <= fold_left Nat.max l x /\ (forall y, In y l -> y <= fold_left Nat.max l x) /\ (fold_left Nat.max l x = x \/ In (fold_left Nat.max l x) l).
Proof.
  induction l as [|z l IH]; intros x; simpl; [repeat split; auto; tauto|].
  destruct (IH (Nat.max x z)) as (A & B & C). split; [lia|]. split.
  - intros y [<-|H]; [lia|auto].
  - destruct C as [C|C]; [|auto]. destruct (Nat.max_dec x z) as [E|E]; rewrite E in *; auto.
Qed.
Lemma min_prompt_le prompts p : In p prompts -> min_prompt_len prompts <= length p.
Proof.
  unfold min_prompt_len, list_min. intros H. destruct prompts as [|q l]; [destruct H|]. simpl.
  destruct (fold_min_spec (map (@length nat) l) (length q)) as (A & B & _). destruct H as [<-|H]; [auto|]. apply B, in_map, H.
Qed.
Lemma max_prompt_ge prompts p : In p prompts -> length p <= max_prompt_len prompts.
Proof. intros H. unfold max_prompt_len, list_max. apply (proj1 (proj2 (fold_max_spec _ 0))). apply in_map, H. Qed.
Lemma min_prompt_pos prompts : prompts <> [] -> Forall (fun p => p <> []) prompts -> 1 <= min_prompt_len prompts.
Proof.
  intros N F. destruct prompts as [|q l]; [congruence|]. unfold min_prompt_len, list_min. simpl. rewrite Forall_forall in F.
  assert (P : forall x, In x (q :: l) -> 1 <= length x) by (intros x Hx; pose proof (F x Hx); destruct x; [congruence|simpl; lia]).
  destruct (fold_min_spec (map (@length nat) l) (length q)) as (_ & _ & [E|E]).
  - rewrite E. apply P. left; reflexivity.
  - apply in_map_iff in E. destruct E as (x & <- & Hx). apply P. right; assumption.
Qed.

Lemma firstn_seq k n a : k <= n -> firstn k (seq a n) = seq a k.
Proof.
  intros H. replace n with (k + (n - k)) by lia. rewrite seq_app, firstn_app, seq_length, Nat.sub_diag. simpl. rewrite app_nil_r.
  apply firstn_all2. rewrite seq_length. lia.
Qed.

Section Score.
  Variable S : scores.
  Variable D : decoder S.
  Variable c : config S.
  Variable prompts : list (list nat).
  Hypothesis L : score_laws S.

  Lemma total_app l1 l2 : total S (l1 ++ l2) = add S (total S l1) (total S l2).
  Proof. induction l1 as [|x l IH]; simpl; [symmetry; apply (add_zero S L)|]. unfold total in *. simpl. rewrite IH. apply (add_assoc S L). Qed.
  Lemma add_zero_r a : add S a (zero S) = a.
  Proof. rewrite (add_comm S L). apply (add_zero S L). Qed.
  Lemma total_one x : total S [x] = x.
  Proof. unfold total; simpl. apply add_zero_r. Qed.
  Lemma total_finite l : finite S (total S l) <-> Forall (finite S) l.
  Proof.
    induction l as [|x l IH]; simpl; [split; [constructor|intros; apply (zero_finite S L)]|].
    unfold total in *. simpl. rewrite (add_finite S L), IH. split; [intros [A B]; constructor; auto|intros H; inversion H; auto].
  Qed.

  Lemma token_score_app i j s v : j < length s -> token_score S D c prompts i j (s ++ [v]) = token_score S D c prompts i j s.
  Proof. intros H. unfold token_score. rewrite firstn_app, app_nth1 by assumption. replace (j - length s) with 0 by lia. simpl. rewrite app_nil_r. reflexivity. Qed.
  (** The score of one more token. *)
  Definition next_score (i : nat) (s : list nat) (v : nat) : Sc S :=
    nth v (if length s <? min_prompt_len prompts then next_lprobs S D i s else adjust S c prompts (length s) s (next_lprobs S D i s)) (ninf S).
  Lemma token_score_last i s v : token_score S D c prompts i (length s) (s ++ [v]) = next_score i s v.
  Proof.
    unfold token_score, next_score. rewrite firstn_app, Nat.sub_diag, firstn_all. simpl. rewrite app_nil_r.
    rewrite app_nth2, Nat.sub_diag by lia. reflexivity.
  Qed.
  Lemma seq_score_snoc i s v : s <> [] -> seq_score S D c prompts i (s ++ [v]) = add S (seq_score S D c prompts i s) (next_score i s v).
  Proof.
    intros N. unfold seq_score. rewrite app_length. simpl length.
    assert (P : 1 <= length s) by (destruct s; [congruence|simpl; lia]).
    replace (length s + 1 - 1) with ((length s - 1) + 1) by lia. rewrite seq_app, map_app, total_app. f_equal.
    - f_equal. apply map_ext_in. intros j Hj. apply in_seq in Hj. apply token_score_app. lia.
    - cbn [map seq]. rewrite total_one. replace (1 + (length s - 1)) with (length s) by lia. apply token_score_last.
  Qed.
  Lemma seq_score_one i x : seq_score S D c prompts i [x] = zero S.
  Proof. reflexivity. Qed.

  Lemma removelast_snoc {A} (s : list A) v : removelast (s ++ [v]) = s.
  Proof. rewrite removelast_app by discriminate. simpl. apply app_nil_r. Qed.
  Lemma state_after_snoc i s v : state_after S D i (s ++ [v]) = fst (feed D (state_after S D i s) v).
  Proof. unfold state_after. rewrite fold_left_app. reflexivity. Qed.
  Lemma next_lprobs_snoc i s v : next_lprobs S D i (s ++ [v]) = snd (feed D (state_after S D i s) v).
  Proof. unfold next_lprobs. rewrite removelast_snoc, last_last. reflexivity. Qed.

  (** ** Prefill *)
  Definition good (i b : nat) (buf : list nat) (sc : list (Sc S)) : Prop :=
    forall j, j < b -> nth j sc (zero S) = seq_score S D c prompts i (firstn (j + 1) buf).
  Lemma feed_all_spec i toks : forall s, feed_all S D (state_after S D i s) toks = (state_after S D i (s ++ toks), map (fun k => next_lprobs S D i (s ++ firstn (k + 1) toks)) (seq 0 (length toks))).
  Proof.
    induction toks as [|t toks IH]; intros s; simpl; [rewrite app_nil_r; reflexivity|].
    destruct (feed D (state_after S D i s) t) as [d1 o] eqn:E.
    assert (E1 : d1 = state_after S D i (s ++ [t])) by (rewrite state_after_snoc, E; reflexivity).
    assert (E2 : o = next_lprobs S D i (s ++ [t])) by (rewrite next_lprobs_snoc, E; reflexivity).
    rewrite E1, IH, E2, <- app_assoc. simpl. f_equal. f_equal. rewrite <- seq_shift, map_map. apply map_ext. intros k. rewrite <- app_assoc. reflexivity.
  Qed.
  Lemma cumsum_length acc l : length (cumsum S acc l) = length l.
  Proof. revert acc; induction l; simpl; auto. Qed.
  Lemma nth_cumsum_some l : forall a k, k < length l -> nth k (cumsum S (Some a) l) (zero S) = add S a (total S (firstn (k + 1) l)).
  Proof.
    induction l as [|x l IH]; intros a k H; simpl in H; [lia|]. simpl. destruct k.
    - simpl. unfold total; simpl. rewrite add_zero_r. reflexivity.
    - simpl. rewrite IH by lia. unfold total. simpl. symmetry. apply (add_assoc S L).
  Qed.
  Lemma nth_cumsum l k : k < length l -> nth k (cumsum S None l) (zero S) = total S (firstn (k + 1) l).
  Proof.
    destruct l as [|x l]; simpl; [lia|]. intros H. destruct k; [symmetry; apply total_one|]. rewrite nth_cumsum_some by lia. reflexivity.
  Qed.

  Lemma slice_length {A} a n (l : list A) : a + n <= length l -> length (slice a n l) = n.
  Proof. intros H. unfold slice. rewrite firstn_length, skipn_length. lia. Qed.
  Lemma nth_firstn' {A} k n (l : list A) d : k < n -> nth k (firstn n l) d = nth k l d.
  Proof. revert n l; induction k; intros [|n] [|x l] H; simpl; auto; try lia. apply IHk. lia. Qed.
  Lemma nth_skipn' {A} k a (l : list A) d : nth k (skipn a l) d = nth (a + k) l d.
  Proof. revert l; induction a; intros [|x l]; simpl; auto. destruct k; reflexivity. Qed.
  Lemma nth_slice {A} k a n (l : list A) d : k < n -> nth k (slice a n l) d = nth (a + k) l d.
  Proof. intros H. unfold slice. rewrite nth_firstn' by assumption. apply nth_skipn'. Qed.
  Lemma firstn_slice {A} a n k (l : list A) : k <= n -> firstn a l ++ firstn k (slice a n l) = firstn (a + k) l.
  Proof.
    intros H. unfold slice. rewrite firstn_firstn, Nat.min_l by lia. revert l; induction a; intros l; simpl; auto.
    destruct l; simpl; [rewrite firstn_nil; reflexivity|]. f_equal. apply IHa.
  Qed.
  Lemma write_length {A} a (vs l : list A) : a + length vs <= length l -> length (write a vs l) = length l.
  Proof. intros H. unfold write. rewrite !app_length, firstn_length, skipn_length. lia. Qed.
  Lemma nth_write {A} a (vs l : list A) k d : a + length vs <= length l ->
    nth k (write a vs l) d = if k <? a then nth k l d else if k <? a + length vs then nth (k - a) vs d else nth k l d.
  Proof.
    intros H. unfold write. destruct (Nat.ltb_spec k a).
    - rewrite app_nth1 by (rewrite firstn_length; lia). apply nth_firstn'. assumption.
    - rewrite app_nth2; rewrite firstn_length, Nat.min_l by lia; [|lia]. destruct (Nat.ltb_spec k (a + length vs)).
      + rewrite app_nth1 by lia. reflexivity.
      + rewrite app_nth2 by lia. rewrite nth_skipn'. f_equal. lia.
  Qed.

  Lemma chunk_total i b n buf k : b + n < length buf -> b + n < min_prompt_len prompts -> k < n ->
    add S (seq_score S D c prompts i (firstn (b + 1) buf)) (total S (map (fun m => next_score i (firstn (b + m + 1) buf) (nth (b + m + 1) buf 0)) (seq 0 (k + 1)))) = seq_score S D c prompts i (firstn (b + k + 2) buf).
  Proof.
    intros Hb Hm. induction k as [|k IH]; intros Hk.
    - simpl. unfold total; simpl. rewrite add_zero_r, !Nat.add_0_r. replace (b + 2) with ((b + 1) + 1) by lia.
      rewrite (firstn_S (b + 1) 0) by lia. rewrite seq_score_snoc; [reflexivity|]. destruct buf; simpl in *; [lia|]. rewrite Nat.add_1_r. discriminate.
    - replace (Datatypes.S k + 1) with ((k + 1) + 1) by lia. rewrite seq_app, map_app, total_app, (add_assoc S L), IH by lia. cbn [map seq]. rewrite total_one, Nat.add_0_l.
      replace (b + Datatypes.S k + 2) with ((b + k + 2) + 1) by lia. rewrite (firstn_S (b + k + 2) 0) by lia.
      replace (b + (k + 1) + 1) with (b + k + 2) by lia. rewrite seq_score_snoc; [reflexivity|]. destruct buf; simpl in *; [lia|]. rewrite Nat.add_comm. discriminate.
  Qed.

  Lemma prefill_chunk_ok b n (r : row S D) : b + n < length (r_buf S D r) -> length (r_sc S D r) = length (r_buf S D r) -> b + n < min_prompt_len prompts ->
    r_ds S D r = state_after S D (r_prompt S D r) (firstn b (r_buf S D r)) -> good (r_prompt S D r) (b + 1) (r_buf S D r) (r_sc S D r) ->
    let r' := prefill_chunk_row S D b n r in
    r_prompt S D r' = r_prompt S D r /\ r_len S D r' = r_len S D r /\ r_buf S D r' = r_buf S D r /\ length (r_sc S D r') = length (r_sc S D r) /\
    r_ds S D r' = state_after S D (r_prompt S D r) (firstn (b + n) (r_buf S D r)) /\ good (r_prompt S D r) (b + n + 1) (r_buf S D r) (r_sc S D r').
  Proof.
    intros Hb Hl Hm Hd Hg. unfold prefill_chunk_row. rewrite Hd, feed_all_spec.
    set (i := r_prompt S D r) in *. set (buf := r_buf S D r) in *. set (sc := r_sc S D r) in *.
    assert (Ls : length (slice b n buf) = n) by (apply slice_length; lia).
    assert (Lt : length (slice (b + 1) n buf) = n) by (apply slice_length; lia).
    set (os := map (fun k => next_lprobs S D i (firstn b buf ++ firstn (k + 1) (slice b n buf))) (seq 0 (length (slice b n buf)))).
    assert (Lo : length os = n) by (unfold os; rewrite map_length, seq_length; exact Ls).
    set (g := gather S os _).
    assert (Lg : length g = n) by (unfold g, gather; rewrite map_length, combine_length; lia).
    assert (G : g = map (fun m => next_score i (firstn (b + m + 1) buf) (nth (b + m + 1) buf 0)) (seq 0 n)).
    { apply nth_ext with (d := ninf S) (d' := ninf S); [rewrite map_length, seq_length; exact Lg|]. intros m Hmn. rewrite Lg in Hmn.
      rewrite nth_indep with (d' := next_score i (firstn (b + 0 + 1) buf) (nth (b + 0 + 1) buf 0)) (l := map _ (seq 0 n)) by (rewrite map_length, seq_length; lia).
      rewrite (map_nth (fun m => next_score i (firstn (b + m + 1) buf) (nth (b + m + 1) buf 0))), seq_nth by lia.
      unfold g, gather. rewrite nth_indep with (d' := (fun ot : list (Sc S) * nat => nth (snd ot) (fst ot) (ninf S)) ([], 0)) by (rewrite map_length, combine_length; lia).
      rewrite (map_nth (fun ot : list (Sc S) * nat => nth (snd ot) (fst ot) (ninf S))), combine_nth by lia. simpl fst. simpl snd.
      rewrite nth_slice by lia. unfold os.
      rewrite nth_indep with (d' := next_lprobs S D i (firstn b buf ++ firstn (0 + 1) (slice b n buf))) by (rewrite map_length, seq_length; lia).
      rewrite (map_nth (fun k => next_lprobs S D i (firstn b buf ++ firstn (k + 1) (slice b n buf)))), seq_nth by lia.
      rewrite firstn_slice by lia. simpl Nat.add. unfold next_score. rewrite firstn_length, Nat.min_l by lia.
      destruct (Nat.ltb_spec (b + m + 1) (min_prompt_len prompts)); [|lia]. replace (b + (m + 1)) with (b + m + 1) by lia. replace (b + 1 + m) with (b + m + 1) by lia. reflexivity. }
    cbn [r_prompt r_len r_buf r_sc r_ds].
    assert (Lp : length (map (fun x => add S x (nth b sc (zero S))) (cumsum S None g)) = n) by (rewrite map_length, cumsum_length; exact Lg).
    repeat split; auto.
    - apply write_length. rewrite Lp. lia.
    - f_equal. rewrite <- (firstn_slice b n n buf) by lia. f_equal. rewrite firstn_all2 by lia. reflexivity.
    - intros j Hj. rewrite nth_write by (rewrite Lp; lia). rewrite Lp. destruct (Nat.ltb_spec j (b + 1)); [apply Hg; lia|]. destruct (Nat.ltb_spec j (b + 1 + n)); [|lia].
      rewrite nth_indep with (d' := add S (zero S) (nth b sc (zero S))) by (rewrite Lp; lia).
      rewrite (map_nth (fun x => add S x (nth b sc (zero S)))), nth_cumsum by lia. rewrite (Hg b) by lia. rewrite (add_comm S L), G, firstn_map.
      rewrite firstn_seq by lia. rewrite (chunk_total i b n) by lia. f_equal. f_equal. lia.
  Qed.

  (** A row before step [t]. *)
  Definition ready (t : nat) (r r' : row S D) : Prop :=
    r_prompt S D r' = r_prompt S D r /\ r_len S D r' = r_len S D r /\ r_buf S D r' = r_buf S D r /\ length (r_sc S D r') = length (r_sc S D r) /\
    r_ds S D r' = state_after S D (r_prompt S D r) (firstn (t - 1) (r_buf S D r)) /\ good (r_prompt S D r) t (r_buf S D r) (r_sc S D r').

  Lemma chunk_size_bounds b : match prefill_chunk c with Some m => 1 <= m | None => True end -> b < min_prompt_len prompts - 1 ->
    1 <= chunk_size S c prompts b /\ b + chunk_size S c prompts b <= min_prompt_len prompts - 1.
  Proof.
    intros H B. unfold chunk_size. destruct (prefill_chunk c) as [m|]; [|lia]. destruct (Nat.ltb_spec m (min_prompt_len prompts - b - 1)); lia.
  Qed.

  Lemma prefill_loop_ok fuel : forall b rs rs0, match prefill_chunk c with Some m => 1 <= m | None => True end ->
    b <= min_prompt_len prompts - 1 -> min_prompt_len prompts - 1 - b < fuel ->
    Forall2 (ready (b + 1)) rs0 rs -> Forall (fun r => min_prompt_len prompts <= length (r_buf S D r) /\ length (r_sc S D r) = length (r_buf S D r)) rs0 ->
    Forall2 (ready (min_prompt_len prompts - 1 + 1)) rs0 (prefill_loop S D c prompts fuel b rs).
  Proof.
    induction fuel as [|f IH]; intros b rs rs0 Hc Hb Hf H1 H2; [lia|]. simpl. destruct (Nat.ltb_spec b (min_prompt_len prompts - 1)).
    - destruct (chunk_size_bounds b Hc ltac:(lia)) as [C1 C2]. apply IH; auto; try lia. clear IH.
      induction H1 as [|r0 r rs0 rs H1 H1s IHs]; simpl; constructor; inversion H2 as [|? ? [H2a H2b] H2c]; subst; [|apply IHs; assumption].
      destruct H1 as (A1 & A2 & A3 & A4 & A5 & A6). replace (b + 1 - 1) with b in A5 by lia.
      destruct (prefill_chunk_ok b (chunk_size S c prompts b) r) as (B1 & B2 & B3 & B4 & B5 & B6).
      1-5: rewrite ?A1, ?A3, ?A4; auto; lia.
      rewrite A1, A3 in B5, B6. unfold ready. rewrite B1, B2, B3, B4, A1, A2, A3, A4.
      replace (b + chunk_size S c prompts b + 1 - 1) with (b + chunk_size S c prompts b) by lia. repeat split; auto.
    - assert (b = min_prompt_len prompts - 1) by lia. subst b. assumption.
  Qed.

  Lemma prepare_ok rs : match prefill_chunk c with Some m => 1 <= m | None => True end -> 1 <= min_prompt_len prompts ->
    Forall (fun r => min_prompt_len prompts <= length (r_buf S D r) /\ length (r_sc S D r) = length (r_buf S D r) /\ nth 0 (r_sc S D r) (zero S) = zero S /\ r_ds S D r = start D (r_prompt S D r)) rs ->
    Forall2 (ready (min_prompt_len prompts)) rs (prepare S D c prompts rs).
  Proof.
    intros Hc Hp H.
    assert (R : Forall2 (ready 1) rs rs).
    { clear Hc. induction H as [|r rs (A & B & C & E) _ IH]; constructor; auto. unfold ready. repeat split; auto.
      intros j Hj. assert (j = 0) by lia. subst. rewrite C. destruct (r_buf S D r); reflexivity. }
    unfold prepare. destruct (Nat.ltb_spec 1 (min_prompt_len prompts)).
    - replace (min_prompt_len prompts) with (min_prompt_len prompts - 1 + 1) at 1 by lia.
      apply prefill_loop_ok; auto; try lia. eapply Forall_impl; [|exact H]. simpl. intros r (X1 & X2 & _). auto.
    - assert (min_prompt_len prompts = 1) by lia. rewrite H1. exact R.
  Qed.
End Score.
