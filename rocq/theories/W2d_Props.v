(** Data and schedule of the wav2vec2 recipes (C89, C90). *)

Require Import List Arith ZArith Bool Lia.
From Verif Require Import Bkt_Model Bkt_Props W2d_Model W2d_Spec.
Import ListNotations.

(** ** C89: cropping *)
Section Crop.
  Context {sample rng : Type}.
  Variable RandomState : nat -> rng.
  Variable randint : rng -> nat -> nat * rng.
  Hypothesis Hrand : draws_below randint.

  Lemma fold_min : forall ns n, fold_left Nat.min ns n <= n /\ Forall (fun x => fold_left Nat.min ns n <= x) ns
    /\ (fold_left Nat.min ns n = n \/ In (fold_left Nat.min ns n) ns).
  Proof.
    induction ns as [|m ns IH]; intro n; [repeat split; auto|]. cbn. destruct (IH (Nat.min n m)) as (A & B & C). repeat split.
    - lia. - constructor; [lia|exact B].
    - destruct C as [C|C]; [|tauto]. rewrite C. destruct (Nat.min_dec n m) as [->| ->]; auto.
  Qed.

  Lemma crop_all_spec : forall size (batch : list (list sample)) g,
    Forall2 (fun p a => piece p a /\ length p = Nat.min size (length a)) (snd (crop_all randint g size batch)) batch.
  Proof.
    intro size. induction batch as [|a batch IH]; intro g; [constructor|]. cbn [crop_all].
    destruct (Nat.ltb_spec size (length a)) as [L|L].
    - pose proof (Hrand g (length a - size) ltac:(lia)) as R. destruct (randint g (length a - size)) as [start g']. cbn in R.
      specialize (IH g'). destruct (crop_all randint g' size batch) as [g'' r]. cbn in *. constructor; [|exact IH]. split.
      + exists (firstn start a), (skipn size (skipn start a)). rewrite firstn_skipn, firstn_skipn. reflexivity.
      + rewrite firstn_length, skipn_length. lia.
    - specialize (IH g). destruct (crop_all randint g size batch) as [g' r]. cbn in *. constructor; [|exact IH]. split.
      + exists [], []. rewrite app_nil_r. reflexivity.
      + lia.
  Qed.

  (** Whatever recordings come, a batch has as many rows, each a piece of its
      recording, all of the same length: the least of the maximum and of the
      lengths of the recordings. *)
  Theorem C89_batch : forall max_audio_len normalize g (recordings : list (list sample)), recordings <> [] ->
    exists rows n,
      snd (snd (ssl_batch randint max_audio_len normalize g recordings)) = Some rows
      /\ Forall2 (fun p a => piece p a /\ length p = n) rows recordings
      /\ n <= max_audio_len /\ Forall (fun a => n <= length a) recordings
      /\ (n = max_audio_len \/ exists a, In a recordings /\ n = length a).
  Proof.
    intros top norm g recs N. unfold ssl_batch, crop_audios_in_batch.
    pose proof (crop_all_spec (crop_size top true recs) recs g) as S.
    destruct (crop_all randint g (crop_size top true recs) recs) as [g' rows] eqn:E. cbn [snd] in *.
    set (n := crop_size top true recs) in *.
    assert (B : n <= top /\ Forall (fun a => n <= length a) recs /\ (n = top \/ exists a, In a recs /\ n = length a)).
    { destruct recs as [|a recs]; [congruence|]. unfold n, crop_size. cbn [map].
      destruct (fold_min (map (@length sample) recs) (length a)) as (F1 & F2 & F3).
      set (m := fold_left Nat.min _ _) in *. split; [lia|]. split.
      - constructor; [lia|]. rewrite Forall_map in F2. eapply Forall_impl; [|exact F2]. cbn. intros x X. lia.
      - destruct (Nat.le_gt_cases top m); [left; lia|right]. destruct F3 as [F3|F3].
        + exists a. split; [left; reflexivity|lia].
        + apply in_map_iff in F3 as (x & F3 & F4). exists x. split; [right; exact F4|lia]. }
    destruct B as (B1 & B2 & B3).
    assert (S' : Forall2 (fun p a => piece p a /\ length p = n) rows recs).
    { clear E. clearbody n. clear B3 N. induction S as [|p a rows recs [P L] S IH]; [constructor|]. inversion B2; subst.
      constructor; [split; [exact P|rewrite L; lia]|exact (IH H2)]. }
    clearbody n. exists rows, n. split; [|auto]. unfold stack. destruct rows as [|p rows]; [reflexivity|].
    assert (Ls : Forall (fun p => length p = n) (p :: rows)).
    { clear - S'. induction S' as [|q a l l' [_ H] S' IH]; constructor; auto. }
    pose proof (Forall_inv Ls) as L0. pose proof (Forall_inv_tail Ls) as L1. cbn in L0. rewrite L0.
    replace (forallb _ rows) with true; [reflexivity|]. symmetry. apply forallb_forall. intros q Q. apply Nat.eqb_eq.
    rewrite Forall_forall in L1. apply L1. exact Q.
  Qed.

  (** The last sample of a recording that is cropped is never used: the window
      does not reach the end, since [randint] excludes its upper bound. *)
  Theorem C89_last_sample_refuted : forall g size (a : list sample) (z : sample), size <= length a ->
    exists before after, snd (crop_all randint g size [a ++ [z]]) = [firstn size (skipn (length before) a)]
                         /\ a = before ++ firstn size (skipn (length before) a) ++ after.
  Proof.
    intros g size a z L. cbn [crop_all]. rewrite app_length. cbn [length].
    assert (T : (size <? length a + 1) = true) by (apply Nat.ltb_lt; lia). rewrite T.
    pose proof (Hrand g (length a + 1 - size) ltac:(lia)) as R. destruct (randint g (length a + 1 - size)) as [start g']. cbn in R |- *.
    exists (firstn start a), (skipn size (skipn start a)). rewrite firstn_length, Nat.min_l by lia. split.
    - rewrite skipn_app. replace (start - length a) with 0 by lia. cbn [skipn]. rewrite firstn_app, skipn_length.
      replace (size - (length a - start)) with 0 by lia. cbn. rewrite app_nil_r. reflexivity.
    - rewrite !firstn_skipn. reflexivity.
  Qed.

  (** The option to normalise the audio changes the precision of the waveforms
      and nothing else; its documentation promises zero mean and unit variance. *)
  Theorem C89_normalize_refuted : forall max_audio_len g (recordings : list (list sample)),
    snd (snd (ssl_batch randint max_audio_len true g recordings)) = snd (snd (ssl_batch randint max_audio_len false g recordings)).
  Proof. intros. unfold ssl_batch. destruct (crop_audios_in_batch _ _ _ _ _). reflexivity. Qed.

  (** The recipe for speech recognition does normalise. *)
  Theorem C89_normalize_asr : forall (layer_norm : list sample -> list sample) recordings,
    Forall2 (fun w a => w = layer_norm a) (asr_waveforms layer_norm true recordings) recordings.
  Proof. intros ln. induction recordings; constructor; auto. Qed.

  Lemma window_head : forall (a : list sample) size s s', NoDup a -> 0 < size -> s < length a -> s' < length a ->
    firstn size (skipn s a) = firstn size (skipn s' a) -> s = s'.
  Proof.
    intros a size s s' N P L L' E. apply (proj1 (NoDup_nth_error a) N s s' L).
    assert (H : forall k, nth_error (firstn size (skipn k a)) 0 = nth_error a k).
    { clear - P. intro k. destruct size as [|size]; [lia|]. revert k. induction a as [|x a IH]; intros [|k]; try reflexivity. cbn [skipn nth_error]. apply IH. }
    rewrite <- !H, E. reflexivity.
  Qed.

  (** Resuming: the generator that crops is not part of the state of the reader.
      Take two batches of a shorter and a longer recording.  Unless the first two
      draws agree, a training that is resumed after the first batch reads another
      piece of the longer one than a training that is not interrupted. *)
  Theorem C89_resumed_refuted : forall max_audio_len normalize seed (b a : list sample),
    NoDup a -> 0 < length b -> length b < length a <= max_audio_len ->
    fst (randint (RandomState seed) (length a - length b))
      <> fst (randint (snd (randint (RandomState seed) (length a - length b))) (length a - length b)) ->
    read_resumed RandomState randint max_audio_len normalize seed [[b; a]; [b; a]] 1
    <> skipn 1 (read_all RandomState randint max_audio_len normalize seed [[b; a]; [b; a]]).
  Proof.
    intros top norm seed b a N Lb La D.
    assert (S : forall g, ssl_batch randint top norm g [b; a]
      = (snd (randint g (length a - length b)),
         (if norm then Float32 else Configured, Some [b; firstn (length b) (skipn (fst (randint g (length a - length b))) a)]))).
    { intro g. unfold ssl_batch, crop_audios_in_batch, crop_size. cbn [map fold_left].
      replace (Nat.min top (Nat.min (length b) (length a))) with (length b) by lia. cbn [crop_all].
      rewrite Nat.ltb_irrefl. assert (T : (length b <? length a) = true) by (apply Nat.ltb_lt; lia). rewrite T.
      pose proof (Hrand g (length a - length b) ltac:(lia)) as R. destruct (randint g (length a - length b)) as [start g']. cbn in R |- *.
      rewrite firstn_length, skipn_length. replace (Nat.min _ _) with (length b) by lia. rewrite Nat.eqb_refl. reflexivity. }
    unfold read_resumed, read_all. cbn [skipn read_from]. rewrite !S. cbn [read_from skipn]. rewrite ?S. cbn [read_from fst snd].
    intro E. injection E as E. apply D.
    pose proof (Hrand (RandomState seed) (length a - length b) ltac:(lia)) as R1.
    pose proof (Hrand (snd (randint (RandomState seed) (length a - length b))) (length a - length b) ltac:(lia)) as R2.
    apply (window_head a (length b)); auto; lia.
  Qed.
End Crop.

Example C89_batch_ex :
  ssl_batch (fun g n => (g mod n, S g)) 4 true 1 [[1; 2; 3]; [4; 5; 6; 7; 8]] = (2, (Float32, Some [[1; 2; 3]; [5; 6; 7]])).
Proof. reflexivity. Qed.

Example C89_draws_ex : draws_below (fun g n => (g mod n, S g)) /\ 1 mod 2 <> 2 mod 2.
Proof. split; [|discriminate]. intros g n H. cbn [fst]. apply Nat.mod_upper_bound. lia. Qed.

(** ** C89: the size of batches

    If the limit holds a recording of the greatest length, the buckets are
    created, every recording of a permitted length has one, and no batch exceeds
    the limit; a smaller limit is refused, although shorter recordings would
    fit. *)
Theorem C89_buckets : forall lo top m k, (1 <= lo <= top -> 1 <= k ->
  (top <= m -> exists l, add_length_batching lo top m k = Buckets l
     /\ (forall b, In b l -> 0 < fst b /\ fst b * snd b <= m)
     /\ forall n, lo <= n <= top -> exists b, In b l /\ n <= snd b)
  /\ (0 <= m < top -> add_length_batching lo top m k = Refused))%Z.
Proof.
  intros lo top m k Hl Hk. unfold add_length_batching. assert (T : (top =? 0)%Z = false) by (apply Z.eqb_neq; lia). rewrite T.
  assert (R : rounded m top = (m / top * top)%Z).
  { unfold rounded. destruct (Z.eqb_spec (m mod top) 0) as [E|E]; cbn [negb]; [|reflexivity].
    pose proof (Z.div_mod m top ltac:(lia)). lia. }
  rewrite R. pose proof (Z.div_mod m top ltac:(lia)) as DM. pose proof (Z.mod_pos_bound m top ltac:(lia)) as MB. split.
  - intro Hm. assert (V : valid (m / top * top) top lo k).
    { assert (1 <= m / top)%Z by (apply Z.div_le_lower_bound; lia). repeat split; try lia; [nia|]. exists (m / top)%Z. reflexivity. }
    destruct (C75_rejected (m / top * top) top lo k) as [C1 C2].
    destruct (create_bucket_sizes (m / top * top) top lo k) as [|l|] eqn:E; [exfalso; apply C1; [reflexivity|exact V]| |congruence].
    exists l. split; [reflexivity|]. destruct (C75_buckets _ _ _ _ _ E) as (_ & _ & B & G). split.
    + intros b Hb. destruct (B b Hb) as (_ & B1 & B2 & _). split; [exact B1|lia].
    + intros n Hn. destruct (G n Hn) as (b & Gb & _). exists b. clear - Gb.
      induction l as [|c l IH]; [discriminate|]. cbn in Gb. destruct (Z.leb_spec n (snd c)).
      * injection Gb as <-. split; [left; reflexivity|lia].
      * destruct (IH Gb) as [X Y]. split; [right; exact X|exact Y].
  - intro Hm. rewrite Z.div_small by lia. destruct (C75_rejected (0 * top) top lo k) as [[_ C1] C2].
    rewrite C1; [reflexivity|]. unfold valid. intros (_ & X & _). lia.
Qed.

Example C89_buckets_ex : exists l, add_length_batching 2 10 35 1 = Buckets l.
Proof. eexists. vm_compute. reflexivity. Qed.

(** ** C90: what learns

    In a step, whatever the step at which this process began or was resumed, the
    parameters that learn are those that [learns] says, if all parameters did
    when the model was created. *)
Section Freeze.
  Context {param : Type}.
  Variable part_of : param -> part.
  Variable has_masker : bool.

  Lemma part_beq_refl : forall p, part_beq p p = true.
  Proof. intros []; reflexivity. Qed.

  Theorem C90_schedule_partial : forall n first step (t0 : param -> bool) p,
    1 <= first <= step -> (forall q, t0 q = true) -> (has_masker = true \/ part_of p <> Masker) ->
    trainable_at part_of has_masker n first step t0 p = learns n step (part_of p).
  Proof.
    intros n first step t0 p [F L] T M. unfold trainable_at.
    assert (G : forall k, let s := steps part_of has_masker n first (S k) (false, prepare_model part_of t0) in
      fst s = (first + k <=? n) /\ snd s p = learns n (first + k) (part_of p)).
    { assert (A : forall st frozen (t : param -> bool), (frozen = true -> t p = learns n (pred st) (part_of p) /\ st <= S n) ->
         (frozen = false -> t p = negb (part_beq (part_of p) Feature_extractor)) ->
         fst (set_step_nr part_of has_masker n st (frozen, t)) = (st <=? n)
         /\ snd (set_step_nr part_of has_masker n st (frozen, t)) p = learns n st (part_of p)).
      { intros st frozen t H1 H2. unfold set_step_nr. destruct (Nat.leb_spec st n) as [Le|Gt].
        - destruct frozen.
          + destruct (H1 eq_refl) as [E _]. split; [reflexivity|]. cbn -[Nat.ltb]. rewrite E. unfold learns.
            destruct (part_of p); try reflexivity; destruct (Nat.ltb_spec n (pred st)), (Nat.ltb_spec n st); try reflexivity; lia.
          + specialize (H2 eq_refl). split; [reflexivity|].
            assert (X : (n <? st) = false) by (apply Nat.ltb_ge; lia).
            destruct has_masker; cbn -[Nat.ltb]; unfold freeze_parameters, learns; destruct (part_of p) eqn:Pp; cbn -[Nat.ltb] in *; try reflexivity; try (rewrite X; reflexivity); try exact H2.
            destruct M; congruence.
        - assert (X : (n <? st) = true) by (apply Nat.ltb_lt; lia). destruct frozen; cbn [negb].
          + split; [reflexivity|]. cbn -[Nat.ltb]. unfold freeze_parameters, learns. destruct (part_of p); cbn -[Nat.ltb]; try reflexivity; rewrite X; reflexivity.
          + specialize (H2 eq_refl). split; [reflexivity|]. cbn [snd]. rewrite H2. unfold learns. destruct (part_of p); cbn -[Nat.ltb]; try reflexivity; rewrite X; reflexivity. }
      induction k as [|k IH]; cbv zeta.
      - cbn [steps]. rewrite Nat.add_0_r. apply A; [discriminate|]. intros _. unfold prepare_model, freeze_parameters. cbn -[Nat.ltb].
        rewrite T. destruct (part_of p); reflexivity.
      - cbv zeta in IH. remember (S k) as k1. cbn [steps]. destruct (steps part_of has_masker n first k1 (false, prepare_model part_of t0)) as [fr t].
        cbn [fst snd] in IH. destruct IH as [I1 I2]. apply A.
        + intros ->. symmetry in I1. apply Nat.leb_le in I1. split; [|lia]. rewrite I2. f_equal. lia.
        + intros ->. symmetry in I1. apply Nat.leb_gt in I1. rewrite I2. unfold learns.
          assert (X : (n <? first + k) = true) by (apply Nat.ltb_lt; lia). destruct (part_of p); cbn -[Nat.ltb]; try reflexivity; exact X. }
    destruct (G (step - first)) as [_ G2]. cbv zeta in G2. replace (first + (step - first)) with step in G2 by lia. exact G2.
  Qed.
End Freeze.

(** Parameters that were frozen for another reason begin to learn with the
    encoder: the end of the frozen steps thaws everything but the feature
    extractor, though not if the training is resumed after them. *)
Theorem C90_thawed_refuted : forall (param : Type) (part_of : param -> part) has_masker n (t0 : param -> bool) p,
  0 < n -> t0 p = false -> part_of p = Encoder \/ part_of p = Projection ->
  trainable_at part_of has_masker n 1 (S n) t0 p = true
  /\ trainable_at part_of has_masker n (S n) (S n) t0 p = false.
Proof.
  intros param part_of hm n t0 p Hn T P. split.
  - unfold trainable_at. replace (S (S n - 1)) with (S n) by lia. cbn [steps].
    assert (F : forall k, 0 < k <= n -> fst (steps part_of hm n 1 k (false, prepare_model part_of t0)) = true).
    { induction k as [|k IH]; intros K; [lia|]. cbn [steps]. destruct (steps part_of hm n 1 k _) as [fr t]. unfold set_step_nr.
      assert (X : (1 + k <=? n) = true) by (apply Nat.leb_le; lia). rewrite X. destruct fr; reflexivity. }
    specialize (F n ltac:(lia)). destruct (steps part_of hm n 1 n _) as [fr t]. cbn in F. subst fr. unfold set_step_nr.
    assert (X : (1 + n <=? n) = false) by (apply Nat.leb_gt; lia). rewrite X. cbn. unfold freeze_parameters.
    destruct P as [-> | ->]; reflexivity.
  - unfold trainable_at. rewrite Nat.sub_diag. cbn [steps]. unfold set_step_nr. rewrite Nat.add_0_r.
    assert (X : (S n <=? n) = false) by (apply Nat.leb_gt; lia). rewrite X. cbn [negb snd]. unfold prepare_model, freeze_parameters. cbn.
    destruct P as [-> | ->]; exact T.
Qed.

Example C90_schedule_ex :
  map (fun step => trainable_at (fun p : part => p) true 2 1 step (fun _ => true) Encoder) [1; 2; 3; 4] = [false; false; true; true]
  /\ map (fun step => trainable_at (fun p : part => p) true 2 2 step (fun _ => true) Encoder) [2; 3] = [false; true].
Proof. split; reflexivity. Qed.

Print Assumptions C89_batch.
Print Assumptions C89_last_sample_refuted.
Print Assumptions C89_normalize_refuted.
Print Assumptions C89_normalize_asr.
Print Assumptions C89_resumed_refuted.
Print Assumptions C89_buckets.
Print Assumptions C90_schedule_partial.
Print Assumptions C90_thawed_refuted.
