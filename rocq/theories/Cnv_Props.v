(** C79: convolutional modules treat a sequence in a padded batch as they treat
    it alone. *)

From Coq Require Import List Bool Arith ZArith Lia.
Import ListNotations.
From Verif Require Import Cnv_Model Cnv_Proofs.

(** Sequence [i] of a batch without its padding. *)
Definition sequence {E} (rows : list (list E)) (lens : list Z) (i : nat) : list E :=
  firstn (Z.to_nat (nth i lens 0%Z)) (nth i rows []).

(** A batch of sequences of lengths [lens], padded to the width [w]. *)
Definition batch {E} (w : nat) (rows : list (list E)) (lens : list Z) : Prop :=
  rows <> [] /\ (forall r, In r rows -> length r = w) /\ length lens = length rows /\
  (forall n, In n lens -> 1 <= n <= Z.of_nat w)%Z.

Section Props.
Variable E : Type.
Variable zero : E.

Lemma row_fact Ls r n o : Forall (ok E) Ls -> (1 <= n <= Z.of_nat (length r))%Z ->
  layers_forward E zero Ls r = Some o ->
  o <> [] /\
  ((layers_forward E zero Ls (firstn (Z.to_nat n) r) = None /\ (contract E Ls n <= 0)%Z) \/
   exists q r', layers_forward E zero Ls (firstn (Z.to_nat n) r) = Some q /\ o = q ++ r' /\
     contract E Ls n = Z.of_nat (length q) /\ q <> []).
Proof.
  intros HL Hn Ho. split.
  - pose proof (contract_spec E zero Ls HL r) as S. rewrite Ho in S. destruct S as (_ & S & _).
    intros ->. apply S; [lia|reflexivity].
  - pose proof (contract_spec E zero Ls HL (firstn (Z.to_nat n) r)) as S.
    assert (Len : length (firstn (Z.to_nat n) r) = Z.to_nat n) by (apply firstn_length_le; lia).
    rewrite Len, Z2Nat.id in S by lia.
    destruct (layers_forward E zero Ls (firstn (Z.to_nat n) r)) as [q|]; [|left; auto].
    right. destruct S as (S1 & S2 & S3). destruct (S3 (skipn (Z.to_nat n) r)) as (r' & S4).
    rewrite firstn_skipn, Ho in S4. injection S4 as ->. exists q, r'.
    split; [reflexivity|]. split; [reflexivity|]. split; [exact S1|].
    intros ->. apply S2; [lia|reflexivity].
Qed.

Lemma row_length Ls r r' o o' : Forall (ok E) Ls -> length r = length r' ->
  layers_forward E zero Ls r = Some o -> layers_forward E zero Ls r' = Some o' ->
  length o = length o'.
Proof.
  intros HL El Ho Ho'.
  pose proof (contract_spec E zero Ls HL r) as S. rewrite Ho in S. destruct S as (S & _).
  pose proof (contract_spec E zero Ls HL r') as S'. rewrite Ho' in S'. destruct S' as (S' & _).
  rewrite El in S. lia.
Qed.

Lemma Forall2_nth' {A B} (R : A -> B -> Prop) l l' a b i :
  Forall2 R l l' -> i < length l -> R (nth i l a) (nth i l' b).
Proof.
  intros F. revert i. induction F as [|x y l l' H F IH]; intros i Hi; [cbn in Hi; lia|].
  destruct i; cbn; [exact H|]. apply IH. cbn in Hi. lia.
Qed.

Lemma Forall2_len {A B} (R : A -> B -> Prop) l l' : Forall2 R l l' -> length l = length l'.
Proof. induction 1; cbn; congruence. Qed.

Lemma repeat_nth {A} (x d : A) n i : i < n -> nth i (repeat x n) d = x.
Proof.
  revert i. induction n as [|n IH]; intros i Hi; [lia|]. destruct i; cbn; [reflexivity|]. apply IH. lia.
Qed.

(** What [layout_of] accepts. *)
Lemma layout_spec (rows : list (list E)) l : rows <> [] ->
  (layout_of E rows (Some l) = Some l /\
   forall n, In n l -> (1 <= n <= Z.of_nat (width E rows))%Z) \/
  (layout_of E rows (Some l) = None /\
   (width E rows = 0 \/ length l <> length rows \/
    exists n, In n l /\ ~ (1 <= n <= Z.of_nat (width E rows))%Z)).
Proof.
  intros Hr. unfold layout_of. destruct (Z.ltb_spec (Z.of_nat (width E rows)) 1).
  { right. split; [reflexivity|]. left. lia. }
  destruct (Nat.eqb_spec (length l) (length rows)); cbn [negb].
  2:{ right. split; [reflexivity|]. right. left. assumption. }
  destruct (forallb _ l) eqn:F.
  { left. split; [reflexivity|]. rewrite forallb_forall in F. intros n I. specialize (F n I).
    apply andb_prop in F. destruct F as (A & B). apply Z.leb_le in A. apply Z.leb_le in B. lia. }
  right. split; [reflexivity|]. right. right.
  assert (G : existsb (fun n => negb ((1 <=? n) && (n <=? Z.of_nat (width E rows)))%Z) l = true).
  { clear - F. induction l as [|n l IH]; [discriminate|]. cbn in *.
    destruct ((1 <=? n)%Z && (n <=? Z.of_nat (width E rows))%Z); cbn in *; [auto|reflexivity]. }
  apply existsb_exists in G. destruct G as (n & I & N). exists n. split; [exact I|].
  intros (A & B). apply Z.leb_le in A. apply Z.leb_le in B. rewrite A, B in N. discriminate.
Qed.

(** C79: the wav2vec 2.0 feature extractor without group normalisation gives for
    every sequence of a padded batch, up to the computed length, exactly the
    features it gives for that sequence alone; and it raises an error only if
    one of the sequences alone is too short for the convolutions. *)
Theorem C79_features : forall Ls w rows lens,
  (forall L, In L Ls -> 1 <= kernel_size E L /\ 1 <= stride E L /\ group_norm E L = None) ->
  batch w rows lens ->
  match extract E zero Ls rows lens with
  | Some (out, lens') =>
      length out = length rows /\ length lens' = length rows /\
      forall i, i < length rows ->
        (1 <= nth i lens' 0 <= Z.of_nat (length (nth i out [])))%Z /\
        layers_forward E zero Ls (sequence rows lens i) = Some (sequence out lens' i)
  | None =>
      exists i, i < length rows /\
        layers_forward E zero Ls (sequence rows lens i) = None
  end.
Proof.
  intros Ls w rows lens HL0 (Hne & Hw & Hl & Hn).
  assert (HL : Forall (ok E) Ls) by (apply Forall_forall; exact HL0).
  unfold extract. pose proof (each_row_spec E (layers_forward E zero Ls) rows) as R.
  assert (Nl : forall i, i < length rows -> (1 <= nth i lens 0 <= Z.of_nat w)%Z).
  { intros i Hi. apply Hn. apply nth_In. lia. }
  assert (Nr : forall i, i < length rows -> length (nth i rows []) = w).
  { intros i Hi. apply Hw. apply nth_In. exact Hi. }
  destruct (each_row E (layers_forward E zero Ls) rows) as [out|].
  2:{ destruct R as (r & I & N). destruct (In_nth _ _ [] I) as (i & Hi & Ei).
      exists i. split; [exact Hi|]. unfold sequence. rewrite Ei.
      pose proof (contract_spec E zero Ls HL (firstn (Z.to_nat (nth i lens 0%Z)) r)) as S.
      destruct (layers_forward E zero Ls (firstn _ r)) as [q|]; [|reflexivity].
      exfalso. destruct S as (_ & _ & S). destruct (S (skipn (Z.to_nat (nth i lens 0%Z)) r)) as (r' & S').
      rewrite firstn_skipn, N in S'. discriminate. }
  pose proof (Forall2_len _ _ _ R) as Lo.
  assert (Ri : forall i, i < length rows -> layers_forward E zero Ls (nth i rows []) = Some (nth i out [])).
  { intros i Hi. exact (Forall2_nth' _ _ _ [] [] i R Hi). }
  assert (Wo : forall i, i < length rows -> length (nth i out []) = width E out).
  { intros i Hi. destruct rows as [|r0 rows]; [congruence|]. destruct out as [|o0 out]; [discriminate Lo|].
    cbn [width]. eapply row_length; [exact HL| |exact (Ri i Hi)|exact (Ri 0 ltac:(cbn; lia))].
    rewrite (Nr i Hi), (Nr 0) by (cbn; lia). reflexivity. }
  assert (Hlen0 : 0 < length rows) by (destruct rows; [congruence|cbn; lia]).
  assert (W0 : width E out <> 0).
  { rewrite <- (Wo 0 Hlen0). pose proof (row_fact Ls (nth 0 rows []) 1 (nth 0 out []) HL) as F.
    specialize (Nl 0 Hlen0). specialize (Nr 0 Hlen0).
    destruct F as (F & _); [lia|exact (Ri 0 Hlen0)|]. destruct (nth 0 out []); [congruence|discriminate]. }
  assert (Ho : out <> []) by (destruct out; [cbn in Lo; lia|discriminate]).
  destruct (padded E rows lens) eqn:Ep.
  - destruct (layout_spec out (map (contract E Ls) lens) Ho) as [(-> & A)|(-> & [C|[C|(n & I & C)]])].
    + split; [lia|]. split; [rewrite map_length; lia|]. intros i Hi.
      destruct (row_fact Ls (nth i rows []) (nth i lens 0%Z) (nth i out []) HL) as (_ & F).
      { rewrite (Nr i Hi). exact (Nl i Hi). }
      { exact (Ri i Hi). }
      assert (En : nth i (map (contract E Ls) lens) 0%Z = contract E Ls (nth i lens 0%Z)).
      { rewrite (nth_indep _ 0%Z (contract E Ls 0%Z)) by (rewrite map_length; lia). apply map_nth. }
      rewrite En. unfold sequence.
      destruct F as [(_ & F)|(q & r' & F1 & F2 & F3 & F4)].
      * exfalso. assert (I : In (contract E Ls (nth i lens 0%Z)) (map (contract E Ls) lens)).
        { apply in_map. apply nth_In. lia. }
        specialize (A _ I). lia.
      * rewrite F1, En, F3, Nat2Z.id, F2, app_length, firstn_app, firstn_all, Nat.sub_diag.
        cbn [firstn]. rewrite app_nil_r. split; [destruct q; [congruence|cbn [length]; lia]|reflexivity].
    + congruence.
    + rewrite map_length in C. lia.
    + apply in_map_iff in I. destruct I as (n0 & <- & I).
      destruct (In_nth _ _ 0%Z I) as (i & Hi & Ei). rewrite Hl in Hi. exists i. split; [exact Hi|].
      destruct (row_fact Ls (nth i rows []) (nth i lens 0%Z) (nth i out []) HL) as (_ & F).
      { rewrite (Nr i Hi). exact (Nl i Hi). }
      { exact (Ri i Hi). }
      unfold sequence. destruct F as [(F & _)|(q & r' & F1 & F2 & F3 & F4)]; [exact F|].
      exfalso. apply C. rewrite <- Ei, F3, <- (Wo i Hi), F2, app_length.
      destruct q; [congruence|cbn]. lia.
  - assert (Full : forall i, i < length rows -> nth i lens 0%Z = Z.of_nat w).
    { intros i Hi. pose proof (Nl i Hi) as B. unfold padded in Ep.
      assert (I : In (nth i lens 0%Z) lens) by (apply nth_In; lia).
      destruct (Z.ltb_spec (nth i lens 0%Z) (Z.of_nat (width E rows))) as [Hlt|Hge].
      - exfalso. assert (existsb (fun n => (n <? Z.of_nat (width E rows))%Z) lens = true); [|congruence].
        apply existsb_exists. exists (nth i lens 0%Z). split; [exact I|]. apply Z.ltb_lt. exact Hlt.
      - assert (width E rows = w); [|lia]. destruct rows as [|r0 rows]; [congruence|]. cbn.
        apply Hw. left. reflexivity. }
    assert (El : layout_of E out None = Some (repeat (Z.of_nat (width E out)) (length out))).
    { unfold layout_of. destruct (Z.ltb_spec (Z.of_nat (width E out)) 1); [lia|].
      rewrite repeat_length, Nat.eqb_refl. cbn [negb].
      assert (F : forallb (fun n => ((1 <=? n)%Z && (n <=? Z.of_nat (width E out))%Z))
                    (repeat (Z.of_nat (width E out)) (length out)) = true).
      { apply forallb_forall. intros n I. apply repeat_spec in I. subst n.
        apply andb_true_intro. split; apply Z.leb_le; lia. }
      rewrite F. reflexivity. }
    rewrite El. split; [lia|]. split; [rewrite repeat_length; lia|]. intros i Hi.
    unfold sequence. rewrite (Full i Hi), repeat_nth by lia. rewrite !Nat2Z.id.
    rewrite (firstn_all2 (n := w) (nth i rows [])) by (rewrite (Nr i Hi); lia).
    rewrite (firstn_all2 (n := width E out) (nth i out [])) by (rewrite (Wo i Hi); lia).
    split; [rewrite (Wo i Hi); lia|exact (Ri i Hi)].
Qed.

(** C79: so it is for the filterbank features: every sequence gets the features
    it gets alone; an error is raised only if one of them is shorter than the
    stride.  ([sample_every_k] is 1, its default.) *)
Theorem C79_fbank : forall cat s w rows lens, 1 <= s -> batch w rows lens ->
  match extract_fbank E cat s 1 rows lens with
  | Some (out, lens') =>
      length out = length rows /\ length lens' = length rows /\
      forall i, i < length rows ->
        (1 <= nth i lens' 0 <= Z.of_nat (length (nth i out [])))%Z /\
        stack_frames E cat s (sequence rows lens i) = sequence out lens' i
  | None => exists i, i < length rows /\ length (sequence rows lens i) < s
  end.
Proof.
  intros cat s w rows lens Hs (Hne & Hw & Hl & Hn).
  assert (Hlen0 : 0 < length rows) by (destruct rows; [congruence|cbn; lia]).
  assert (Nl : forall i, i < length rows -> (1 <= nth i lens 0 <= Z.of_nat w)%Z).
  { intros i Hi. apply Hn. apply nth_In. lia. }
  assert (Nr : forall i, i < length rows -> length (nth i rows []) = w).
  { intros i Hi. apply Hw. apply nth_In. exact Hi. }
  assert (Ew : width E rows = w).
  { destruct rows as [|r0 rows]; [congruence|]. cbn. apply Hw. left. reflexivity. }
  unfold extract_fbank, sample_rows. change (1 <? 1) with false. cbv iota. rewrite Ew.
  set (out := map (stack_frames E cat s) rows).
  assert (Dm : forall n, (n - n mod s) / s = n / s).
  { intros n. pose proof (Nat.div_mod n s ltac:(lia)) as D.
    replace (n - n mod s) with (n / s * s) by nia. apply Nat.div_mul. lia. }
  assert (Sl : forall x, length (stack_frames E cat s x) = length x / s).
  { intros x. unfold stack_frames. rewrite map_length, seq_length. apply Dm. }
  assert (Lo : length out = length rows) by apply map_length.
  assert (Oi : forall i, i < length rows -> nth i out [] = stack_frames E cat s (nth i rows [])).
  { intros i Hi. unfold out. rewrite (nth_indep _ [] (stack_frames E cat s [])) by (rewrite map_length; lia).
    apply map_nth. }
  assert (Wo : width E out = w / s).
  { unfold out. destruct rows as [|r0 rows]; [congruence|]. cbn [map width]. rewrite Sl.
    f_equal. exact Ew. }
  assert (Ho : out <> []) by (destruct out; [cbn in Lo; lia|discriminate]).
  assert (Sq : forall i, i < length rows -> length (sequence rows lens i) = Z.to_nat (nth i lens 0%Z)).
  { intros i Hi. unfold sequence. apply firstn_length_le. rewrite (Nr i Hi). specialize (Nl i Hi). lia. }
  assert (St : forall i, i < length rows ->
     stack_frames E cat s (sequence rows lens i) =
     firstn (Z.to_nat (nth i lens 0%Z) / s) (nth i out [])).
  { intros i Hi. rewrite (Oi i Hi). unfold stack_frames at 1 2. rewrite (Sq i Hi), (Nr i Hi).
    rewrite !Dm, firstn_map. set (n := Z.to_nat (nth i lens 0%Z)).
    assert (n <= w) by (specialize (Nl i Hi); unfold n; lia).
    assert (Hd : n / s <= w / s) by (apply Nat.div_le_mono; lia).
    replace (firstn (n / s) (seq 0 (w / s))) with (seq 0 (n / s)).
    2:{ rewrite (seq_split (n / s) (w / s) Hd), firstn_app, seq_length, Nat.sub_diag.
        cbn [firstn]. rewrite app_nil_r. symmetry. apply firstn_all2. rewrite seq_length. lia. }
    apply map_ext_in. intros j Hj. apply in_seq in Hj. f_equal.
    unfold sequence. fold n. rewrite firstn_firstn.
    assert (Hjs : j * s + s <= n / s * s) by nia.
    pose proof (Nat.div_mod n s ltac:(lia)). pose proof (Nat.div_mod w s ltac:(lia)).
    pose proof (Nat.mod_upper_bound n s ltac:(lia)).
    rewrite !window_eq, !firstn_firstn. f_equal. f_equal.
    assert (n / s * s <= w / s * s) by nia. nia. }
  assert (Cf : forall n, (1 <= n <= Z.of_nat w)%Z ->
     contract_fbank s 1 (w - w mod s) n = Z.of_nat (Z.to_nat n / s)).
  { intros n Bn. unfold contract_fbank. change (1 <? 1) with false. cbv iota.
    rewrite Nat2Z.inj_div, Z2Nat.id by lia.
    destruct (Z.le_gt_cases n (Z.of_nat (w - w mod s))) as [C|C].
    - rewrite Z.min_l by lia. reflexivity.
    - rewrite Z.min_r by lia. rewrite <- Nat2Z.inj_div, Dm, Nat2Z.inj_div.
      pose proof (Nat.div_mod w s ltac:(lia)). pose proof (Nat.mod_upper_bound w s ltac:(lia)).
      assert (Z.of_nat w / Z.of_nat s = Z.of_nat (w / s))%Z by (rewrite Nat2Z.inj_div; reflexivity).
      rewrite H1. apply (Z.div_unique n (Z.of_nat s) (Z.of_nat (w / s)) (n - Z.of_nat s * Z.of_nat (w / s)))%Z.
      + left. nia.
      + lia. }
  destruct (padded E rows lens) eqn:Ep.
  - destruct (layout_spec out (map (contract_fbank s 1 (w - w mod s)) lens) Ho)
      as [(-> & A)|(-> & [C|[C|(n & I & C)]])].
    + split; [exact Lo|]. split; [rewrite map_length; exact Hl|]. intros i Hi.
      assert (En : nth i (map (contract_fbank s 1 (w - w mod s)) lens) 0%Z =
                   Z.of_nat (Z.to_nat (nth i lens 0%Z) / s)).
      { rewrite (nth_indep _ 0%Z (contract_fbank s 1 (w - w mod s) 0%Z)) by (rewrite map_length; lia).
        rewrite map_nth. apply Cf. exact (Nl i Hi). }
      assert (I : In (nth i (map (contract_fbank s 1 (w - w mod s)) lens) 0%Z)
                     (map (contract_fbank s 1 (w - w mod s)) lens)).
      { apply nth_In. rewrite map_length. lia. }
      specialize (A _ I). split.
      * rewrite (Oi i Hi), Sl, (Nr i Hi). rewrite Wo in A. exact A.
      * rewrite (St i Hi). unfold sequence. rewrite En, Nat2Z.id. reflexivity.
    + exists 0. split; [exact Hlen0|]. rewrite (Sq 0 Hlen0). rewrite Wo in C.
      apply Nat.div_small_iff in C; [|lia]. specialize (Nl 0 Hlen0). lia.
    + rewrite map_length in C. lia.
    + apply in_map_iff in I. destruct I as (n0 & <- & I).
      destruct (In_nth _ _ 0%Z I) as (i & Hi & Ei). rewrite Hl in Hi. exists i. split; [exact Hi|].
      rewrite (Sq i Hi), Ei. rewrite (Cf n0 (Hn n0 I)), Wo in C.
      destruct (Nat.lt_ge_cases (Z.to_nat n0) s) as [|G]; [assumption|]. exfalso. apply C.
      specialize (Hn n0 I).
      assert (Z.to_nat n0 / s <= w / s) by (apply Nat.div_le_mono; lia).
      assert (1 <= Z.to_nat n0 / s) by (apply Nat.div_le_lower_bound; lia). lia.
  - assert (Full : forall i, i < length rows -> nth i lens 0%Z = Z.of_nat w).
    { intros i Hi. pose proof (Nl i Hi) as B. unfold padded in Ep.
      assert (I : In (nth i lens 0%Z) lens) by (apply nth_In; lia).
      destruct (Z.ltb_spec (nth i lens 0%Z) (Z.of_nat (width E rows))) as [Hlt|Hge].
      - exfalso. assert (existsb (fun n => (n <? Z.of_nat (width E rows))%Z) lens = true); [|congruence].
        apply existsb_exists. exists (nth i lens 0%Z). split; [exact I|]. apply Z.ltb_lt. exact Hlt.
      - lia. }
    unfold layout_of. rewrite Wo. destruct (Z.ltb_spec (Z.of_nat (w / s)) 1) as [Hlt|Hge].
    + exists 0. split; [exact Hlen0|]. rewrite (Sq 0 Hlen0), (Full 0 Hlen0), Nat2Z.id.
      apply Nat.div_small_iff; lia.
    + rewrite repeat_length, Nat.eqb_refl. cbn [negb].
      assert (F : forallb (fun n => ((1 <=? n)%Z && (n <=? Z.of_nat (w / s))%Z))
                    (repeat (Z.of_nat (w / s)) (length out)) = true).
      { apply forallb_forall. intros n I. apply repeat_spec in I. subst n.
        apply andb_true_intro. split; apply Z.leb_le; lia. }
      rewrite F. split; [exact Lo|]. split; [rewrite repeat_length; exact Lo|]. intros i Hi.
      rewrite repeat_nth by lia. rewrite (St i Hi). unfold sequence. rewrite (Full i Hi), repeat_nth by lia.
      rewrite !Nat2Z.id. split; [rewrite (Oi i Hi), Sl, (Nr i Hi); lia|reflexivity].
Qed.

Lemma mask_own n (row : list E) : n <= length row ->
  mask_row E zero n (firstn n row) = firstn n row.
Proof.
  intros H. unfold mask_row. rewrite firstn_firstn, Nat.min_id, firstn_length_le by exact H.
  rewrite Nat.sub_diag. cbn. apply app_nil_r.
Qed.

Lemma mask_length n (row : list E) : n <= length row -> length (mask_row E zero n row) = length row.
Proof.
  intros H. unfold mask_row. rewrite app_length, repeat_length, firstn_length_le by exact H. lia.
Qed.

Lemma map2_firstn (g : E -> E -> E) n : forall a b, firstn n (map2 E g a b) = map2 E g (firstn n a) (firstn n b).
Proof.
  induction n as [|n IH]; intros [|x a] [|y b]; cbn; try reflexivity.
  f_equal. apply IH.
Qed.

Lemma map2_length (g : E -> E -> E) : forall a b, length (map2 E g a b) = Nat.min (length a) (length b).
Proof. induction a as [|x a IH]; intros [|y b]; cbn; auto. Qed.

Lemma conv_some f k s pl pr l : k <= pl + length l + pr ->
  exists o, conv1d E zero f k s pl pr l = Some o.
Proof.
  intros H. destruct (conv1d E zero f k s pl pr l) as [o|] eqn:E0; [eauto|].
  apply conv1d_none in E0. lia.
Qed.

Lemma removelast_firstn' (l : list E) : removelast l = firstn (length l - 1) l.
Proof.
  induction l as [|x l IH]; [reflexivity|]. cbn [length].
  replace (S (length l) - 1) with (length l) by lia.
  destruct l as [|y l]; [reflexivity|].
  change (removelast (x :: y :: l)) with (x :: removelast (y :: l)). rewrite IH.
  cbn [length firstn]. replace (S (length l) - 1) with (length l) by lia. reflexivity.
Qed.

(** C79: the position encoder of wav2vec 2.0 keeps the length, and gives to every
    sequence in a padded batch the encodings it gives to the sequence alone,
    for every kernel size, odd or even. *)
Theorem C79_position : forall add f act k row n, 1 <= k -> 1 <= n <= length row ->
  exists o, pos_encode E zero add f act k row n = Some o /\ length o = length row /\
    pos_encode E zero add f act k (firstn n row) n = Some (firstn n o).
Proof.
  intros add f act k row n Hk Hn. unfold pos_encode. rewrite mask_own by lia.
  pose proof (Nat.div_mod k 2 ltac:(lia)) as Dk. pose proof (Nat.mod_upper_bound k 2 ltac:(lia)) as Mk.
  set (x := firstn n row). assert (Lx : length x = n) by (apply firstn_length_le; lia).
  destruct (conv_some f k 1 (k / 2) (k / 2) x) as (o & Eo); [lia|]. rewrite Eo.
  pose proof (conv1d_length _ _ _ _ _ _ _ _ _ Eo) as (_ & L2). rewrite Nat.div_1_r, Lx in L2.
  destruct (conv1d_zeros E zero f k (k / 2) (k / 2) x (length row - n) o Hk ltac:(lia) Eo) as (r & Er & Lr).
  unfold mask_row. fold x. rewrite Er.
  assert (Lo : length (firstn (length x) o) = n) by (rewrite firstn_length_le; lia).
  set (e := if k mod 2 =? 0 then removelast (firstn (length x) o ++ r) else firstn (length x) o ++ r).
  assert (Le : length e = length row /\ firstn n e = firstn n o).
  { unfold e. destruct (Nat.eqb_spec (k mod 2) 0) as [Z|Z].
    - rewrite removelast_firstn', firstn_firstn, !app_length, Lo. split.
      + rewrite firstn_length_le; rewrite ?app_length, ?Lo; lia.
      + rewrite Nat.min_l by lia. rewrite firstn_app, Lo, Nat.sub_diag. cbn [firstn].
        rewrite app_nil_r, firstn_firstn, Lx, Nat.min_id. reflexivity.
    - rewrite app_length, Lo. split; [lia|].
      rewrite firstn_app, Lo, Nat.sub_diag. cbn [firstn].
      rewrite app_nil_r, firstn_firstn, Lx, Nat.min_id. reflexivity. }
  assert (Lq : (if k mod 2 =? 0 then removelast o else o) = firstn n o).
  { destruct (Nat.eqb_spec (k mod 2) 0) as [Z|Z].
    - rewrite removelast_firstn'. f_equal. lia.
    - symmetry. apply firstn_all2. lia. }
  rewrite Lq. destruct Le as (Le1 & Le2). eexists. split; [reflexivity|]. split.
  - rewrite map2_length, map_length, app_length, repeat_length, Lx, Le1. lia.
  - f_equal. rewrite map2_firstn, firstn_map, Le2. f_equal.
    rewrite firstn_app, Lx, Nat.sub_diag. cbn [firstn]. rewrite app_nil_r.
    symmetry. apply firstn_all2. lia.
Qed.

(** C79: so does the convolution of Conformer (batch normalisation in
    evaluation mode), because the first pointwise convolution has no bias and
    thus keeps zeros. *)
Theorem C79_conformer : forall causal pw1 f k norm_act pw2 row n,
  pw1 zero = zero -> 1 <= k -> 1 <= n <= length row ->
  exists o, conformer_conv E zero causal pw1 f k norm_act pw2 row n = Some o /\
    length o = length row /\
    conformer_conv E zero causal pw1 f k norm_act pw2 (firstn n row) n = Some (firstn n o).
Proof.
  intros causal pw1 f k na pw2 row n Hz Hk Hn. unfold conformer_conv. rewrite mask_own by lia.
  unfold mask_row. set (x := firstn n row). assert (Lx : length x = n) by (apply firstn_length_le; lia).
  rewrite map_app.
  assert (Mz : forall m, map pw1 (repeat zero m) = repeat zero m).
  { induction m as [|m IHm]; cbn; [reflexivity|rewrite Hz, IHm; reflexivity]. }
  rewrite Mz.
  assert (G : forall pl pr, pl + pr = k - 1 -> exists o r,
     conv1d E zero f k 1 pl pr (map pw1 x) = Some o /\ length o = n /\
     conv1d E zero f k 1 pl pr (map pw1 x ++ repeat zero (length row - n)) = Some (o ++ r) /\
     length (o ++ r) = length row).
  { intros pl pr Hp. destruct (conv_some f k 1 pl pr (map pw1 x)) as (o & Eo); [rewrite map_length; lia|].
    pose proof (conv1d_length _ _ _ _ _ _ _ _ _ Eo) as (_ & L2). rewrite Nat.div_1_r, map_length, Lx in L2.
    destruct (conv1d_zeros E zero f k pl pr (map pw1 x) (length row - n) o Hk ltac:(lia) Eo) as (r & Er & Lr).
    rewrite map_length, Lx in Er, Lr. rewrite (firstn_all2 (n := n)) in Er by lia.
    exists o, r. split; [exact Eo|]. split; [lia|]. split; [exact Er|]. rewrite app_length. lia. }
  assert (H : exists o r,
     (if causal then conv1d E zero f k 1 (k - 1) 0 (map pw1 x) else conv_same E zero f k (map pw1 x)) = Some o /\
     length o = n /\
     (if causal then conv1d E zero f k 1 (k - 1) 0 (map pw1 x ++ repeat zero (length row - n))
      else conv_same E zero f k (map pw1 x ++ repeat zero (length row - n))) = Some (o ++ r) /\
     length (o ++ r) = length row).
  { destruct causal; [apply G; lia|]. unfold conv_same.
    assert (Hh : (k - 1) / 2 <= k - 1) by (apply Nat.div_le_upper_bound; lia). apply G. lia. }
  destruct H as (o & r & -> & Ln & -> & Lr). eexists. split; [reflexivity|]. split.
  - rewrite !map_length. exact Lr.
  - rewrite !firstn_map, firstn_app, Ln, Nat.sub_diag. cbn [firstn]. rewrite app_nil_r.
    rewrite (firstn_all2 (n := n)) by lia. reflexivity.
Qed.

(** C79: a causal convolution of Conformer does not look ahead: the first [m]
    frames of the output are those of the first [m] frames of the input. *)
Theorem C79_conformer_causal : forall pw1 f k norm_act pw2 row m o,
  1 <= k -> 1 <= m <= length row ->
  conformer_conv E zero true pw1 f k norm_act pw2 row (length row) = Some o ->
  conformer_conv E zero true pw1 f k norm_act pw2 (firstn m row) m = Some (firstn m o).
Proof.
  intros pw1 f k na pw2 row m o Hk Hm. unfold conformer_conv. rewrite mask_own by lia.
  unfold mask_row. rewrite firstn_all, Nat.sub_diag. cbn [repeat]. rewrite app_nil_r.
  unfold conv1d. cbv zeta. cbn [repeat]. rewrite !app_nil_r, !app_length, !repeat_length, !map_length.
  rewrite firstn_length_le by lia. rewrite !Nat.div_1_r.
  destruct (Nat.ltb_spec (k - 1 + length row) k); [lia|].
  destruct (Nat.ltb_spec (k - 1 + m) k); [lia|].
  replace (k - 1 + m - k + 1) with m by lia.
  replace (k - 1 + length row - k + 1) with (length row) by lia.
  intros E0. injection E0 as <-. f_equal. rewrite !firstn_map. do 2 f_equal.
  rewrite (seq_split m (length row)) by lia.
  rewrite firstn_app, seq_length, Nat.sub_diag. cbn [firstn]. rewrite app_nil_r.
  rewrite (firstn_all2 (n := m) (seq 0 m)) by (rewrite seq_length; lia).
  apply map_ext_in. intros i Hi. apply in_seq in Hi. f_equal.
  rewrite <- (firstn_skipn m row) at 2. rewrite map_app, app_assoc.
  rewrite <- (app_nil_r (repeat zero (k - 1) ++ map pw1 (firstn m row))) at 1.
  apply window_prefix. rewrite app_length, repeat_length, map_length, firstn_length_le by lia. lia.
Qed.

(** C79, in part: the stacked position encoder with one layer gives to a
    sequence what it gives to it alone.  With any number of layers, what the
    padding of the row contains does not matter.  Missing: several layers in a
    padded batch, see below. *)
Theorem C79_stacked_partial : forall add k f act row n, 1 <= k -> 1 <= n <= length row ->
  (exists o, pos_encode_stacked E zero add k [(f, act)] row n = Some o /\
     length o = length row /\
     pos_encode_stacked E zero add k [(f, act)] (firstn n row) n = Some (firstn n o)) /\
  (forall fs row', length row' = length row -> firstn n row' = firstn n row ->
     pos_encode_stacked E zero add k fs row' n = pos_encode_stacked E zero add k fs row n).
Proof.
  intros add k f act row n Hk Hn. split.
  - unfold pos_encode_stacked, pos_layers. rewrite mask_own by lia. unfold mask_row.
    set (x := firstn n row). assert (Lx : length x = n) by (apply firstn_length_le; lia).
    unfold conv_same.
    assert (Hh : (k - 1) / 2 <= k - 1) by (apply Nat.div_le_upper_bound; lia).
    set (pl := (k - 1) / 2) in *. 
    destruct (conv_some f k 1 pl (k - 1 - pl) x) as (o & Eo); [lia|]. rewrite Eo.
    pose proof (conv1d_length _ _ _ _ _ _ _ _ _ Eo) as (_ & L2). rewrite Nat.div_1_r, Lx in L2.
    destruct (conv1d_zeros E zero f k pl (k - 1 - pl) x (length row - n) o Hk ltac:(lia) Eo) as (r & Er & Lr).
    rewrite Er. rewrite Lx in *. rewrite (firstn_all2 (n := n)) in * by lia.
    eexists. split; [reflexivity|]. split.
    + rewrite map2_length, map_length, !app_length, repeat_length, Lx. lia.
    + f_equal. rewrite map2_firstn, firstn_map. 
      rewrite (firstn_app n x), Lx, Nat.sub_diag. cbn [firstn]. rewrite app_nil_r.
      rewrite (firstn_app n o). replace (n - length o) with 0 by lia. cbn [firstn]. rewrite app_nil_r.
      rewrite (firstn_all2 (n := n) o) by lia. rewrite (firstn_all2 (n := n) x) by lia. reflexivity.
  - intros fs row' L F. unfold pos_encode_stacked, mask_row. rewrite L, F. reflexivity.
Qed.

End Props.
Print Assumptions C79_features.
Print Assumptions C79_fbank.
Print Assumptions C79_position.
Print Assumptions C79_conformer.
Print Assumptions C79_conformer_causal.
Print Assumptions C79_stacked_partial.

(** A kernel with bias over numbers, used in the examples. *)
Definition kern (l : list Z) : Z := (fold_right Z.add 0 l + 1)%Z.

(** Two layers of kernel sizes 3 and 2 and strides 2 and 1 over sequences of 7
    and 5 frames. *)
Example C79_features_example :
  let Ls := [Layer Z 3 2 kern None (fun x => x); Layer Z 2 1 kern None Z.opp] in
  extract Z 0%Z Ls [[1; 2; 3; 4; 5; 6; 7]; [1; 2; 3; 4; 5; 9; 9]]%Z [7; 5]%Z =
  Some ([[-21; -33]; [-21; -38]], [2; 1])%Z /\
  layers_forward Z 0%Z Ls [1; 2; 3; 4; 5]%Z = Some [-21]%Z /\
  extract Z 0%Z Ls [[1; 2; 3; 4; 5; 6; 7]; [1; 2; 3; 4; 9; 9; 9]]%Z [7; 4]%Z = None.
Proof. vm_compute. repeat split. Qed.

Example C79_fbank_example :
  extract_fbank Z kern 2 1 [[1; 2; 3; 4; 5]; [1; 2; 3; 9; 9]]%Z [5; 3]%Z =
  Some ([[4; 8]; [4; 13]], [2; 1])%Z.
Proof. vm_compute. reflexivity. Qed.

Example C79_position_example :
  pos_encode Z 0%Z Z.add kern (fun x => x) 4 [1; 2; 3; 9; 9]%Z 3 = Some [5; 9; 10; 6; 4]%Z /\
  pos_encode Z 0%Z Z.add kern (fun x => x) 4 [1; 2; 3]%Z 3 = Some [5; 9; 10]%Z.
Proof. vm_compute. split; reflexivity. Qed.

Example C79_conformer_example :
  conformer_conv Z 0%Z true (Z.mul 2) kern 3 Z.opp (fun x => x) [1; 2; 3; 9]%Z 3 =
  Some [-3; -7; -13; -11]%Z.
Proof. vm_compute. reflexivity. Qed.

(** Finding: the stacked position encoder masks the padding before the first
    layer only.  The first convolution writes into the padding, and the second
    one reads it, so that the encodings of a sequence in a padded batch differ
    from those of the sequence alone. *)
Theorem C79_stacked_refuted :
  ~ (forall add k fs row n o, 1 <= k -> 1 <= n <= length row ->
       pos_encode_stacked Z 0%Z add k fs row n = Some o ->
       pos_encode_stacked Z 0%Z add k fs (firstn n row) n = Some (firstn n o)).
Proof.
  intros H.
  specialize (H Z.add 3 [(kern, fun x => x); (kern, fun x => x)] [1; 2; 9]%Z 2 [10; 14; 8]%Z
                ltac:(lia) ltac:(cbn; lia)).
  vm_compute in H. specialize (H eq_refl). discriminate H.
Qed.
Print Assumptions C79_stacked_refuted.

(** Finding: group normalisation (the first layer of an extractor without layer
    normalisation) looks at the whole padded row, so that features depend on the
    padding.  The code says so in a comment (257-259). *)
Theorem C79_group_norm_refuted :
  ~ (forall Ls w rows lens out lens' i, batch w rows lens ->
       extract Z 0%Z Ls rows lens = Some (out, lens') -> i < length rows ->
       layers_forward Z 0%Z Ls (sequence rows lens i) = Some (sequence out lens' i)).
Proof.
  intros H.
  set (gn := fun l : list Z => map (fun x => (x - fold_right Z.max 0 l)%Z) l).
  specialize (H [Layer Z 1 1 (hd 0%Z) (Some gn) (fun x => x)] 2 [[1; 2]; [1; 9]]%Z [2; 1]%Z
                [[-1; 0]; [-8; 0]]%Z [2; 1]%Z 1).
  assert (B : batch 2 [[1; 2]; [1; 9]]%Z [2; 1]%Z).
  { split; [discriminate|]. split; [intros r [<-|[<-|[]]]; reflexivity|]. split; [reflexivity|].
    intros n [<-|[<-|[]]]; lia. }
  specialize (H B eq_refl ltac:(cbn; lia)). vm_compute in H. discriminate H.
Qed.
Print Assumptions C79_group_norm_refuted.

(** Finding: with [sample_every_k] above 1 the filterbank extractor drops rows
    of the batch instead of frames: it numbers the rows ([arange(0,
    batch_size)]) and indexes the first dimension. *)
Theorem C79_sample_refuted :
  ~ (forall cat s k w rows lens out lens', 1 <= s -> batch w rows lens ->
       extract_fbank Z cat s k rows lens = Some (out, lens') ->
       length out = length rows).
Proof.
  intros H.
  specialize (H kern 1 2 2 [[1; 2]; [3; 4]]%Z [2; 2]%Z [[4; 5]]%Z [2]%Z ltac:(lia)).
  assert (B : batch 2 [[1; 2]; [3; 4]]%Z [2; 2]%Z).
  { split; [discriminate|]. split; [intros r [<-|[<-|[]]]; reflexivity|]. split; [reflexivity|].
    intros n [<-|[<-|[]]]; lia. }
  specialize (H B eq_refl). discriminate H.
Qed.
Print Assumptions C79_sample_refuted.

(** Finding: the subsampler of S2T Transformer refuses every padded batch,
    although it goes on to compute the lengths of padded sequences: its check
    for packed batches asks [padded] instead of [packed]. *)
Theorem C79_subsampler_refuted :
  ~ (forall Ls w rows lens, batch w rows lens ->
       (forall i, i < length rows -> subsample_row Z 0%Z Ls (sequence rows lens i) <> None) ->
       subsample Z 0%Z Ls rows lens <> None).
Proof.
  intros H. apply (H [(3, kern)] 3 [[1; 2; 3]; [1; 2; 0]]%Z [3; 2]%Z).
  - split; [discriminate|]. split; [intros r [<-|[<-|[]]]; reflexivity|]. split; [reflexivity|].
    intros n [<-|[<-|[]]]; lia.
  - intros [|[|i]] Hi; [discriminate|discriminate|cbn in Hi; lia].
  - reflexivity.
Qed.
Print Assumptions C79_subsampler_refuted.

(** C79, in part: the lengths that the subsampler would give to the sequences
    of a padded batch are the numbers of frames it computes for them alone, if
    all kernel sizes are odd.  Missing: padded batches, which are refused. *)
Theorem C79_subsampler_partial : forall E zero (Ls : list (nat * (list E -> E))) row,
  (forall k f, In (k, f) Ls -> Nat.odd k = true) -> row <> [] ->
  exists o, subsample_row E zero Ls row = Some o /\ o <> [] /\
    Z.of_nat (length o) = contract_subsample (length Ls) (Z.of_nat (length row)).
Proof.
  intros E zero Ls. induction Ls as [|[k f] Ls IH]; intros row Hk Hr.
  - exists row. split; [reflexivity|]. split; [exact Hr|reflexivity].
  - cbn [subsample_row]. assert (Ok : Nat.odd k = true) by (apply (Hk k f); left; reflexivity).
    apply Nat.odd_spec in Ok. destruct Ok as (h & ->).
    assert (Eh : (2 * h + 1) / 2 = h).
    { symmetry. apply (Nat.div_unique (2 * h + 1) 2 h 1); lia. }
    rewrite Eh. assert (Lr : length row <> 0) by (destruct row; [congruence|discriminate]).
    destruct (conv_some E zero f (2 * h + 1) 2 h h row) as (o & Eo); [lia|]. rewrite Eo.
    pose proof (conv1d_length _ _ _ _ _ _ _ _ _ Eo) as (_ & L2).
    destruct (IH o) as (q & Eq & Nq & Lq).
    { intros k' f' I. apply (Hk k' f'). right. exact I. }
    { intros ->. cbn in L2. lia. }
    exists q. split; [exact Eq|]. split; [exact Nq|]. rewrite Lq.
    cbn [length contract_subsample]. f_equal.
    rewrite L2, Nat2Z.inj_add, Nat2Z.inj_div.
    replace (h + length row + h - (2 * h + 1)) with (length row - 1) by lia.
    rewrite Nat2Z.inj_sub by lia. reflexivity.
Qed.
Print Assumptions C79_subsampler_partial.

Example C79_subsampler_example :
  subsample_row Z 0%Z [(3, kern); (3, kern)] [1; 2; 3; 4; 5]%Z = Some [15; 21]%Z.
Proof. vm_compute. reflexivity. Qed.
