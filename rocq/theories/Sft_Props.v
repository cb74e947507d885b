(** Instruction tuning (C86). *)

From Coq Require Import ZArith QArith Qcanon List Bool Arith Lia.
From Verif Require Import Xen_Model Xen_Spec Xen_Props Sft_Model Sft_Spec.
Import ListNotations.
Local Open Scope nat_scope.

Notation tokens e := (fst e ++ snd e) (only parsing).

Lemma removelast_padded : forall (A : Type) (s q : list A) d, s <> [] ->
  removelast (s ++ q) = removelast s ++ removelast (last s d :: q).
Proof.
  intros A s q d N. rewrite (app_removelast_last d N) at 1. rewrite <- app_assoc.
  rewrite removelast_app by discriminate. reflexivity.
Qed.

Lemma removelast_length : forall (A : Type) (l : list A), length (removelast l) = length l - 1.
Proof.
  intros A l. destruct l as [|x l]; [reflexivity|].
  assert (N : x :: l <> []) by discriminate.
  pose proof (f_equal (@length A) (app_removelast_last x N)) as E. rewrite app_length in E. cbn [length] in E. simpl length at 2. lia.
Qed.

Lemma tl_length : forall (A : Type) (l : list A), length (tl l) = length l - 1.
Proof. intros A [|x l]; simpl; lia. Qed.

Lemma existsb_none : forall (A : Type) (f : A -> bool) l, (forall x, In x l -> f x = false) -> existsb f l = false.
Proof.
  intros A f l H. induction l as [|x l IH]; [reflexivity|]. simpl. rewrite (H x) by (left; reflexivity).
  apply IH. intros y I. apply H. right; exact I.
Qed.

Lemma map_nth_tl : forall (s : list Z), s <> [] -> map (fun j => nth (S j) s 0%Z) (seq 0 (length s - 1)) = tl s.
Proof.
  intros [|x s] N; [congruence|]. simpl length. rewrite Nat.sub_0_r || replace (S (length s) - 1) with (length s) by lia. simpl tl.
  change (map (fun j => nth j s 0%Z) (seq 0 (length s)) = s).
  clear N x. induction s as [|y s IH]; [reflexivity|]. cbn [length seq map]. f_equal.
  rewrite <- seq_shift, map_map. exact IH.
Qed.

Lemma map_mask_tl : forall n k, map (fun j => k <=? S j) (seq 0 (n - 1)) = tl (map (fun i => k <=? i) (seq 0 n)).
Proof.
  intros [|n] k; [reflexivity|]. simpl tl. replace (S n - 1) with n by lia. rewrite <- seq_shift, map_map. reflexivity.
Qed.

Lemma list_max_le_all : forall l n, In n l -> n <= list_max l.
Proof.
  induction l as [|x l IH]; intros n I; [destruct I|]. simpl. destruct I as [->|I]; [lia|]. specialize (IH n I). lia.
Qed.

Lemma seq_from : forall n a i, seq (a + i) n = map (fun k => a + k) (seq i n).
Proof.
  induction n as [|n IH]; intros a i; [reflexivity|]. cbn [seq map]. f_equal. rewrite <- IH. f_equal. lia.
Qed.

Section Tuning.
  Variable log_softmax : list Qc -> list Qc.
  Variable vocab : nat.
  Variable model_pad : option Z.
  Variable lm : list Z -> list Qc.
  Variable pad : Z.
  Variable W : nat.

  Let seqpos (e : list Z * list Z) : list position :=
    map (fun j => Pos (lm (firstn (S j) (removelast (tokens e)))) (nth (S j) (tokens e) 0%Z) (length (fst e) <=? S j))
      (seq 0 (length (tokens e) - 1)).
  Let padpos (w : list (list Qc)) : list position := map (fun l => Pos l pad false) w.
  Let P (examples : list (list Z * list Z)) (whatever : list (list (list Qc))) :=
    map (fun x => seqpos (fst x) ++ padpos (snd x)) (combine examples whatever).

  Definition good (e : list Z * list Z) : Prop := fst e <> [] /\ 2 <= length (tokens e) <= W.
  Definition fits (e : list Z * list Z) (w : list (list Qc)) : Prop := length w = W - length (tokens e).

  Lemma P_logits : forall examples whatever, Forall2 fits examples whatever ->
    map (map logits_of) (P examples whatever) =
    map (fun x => map (fun j => lm (firstn (S j) (fst x))) (seq 0 (length (fst x))) ++ snd x)
      (combine (map (fun e => removelast (tokens e)) examples) whatever).
  Proof.
    intros examples whatever F. unfold P. induction F as [|e w es ws H F IH]; [reflexivity|].
    cbn [map combine fst snd]. rewrite IH. f_equal. unfold seqpos, padpos. rewrite map_app, !map_map.
    rewrite removelast_length. cbn [logits_of]. rewrite map_id. reflexivity.
  Qed.

  Lemma P_targets : forall examples whatever, Forall good examples -> Forall2 fits examples whatever ->
    map (map target_of) (P examples whatever) =
    map (@tl Z) (map (fun e => tokens e ++ repeat pad (W - length (tokens e))) examples).
  Proof.
    intros examples whatever G F. unfold P. induction F as [|e w es ws H F IH]; [reflexivity|].
    inversion G as [|? ? [N L] G']; subst. cbn [map combine fst snd]. rewrite IH by exact G'. f_equal.
    unfold seqpos, padpos. rewrite map_app, !map_map. cbn [target_of].
    assert (T : tokens e <> []) by (intro X; rewrite X in L; simpl in L; lia).
    rewrite map_nth_tl by exact T. rewrite <- H.
    replace (map (fun _ : list Qc => pad) w) with (repeat pad (length w)).
    - destruct (tokens e); [congruence|reflexivity].
    - clear. induction w as [|x w IH]; [reflexivity|]. simpl. rewrite IH. reflexivity.
  Qed.

  Lemma P_mask : forall examples whatever, Forall good examples -> Forall2 fits examples whatever ->
    map (map mask_of) (P examples whatever) =
    map (@tl bool) (map (fun e => map (fun i => length (fst e) <=? i) (seq 0 (length (tokens e)))
                                   ++ repeat false (W - length (tokens e))) examples).
  Proof.
    intros examples whatever G F. unfold P. induction F as [|e w es ws H F IH]; [reflexivity|].
    inversion G as [|? ? [N L] G']; subst. cbn [map combine fst snd]. rewrite IH by exact G'. f_equal.
    unfold seqpos, padpos. rewrite map_app, !map_map. cbn [mask_of]. rewrite map_mask_tl, <- H.
    replace (map (fun _ : list Qc => false) w) with (repeat false (length w)).
    - destruct (length (tokens e)); [simpl in L; lia|reflexivity].
    - clear. induction w as [|x w IH]; [reflexivity|]. simpl. rewrite IH. reflexivity.
  Qed.

  Lemma P_rows : forall examples whatever, Forall good examples -> Forall2 fits examples whatever ->
    Forall (fun r => length r = W - 1) (P examples whatever).
  Proof.
    intros examples whatever G F. unfold P. induction F as [|e w es ws H F IH]; [constructor|].
    inversion G as [|? ? [N L] G']; subst. cbn [map combine fst snd]. constructor; [|apply IH, G'].
    unfold seqpos, padpos. rewrite app_length, !map_length, seq_length, H. lia.
  Qed.

  (** The tokens of a response, after what comes before them. *)
  Lemma seqpos_split : forall e, fst e <> [] ->
    seqpos e =
    map (fun j => Pos (lm (firstn (S j) (removelast (tokens e)))) (nth (S j) (tokens e) 0%Z) false) (seq 0 (length (fst e) - 1))
    ++ map (fun k => Pos (lm (fst e ++ firstn k (snd e))) (nth k (snd e) 0%Z) true) (seq 0 (length (snd e))).
  Proof.
    intros [src tgt] N. unfold seqpos. cbn [fst snd] in *. rewrite app_length.
    destruct src as [|x src]; [congruence|]. cbn [length]. 
    replace (S (length src) + length tgt - 1) with (length src + length tgt) by lia.
    replace (S (length src) - 1) with (length src) by lia.
    rewrite seq_app, map_app. f_equal.
    - apply map_ext_in. intros j I. apply in_seq in I. f_equal. apply Nat.leb_gt. lia.
    - replace (seq (0 + length src) (length tgt)) with (map (fun k => length src + k) (seq 0 (length tgt))).
      + rewrite map_map. apply map_ext_in. intros k I. apply in_seq in I. f_equal.
        * f_equal.
          assert (X : removelast ((x :: src) ++ tgt) = firstn (length src + length tgt) ((x :: src) ++ tgt)).
          { rewrite removelast_firstn_len. f_equal. rewrite app_length. simpl. lia. }
          rewrite X, firstn_firstn. replace (Nat.min (S (length src + k)) (length src + length tgt)) with (length (x :: src) + k) by (cbn [length]; lia).
          rewrite firstn_app_2. reflexivity.
        * change ((x :: src) ++ tgt) with (x :: (src ++ tgt)). cbn [nth]. rewrite app_nth2 by lia. f_equal. lia.
        * apply Nat.leb_le. lia.
      + rewrite <- seq_from. f_equal. lia.
  Qed.

  Hypothesis lm_row : forall ctx, length (log_softmax (lm ctx)) = vocab.
  Hypothesis pad_token : (0 <= pad < Z.of_nat vocab)%Z.
  Definition in_vocab (e : list Z * list Z) : Prop := forall t, In t (tokens e) -> (0 <= t < Z.of_nat vocab)%Z.
  (** No token of the response is taken for padding by the model. *)
  Definition no_padding (e : list Z * list Z) : Prop := forall t, In t (snd e) -> ignored model_pad t = false.

  Notation valid := (valid log_softmax vocab model_pad 0%Qc).
  Notation loss_at := (loss_at log_softmax vocab model_pad 0%Qc true).

  Lemma seqpos_valid : forall e p, in_vocab e -> In p (seqpos e) -> valid p.
  Proof.
    intros e p V I. unfold seqpos in I. apply in_map_iff in I. destruct I as (j & <- & J). apply in_seq in J.
    split; cbn [logits_of target_of]; [apply lm_row|]. left. apply V. apply nth_In. lia.
  Qed.

  Lemma padpos_valid : forall w p, (forall l, In l w -> length (log_softmax l) = vocab) -> In p (padpos w) -> valid p.
  Proof.
    intros w p V I. unfold padpos in I. apply in_map_iff in I. destruct I as (l & <- & J).
    split; cbn [logits_of target_of]; [apply V, J|left; exact pad_token].
  Qed.

  Lemma masked_out : forall p, mask_of p = false -> loss_at p = 0%Qc.
  Proof.
    intros p M. unfold Xen_Spec.loss_at, counted. rewrite M. cbn [negb orb]. rewrite andb_false_r. reflexivity.
  Qed.

  Lemma row_loss : forall e w, fst e <> [] -> in_vocab e -> no_padding e ->
    qsum (map loss_at (seqpos e ++ padpos w)) = response_nll log_softmax lm (fst e) (snd e).
  Proof.
    intros e w N V NP. rewrite seqpos_split by exact N. rewrite !map_app, !qsum_app, !map_map.
    rewrite (qsum_zero (fun j => loss_at (Pos (lm (firstn (S j) (removelast (tokens e)))) (nth (S j) (tokens e) 0%Z) false)))
      by (intros; apply masked_out; reflexivity).
    replace (qsum (map loss_at (padpos w))) with 0%Qc.
    2: { unfold padpos. rewrite map_map. symmetry. apply qsum_zero. intros. apply masked_out. reflexivity. }
    rewrite Qcplus_0_r, Qcplus_0_l. unfold response_nll. f_equal. apply map_ext_in. intros k I. apply in_seq in I.
    assert (T : In (nth k (snd e) 0%Z) (snd e)) by (apply nth_In; lia).
    rewrite plain_at; [|split; [apply lm_row|left; apply V, in_or_app; right; exact T]|reflexivity].
    unfold counted. cbn [target_of mask_of logits_of]. rewrite NP by exact T. reflexivity.
  Qed.

  Lemma row_count : forall e w, fst e <> [] ->
    count (map mask_of (seqpos e ++ padpos w)) = Z.of_nat (length (snd e)).
  Proof.
    intros e w N. rewrite seqpos_split by exact N. rewrite !map_app, !count_app, !map_map. cbn [mask_of].
    unfold padpos. rewrite map_map. cbn [mask_of].
    rewrite (count_none (fun _ : nat => false)), (count_none (fun _ : list Qc => false)), (count_all (fun _ : nat => true)) by reflexivity.
    rewrite seq_length. lia.
  Qed.

  Lemma P_loss : forall examples whatever, Forall good examples -> Forall in_vocab examples -> Forall no_padding examples ->
    Forall2 fits examples whatever ->
    qsum (map loss_at (concat (P examples whatever))) = qsum (map (fun e => response_nll log_softmax lm (fst e) (snd e)) examples)
    /\ count (concat (map (map mask_of) (P examples whatever))) = fold_right Z.add 0%Z (map (fun e => Z.of_nat (length (snd e))) examples).
  Proof.
    intros examples whatever G V NP F. unfold P. induction F as [|e w es ws H F IH]; [split; reflexivity|].
    inversion G as [|? ? [N L] G']; inversion V as [|? ? V1 V']; inversion NP as [|? ? NP1 NP']; subst.
    destruct (IH G' V' NP') as [I1 I2]. cbn [map combine concat fst snd qsum fold_right].
    rewrite map_app, qsum_app, I1, row_loss by assumption. rewrite count_app, I2, row_count by assumption. split; reflexivity.
  Qed.

  Lemma P_valid : forall examples whatever p, Forall in_vocab examples ->
    (forall l, In l (concat whatever) -> length (log_softmax l) = vocab) ->
    In p (concat (P examples whatever)) -> valid p.
  Proof.
    intros examples whatever p V U I. unfold P in I. apply in_concat in I. destruct I as (r & R & I).
    apply in_map_iff in R. destruct R as ([e w] & <- & J). cbn [fst snd] in I.
    apply in_app_or in I. destruct I as [I|I].
    - apply in_combine_l in J. rewrite Forall_forall in V. eapply seqpos_valid; [apply V, J|exact I].
    - apply in_combine_r in J. eapply padpos_valid; [|exact I]. intros l L. apply U. apply in_concat. eauto.
  Qed.
End Tuning.

(** ** C86: the loss

    Training on a batch of examples, whatever their lengths, minimises exactly
    the sum of the negative log likelihoods of the responses, every token given
    the prompt and the tokens of the response before it; the prompts and the
    padding do not count; and the number of targets by which the trainer
    normalises is that of the tokens of the responses. *)
Theorem C86_loss_partial : forall log_softmax vocab model_pad lm decoder pad examples,
  causal log_softmax vocab lm decoder ->
  (forall context, length (log_softmax (lm context)) = vocab) ->
  (0 <= pad < Z.of_nat vocab)%Z ->
  (forall prompt response t, In (prompt, response) examples -> In t (prompt ++ response) -> (0 <= t < Z.of_nat vocab)%Z) ->
  (forall prompt response t, In (prompt, response) examples -> In t response -> model_pad <> Some t) ->
  (forall prompt response, In (prompt, response) examples -> prompt <> [] /\ response <> []) ->
  examples <> [] ->
  train_on log_softmax vocab model_pad decoder (Some pad) examples
  = Ok (qsum (map (fun e => response_nll log_softmax lm (fst e) (snd e)) examples),
        fold_right Z.add 0%Z (map (fun e => Z.of_nat (length (snd e))) examples)).
Proof.
  intros log_softmax vocab model_pad lm decoder pad examples C LR PT V NP NE NN.
  set (W := list_max (map (fun e : list Z * list Z => length (tokens e)) examples)).
  assert (Gd : Forall (good W) examples).
  { apply Forall_forall. intros [p r] I. destruct (NE p r I) as [A B]. split; [exact A|]. cbn [fst snd]. split.
    - rewrite app_length. destruct p, r; try congruence. simpl. lia.
    - unfold W. apply list_max_le_all. apply in_map_iff. exists (p, r). auto. }
  assert (Vo : Forall (in_vocab vocab) examples).
  { apply Forall_forall. intros [p r] I t J. eapply V; eassumption. }
  assert (Np : Forall (no_padding model_pad) examples).
  { apply Forall_forall. intros [p r] I t J. cbn [snd] in J. unfold ignored. destruct model_pad as [q|].
    - apply Z.eqb_neq. intro; subst. exact (NP p r q I J eq_refl).
    - apply Z.eqb_neq. assert (0 <= t < Z.of_nat vocab)%Z by (eapply V; [exact I|apply in_or_app; right; exact J]). lia. }
  unfold train_on, to_batch.
  assert (F1 : map fst (map cat_source_and_target examples) = map (fun e => tokens e) examples).
  { rewrite map_map. apply map_ext. intros [p r]. reflexivity. }
  assert (F2 : map snd (map cat_source_and_target examples) =
    map (fun e : list Z * list Z => map (fun i => length (fst e) <=? i) (seq 0 (length (tokens e)))) examples).
  { rewrite map_map. apply map_ext. intros [p r]. reflexivity. }
  cbv zeta. rewrite F1, F2. clear F1 F2.
  assert (S1 : collate pad (map (fun e => tokens e) examples) = map (fun e => tokens e ++ repeat pad (W - length (tokens e))) examples).
  { unfold collate, W. rewrite !map_map. reflexivity. }
  assert (S2 : collate false (map (fun e : list Z * list Z => map (fun i => length (fst e) <=? i) (seq 0 (length (tokens e)))) examples)
    = map (fun e : list Z * list Z => map (fun i => length (fst e) <=? i) (seq 0 (length (tokens e))) ++ repeat false (W - length (tokens e))) examples).
  { unfold collate. rewrite !map_map.
    assert (E : map (fun x : list Z * list Z => length (map (fun i => length (fst x) <=? i) (seq 0 (length (tokens x))))) examples
                = map (fun e => length (tokens e)) examples).
    { apply map_ext. intro e. rewrite map_length, seq_length. reflexivity. }
    rewrite E. fold W. apply map_ext. intro e. rewrite map_length, seq_length. reflexivity. }
  rewrite S1, S2. clear S1 S2. rewrite map_map.
  set (rows := map (fun e : list Z * list Z => tokens e ++ repeat pad (W - length (tokens e))) examples).
  set (lens := map (fun e : list Z * list Z => length (tokens e)) examples).
  assert (GdI : forall e, In e examples -> good W e) by (apply Forall_forall; exact Gd).
  assert (B1 : forall m, new_batch rows lens m = Ok {| seqs := rows; seq_lens := lens; target_mask := m |}).
  { intro m. unfold new_batch. rewrite !existsb_none; [reflexivity| |].
    - unfold rows, lens. rewrite combine_maps. intros x I. apply in_map_iff in I. destruct I as (e & <- & I).
      cbn [fst snd]. apply Nat.ltb_ge. rewrite (app_length (tokens e)). lia.
    - unfold lens. intros x I. apply in_map_iff in I. destruct I as (e & <- & I). apply Nat.ltb_ge.
      destruct (GdI e I). lia. }
  rewrite B1. clear B1. unfold process_batch, as_auto_regressive. cbn [seqs seq_lens target_mask].
  rewrite (existsb_none _ (fun n => n =? 1) lens).
  2: { unfold lens. intros x I. apply in_map_iff in I. destruct I as (e & <- & I). apply Nat.eqb_neq.
       destruct (GdI e I). lia. }
  assert (RL : forall r, In r rows -> length r = W).
  { unfold rows. intros r I. apply in_map_iff in I. destruct I as (e & <- & I). destruct (GdI e I) as [_ L].
    rewrite (app_length (tokens e)), repeat_length. lia. }
  assert (B2 : forall f m, (forall r : list Z, length (f r) = length r - 1) ->
    new_batch (map f rows) (map (fun n => n - 1) lens) m = Ok {| seqs := map f rows; seq_lens := map (fun n => n - 1) lens; target_mask := m |}).
  { intros f m H. unfold new_batch. rewrite !existsb_none; [reflexivity| |].
    - intros [r n] I. cbn [fst snd]. pose proof (in_combine_l _ _ _ _ I) as I1. pose proof (in_combine_r _ _ _ _ I) as I2.
      apply in_map_iff in I1. destruct I1 as (r0 & <- & I1). rewrite H, (RL r0 I1). unfold lens in I2. rewrite map_map in I2.
      apply in_map_iff in I2. destruct I2 as (e & <- & I2). destruct (GdI e I2) as [_ L]. apply Nat.ltb_ge. lia.
    - intros x I. unfold lens in I. rewrite map_map in I. apply in_map_iff in I. destruct I as (e & <- & I). apply Nat.ltb_ge.
      destruct (GdI e I). lia. }
  cbv zeta. rewrite (B2 (@removelast Z)) by apply removelast_length. rewrite (B2 (@tl Z)) by apply tl_length.
  cbn [seqs seq_lens target_mask num_target_elements].
  (* the decoder *)
  set (ss := map (fun e : list Z * list Z => removelast (tokens e)) examples).
  set (ps := map (fun e : list Z * list Z => removelast (last (tokens e) 0%Z :: repeat pad (W - length (tokens e)))) examples).
  assert (D1 : map (@removelast Z) rows = map (fun x => fst x ++ snd x) (combine ss ps)).
  { unfold rows, ss, ps. rewrite combine_maps, !map_map. apply map_ext_in. intros e I. cbn [fst snd].
    apply removelast_padded. destruct (GdI e I) as [_ L]. intro X. rewrite X in L. simpl in L. lia. }
  assert (D2 : map (fun n => n - 1) lens = map (@length Z) ss).
  { unfold lens, ss. rewrite !map_map. apply map_ext. intro e. rewrite removelast_length. reflexivity. }
  rewrite D1, D2.
  destruct (C ss ps) as (whatever & F & U & E); [unfold ss, ps; rewrite !map_length; reflexivity|].
  rewrite E. clear E.
  assert (Ft : Forall2 (fits W) examples whatever).
  { unfold ps in F. clear -F. revert whatever F. generalize examples as es.
    induction es as [|e es IH]; intros ws F; cbn [map] in F; inversion F as [|? w ? ws' H F']; subst; constructor.
    - unfold fits. etransitivity; [exact H|]. etransitivity; [exact (removelast_length Z (last (fst e ++ snd e) 0%Z :: repeat pad (W - length (fst e ++ snd e))))|]. cbn [length]. rewrite repeat_length. lia.
    - apply IH, F'. }
  pose proof (P_logits lm pad W examples whatever Ft) as PL.
  pose proof (P_targets lm pad W examples whatever Gd Ft) as PTg.
  pose proof (P_mask lm pad W examples whatever Gd Ft) as PM.
  fold ss in PL. fold rows in PTg. rewrite <- PL, <- PTg, <- PM.
  match goal with |- context [cross_entropy _ _ (Two (map (map logits_of) ?x))] => set (X := x) in * end.
  assert (CE : cross_entropy log_softmax (Z.of_nat vocab) (Two (map (map logits_of) X)) (Two (map (map target_of) X)) model_pad 0%Qc
      (Some (Two (map (map mask_of) X))) RSum = Scalar (qsum (map (loss_at log_softmax vocab model_pad 0%Qc true) (concat X)))).
  { change (loss_of log_softmax vocab model_pad 0%Qc true (Two X) RSum = Scalar (qsum (map (loss_at log_softmax vocab model_pad 0%Qc true) (flat (Two X))))).
    apply C82_loss.
    - left; reflexivity.
    - split.
      + intro Z0. unfold X in Z0. destruct Ft; [congruence|discriminate].
      + exists (W - 1). apply P_rows; assumption.
    - intros p I. eapply (P_valid log_softmax vocab model_pad lm pad); eauto. }
  rewrite CE. clear CE.
  destruct (P_loss log_softmax vocab model_pad lm pad W LR examples whatever Gd Vo Np Ft) as [L1 L2].
  fold X in L1, L2. rewrite L1. unfold num_target_elements. cbn [target_mask]. rewrite L2. reflexivity.
Qed.

(** A language model over three tokens that looks at the number of tokens and
    at the last one, and a decoder that computes its logits for padded
    batches. *)
Definition toy_lm (context : list Z) : list Qc :=
  [of_Z (- Z.of_nat (length context)); of_Z (last context 0%Z); of_Z (-1)].
Definition toy_decoder (rows : list (list Z)) (lens : list nat) : list (list (list Qc)) :=
  map (fun r => map (fun j => toy_lm (firstn (S j) r)) (seq 0 (length r))) rows.

Lemma toy_causal : causal (fun l => l) 3 toy_lm toy_decoder.
Proof.
  intros ss ps L.
  exists (map (fun x => map (fun j => toy_lm (firstn (S j) (fst x ++ snd x))) (seq (length (fst x)) (length (snd x)))) (combine ss ps)).
  repeat split.
  - revert ps L. induction ss as [|s ss IH]; intros [|p ps] L; try discriminate; cbn [combine map]; constructor.
    + rewrite map_length, seq_length. reflexivity.
    + apply IH. simpl in L. lia.
  - intros l I. apply in_concat in I. destruct I as (w & I & J). apply in_map_iff in I. destruct I as (x & <- & _).
    apply in_map_iff in J. destruct J as (j & <- & _). reflexivity.
  - unfold toy_decoder. revert ps L. induction ss as [|s ss IH]; intros [|p ps] L; try discriminate; [reflexivity|].
    cbn [combine map fst snd]. f_equal; [|apply IH; simpl in L; lia].
    rewrite app_length, seq_app, map_app. f_equal. apply map_ext_in. intros j I. apply in_seq in I.
    rewrite firstn_app. replace (S j - length s) with 0 by lia. rewrite firstn_O, app_nil_r. reflexivity.
Qed.

Definition toy_examples : list (list Z * list Z) := [([1; 2], [0; 2]); ([1], [2; 2; 1])]%Z.

Example C86_loss_case :
  train_on (fun l => l) 3 None toy_decoder (Some 0%Z) toy_examples
  = Ok (qsum (map (fun e => response_nll (fun l => l) toy_lm (fst e) (snd e)) toy_examples), 5%Z)
  /\ response_nll (fun l => l) toy_lm [1; 2]%Z [0; 2]%Z = of_Z 3.
Proof.
  split; [|vm_compute; apply Qc_is_canon; reflexivity].
  apply C86_loss_partial.
  - exact toy_causal.
  - reflexivity.
  - lia.
  - intros p r t I J. cbn in I. destruct I as [E|[E|[]]]; injection E as <- <-; cbn in J; intuition lia.
  - discriminate.
  - intros p r I. cbn in I. destruct I as [E|[E|[]]]; injection E as <- <-; split; discriminate.
  - discriminate.
Qed.

(** ** C86: the batches

    However the examples are put into batches, the losses and the numbers of
    targets of the batches add up to those of the examples. *)
Theorem C86_batches : forall log_softmax vocab model_pad lm decoder pad batches results,
  causal log_softmax vocab lm decoder ->
  (forall context, length (log_softmax (lm context)) = vocab) ->
  (0 <= pad < Z.of_nat vocab)%Z ->
  (forall prompt response t, In (prompt, response) (concat batches) -> In t (prompt ++ response) -> (0 <= t < Z.of_nat vocab)%Z) ->
  (forall prompt response t, In (prompt, response) (concat batches) -> In t response -> model_pad <> Some t) ->
  (forall prompt response, In (prompt, response) (concat batches) -> prompt <> [] /\ response <> []) ->
  Forall (fun b => b <> []) batches ->
  Forall2 (fun b r => train_on log_softmax vocab model_pad decoder (Some pad) b = Ok r) batches results ->
  qsum (map fst results) = qsum (map (fun e => response_nll log_softmax lm (fst e) (snd e)) (concat batches))
  /\ fold_right Z.add 0%Z (map snd results) = fold_right Z.add 0%Z (map (fun e => Z.of_nat (length (snd e))) (concat batches)).
Proof.
  intros log_softmax vocab model_pad lm decoder pad batches results C LR PT V NP NE NN F.
  induction F as [|b r bs rs H F IH]; [split; reflexivity|].
  inversion NN as [|? ? N1 NN']; subst. cbn [concat] in *.
  rewrite (C86_loss_partial log_softmax vocab model_pad lm decoder pad b C LR PT) in H; auto.
  - injection H as <-. destruct IH as [I1 I2].
    + intros p q t I. apply V with (1 := in_or_app _ _ _ (or_intror I)).
    + intros p q t I. apply NP with (1 := in_or_app _ _ _ (or_intror I)).
    + intros p q I. apply NE. apply in_or_app. auto.
    + exact NN'.
    + cbn [map fst snd qsum fold_right]. rewrite !map_app, qsum_app, I1, I2. split; [reflexivity|].
      generalize (map (fun e : list Z * list Z => Z.of_nat (length (snd e))) b) as l. intro l.
      induction l as [|x l IHl]; [reflexivity|]. cbn [fold_right app]. lia.
  - intros p q t I. apply V with (1 := in_or_app _ _ _ (or_introl I)).
  - intros p q t I. apply NP with (1 := in_or_app _ _ _ (or_introl I)).
  - intros p q I. apply NE. apply in_or_app. auto.
Qed.

(** ** C86 is refuted for empty prompts

    The full statement, without the condition that prompts have tokens, is
    false: the first token of a response to an empty prompt is treated as if it
    were the prompt -- as the input of the others, never as a target. *)
Theorem C86_loss_refuted : forall log_softmax vocab model_pad decoder pad_idx before t response after,
  train_on log_softmax vocab model_pad decoder pad_idx (before ++ ([], t :: response) :: after)
  = train_on log_softmax vocab model_pad decoder pad_idx (before ++ ([t], response) :: after).
Proof.
  intros log_softmax vocab model_pad decoder [pad|] before t response after; [|reflexivity].
  unfold train_on, to_batch. cbv zeta.
  set (xs := map cat_source_and_target (before ++ ([], t :: response) :: after)).
  set (ys := map cat_source_and_target (before ++ ([t], response) :: after)).
  assert (E : map fst xs = map fst ys).
  { unfold xs, ys. rewrite !map_app. cbn [map cat_source_and_target fst]. reflexivity. }
  rewrite E. unfold new_batch.
  destruct (existsb _ (map (@length Z) (map fst ys))); [reflexivity|].
  destruct (existsb _ (combine _ _)); [reflexivity|].
  unfold process_batch, as_auto_regressive. cbn [seqs seq_lens target_mask].
  assert (M : map (@tl bool) (collate false (map snd xs)) = map (@tl bool) (collate false (map snd ys))).
  { unfold collate.
    assert (L : map (@length bool) (map snd xs) = map (@length bool) (map snd ys)).
    { unfold xs, ys. rewrite !map_app. cbn [map cat_source_and_target snd]. rewrite !map_length, !seq_length. reflexivity. }
    rewrite L. generalize (list_max (map (@length bool) (map snd ys))). intro W.
    unfold xs, ys. rewrite !map_app. f_equal. cbn [map cat_source_and_target snd app length]. f_equal.
    cbn [seq map tl app]. rewrite <- !seq_shift, !map_map. cbn [length]. reflexivity. }
  rewrite M. reflexivity.
Qed.

(** The response 2, 1 to an empty prompt has one target. *)
Example C86_loss_refuted_case :
  train_on (fun l => l) 3 None toy_decoder (Some 0%Z) [([], [2; 1]%Z)]
  = Ok (response_nll (fun l => l) toy_lm [2]%Z [1]%Z, 1%Z).
Proof.
  change [([], [2; 1]%Z)] with ([] ++ ([] : list Z, [2; 1]%Z) :: []). rewrite C86_loss_refuted. cbn [app].
  rewrite (C86_loss_partial (fun l => l) 3 None toy_lm toy_decoder 0%Z [([2]%Z, [1]%Z)]).
  - cbn [map qsum fst snd fold_right]. rewrite Qcplus_0_r. reflexivity.
  - exact toy_causal.
  - reflexivity.
  - lia.
  - intros p r t I J. cbn in I. destruct I as [E|[]]; injection E as <- <-; cbn in J; intuition lia.
  - discriminate.
  - intros p r I. cbn in I. destruct I as [E|[]]; injection E as <- <-; split; discriminate.
  - discriminate.
Qed.

(** And an example of one token, an empty prompt and the end of its response,
    makes the training fail. *)
Theorem C86_single_token_refuted : forall log_softmax vocab model_pad decoder pad before e after,
  length (fst e ++ snd e) = 1 ->
  Forall (fun x => fst x ++ snd x <> []) (before ++ e :: after) ->
  train_on log_softmax vocab model_pad decoder (Some pad) (before ++ e :: after) = Err Invalid_operation.
Proof.
  intros log_softmax vocab model_pad decoder pad before e after L F.
  unfold train_on, to_batch. cbv zeta.
  set (examples := before ++ e :: after) in *.
  assert (F1 : map fst (map cat_source_and_target examples) = map (fun e => tokens e) examples).
  { rewrite map_map. apply map_ext. intros [p r]. reflexivity. }
  rewrite F1. unfold new_batch.
  rewrite (existsb_none _ (fun n => n <? 1)).
  2: { rewrite map_map. intros n I. apply in_map_iff in I. destruct I as (x & <- & I). apply Nat.ltb_ge.
       rewrite Forall_forall in F. specialize (F x I). destruct (fst x ++ snd x); [congruence|simpl; lia]. }
  rewrite existsb_none.
  2: { unfold collate. rewrite !map_map, combine_maps. intros x I. apply in_map_iff in I. destruct I as (y & <- & I).
       cbn [fst snd]. apply Nat.ltb_ge. rewrite (app_length (tokens y)). lia. }
  unfold process_batch, as_auto_regressive. cbn [seq_lens].
  replace (existsb (fun n => n =? 1) (map (@length Z) (map (fun e => tokens e) examples))) with true; [reflexivity|].
  symmetry. apply existsb_exists. exists 1. split; [|reflexivity]. rewrite map_map. apply in_map_iff. exists e.
  split; [exact L|]. unfold examples. apply in_or_app. right; left; reflexivity.
Qed.

Example C86_single_token_refuted_case :
  keep 1 10 (cat_source_and_target ([], [2%Z])) = true (* kept with the default lengths *)
  /\ train_on (fun l => l) 3 None toy_decoder (Some 0%Z) (toy_examples ++ ([], [2%Z]) :: []) = Err Invalid_operation.
Proof. split; [reflexivity|]. apply C86_single_token_refuted; [reflexivity|]. repeat constructor; discriminate. Qed.

Print Assumptions C86_loss_partial.
Print Assumptions C86_batches.
Print Assumptions C86_loss_refuted.
Print Assumptions C86_single_token_refuted.
