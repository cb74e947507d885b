(** The sampling generator: rows, steps, counts. *)
From Coq Require Import List Bool Arith Lia QArith.
From Verif Require Import Beam_Model Beam_Spec Beam_Proofs Sampling_Model Sampling_Spec.
Import ListNotations.
Open Scope nat_scope.

Section Gen.
  Variable D : sdecoder.
  Variable c : sconfig.
  Variable prompts : list (list nat).
  Notation tp := (token_prob D c prompts).
  Notation SA := (sstate_after D).
  Notation NP := (next_probs D).
  Notation row := (srow D).
  Notation MP := (min_prompt_len prompts).
  Notation XP := (max_prompt_len prompts).
  Notation XS := (smax_seq_len c prompts).
  Notation MS := (smin_seq_len c prompts).
  Hypothesis Hs : ssound c prompts.
  Hypothesis Hx : XP < g_max_seq c.

  Lemma args : 1 <= g_min_gen c /\ g_min_gen c <= g_max_gen c /\ match g_chunk c with Some m => 1 <= m | None => True end.
  Proof.
    destruct Hs as [A _ _]. unfold check_args in A. rewrite !andb_true_iff, !negb_true_iff, !Nat.ltb_ge in A. destruct A as (((A1 & A2) & A3) & A4).
    repeat split; try lia. destruct (g_chunk c); [|exact I]. rewrite negb_true_iff, Nat.ltb_ge in A4. exact A4.
  Qed.
  Lemma XS_bound : XP < XS.
  Proof. destruct args as (A & B & _). unfold smax_seq_len. lia. Qed.
  Lemma MS_XS : MS <= XS.
  Proof. destruct args as (A & B & _). unfold smax_seq_len, smin_seq_len. lia. Qed.

  Lemma nth_firstn_lt {A} k n (l : list A) d : k < n -> nth k (firstn n l) d = nth k l d.
  Proof. revert n l; induction k; intros [|n] [|x l] H; simpl; auto; try lia. apply IHk. lia. Qed.
  Lemma tp_ext j i s s' : firstn (j + 1) s = firstn (j + 1) s' -> tp j i s = tp j i s'.
  Proof.
    intros H. unfold token_prob. assert (E1 : nth j s 0 = nth j s' 0) by (rewrite <- (nth_firstn_lt j (j + 1) s), <- (nth_firstn_lt j (j + 1) s') by lia; congruence).
    assert (E2 : firstn j s = firstn j s') by (rewrite <- (Nat.min_l j (j + 1)), <- !firstn_firstn by lia; congruence).
    rewrite E1, E2. reflexivity.
  Qed.

  Lemma SA_snoc i s v : SA i (s ++ [v]) = fst (sfeed D (SA i s) v).
  Proof. unfold sstate_after. rewrite fold_left_app. reflexivity. Qed.
  Lemma NP_snoc i s v : NP i (s ++ [v]) = snd (sfeed D (SA i s) v).
  Proof. unfold next_probs. rewrite removelast_app by discriminate. simpl. rewrite app_nil_r, last_last. reflexivity. Qed.
  Lemma sfeed_all_spec i toks : forall s, sfeed_all D (SA i s) toks = (SA i (s ++ toks), map (fun k => NP i (s ++ firstn (k + 1) toks)) (seq 0 (length toks))).
  Proof.
    induction toks as [|t toks IH]; intros s; simpl; [rewrite app_nil_r; reflexivity|].
    destruct (sfeed D (SA i s) t) as [d1 o] eqn:E.
    assert (E1 : d1 = SA i (s ++ [t])) by (rewrite SA_snoc, E; reflexivity).
    assert (E2 : o = NP i (s ++ [t])) by (rewrite NP_snoc, E; reflexivity).
    rewrite E1, IH, E2, <- app_assoc. simpl. f_equal. f_equal. rewrite <- seq_shift, map_map. apply map_ext. intros k. rewrite <- app_assoc. reflexivity.
  Qed.

  (** A row before step [t]. *)
  Record row_ok (t : nat) (r : row) : Prop := {
    ro_prompt : exists p, nth_error prompts (w_prompt D r) = Some p /\ w_len D r = length p /\ firstn (length p) (w_buf D r) = p;
    ro_buf : length (w_buf D r) = XS;
    ro_lsc : length (w_sc D r) = XS;
    ro_ds : w_ds D r = SA (w_prompt D r) (firstn (t - 1) (w_buf D r));
    ro_sc : forall j, j < t -> nth j (w_sc D r) 0%Q = tp j (w_prompt D r) (w_buf D r);
    ro_eos : forall j, w_len D r <= j < t -> nth j (w_buf D r) 0 <> g_eos c }.
  (** and if the sampler is proper *)
  Definition row_clean (t : nat) (r : row) : Prop := forall j, w_len D r <= j < t -> (0 < tp j (w_prompt D r) (w_buf D r))%Q.

  Lemma init_row_ok i p : nth_error prompts i = Some p -> row_ok 1 (sinit_row D c prompts i p).
  Proof.
    intros H. assert (LP : length p <= XP) by (apply max_prompt_ge; eapply nth_error_In; exact H). pose proof XS_bound.
    assert (p <> []). { destruct Hs as [_ _ F]. rewrite Forall_forall in F. apply F. eapply nth_error_In; exact H. }
    constructor; simpl.
    - exists p. rewrite firstn_app, firstn_all, Nat.sub_diag. simpl. rewrite app_nil_r. auto.
    - rewrite app_length, map_length, seq_length. lia.
    - apply repeat_length.
    - reflexivity.
    - intros j Hj. assert (j = 0) by lia. subst. rewrite nth_repeat. reflexivity.
    - intros j Hj. destruct p; [congruence|simpl in Hj; lia].
  Qed.

  Lemma firstn_slice' {A} a n k (l : list A) : k <= n -> firstn a l ++ firstn k (slice a n l) = firstn (a + k) l.
  Proof.
    intros H. unfold slice. rewrite firstn_firstn, Nat.min_l by lia. revert l; induction a; intros l; simpl; auto.
    destruct l; simpl; [rewrite firstn_nil; reflexivity|]. f_equal. apply IHa.
  Qed.

  (** What the prefill leaves alone. *)
  Definition same (r r' : row) : Prop := w_prompt D r' = w_prompt D r /\ w_len D r' = w_len D r /\ w_buf D r' = w_buf D r.
  Lemma prefill_row_ok b n r : row_ok (b + 1) r -> b + n < MP -> row_ok (b + n + 1) (sprefill_row D b n r) /\ same r (sprefill_row D b n r).
  Proof.
    intros [P1 P2 P3 P4 P5 P6] Hb. replace (b + 1 - 1) with b in P4 by lia. unfold sprefill_row. rewrite P4, sfeed_all_spec.
    set (i := w_prompt D r) in *. set (buf := w_buf D r) in *. set (sc := w_sc D r) in *.
    destruct P1 as (p & N1 & N2 & N3). assert (MP <= length p) by (apply min_prompt_le; eapply nth_error_In; exact N1).
    assert (LP : length p <= XP) by (apply max_prompt_ge; eapply nth_error_In; exact N1). pose proof XS_bound.
    assert (L1 : length (slice b n buf) = n) by (unfold slice; rewrite firstn_length, skipn_length; lia).
    assert (L2 : length (slice (b + 1) n buf) = n) by (unfold slice; rewrite firstn_length, skipn_length; lia).
    set (os := map _ (seq 0 (length (slice b n buf)))).
    assert (LO : length os = n) by (unfold os; rewrite map_length, seq_length; exact L1).
    set (g := sgather os (slice (b + 1) n buf)). assert (LG : length g = n) by (unfold g, sgather; rewrite map_length, combine_length; lia).
    split; [|repeat split].
    constructor; cbn [w_prompt w_len w_buf w_sc w_ds]; auto.
    - exists p. auto.
    - rewrite write_length by lia. exact P3.
    - f_equal. replace (b + n + 1 - 1) with (b + n) by lia. rewrite <- (firstn_slice' b n n buf) by lia. f_equal. rewrite firstn_all2 by lia. reflexivity.
    - intros j Hj. rewrite nth_write by lia. destruct (Nat.ltb_spec j (b + 1)); [apply P5; lia|]. destruct (Nat.ltb_spec j (b + 1 + length g)); [|lia].
      unfold g, sgather. rewrite nth_indep with (d' := (fun ot : list Q * nat => nth (snd ot) (fst ot) 0%Q) ([], 0)) by (rewrite map_length, combine_length; lia).
      rewrite (map_nth (fun ot : list Q * nat => nth (snd ot) (fst ot) 0%Q)), combine_nth by lia. cbn [fst snd].
      unfold os. rewrite nth_indep with (d' := NP i (firstn b buf ++ firstn (0 + 1) (slice b n buf))) by (rewrite map_length, seq_length; lia).
      rewrite (map_nth (fun k => NP i (firstn b buf ++ firstn (k + 1) (slice b n buf)))), seq_nth by lia.
      rewrite firstn_slice' by lia. unfold slice. rewrite nth_firstn' by lia. rewrite nth_skipn'.
      unfold token_prob. destruct (Nat.eqb_spec j 0); [lia|]. destruct (Nat.ltb_spec j MP); [|lia].
      replace (b + 1 + (j - (b + 1))) with j by lia. replace (b + (0 + (j - (b + 1)) + 1)) with j by lia. reflexivity.
    - intros j Hj. apply P6. lia.
  Qed.

  Lemma same_trans r1 r2 r3 : same r1 r2 -> same r2 r3 -> same r1 r3.
  Proof. unfold same. intuition congruence. Qed.
  Lemma prefill_loop_ok' fuel : forall b rs rs0, b <= MP - 1 -> MP - 1 - b < fuel -> Forall (row_ok (b + 1)) rs -> Forall2 same rs0 rs ->
    Forall (row_ok (MP - 1 + 1)) (sprefill_loop D c prompts fuel b rs) /\ Forall2 same rs0 (sprefill_loop D c prompts fuel b rs).
  Proof.
    induction fuel as [|f IH]; intros b rs rs0 Hb Hf H1 H2; [lia|]. simpl. destruct (Nat.ltb_spec b (MP - 1)).
    - assert (1 <= schunk_size c prompts b /\ b + schunk_size c prompts b <= MP - 1) as [C1 C2].
      { destruct args as (_ & _ & HC). unfold schunk_size. destruct (g_chunk c) as [m|]; [|lia]. destruct (Nat.ltb_spec m (MP - b - 1)); lia. }
      assert (F : Forall (fun r => row_ok (b + schunk_size c prompts b + 1) (sprefill_row D b (schunk_size c prompts b) r) /\ same r (sprefill_row D b (schunk_size c prompts b) r)) rs).
      { eapply Forall_impl; [|exact H1]. intros r Hr. apply prefill_row_ok; [exact Hr|lia]. }
      apply IH; try lia.
      + clear - F. induction F as [|r rs [A _] _ IH]; simpl; constructor; auto.
      + clear - F H2. induction H2 as [|r0 r rs0 rs A _ IH]; simpl; [constructor|]. inversion F as [|? ? [F1 F2] F3]; subst. constructor; [eapply same_trans; eassumption|auto].
    - assert (E : b = MP - 1) by lia. subst b. auto.
  Qed.

  Definition count (i : nat) (rs : list row) : nat := length (filter (fun r => Nat.eqb (w_prompt D r) i) rs).
  Lemma count_app i a b : count i (a ++ b) = count i a + count i b.
  Proof. unfold count. rewrite filter_app, app_length. reflexivity. Qed.
  Lemma count_repeat i r n : count i (repeat r n) = if Nat.eqb (w_prompt D r) i then n else 0.
  Proof. unfold count. induction n; simpl; [destruct (Nat.eqb (w_prompt D r) i); reflexivity|]. destruct (Nat.eqb (w_prompt D r) i); simpl; rewrite IHn; reflexivity. Qed.
  Lemma count_fan i n rs : count i (flat_map (fun r => repeat r n) rs) = n * count i rs.
  Proof.
    induction rs as [|r rs IH]; simpl; [unfold count; simpl; lia|]. rewrite count_app, IH, count_repeat. unfold count. simpl. destruct (Nat.eqb (w_prompt D r) i); simpl; lia.
  Qed.
  Lemma count_same i rs0 rs : Forall2 same rs0 rs -> count i rs = count i rs0.
  Proof. unfold count. induction 1 as [|a b l l' (E & _) _ IH]; simpl; [reflexivity|]. rewrite E. destruct (Nat.eqb (w_prompt D a) i); simpl; rewrite IH; reflexivity. Qed.
  Lemma count_init i l : forall k, count i (mapi_from (sinit_row D c prompts) k l) = if (k <=? i) && (i <? k + length l) then 1 else 0.
  Proof.
    unfold count. induction l as [|p l IH]; intros k; simpl.
    - destruct (Nat.leb_spec k i), (Nat.ltb_spec i (k + 0)); simpl; auto; lia.
    - destruct (Nat.eqb_spec k i); simpl; rewrite IH.
      + subst. destruct (Nat.leb_spec (S i) i); [lia|]. destruct (Nat.leb_spec i i); [|lia]. destruct (Nat.ltb_spec i (i + S (length l))); [|lia]. reflexivity.
      + destruct (Nat.leb_spec (S k) i), (Nat.leb_spec k i), (Nat.ltb_spec i (S k + length l)), (Nat.ltb_spec i (k + S (length l))); simpl; auto; lia.
  Qed.

  Lemma MP_pos : prompts <> [] -> 1 <= MP.
  Proof. intros H. apply min_prompt_pos; [exact H|]. apply Hs. Qed.
  Lemma prepare_ok' : prompts <> [] -> Forall (row_ok MP) (sprepare D c prompts (mapi (sinit_row D c prompts) prompts)) /\
    forall i, i < length prompts -> count i (sprepare D c prompts (mapi (sinit_row D c prompts) prompts)) = g_num c.
  Proof.
    intros NE. pose proof (MP_pos NE) as MP1. set (rs0 := mapi (sinit_row D c prompts) prompts).
    assert (I : Forall (row_ok 1) rs0).
    { apply Forall_forall. intros r Hr. apply In_nth_error in Hr. destruct Hr as (k & Hk). unfold rs0, mapi in Hk. rewrite nth_error_mapi_from in Hk.
      destruct (nth_error prompts k) as [p|] eqn:E; [|discriminate]. simpl in Hk. inversion Hk. apply init_row_ok, E. }
    assert (SR : Forall2 same rs0 rs0) by (clear; induction rs0; constructor; [repeat split|assumption]).
    assert (P : exists rs, rs = (if 1 <? MP then sprefill_loop D c prompts MP 0 rs0 else rs0) /\ Forall (row_ok MP) rs /\ Forall2 same rs0 rs).
    { eexists. split; [reflexivity|]. destruct (Nat.ltb_spec 1 MP).
      - replace MP with (MP - 1 + 1) at 1 by lia. apply prefill_loop_ok'; auto; lia.
      - assert (E : MP = 1) by lia. rewrite E. auto. }
    destruct P as (rs & E & F & SM). unfold sprepare. rewrite <- E. clear E.
    assert (C1 : forall i, i < length prompts -> count i rs = 1).
    { intros i Hi. rewrite (count_same i rs0 rs SM). unfold rs0, mapi. rewrite count_init. destruct (Nat.ltb_spec i (0 + length prompts)); [reflexivity|lia]. }
    destruct Hs as [_ G _]. destruct (Nat.ltb_spec 1 (g_num c)).
    - split; [|intros i Hi; rewrite count_fan, C1 by assumption; lia]. apply Forall_forall. intros r Hr. apply in_flat_map in Hr. destruct Hr as (r0 & H0 & Hr). apply repeat_spec in Hr. subst. rewrite Forall_forall in F. auto.
    - split; [assumption|]. intros i Hi. rewrite C1 by assumption. lia.
  Qed.

  (** One step of one row. *)
  Lemma removelast_last_firstn t (l : list nat) : 1 <= t -> t <= length l -> removelast (firstn t l) = firstn (t - 1) l /\ last (firstn t l) 0 = nth (t - 1) l 0.
  Proof.
    intros H1 H2. replace t with ((t - 1) + 1) at 1 3 by lia. rewrite (firstn_S (t - 1) 0) by lia. rewrite removelast_app by discriminate. simpl. rewrite app_nil_r, last_last. auto.
  Qed.
  Lemma offered_row t r : row_ok t r -> 1 <= t -> t < XS ->
    sfeed D (w_ds D r) (nth (t - 1) (w_buf D r) 0) = (SA (w_prompt D r) (firstn t (w_buf D r)), NP (w_prompt D r) (firstn t (w_buf D r))) /\
    sadjust c prompts t (firstn t (w_buf D r)) (NP (w_prompt D r) (firstn t (w_buf D r))) = offered D c prompts (w_prompt D r) (firstn t (w_buf D r)).
  Proof.
    intros [P1 P2 P3 P4 P5 P6] H1 H2. destruct (removelast_last_firstn t (w_buf D r) H1 ltac:(lia)) as [R1 R2]. split.
    - rewrite P4. unfold next_probs. rewrite R1, R2. rewrite surjective_pairing at 1. f_equal.
      rewrite <- SA_snoc. f_equal. rewrite <- (firstn_S (t - 1) 0) by lia. f_equal. lia.
    - unfold offered. rewrite firstn_length, Nat.min_l by lia. reflexivity.
  Qed.

  Lemma nth_set_same {A} t (v d : A) l : t < length l -> nth t (set_nth t v l) d = v.
  Proof. intros H. rewrite nth_set_nth, Nat.eqb_refl. destruct (Nat.ltb_spec t (length l)); [reflexivity|lia]. Qed.
  Lemma nth_set_other {A} t j (v d : A) l : j <> t -> nth j (set_nth t v l) d = nth j l d.
  Proof. intros H. rewrite nth_set_nth. destruct (Nat.eqb_spec t j); [lia|reflexivity]. Qed.

  Lemma set_nth_self {A} t (d : A) l : set_nth t (nth t l d) l = l.
  Proof. revert t; induction l as [|x l IH]; intros [|t]; simpl; auto. f_equal. apply IH. Qed.

  Lemma tp_new t i v buf : 1 <= t -> MP <= t -> t < length buf -> tp t i (set_nth t v buf) = nth v (offered D c prompts i (firstn t buf)) 0%Q.
  Proof.
    intros H1 H2 H3. unfold token_prob. destruct (Nat.eqb_spec t 0); [lia|]. destruct (Nat.ltb_spec t MP); [lia|].
    rewrite firstn_set_nth, nth_set_same by assumption. reflexivity.
  Qed.
  Lemma tp_old t j i v buf : j < t -> tp j i (set_nth t v buf) = tp j i buf.
  Proof. intros H. apply tp_ext. apply firstn_set_nth_le. lia. Qed.

  (** The row after the step, whether finished or not. *)
  Lemma step_row_ok t k r r' b : MP <= t -> 1 <= t -> t < XS -> row_ok t r -> sstep_row D c prompts t k r = Some (r', b) ->
    w_prompt D r' = w_prompt D r /\ w_len D r' = w_len D r /\ firstn t (w_buf D r') = firstn t (w_buf D r) /\
    length (w_buf D r') = XS /\ length (w_sc D r') = XS /\
    (exists p, nth_error prompts (w_prompt D r') = Some p /\ w_len D r' = length p /\ firstn (length p) (w_buf D r') = p) /\
    w_ds D r' = SA (w_prompt D r') (firstn t (w_buf D r')) /\
    (forall j, j < t + 1 -> nth j (w_sc D r') 0%Q = tp j (w_prompt D r') (w_buf D r')) /\
    (forall j, w_len D r' <= j < t -> nth j (w_buf D r') 0 <> g_eos c) /\
    (if b then w_len D r' <= t /\ nth t (w_buf D r') 0 = g_eos c else w_len D r' <= t -> nth t (w_buf D r') 0 <> g_eos c) /\
    (t = XS - 1 -> b = true) /\
    (w_len D r' <= t -> t < XS - 1 -> exists q, g_sample c q (offered D c prompts (w_prompt D r') (firstn t (w_buf D r'))) = Some (nth t (w_buf D r') 0)).
  Proof.
    intros Hm H1 H2 Hr. destruct (offered_row t r Hr H1 H2) as [O1 O2]. destruct Hr as [P1 P2 P3 P4 P5 P6]. unfold sstep_row. rewrite O1, O2.
    destruct P1 as (p & N1 & N2 & N3). assert (LP : length p <= XP) by (apply max_prompt_ge; eapply nth_error_In; exact N1). pose proof XS_bound as XB.
    set (i := w_prompt D r) in *. set (buf := w_buf D r) in *. set (off := offered D c prompts i (firstn t buf)).
    destruct (if Nat.eqb t (XS - 1) then Some (g_eos c) else g_sample c (g_rand c t k) off) as [v|] eqn:EV; [|discriminate].
    set (ip := (t <? XP) && (t <? w_len D r)). set (v' := if ip then nth t buf 0 else v). intros E. inversion E; subst r' b; clear E. cbn [w_prompt w_len w_buf w_sc w_ds].
    rewrite firstn_set_nth, !set_nth_length.
    assert (IP : ip = (t <? length p)). { unfold ip. rewrite N2. destruct (Nat.ltb_spec t XP), (Nat.ltb_spec t (length p)); simpl; auto; lia. }
    assert (NT : nth t (set_nth t v' buf) 0 = v') by (apply nth_set_same; lia).
    repeat split; auto.
    - exists p. split; [exact N1|]. split; [exact N2|].
      destruct (Nat.ltb_spec t (length p)).
      + assert (V : v' = nth t buf 0) by (unfold v'; rewrite IP; reflexivity).
        rewrite V, set_nth_self. exact N3.
      + rewrite firstn_set_nth_le by lia. exact N3.
    - intros j Hj. destruct (Nat.eq_dec j t) as [->|Nj].
      + rewrite nth_set_same by lia. rewrite tp_new by lia. reflexivity.
      + rewrite nth_set_other by assumption. rewrite tp_old by lia. apply P5. lia.
    - intros j Hj. rewrite nth_set_other by lia. apply P6. lia.
    - rewrite NT. unfold v'. rewrite IP, N2. destruct (Nat.ltb_spec t (length p)); [lia|]. destruct (Nat.eqb_spec v (g_eos c)); [split; [lia|assumption]|intros _; assumption].
    - intros Et. rewrite IP. destruct (Nat.ltb_spec t (length p)); [lia|]. destruct (Nat.eqb_spec t (XS - 1)); [|lia]. inversion EV; subst. apply Nat.eqb_refl.
    - intros Hl Ht. rewrite NT. unfold v'. rewrite IP. rewrite N2 in Hl. destruct (Nat.ltb_spec t (length p)); [lia|]. destruct (Nat.eqb_spec t (XS - 1)); [lia|]. exists (g_rand c t k). exact EV.
  Qed.

  (** Finished rows. *)
  Lemma zero_set x y (l : list Q) : (nth x (set_nth y 0%Q l) 0 = 0 \/ nth x (set_nth y 0%Q l) 0 = nth x l 0)%Q.
  Proof. rewrite nth_set_nth. destruct (Nat.eqb y x && (y <? length l)); auto. Qed.
  Lemma zero_set_same x (l : list Q) : (nth x (set_nth x 0 l) 0 = 0)%Q.
  Proof. rewrite nth_set_nth, Nat.eqb_refl. destruct (Nat.ltb_spec x (length l)); simpl; [reflexivity|]. apply nth_overflow. assumption. Qed.
  Lemma offered_pad i s x : length s < XS - 1 -> g_pad c = Some x -> nth x (offered D c prompts i s) 0%Q = 0%Q.
  Proof.
    intros H E. unfold offered, sadjust. destruct (Nat.eqb_spec (length s) (XS - 1)); [lia|]. rewrite E. destruct (length s <? MS - 1); [|apply zero_set_same].
    match goal with |- nth x (set_nth ?y _ ?l) _ = _ => destruct (zero_set x y l) as [K|K]; [exact K|] end. rewrite K. apply zero_set_same.
  Qed.
  Lemma offered_eos i s : length s < XS - 1 -> length s < MS - 1 -> nth (g_eos c) (offered D c prompts i s) 0%Q = 0%Q.
  Proof.
    intros H E. unfold offered, sadjust. destruct (Nat.eqb_spec (length s) (XS - 1)); [lia|]. destruct (Nat.ltb_spec (length s) (MS - 1)); [|lia]. apply zero_set_same.
  Qed.

  Lemma skipn_map_seq {A} (f : nat -> A) b n a : skipn b (map f (seq a n)) = map f (seq (a + b) (n - b)).
  Proof. rewrite skipn_map. f_equal. revert a b; induction n as [|n IH]; intros a [|b]; simpl; rewrite ?Nat.add_0_r; auto. rewrite IH. f_equal. lia. Qed.
  Lemma sc_list (sc : list Q) (f : nat -> Q) n : n <= length sc -> (forall j, j < n -> nth j sc 0%Q = f j) -> firstn n sc = map f (seq 0 n).
  Proof.
    intros L H. apply nth_ext with (d := 0%Q) (d' := f 0); [rewrite firstn_length, map_length, seq_length; lia|]. intros j Hj. rewrite firstn_length in Hj.
    rewrite nth_firstn_lt by lia. rewrite (map_nth f), seq_nth by lia. apply H. lia.
  Qed.

  Definition clean_row (t : nat) (r : row) : Prop := forall j, w_len D r <= j < t -> j < XS - 1 -> (0 < tp j (w_prompt D r) (w_buf D r))%Q.

  Lemma finish_ok t r p : t < XS -> nth_error prompts (w_prompt D r) = Some p -> w_len D r = length p -> firstn (length p) (w_buf D r) = p ->
    length (w_buf D r) = XS -> length (w_sc D r) = XS ->
    (forall j, j < t + 1 -> nth j (w_sc D r) 0%Q = tp j (w_prompt D r) (w_buf D r)) ->
    (forall j, w_len D r <= j < t -> nth j (w_buf D r) 0 <> g_eos c) -> w_len D r <= t -> nth t (w_buf D r) 0 = g_eos c ->
    exists g, shyp_ok D c prompts (w_prompt D r) p g (sfinish D c t r) /\ (clean_row (t + 1) r -> sclean D c prompts (w_prompt D r) p g).
  Proof.
    intros Ht N1 N2 N3 L1 L2 S1 E1 Hl E2. set (buf := w_buf D r) in *. set (i := w_prompt D r) in *. assert (N2' := N2). rewrite N2 in Hl, E1.
    exists (slice (length p) (t - length p) buf). set (g := slice (length p) (t - length p) buf).
    assert (PG : p ++ g = firstn t buf).
    { transitivity (firstn (length p) buf ++ firstn (t - length p) (slice (length p) (t - length p) buf)).
      - rewrite N3. f_equal. unfold g, slice. rewrite firstn_firstn, Nat.min_id. reflexivity.
      - rewrite firstn_slice' by lia. f_equal. lia. }
    assert (W : swhole c p g = firstn (t + 1) buf) by (unfold swhole; rewrite app_assoc, PG, (firstn_S t 0) by lia; rewrite E2; reflexivity).
    assert (LW : length (swhole c p g) = t + 1) by (rewrite W, firstn_length; lia).
    assert (LG : length g = t - length p) by (unfold g; apply slice_length; lia).
    assert (TP : forall j, j < t + 1 -> tp j i (swhole c p g) = tp j i buf).
    { intros j Hj. apply tp_ext. rewrite W, firstn_firstn, Nat.min_l by lia. reflexivity. }
    assert (SC : firstn (t + 1) (w_sc D r) = map (fun j => tp j i (swhole c p g)) (seq 0 (t + 1))).
    { apply sc_list; [lia|]. intros j Hj. rewrite TP by assumption. apply S1, Hj. }
    assert (GE : forall x, In x g -> exists j, length p <= j < t /\ nth j buf 0 = x).
    { intros x Hx0. apply In_nth with (d := 0) in Hx0. destruct Hx0 as (k & Hk & <-). rewrite LG in Hk. exists (length p + k). split; [lia|]. unfold g. rewrite nth_slice by lia. reflexivity. }
    split.
    - constructor.
      + unfold sfinish. cbn [y_seq]. fold buf. destruct (g_echo c).
        * rewrite W. unfold slice. simpl skipn. f_equal. lia.
        * assert (K : slice (length p) (t + 1 - length p) buf = skipn (length p) (firstn (t + 1) buf)).
          { unfold slice. rewrite firstn_skipn_comm. f_equal. f_equal. lia. }
          rewrite N2', K, <- W. unfold swhole. rewrite skipn_app, skipn_all, Nat.sub_diag. reflexivity.
      + intros I. destruct (GE _ I) as (j & Hj & Ej). apply (E1 j Hj Ej).
      + rewrite LW. lia.
      + unfold sfinish. cbn [y_steps]. destruct (g_compute_scores c); [|reflexivity]. rewrite SC, skipn_map_seq, LW, N2'. destruct (g_echo c); reflexivity.
      + unfold sfinish. cbn [y_score]. destruct (g_compute_scores c); [|reflexivity]. rewrite SC, skipn_map_seq, LW. replace (t + 1 - 1) with t by lia. reflexivity.
    - intros CL. unfold clean_row in CL. rewrite N2' in CL. fold i buf in CL.
      assert (Z : forall j, length p <= j < t + 1 -> j < XS - 1 -> (0 < nth (nth j buf 0%nat) (offered D c prompts i (firstn j buf)) 0)%Q).
      { intros j Hj1 Hj2. specialize (CL j Hj1 Hj2). unfold token_prob in CL. assert (MP <= length p) by (apply min_prompt_le; eapply nth_error_In; exact N1).
        destruct (Nat.eqb_spec j 0) as [E0|E0]; [exfalso; revert CL; apply Qlt_irrefl|]. destruct (Nat.ltb_spec j MP); [lia|]. exact CL. }
      constructor.
      + intros j Hj. rewrite TP by lia. apply CL; lia.
      + intros H. rewrite LW in H. rewrite TP by lia. apply CL; lia.
      + intros x Px I. destruct (GE x I) as (j & Hj & Ej). specialize (Z j ltac:(lia) ltac:(lia)). rewrite Ej, offered_pad in Z; [revert Z; apply Qlt_irrefl| |exact Px]. rewrite firstn_length. lia.
      + rewrite LW. destruct (Nat.le_gt_cases MS (t + 1)) as [K|K]; [exact K|]. exfalso. pose proof MS_XS. specialize (Z t ltac:(lia) ltac:(lia)).
        rewrite E2, offered_eos in Z; [revert Z; apply Qlt_irrefl| |]; rewrite firstn_length; lia.
  Qed.
End Gen.
