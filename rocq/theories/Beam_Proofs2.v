(** One beam in one step. *)
From Coq Require Import List Bool Arith Lia Sorted.
From Verif Require Import Beam_Model Beam_Spec Beam_Proofs.
Import ListNotations.

Lemma concat_length_const {A} V (ls : list (list A)) : Forall (fun l => length l = V) ls -> length (concat ls) = length ls * V.
Proof. induction 1 as [|l ls H _ IH]; simpl; [reflexivity|]. rewrite app_length, IH, H. reflexivity. Qed.
Lemma nth_concat_const {A} V (ls : list (list A)) d : 1 <= V -> Forall (fun l => length l = V) ls -> forall k, k < length ls * V -> nth k (concat ls) d = nth (k mod V) (nth (k / V) ls []) d.
Proof.
  intros HV. induction 1 as [|l ls H _ IH]; simpl; intros k Hk; [lia|]. destruct (Nat.ltb_spec k V).
  - rewrite app_nth1 by lia. rewrite Nat.div_small, Nat.mod_small by assumption. reflexivity.
  - rewrite app_nth2 by lia. rewrite H, IH by lia.
    replace k with ((k - V) + 1 * V) at 3 4 by lia. rewrite Nat.mod_add, Nat.div_add, Nat.add_1_r by lia. reflexivity.
Qed.
Lemma filter_all_length {A} (f : A -> bool) l : length (filter f l) + length (filter (fun x => negb (f x)) l) = length l.
Proof. induction l as [|x l IH]; simpl; [reflexivity|]. destruct (f x); simpl; lia. Qed.
Lemma filter_map {A B} (f : B -> bool) (g : A -> B) l : filter f (map g l) = map g (filter (fun x => f (g x)) l).
Proof. induction l as [|x l IH]; simpl; [reflexivity|]. destruct (f (g x)); simpl; rewrite IH; reflexivity. Qed.
Lemma NoDup_map_inj {A B} (f : A -> B) l : NoDup l -> (forall x y, In x l -> In y l -> f x = f y -> x = y) -> NoDup (map f l).
Proof.
  induction 1 as [|x l H _ IH]; intros I; simpl; constructor.
  - rewrite in_map_iff. intros (y & E & Hy). apply H. rewrite <- (I y x); auto; [right; assumption|left; reflexivity].
  - apply IH. intros a b Ha Hb. apply I; right; assumption.
Qed.
Lemma bounded_NoDup l n : NoDup l -> (forall x, In x l -> x < n) -> length l <= n.
Proof. intros N H. rewrite <- (seq_length n 0). apply NoDup_incl_length; [assumption|]. intros x Hx. apply in_seq. specialize (H x Hx). lia. Qed.
Lemma In_firstn {A} n (l : list A) x : In x (firstn n l) -> In x l.
Proof. intros H. rewrite <- (firstn_skipn n l). apply in_or_app. left. assumption. Qed.

Lemma Forall2_in_r {A B} (R : A -> B -> Prop) l1 l2 : Forall2 R l1 l2 -> forall y, In y l2 -> exists x, In x l1 /\ R x y.
Proof. induction 1 as [|a b l1 l2 H _ IH]; intros y Hy; [destruct Hy|]. destruct Hy as [<-|Hy]; [exists a; simpl; auto|]. destruct (IH y Hy) as (x & Hx & Rx). exists x. simpl. auto. Qed.
Lemma Forall2_len {A B} (R : A -> B -> Prop) l1 l2 : Forall2 R l1 l2 -> length l1 = length l2.
Proof. induction 1; simpl; auto. Qed.
Lemma map_fst_combine {A B} (l1 : list A) (l2 : list B) : length l1 = length l2 -> map fst (combine l1 l2) = l1.
Proof. revert l2; induction l1 as [|x l1 IH]; intros [|y l2] H; simpl in *; try lia; [reflexivity|]. f_equal. apply IH. lia. Qed.

Section Beam.
  Variable S : scores.
  Variable D : decoder S.
  Variable c : config S.
  Variable prompts : list (list nat).
  Variable reg : Prop.
  Hypothesis Hs : sound S D c prompts.
  Hypothesis Hr : reg -> ample S D c prompts.
  Notation MAX := (max_seq_len S c prompts).
  Notation MIN := (min_seq_len S c prompts).
  Notation B := (beam_size c).
  Notation V := (vocab c).
  Notation minp := (min_prompt_len prompts).
  Notation maxp := (max_prompt_len prompts).
  Notation row := (row S D).
  Notation score := (seq_score S D c prompts).
  Notation lprobs := (next_lprobs S D).
  Let L := sd_laws _ _ _ _ Hs.
  Hypothesis Hlen : maxp < cfg_max_seq_len c.

  Lemma args : 1 <= min_gen_len c /\ 1 <= max_gen_len c /\ min_gen_len c <= max_gen_len c /\ match prefill_chunk c with Some m => 1 <= m | None => True end.
  Proof.
    pose proof (sd_args _ _ _ _ Hs) as H. unfold check_args in H. rewrite !andb_true_iff, !negb_true_iff, !Nat.ltb_ge in H.
    destruct H as [[[H1 H2] H3] H4]. repeat split; auto. destruct (prefill_chunk c); auto. rewrite negb_true_iff, Nat.ltb_ge in H4. exact H4.
  Qed.
  Lemma max_bounds : maxp + 1 <= MAX /\ MIN <= MAX.
  Proof. destruct args as (A & B & C & _). unfold max_seq_len, min_seq_len. lia. Qed.

  (** ** The adjusted log probabilities *)
  Lemma adjust_length t s l : length (adjust S c prompts t s l) = length l.
  Proof.
    unfold adjust. destruct (Nat.eqb _ _); [apply mapi_length|].
    assert (P : length (process c s l) = length l) by apply (sd_process _ _ _ _ Hs).
    destruct (_ <? _), (pad c), (unk c); rewrite ?set_nth_length, ?mapi_length; exact P.
  Qed.
  Lemma nth_set_ninf i (l : list (Sc S)) : nth i (set_nth i (ninf S) l) (ninf S) = ninf S.
  Proof. rewrite nth_set_nth, Nat.eqb_refl. destruct (Nat.ltb_spec i (length l)); [reflexivity|]. apply nth_overflow. assumption. Qed.
  Lemma set_ninf_keep i j (l : list (Sc S)) : nth j l (ninf S) = ninf S -> nth j (set_nth i (ninf S) l) (ninf S) = ninf S.
  Proof. intros H. rewrite nth_set_nth. destruct (_ && _); auto. Qed.
  Lemma adjust_pad t s l p : t <> MAX - 1 -> pad c = Some p -> nth p (adjust S c prompts t s l) (ninf S) = ninf S.
  Proof.
    intros H E. unfold adjust. destruct (Nat.eqb_spec t (MAX - 1)); [contradiction|]. rewrite E.
    destruct (_ <? _); [apply set_ninf_keep|]; apply nth_set_ninf.
  Qed.
  Lemma adjust_min t s l : t <> MAX - 1 -> t < MIN - 1 -> nth (eos c) (adjust S c prompts t s l) (ninf S) = ninf S.
  Proof.
    intros H E. unfold adjust. destruct (Nat.eqb_spec t (MAX - 1)); [contradiction|].
    destruct (Nat.ltb_spec t (MIN - 1)); [|lia]. apply nth_set_ninf.
  Qed.
  Lemma adjust_last s l v : v <> eos c -> nth v (adjust S c prompts (MAX - 1) s l) (ninf S) = ninf S.
  Proof.
    intros H. unfold adjust. rewrite Nat.eqb_refl. destruct (Nat.ltb_spec v (length l)).
    - rewrite (nth_mapi _ l v (ninf S)) by assumption. destruct (Nat.eqb_spec v (eos c)); [contradiction|reflexivity].
    - apply nth_overflow. rewrite mapi_length. assumption.
  Qed.
  Lemma adjust_last_eos s l : eos c < length l -> nth (eos c) (adjust S c prompts (MAX - 1) s l) (ninf S) = nth (eos c) l (ninf S).
  Proof. intros H. unfold adjust. rewrite Nat.eqb_refl, (nth_mapi _ l _ (ninf S)), Nat.eqb_refl by assumption. reflexivity. Qed.
  Lemma ninf_not_finite : ~ finite S (ninf S).
  Proof. unfold finite. rewrite (ninf_least S L). discriminate. Qed.
  Lemma finite_leb a b : finite S a -> ~ finite S b -> leb S a b = true -> False.
  Proof.
    unfold finite. intros Ha Hb H. apply not_false_is_true in Hb. rewrite (leb_trans S L a b (ninf S)) in Ha; auto. discriminate.
  Qed.
  Lemma finite_dec x : {finite S x} + {~ finite S x}.
  Proof. unfold finite. destruct (leb S x (ninf S)); [right; discriminate|left; reflexivity]. Qed.

  (** ** Rows *)
  Record row_ok (t i : nat) (p : list nat) (r : row) : Prop := {
    ro_id : r_prompt S D r = i;
    ro_prompt : nth_error prompts i = Some p;
    ro_len : r_len S D r = length p;
    ro_buf : length (r_buf S D r) = MAX;
    ro_sc : length (r_sc S D r) = MAX;
    ro_pre : firstn (length p) (r_buf S D r) = p;
    ro_eos : forall j, length p <= j < t -> nth j (r_buf S D r) 0 <> eos c;
    ro_good : good S D c prompts i t (r_buf S D r) (r_sc S D r);
    ro_fin : reg -> t < MAX -> finite S (score i (firstn t (r_buf S D r)));
    ro_pad : reg -> t < MAX -> forall j, length p <= j < t -> pad c <> Some (nth j (r_buf S D r) 0) }.
  Definition ds_at (k : nat) (r : row) : Prop := r_ds S D r = state_after S D (r_prompt S D r) (firstn k (r_buf S D r)).

  (** A decoded row in step [t] with its log probabilities. *)
  Definition dec_ok (t i : nat) (p : list nat) (rl : row * list (Sc S)) : Prop :=
    row_ok t i p (fst rl) /\ ds_at t (fst rl) /\ snd rl = adjust S c prompts t (firstn t (r_buf S D (fst rl))) (lprobs i (firstn t (r_buf S D (fst rl)))).

  Lemma prompt_bounds i p : nth_error prompts i = Some p -> 1 <= length p /\ minp <= length p <= maxp /\ i < length prompts.
  Proof.
    intros H. pose proof (nth_error_In _ _ H) as I. split; [|split; [split|]].
    - pose proof (sd_prompts _ _ _ _ Hs) as F. rewrite Forall_forall in F. specialize (F p I). destruct p; [congruence|simpl; lia].
    - apply min_prompt_le, I.
    - apply max_prompt_ge, I.
    - apply nth_error_Some. congruence.
  Qed.

  Lemma decode_ok t i p r : 1 <= t < MAX -> row_ok t i p r -> ds_at (t - 1) r -> dec_ok t i p (decode_row S D c prompts t r).
  Proof.
    intros Ht H Hd. unfold decode_row. rewrite Hd. set (buf := r_buf S D r). assert (Lb : length buf = MAX) by apply (ro_buf _ _ _ _ H).
    destruct (feed D (state_after S D (r_prompt S D r) (firstn (t - 1) buf)) (nth (t - 1) buf 0)) as [d lp] eqn:E.
    assert (F : firstn t buf = firstn (t - 1) buf ++ [nth (t - 1) buf 0]) by (replace t with ((t - 1) + 1) at 1 by lia; apply firstn_S; lia).
    assert (E1 : d = state_after S D (r_prompt S D r) (firstn t buf)) by (rewrite F, state_after_snoc, E; reflexivity).
    assert (E2 : lp = lprobs (r_prompt S D r) (firstn t buf)) by (rewrite F, next_lprobs_snoc, E; reflexivity).
    unfold dec_ok, ds_at; cbn [fst snd r_prompt r_buf r_ds]. repeat split; try apply H; auto.
    fold buf. rewrite E2. rewrite (ro_id _ _ _ _ H). reflexivity.
  Qed.

  Lemma firstn_ne t (r : row) i p : 1 <= t < MAX -> row_ok t i p r -> firstn t (r_buf S D r) <> [] /\ length (firstn t (r_buf S D r)) = t.
  Proof.
    intros Ht H. assert (E : length (firstn t (r_buf S D r)) = t) by (rewrite firstn_length, (ro_buf _ _ _ _ H); lia).
    split; [|exact E]. intros N. rewrite N in E. simpl in E. lia.
  Qed.
  (** The cumulative score with one more token. *)
  Lemma cand_score t i p rl v : minp <= t -> 1 <= t < MAX -> dec_ok t i p rl ->
    add S (nth (t - 1) (r_sc S D (fst rl)) (zero S)) (nth v (snd rl) (ninf S)) = score i (firstn t (r_buf S D (fst rl)) ++ [v]).
  Proof.
    intros Hm Ht (H & _ & E). destruct (firstn_ne t (fst rl) i p Ht H) as [N Ln].
    rewrite (seq_score_snoc S D c prompts L) by exact N. rewrite (ro_good _ _ _ _ H) by lia. replace (t - 1 + 1) with t by lia. f_equal.
    unfold next_score. rewrite Ln. destruct (Nat.ltb_spec t minp); [lia|]. rewrite E. reflexivity.
  Qed.

  Lemma prompt_score_finite i p k : reg -> nth_error prompts i = Some p -> k <= length p -> finite S (score i (firstn k p)).
  Proof.
    intros R E Hk. unfold seq_score. apply (total_finite S L). apply Forall_forall. intros x Hx. apply in_map_iff in Hx.
    destruct Hx as (j & <- & Hj). apply in_seq in Hj. rewrite firstn_length, Nat.min_l in Hj by assumption.
    pose proof (am_prompt _ _ _ _ (Hr R) i p j E ltac:(lia)) as F. unfold token_score in *. rewrite firstn_firstn, Nat.min_l by lia.
    rewrite nth_firstn' by lia. exact F.
  Qed.

  Definition sel (t : nat) (x : cand S) (r : row) : row :=
    Row S D (r_prompt S D r) (r_len S D r) (set_nth t (c_tok S x) (r_buf S D r)) (set_nth t (c_score S x) (r_sc S D r)) (r_ds S D r).
  Lemma sel_ok t i p r x : minp <= t -> 1 <= t < MAX -> row_ok t i p r -> ds_at t r -> c_score S x = score i (firstn t (r_buf S D r) ++ [c_tok S x]) ->
    (t < length p -> c_tok S x = nth t p 0) -> (length p <= t -> c_tok S x <> eos c) ->
    (reg -> t + 1 < MAX -> finite S (c_score S x) /\ (length p <= t -> pad c <> Some (c_tok S x))) ->
    row_ok (t + 1) i p (sel t x r) /\ ds_at t (sel t x r).
  Proof.
    intros Hm Ht H Hd Hsc Hp He Hf. pose proof (ro_buf _ _ _ _ H) as Lb. pose proof (ro_sc _ _ _ _ H) as Ls.
    assert (Nb : forall j, nth j (set_nth t (c_tok S x) (r_buf S D r)) 0 = if Nat.eqb t j then c_tok S x else nth j (r_buf S D r) 0).
    { intros j. rewrite nth_set_nth, Lb. destruct (Nat.eqb_spec t j); simpl; [|reflexivity]. destruct (Nat.ltb_spec t MAX); [reflexivity|lia]. }
    split.
    - split; unfold sel; cbn [r_prompt r_len r_buf r_sc r_ds]; try apply H.
      + rewrite set_nth_length. exact Lb.
      + rewrite set_nth_length. exact Ls.
      + destruct (Nat.le_gt_cases (length p) t).
        * rewrite firstn_set_nth_le by assumption. apply H.
        * pose proof (prompt_bounds i p (ro_prompt _ _ _ _ H)) as PB. pose proof (ro_pre _ _ _ _ H) as PR. pose proof max_bounds as MB.
          apply nth_ext with (d := 0) (d' := 0); [rewrite firstn_length, set_nth_length, Lb; lia|]. intros j Hj.
          rewrite firstn_length, set_nth_length in Hj. rewrite nth_firstn' by lia. rewrite Nb. destruct (Nat.eqb_spec t j); [subst; apply Hp; lia|].
          rewrite <- PR. rewrite nth_firstn' by lia. reflexivity.
      + intros j Hj. rewrite Nb. destruct (Nat.eqb_spec t j); [apply He; lia|]. apply (ro_eos _ _ _ _ H). lia.
      + intros j Hj. destruct (Nat.eq_dec j t) as [->|N].
        * rewrite nth_set_nth, Nat.eqb_refl, Ls. destruct (Nat.ltb_spec t MAX); [|lia]. simpl. rewrite Hsc, firstn_set_nth_S by lia. reflexivity.
        * rewrite nth_set_nth. destruct (Nat.eqb_spec t j); [congruence|]. simpl. rewrite firstn_set_nth_le by lia. apply (ro_good _ _ _ _ H). lia.
      + intros R HM. rewrite firstn_set_nth_S by lia. rewrite <- Hsc. apply Hf; assumption.
      + intros R HM j Hj. rewrite Nb. destruct (Nat.eqb_spec t j); [apply Hf; auto; lia|]. apply (ro_pad _ _ _ _ H); auto; lia.
    - unfold ds_at, sel; cbn [r_prompt r_len r_buf r_sc r_ds]. rewrite firstn_set_nth. exact Hd.
  Qed.

  (** ** Finished hypotheses *)
  Record extra (i : nat) (p g : list nat) : Prop := {
    ex_pad : forall v, In v g -> pad c <> Some v;
    ex_min : MIN <= length (whole S c p g);
    ex_fin : finite S (score i (whole S c p g)) }.
  Definition HP (i : nat) (h : hyp S) : Prop := exists p g, nth_error prompts i = Some p /\ hyp_ok S D c prompts i p g h /\ (reg -> extra i p g).

  Lemma diffs_spec (f : nat -> Sc S) n : forall b, match map f (seq b n) with [] => [] | x :: _ => x :: map (fun ab => sub S (snd ab) (fst ab)) (combine (map f (seq b n)) (tl (map f (seq b n)))) end
    = map (fun k => if Nat.eqb k b then f k else sub S (f k) (f (k - 1))) (seq b n).
  Proof.
    assert (A : forall n b, map (fun ab => sub S (snd ab) (fst ab)) (combine (map f (seq b n)) (tl (map f (seq b n)))) = map (fun k => sub S (f k) (f (k - 1))) (seq (b + 1) (n - 1))).
    { induction n0 as [|n0 IH]; intros b; [reflexivity|]. destruct n0 as [|n0]; [reflexivity|].
      specialize (IH (Datatypes.S b)). replace (Datatypes.S (Datatypes.S n0) - 1) with (Datatypes.S n0) by lia. rewrite Nat.add_1_r.
      cbn [seq map tl combine fst snd] in IH |- *. rewrite IH. f_equal; [f_equal; f_equal; lia|].
      rewrite Nat.add_1_r. replace (Datatypes.S n0 - 1) with n0 by lia. reflexivity. }
    intros b. rewrite A. destruct n as [|n]; simpl; [reflexivity|]. rewrite Nat.eqb_refl. f_equal. rewrite Nat.sub_0_r, Nat.add_1_r. apply map_ext_in.
    intros k Hk. apply in_seq in Hk. destruct (Nat.eqb_spec k b); [lia|reflexivity].
  Qed.

  Lemma finish_ok t i p rl sc : minp <= t -> 1 <= t < MAX -> length p <= t -> dec_ok t i p rl -> sc = score i (firstn t (r_buf S D (fst rl)) ++ [eos c]) ->
    (reg -> finite S sc /\ MIN <= t + 1) -> HP i (finish S D c t (fst rl) sc).
  Proof.
    intros Hm Ht Hp (H & _ & _) Hsc Hf. pose proof (ro_buf _ _ _ _ H) as Lb. pose proof (ro_sc _ _ _ _ H) as Ls. set (r := fst rl) in *. set (buf := r_buf S D r) in *.
    pose proof max_bounds as MB.
    set (g := skipn (length p) (firstn t buf)).
    assert (W : whole S c p g = firstn t buf ++ [eos c]).
    { unfold whole, g. rewrite app_assoc. f_equal. rewrite <- (ro_pre _ _ _ _ H) at 1. fold r buf.
      rewrite <- (firstn_skipn (length p) (firstn t buf)) at 2. f_equal. rewrite firstn_firstn, Nat.min_l by lia. reflexivity. }
    assert (LW : length (whole S c p g) = t + 1) by (rewrite W, app_length, firstn_length; simpl; lia).
    assert (G : forall v, In v g -> exists j, length p <= j < t /\ nth j buf 0 = v).
    { intros v Hv. destruct (In_nth _ _ 0 Hv) as (k & Hk & <-). unfold g in *. rewrite skipn_length, firstn_length in Hk.
      exists (length p + k). split; [lia|]. rewrite nth_skipn', nth_firstn' by lia. reflexivity. }
    exists p, g. split; [apply H|]. split; [split|].
    - unfold finish; cbn [h_seq]. rewrite (ro_len _ _ _ _ H). fold buf. destruct (echo_prompt c).
      + rewrite W. unfold slice. rewrite Nat.sub_0_r. simpl skipn. apply firstn_set_nth_S. lia.
      + unfold slice. rewrite firstn_skipn_comm. replace (length p + (t + 1 - length p)) with (t + 1) by lia.
        rewrite firstn_set_nth_S by lia. rewrite skipn_app. f_equal. rewrite firstn_length. replace (length p - _) with 0 by lia. reflexivity.
    - intros Hin. destruct (G _ Hin) as (j & Hj & E). apply (ro_eos _ _ _ _ H j Hj). exact E.
    - lia.
    - unfold finish; cbn [h_score]. rewrite LW, W, <- Hsc. f_equal. lia.
    - unfold finish; cbn [h_steps]. rewrite (ro_len _ _ _ _ H). set (b := if echo_prompt c then 0 else length p).
      assert (Hb : b <= t) by (unfold b; destruct (echo_prompt c); lia).
      assert (SL : slice b (t + 1 - b) (set_nth t sc (r_sc S D r)) = map (fun k => score i (firstn (k + 1) (whole S c p g))) (seq b (t + 1 - b))).
      { apply nth_ext with (d := zero S) (d' := zero S); [rewrite slice_length, map_length, seq_length; [reflexivity|rewrite set_nth_length; lia]|].
        intros k Hk. rewrite slice_length in Hk by (rewrite set_nth_length; lia). rewrite nth_slice by lia.
        rewrite nth_indep with (l := map _ _) (d' := (fun k => score i (firstn (k + 1) (whole S c p g))) 0) by (rewrite map_length, seq_length; lia).
        rewrite (map_nth (fun k => score i (firstn (k + 1) (whole S c p g)))), seq_nth by lia. rewrite W.
        destruct (Nat.eq_dec (b + k) t) as [E|E].
        - rewrite E, nth_set_nth, Nat.eqb_refl. destruct (Nat.ltb_spec t (length (r_sc S D r))); [|lia]. simpl. rewrite Hsc. f_equal.
          symmetry. apply firstn_all2. rewrite app_length, firstn_length. simpl. lia.
        - rewrite nth_set_nth. destruct (Nat.eqb_spec t (b + k)); [lia|]. simpl. rewrite (ro_good _ _ _ _ H) by lia. f_equal. fold buf.
          rewrite firstn_app, firstn_firstn, Nat.min_l by lia. rewrite firstn_length. replace (_ - _) with 0 by lia. simpl. rewrite app_nil_r. reflexivity. }
      rewrite LW, SL, diffs_spec. apply map_ext_in. intros k Hk. apply in_seq in Hk. unfold step_score. destruct (Nat.eqb_spec k b); [reflexivity|].
      f_equal. f_equal. f_equal. lia.
    - intros R. destruct (Hf R) as [F M]. split.
      + intros v Hv. destruct (G v Hv) as (j & Hj & <-). apply (ro_pad _ _ _ _ H R); lia.
      + lia.
      + rewrite W, <- Hsc. exact F.
  Qed.

  (** ** Candidates *)
  Definition flat (t : nat) (rs : list (row * list (Sc S))) : list (Sc S) :=
    concat (map (fun rl => map (fun x => add S x (nth (t - 1) (r_sc S D (fst rl)) (zero S))) (snd rl)) rs).
  Notation k2 := (Nat.min (2 * B) V).
  Lemma dec_length t i p rl : dec_ok t i p rl -> length (snd rl) = V.
  Proof. intros (_ & _ & E). rewrite E, adjust_length. apply (sd_lprobs _ _ _ _ Hs). Qed.
  Lemma flat_blocks t i p rs : Forall (dec_ok t i p) rs -> Forall (fun l => length l = V) (map (fun rl => map (fun x => add S x (nth (t - 1) (r_sc S D (fst rl)) (zero S))) (snd rl)) rs).
  Proof. intros H. apply Forall_map. eapply Forall_impl; [|exact H]. intros rl Hl. simpl. rewrite map_length. eapply dec_length, Hl. Qed.
  Lemma flat_length t i p rs : Forall (dec_ok t i p) rs -> length (flat t rs) = length rs * V.
  Proof. intros H. unfold flat. rewrite (concat_length_const V) by (eapply flat_blocks, H). rewrite map_length. reflexivity. Qed.
  Lemma flat_nth t i p rs m : Forall (dec_ok t i p) rs -> m < length rs * V ->
    exists rl, nth_error rs (m / V) = Some rl /\ m mod V < V /\ nth m (flat t rs) (ninf S) = add S (nth (t - 1) (r_sc S D (fst rl)) (zero S)) (nth (m mod V) (snd rl) (ninf S)).
  Proof.
    intros H Hm. pose proof (sd_vocab _ _ _ _ Hs) as HV.
    assert (Hd : m / V < length rs) by (apply Nat.div_lt_upper_bound; lia).
    assert (Hmod : m mod V < V) by (apply Nat.mod_upper_bound; lia).
    destruct (nth_error rs (m / V)) as [rl|] eqn:E; [|apply nth_error_None in E; lia]. exists rl. split; [reflexivity|]. split; [exact Hmod|].
    unfold flat. rewrite (nth_concat_const V); [|assumption|eapply flat_blocks, H|rewrite map_length; exact Hm].
    pose proof (map_nth_error (fun rl => map (fun x => add S x (nth (t - 1) (r_sc S D (fst rl)) (zero S))) (snd rl)) _ _ E) as E2.
    rewrite (nth_error_nth _ _ [] E2).
    assert (Ll : length (snd rl) = V). { rewrite Forall_forall in H. eapply dec_length, H, nth_error_In, E. }
    rewrite nth_indep with (d' := add S (ninf S) (nth (t - 1) (r_sc S D (fst rl)) (zero S))) by (rewrite map_length; lia).
    rewrite (map_nth (fun x => add S x (nth (t - 1) (r_sc S D (fst rl)) (zero S)))). apply (add_comm S L).
  Qed.

  (** A candidate: a row of the beam, a token and the score of the sequence with it. *)
  Definition cand_ok (t i : nat) (rs : list (row * list (Sc S))) (x : cand S) : Prop :=
    exists rl, nth_error rs (c_seq S x) = Some rl /\ c_tok S x < V /\
      c_score S x = add S (nth (t - 1) (r_sc S D (fst rl)) (zero S)) (nth (c_tok S x) (snd rl) (ninf S)) /\
      c_score S x = score i (firstn t (r_buf S D (fst rl)) ++ [c_tok S x]).
  Lemma topk_facts t i p rs : rs <> [] -> Forall (dec_ok t i p) rs ->
    length (topk c k2 (flat t rs)) = k2 /\ NoDup (topk c k2 (flat t rs)) /\ (forall m, In m (topk c k2 (flat t rs)) -> m < length rs * V) /\
    StronglySorted (fun a b => leb S (nth b (flat t rs) (ninf S)) (nth a (flat t rs) (ninf S)) = true) (topk c k2 (flat t rs)) /\
    (forall a b, In a (topk c k2 (flat t rs)) -> b < length rs * V -> ~ In b (topk c k2 (flat t rs)) -> leb S (nth b (flat t rs) (ninf S)) (nth a (flat t rs) (ninf S)) = true).
  Proof.
    intros N H. rewrite <- (flat_length t i p rs H). apply (sd_topk _ _ _ _ Hs). rewrite (flat_length t i p rs H).
    destruct rs; [congruence|]. simpl. lia.
  Qed.
  Lemma algo_unfold t rs : algo_step S D c t rs = map (fun m => Cand S (m / V) (m mod V) (nth m (flat t rs) (ninf S))) (topk c k2 (flat t rs)).
  Proof. reflexivity. Qed.
  Lemma algo_ok t i p rs x : minp <= t -> 1 <= t < MAX -> rs <> [] -> Forall (dec_ok t i p) rs -> In x (algo_step S D c t rs) -> cand_ok t i rs x.
  Proof.
    intros Hm Ht N H. rewrite algo_unfold, in_map_iff. intros (m & <- & Hin). destruct (topk_facts t i p rs N H) as (_ & _ & R & _).
    destruct (flat_nth t i p rs m H (R m Hin)) as (rl & E1 & E2 & E3). exists rl. cbn [c_seq c_tok c_score]. repeat split; auto.
    rewrite E3. apply (cand_score t i p); auto. rewrite Forall_forall in H. apply H. eapply nth_error_In, E1.
  Qed.
  Lemma row_score_finite t i p rl : reg -> 1 <= t < MAX -> dec_ok t i p rl -> finite S (nth (t - 1) (r_sc S D (fst rl)) (zero S)).
  Proof.
    intros R Ht (H & _). rewrite (ro_good _ _ _ _ H) by lia. replace (t - 1 + 1) with t by lia. apply (ro_fin _ _ _ _ H R). lia.
  Qed.
  (** With enough tokens, no candidate before the last step is banned. *)
  Lemma algo_finite t i p rs x : reg -> 1 <= t < MAX - 1 -> rs <> [] -> Forall (dec_ok t i p) rs -> In x (algo_step S D c t rs) -> finite S (c_score S x).
  Proof.
    intros R Ht N H. rewrite algo_unfold, in_map_iff. intros (m & <- & Hin). cbn [c_score].
    destruct (topk_facts t i p rs N H) as (Lk & ND & Rg & _ & Mx). set (tk := topk c k2 (flat t rs)) in *.
    destruct (finite_dec (nth m (flat t rs) (ninf S))) as [F|F]; [exact F|exfalso].
    destruct rs as [|rl rs]; [congruence|]. assert (Hrl : dec_ok t i p rl) by (inversion H; assumption). pose proof Hrl as (Hro & _ & El).
    destruct (firstn_ne t (fst rl) i p ltac:(lia) Hro) as [Ne Ln].
    destruct (am_enough _ _ _ _ (Hr R) i (firstn t (r_buf S D (fst rl))) Ne) as (l & NDl & Ll & Fl); [rewrite Ln; lia|]. rewrite Ln in Fl.
    assert (FL : forall v, In v l -> v < V /\ finite S (nth v (flat t (rl :: rs)) (ninf S))).
    { intros v Hv. destruct (Fl v Hv) as [Vv Fv]. split; [exact Vv|].
      destruct (flat_nth t i p (rl :: rs) v H) as (rl' & E1 & E2 & E3); [simpl; lia|]. rewrite Nat.div_small in E1 by exact Vv. injection E1 as <-.
      rewrite Nat.mod_small in E3 by exact Vv. rewrite E3. apply (add_finite S L). split; [apply (row_score_finite t i p); auto; lia|]. rewrite El. exact Fv. }
    assert (I : incl l tk).
    { intros v Hv. destruct (FL v Hv) as [Vv Fv]. destruct (in_dec Nat.eq_dec v tk) as [Y|Y]; [exact Y|exfalso].
      apply (finite_leb _ _ Fv F). apply Mx; auto. simpl. lia. }
    pose proof (am_vocab _ _ _ _ (Hr R)) as AV.
    assert (I2 : incl tk l). { apply NoDup_length_incl; auto. rewrite Lk, Ll. lia. }
    destruct (FL m (I2 m Hin)) as [_ Fm]. contradiction.
  Qed.
  (** In the last step the best candidate is EOS. *)
  Lemma algo_last i p rs : reg -> 1 <= MAX - 1 -> rs <> [] -> Forall (dec_ok (MAX - 1) i p) rs ->
    exists x l, algo_step S D c (MAX - 1) rs = x :: l /\ c_tok S x = eos c.
  Proof.
    intros R Ht N H. rewrite algo_unfold. destruct (topk_facts (MAX - 1) i p rs N H) as (Lk & ND & Rg & So & Mx). set (t := MAX - 1) in *.
    pose proof (sd_beam _ _ _ _ Hs) as HB. pose proof (am_eos _ _ _ _ (Hr R)) as HE.
    destruct (topk c k2 (flat t rs)) as [|m tk]; [simpl in Lk; lia|]. eexists _, _. split; [reflexivity|]. cbn [c_tok].
    destruct (Nat.eq_dec (m mod V) (eos c)) as [E|E]; [exact E|exfalso].
    destruct (flat_nth t i p rs m H (Rg m (or_introl eq_refl))) as (rl & E1 & E2 & E3).
    assert (Hrl : dec_ok t i p rl) by (rewrite Forall_forall in H; eapply H, nth_error_In, E1).
    assert (F : ~ finite S (nth m (flat t rs) (ninf S))).
    { rewrite E3, (add_finite S L). intros [_ F]. destruct Hrl as (_ & _ & El). rewrite El in F. rewrite (adjust_last (firstn t (r_buf S D (fst rl))) _ _ E) in F. apply (ninf_not_finite F). }
    destruct rs as [|rl0 rs]; [congruence|]. assert (H0 : dec_ok t i p rl0) by (inversion H; assumption).
    assert (LE : eos c < length (rl0 :: rs) * V) by (simpl; lia).
    assert (F0 : finite S (nth (eos c) (flat t (rl0 :: rs)) (ninf S))).
    { destruct (flat_nth t i p (rl0 :: rs) (eos c) H LE) as (rl' & E1' & E2' & E3'). rewrite Nat.div_small in E1' by exact HE. injection E1' as <-.
      rewrite Nat.mod_small in E3' by exact HE. rewrite E3'. apply (add_finite S L). split; [apply (row_score_finite t i p); auto; unfold t; lia|].
      destruct H0 as (Hro & _ & El). rewrite El. rewrite (adjust_last_eos (firstn t (r_buf S D (fst rl0)))) by (rewrite (sd_lprobs _ _ _ _ Hs); exact HE).
      apply (am_finite _ _ _ _ (Hr R) i (firstn t (r_buf S D (fst rl0)))). apply nth_In. rewrite (sd_lprobs _ _ _ _ Hs). exact HE. }
    apply (finite_leb _ _ F0 F). destruct (in_dec Nat.eq_dec (eos c) (m :: tk)) as [Y|Y].
    - destruct Y as [Y|Y]; [exfalso; apply E; rewrite Y; apply Nat.mod_small, HE|]. inversion So as [|? ? _ SF]. rewrite Forall_forall in SF. apply SF, Y.
    - apply Mx; auto. left; reflexivity.
  Qed.
  (** At most one candidate per row is EOS. *)
  Lemma algo_eos_count t i p rs : rs <> [] -> Forall (dec_ok t i p) rs -> length (filter (fun x => Nat.eqb (c_tok S x) (eos c)) (algo_step S D c t rs)) <= length rs.
  Proof.
    intros N H. rewrite algo_unfold. destruct (topk_facts t i p rs N H) as (_ & ND & Rg & _). set (tk := topk c k2 (flat t rs)) in *.
    pose proof (sd_vocab _ _ _ _ Hs) as HV.
    rewrite filter_map, map_length. cbn [c_tok]. set (f := filter _ tk).
    rewrite <- (map_length (fun m => m / V) f). apply bounded_NoDup.
    - apply NoDup_map_inj; [apply NoDup_filter, ND|]. intros a b Ha Hb E. unfold f in *. apply filter_In in Ha, Hb.
      destruct Ha as [_ Ha], Hb as [_ Hb]. apply Nat.eqb_eq in Ha, Hb.
      rewrite (Nat.div_mod a V), (Nat.div_mod b V) by lia. rewrite E, Ha, Hb. reflexivity.
    - intros x Hx. apply in_map_iff in Hx. destruct Hx as (m & <- & Hm). apply filter_In in Hm. apply Nat.div_lt_upper_bound; [lia|].
      destruct Hm as [Hm _]. specialize (Rg m Hm). lia.
  Qed.

  (** ** Finishing *)
  Lemma nth_set_same {A} i (v d : A) l : i < length l -> nth i (set_nth i v l) d = v.
  Proof. intros H. rewrite nth_set_nth, Nat.eqb_refl. destruct (Nat.ltb_spec i (length l)); [reflexivity|lia]. Qed.
  Lemma nth_set_other {A} i j (v d : A) l : i <> j -> nth j (set_nth i v l) d = nth j l d.
  Proof. intros H. rewrite nth_set_nth. destruct (Nat.eqb_spec i j); [contradiction|reflexivity]. Qed.
  Definition touched (i : nat) (out out' : list (list (hyp S))) : Prop :=
    length out' = length out /\ (forall j, j <> i -> nth j out' [] = nth j out []) /\ Forall (HP i) (nth i out' []).
  Lemma finish_all_ok t i all cs : forall out, i < length out -> Forall (HP i) (nth i out []) -> length (nth i out []) < B ->
    Forall (fun x => exists r, nth_error all (c_seq S x) = Some r /\ r_prompt S D r = i /\ HP i (finish S D c t r (c_score S x))) cs ->
    let '(out', b) := finish_all S D c t all cs out in
    touched i out out' /\ (if b then length (nth i out' []) = B else length (nth i out' []) < B) /\ (cs <> [] -> nth i out' [] <> []).
  Proof.
    assert (AUX : forall cs out, i < length out -> Forall (HP i) (nth i out []) -> length (nth i out []) < B ->
      Forall (fun x => exists r, nth_error all (c_seq S x) = Some r /\ r_prompt S D r = i /\ HP i (finish S D c t r (c_score S x))) cs ->
      let '(out', b) := finish_all S D c t all cs out in
      touched i out out' /\ (if b then length (nth i out' []) = B else length (nth i out' []) < B) /\ length (nth i out []) + (if cs then 0 else 1) <= length (nth i out' [])).
    { induction cs0 as [|x cs0 IH]; intros out Hi Ho Hb H; simpl; [unfold touched; repeat split; auto; lia|].
      inversion H as [|? ? (r & E1 & E2 & E3) H']; subst. rewrite E1.
      set (hs := nth (r_prompt S D r) out [] ++ _). set (out1 := set_nth (r_prompt S D r) hs out).
      assert (N1 : nth (r_prompt S D r) out1 [] = hs) by (apply nth_set_same, Hi).
      assert (Lh : length hs = length (nth (r_prompt S D r) out []) + 1) by (unfold hs; rewrite app_length; reflexivity).
      assert (Fh : Forall (HP (r_prompt S D r)) hs) by (unfold hs; apply Forall_app; split; auto).
      destruct (Nat.eqb_spec (length hs) B).
      - unfold touched. rewrite N1. repeat split; auto; [apply set_nth_length|intros j Hj; apply nth_set_other; auto|lia].
      - specialize (IH out1). rewrite N1 in IH. unfold out1 in IH at 1. rewrite set_nth_length in IH. specialize (IH Hi Fh ltac:(lia) H').
        destruct (finish_all S D c t all cs0 out1) as [out' b]. destruct IH as ((A1 & A2 & A3) & A4 & A5). unfold touched. repeat split; auto.
        + rewrite A1. apply set_nth_length.
        + intros j Hj. rewrite A2 by assumption. apply nth_set_other; auto.
        + lia. }
    intros out Hi Ho Hb H. specialize (AUX cs out Hi Ho Hb H). destruct (finish_all S D c t all cs out) as [out' b]. destruct AUX as (A & A2 & A3). repeat split; try apply A; auto.
    intros N E. destruct cs; [congruence|]. rewrite E in A3. simpl in A3. lia.
  Qed.

  (** ** One beam *)
  Definition next_ok (t i : nat) (p : list nat) (all : list row) (l : list (cand S)) : Prop :=
    length l <= B /\ (t < length p -> length l = 1) /\
    Forall (fun x => exists r, nth_error all (c_seq S x) = Some r /\ row_ok (t + 1) i p (sel t x r) /\ ds_at t (sel t x r)) l.
  Lemma search_beam_ok t off i p all b out : minp <= t -> 1 <= t < MAX -> b <> [] -> length b <= B -> (t < length p -> length b = 1) ->
    Forall (dec_ok t i p) b -> (forall k rl, nth_error b k = Some rl -> nth_error all (off + k) = Some (fst rl)) ->
    i < length out -> Forall (HP i) (nth i out []) -> length (nth i out []) < B ->
    match search_beam S D c prompts t off all b out with
    | InternalError _ => False
    | Ok _ (out', next) =>
        touched i out out' /\ (reg -> t = MAX - 1 -> nth i out' [] <> []) /\
        match next with
        | None => length (nth i out' []) = B
        | Some l => length (nth i out' []) < B /\ next_ok t i p all l /\ (reg -> l <> [])
        end
    end.
  Proof.
    intros Hm Ht Nb Lb Lb1 Hb Hall Hi Ho HoB. pose proof max_bounds as MB. pose proof (sd_beam _ _ _ _ Hs) as HB1. pose proof (sd_vocab _ _ _ _ Hs) as HV1.
    assert (HH : exists rl0 b', b = rl0 :: b') by (destruct b as [|x y]; [congruence|eauto]). destruct HH as (rl0 & b' & Eb).
    assert (H0 : dec_ok t i p rl0) by (subst b; inversion Hb; assumption).
    pose proof H0 as (Hro0 & Hds0 & El0). pose proof (prompt_bounds i p (ro_prompt _ _ _ _ Hro0)) as PB.
    assert (A0 : nth_error all off = Some (fst rl0)) by (rewrite <- (Nat.add_0_r off); apply Hall; subst b; reflexivity).
    assert (IP : ((t <? maxp) && match nth_error all off with Some r => t <? r_len S D r | None => false end) = (t <? length p)).
    { rewrite A0, (ro_len _ _ _ _ Hro0). destruct (Nat.ltb_spec t (length p)); [|apply andb_false_r]. destruct (Nat.ltb_spec t maxp); [reflexivity|lia]. }
    unfold search_beam. rewrite IP. clear IP. destruct (Nat.ltb_spec t (length p)) as [Hp|Hp].
    - (* in the prompt *)
      specialize (Lb1 Hp). rewrite Eb in *. destruct b' as [|]; [|simpl in Lb1; lia]. destruct rl0 as [r lp]. cbn [fst snd] in *.
      set (x := Cand S off _ _).
      assert (Sx : c_score S x = score i (firstn t (r_buf S D r) ++ [c_tok S x])) by (apply (cand_score t i p (r, lp)); auto).
      assert (Tk : c_tok S x = nth t p 0).
      { cbn [x c_tok]. rewrite <- (ro_pre _ _ _ _ Hro0) at 1. rewrite nth_firstn' by exact Hp. reflexivity. }
      split; [unfold touched; auto|]. split; [intros _ E; lia|]. split; [exact HoB|]. split; [|discriminate].
      unfold next_ok. split; [simpl; lia|]. split; [reflexivity|]. constructor; [|constructor]. exists r. split; [exact A0|].
      apply sel_ok; auto; try lia. intros R HM. split; [|lia].
      assert (Ff : firstn t (r_buf S D r) ++ [c_tok S x] = firstn (t + 1) p).
      { rewrite (firstn_S t 0 p) by exact Hp. rewrite Tk. f_equal. rewrite <- (ro_pre _ _ _ _ Hro0) at 1. rewrite firstn_firstn, Nat.min_l by lia. reflexivity. }
      rewrite Sx, Ff. apply prompt_score_finite; auto; [apply Hro0|lia].
    - (* after the prompt *)
      set (next := map (fun x => Cand S (c_seq S x + off) (c_tok S x) (c_score S x)) (algo_step S D c t b)).
      set (is_eos := fun x : cand S => Nat.eqb (c_tok S x) (eos c)).
      assert (Hcand : forall x, In x next -> exists rl, In rl b /\ nth_error all (c_seq S x) = Some (fst rl) /\ c_score S x = score i (firstn t (r_buf S D (fst rl)) ++ [c_tok S x]) /\
                c_score S x = add S (nth (t - 1) (r_sc S D (fst rl)) (zero S)) (nth (c_tok S x) (snd rl) (ninf S)) /\ (reg -> t < MAX - 1 -> finite S (c_score S x))).
      { intros x Hx. unfold next in Hx. apply in_map_iff in Hx. destruct Hx as (y & <- & Hy). cbn [c_seq c_tok c_score].
        destruct (algo_ok t i p b y Hm Ht Nb Hb Hy) as (rl & E1 & E2 & E3 & E4). exists rl. split; [eapply nth_error_In, E1|]. rewrite Nat.add_comm.
        repeat split; auto. intros R HM. apply (algo_finite t i p b y); auto; lia. }
      assert (Hdec : forall rl, In rl b -> dec_ok t i p rl) by (rewrite Forall_forall in Hb; exact Hb).
      assert (Hsel : forall x, In x next -> is_eos x = false -> exists r, nth_error all (c_seq S x) = Some r /\ row_ok (t + 1) i p (sel t x r) /\ ds_at t (sel t x r)).
      { intros x Hx He. destruct (Hcand x Hx) as (rl & I1 & E1 & E2 & E3 & E4). pose proof (Hdec rl I1) as (D1 & D2 & D3). exists (fst rl). split; [exact E1|].
        unfold is_eos in He. apply Nat.eqb_neq in He. apply sel_ok; auto; try lia. intros R HM. assert (F : finite S (c_score S x)) by (apply E4; auto; lia). split; [exact F|].
        intros _ Ep. rewrite E3, (add_finite S L) in F. destruct F as [_ F]. rewrite D3, (adjust_pad t _ _ _ ltac:(lia) Ep) in F. apply (ninf_not_finite F). }
      assert (Hfin : forall x, In x next -> is_eos x = true -> exists r, nth_error all (c_seq S x) = Some r /\ r_prompt S D r = i /\ HP i (finish S D c t r (c_score S x))).
      { intros x Hx He. destruct (Hcand x Hx) as (rl & I1 & E1 & E2 & E3 & E4). pose proof (Hdec rl I1) as D0. pose proof D0 as (D1 & D2 & D3). exists (fst rl). split; [exact E1|]. split; [apply D1|].
        unfold is_eos in He. apply Nat.eqb_eq in He. rewrite He in E2, E3. apply (finish_ok t i p); auto. intros R.
        destruct (Nat.eq_dec t (MAX - 1)) as [Em|Em].
        - split; [|lia]. rewrite E3. apply (add_finite S L). split; [apply (row_score_finite t i p); auto|]. rewrite D3. rewrite Em at 1.
          rewrite adjust_last_eos by (rewrite (sd_lprobs _ _ _ _ Hs); apply (am_eos _ _ _ _ (Hr R))).
          apply (am_finite _ _ _ _ (Hr R) i (firstn t (r_buf S D (fst rl)))). apply nth_In. rewrite (sd_lprobs _ _ _ _ Hs). apply (am_eos _ _ _ _ (Hr R)).
        - assert (F : finite S (c_score S x)) by (apply E4; auto; lia). split; [exact F|].
          destruct (Nat.le_gt_cases MIN (t + 1)) as [Y|Y]; [exact Y|exfalso]. rewrite E3, (add_finite S L) in F. destruct F as [_ F].
          rewrite D3, adjust_min in F by lia. apply (ninf_not_finite F). }
      destruct (topk_facts t i p b Nb Hb) as (Lk & _).
      assert (Ln : length next = k2) by (unfold next; rewrite map_length, algo_unfold, map_length; exact Lk).
      assert (Last : reg -> t = MAX - 1 -> filter is_eos (firstn B next) <> []).
      { intros R Em. rewrite Em in Hb. destruct (algo_last i p b R ltac:(lia) Nb Hb) as (x & l & E1 & E2). unfold next. rewrite Em, E1. destruct (beam_size c) as [|n]; [lia|].
        cbn [map firstn filter]. unfold is_eos at 1. cbn [c_tok]. rewrite E2, Nat.eqb_refl. discriminate. }
      set (done := filter is_eos (firstn B next)) in *.
      assert (Hdone : Forall (fun x => exists r, nth_error all (c_seq S x) = Some r /\ r_prompt S D r = i /\ HP i (finish S D c t r (c_score S x))) done).
      { apply Forall_forall. intros x Hx. unfold done in Hx. apply filter_In in Hx. destruct Hx as [Hx He]. apply Hfin; auto. eapply In_firstn, Hx. }
      destruct done as [|d ds] eqn:Ed.
      + split; [unfold touched; auto|]. split; [intros R Em; destruct (Last R Em eq_refl)|]. split; [exact HoB|]. split.
        * unfold next_ok. split; [rewrite firstn_length; lia|]. split; [lia|]. apply Forall_forall. intros x Hx. apply Hsel; [eapply In_firstn, Hx|].
          destruct (is_eos x) eqn:He; [|reflexivity]. exfalso. assert (X : In x done) by (unfold done; apply filter_In; auto). rewrite Ed in X. destruct X.
        * intros R E. apply (f_equal (@length _)) in E. rewrite firstn_length, Ln in E. simpl in E. lia.
      + pose proof (finish_all_ok t i all (d :: ds) out Hi Ho HoB Hdone) as FA. destruct (finish_all S D c t all (d :: ds) out) as [out' fin].
        destruct FA as (T1 & T2 & T3). destruct fin.
        * split; [exact T1|]. split; [intros _ _; apply T3; discriminate|exact T2].
        * split; [exact T1|]. split; [intros _ _; apply T3; discriminate|]. split; [exact T2|]. split.
          -- unfold next_ok. split; [rewrite firstn_length; lia|]. split; [lia|]. apply Forall_forall. intros x Hx. apply In_firstn, filter_In in Hx. destruct Hx as [Hx He].
             apply Hsel; auto. apply negb_true_iff. exact He.
          -- intros R E. apply (f_equal (@length _)) in E. rewrite firstn_length in E. change (length (@nil (cand S))) with 0 in E.
             pose proof (filter_all_length is_eos next) as FL. rewrite Ln in FL.
             assert (C : length (filter is_eos next) <= length b).
             { unfold next. rewrite filter_map, map_length. apply (algo_eos_count t i p b Nb Hb). }
             pose proof (am_vocab _ _ _ _ (Hr R)). set (q := length (filter (fun x => negb (is_eos x)) next)) in FL. change (Nat.min B q = 0) in E. lia.
  Qed.

  (** ** All beams *)
  Definition beam_ok (t : nat) (ip : nat * list nat) (b : list row) : Prop :=
    b <> [] /\ length b <= B /\ (t < length (snd ip) -> length b = 1) /\ Forall (fun r => row_ok t (fst ip) (snd ip) r /\ ds_at (t - 1) r) b.
  Definition dbeam_ok (t : nat) (ip : nat * list nat) (b : list (row * list (Sc S))) : Prop :=
    b <> [] /\ length b <= B /\ (t < length (snd ip) -> length b = 1) /\ Forall (dec_ok t (fst ip) (snd ip)) b.

  Lemma select_app t all l1 l2 : select S D t all (l1 ++ l2) = select S D t all l1 ++ select S D t all l2.
  Proof. induction l1 as [|x l1 IH]; simpl; [reflexivity|]. destruct (nth_error all (c_seq S x)); simpl; rewrite IH; reflexivity. Qed.
  Lemma select_ok t i p all l : next_ok t i p all l -> l <> [] ->
    beam_ok (t + 1) (i, p) (select S D t all l) /\ length (select S D t all l) = length l.
  Proof.
    intros (H1 & H2 & H3) N.
    assert (A : length (select S D t all l) = length l /\ Forall (fun r => row_ok (t + 1) i p r /\ ds_at t r) (select S D t all l)).
    { clear H1 H2 N. induction H3 as [|x l (r & E1 & E2 & E3) _ [IH1 IH2]]; simpl; [auto|]. rewrite E1. simpl. split; [lia|]. constructor; auto. }
    destruct A as [A1 A2]. split; [|exact A1]. unfold beam_ok. cbn [fst snd]. rewrite A1. split; [intros E; rewrite E in A1; destruct l; [congruence|simpl in A1; lia]|].
    split; [exact H1|]. split; [intros; apply H2; lia|]. replace (t + 1 - 1) with t by lia. exact A2.
  Qed.

  Lemma search_all_ok t all : minp <= t -> 1 <= t < MAX -> forall ips beams, Forall2 (dbeam_ok t) ips beams -> forall pre out,
    NoDup (map fst ips) -> all = pre ++ map fst (concat beams) ->
    (forall i, In i (map fst ips) -> i < length out /\ Forall (HP i) (nth i out []) /\ length (nth i out []) < B) ->
    match search_all S D c prompts t (length pre) all (map (@length _) beams) (concat beams) out with
    | InternalError _ => ~ reg
    | Ok _ (out', ns, cs) =>
        exists ips' beams', Forall2 (beam_ok (t + 1)) ips' beams' /\ select S D t all cs = concat beams' /\ ns = map (@length _) beams' /\
          NoDup (map fst ips') /\ incl (map fst ips') (map fst ips) /\ length out' = length out /\
          (forall j, ~ In j (map fst ips) -> nth j out' [] = nth j out []) /\
          (forall j, In j (map fst ips) -> Forall (HP j) (nth j out' []) /\ (In j (map fst ips') -> length (nth j out' []) < B) /\
             (~ In j (map fst ips') -> length (nth j out' []) = B) /\ (reg -> t = MAX - 1 -> nth j out' [] <> []))
    end.
  Proof.
    intros Hm Ht. induction 1 as [|[i p] b ips beams Hb Hbs IH]; intros pre out ND Ea Ho.
    - simpl. exists [], []. simpl. repeat split; auto; try constructor; try (intros j []); contradiction.
    - cbn [map concat] in *. cbn [search_all]. destruct Hb as (N1 & N2 & N3 & N4). cbn [fst snd] in *.
      inversion ND as [|? ? ND1 ND2]; subst x l. destruct (Ho i (or_introl eq_refl)) as (O1 & O2 & O3).
      rewrite firstn_app, Nat.sub_diag, firstn_all, firstn_O, app_nil_r. rewrite skipn_app, Nat.sub_diag, skipn_all, app_nil_l, skipn_O.
      assert (Hall : forall k rl, nth_error b k = Some rl -> nth_error all (length pre + k) = Some (fst rl)).
      { intros k rl E. rewrite Ea, nth_error_app2 by lia. replace (length pre + k - length pre) with k by lia. rewrite map_app.
        rewrite nth_error_app1 by (rewrite map_length; apply nth_error_Some; congruence). apply map_nth_error. exact E. }
      pose proof (search_beam_ok t (length pre) i p all b out Hm Ht N1 N2 N3 N4 Hall O1 O2 O3) as SB.
      destruct (search_beam S D c prompts t (length pre) all b out) as [[out1 next]|]; [|contradiction].
      destruct SB as ((T1 & T2 & T3) & SL & SN).
      assert (Ho1 : forall j, In j (map fst ips) -> j < length out1 /\ Forall (HP j) (nth j out1 []) /\ length (nth j out1 []) < B).
      { intros j Hj. rewrite T1. rewrite T2 by (intros ->; contradiction). apply Ho. right. exact Hj. }
      assert (Ea1 : all = (pre ++ map fst b) ++ map fst (concat beams)) by (rewrite Ea, map_app, app_assoc; reflexivity).
      assert (Lp : length pre + length b = length (pre ++ map fst b)) by (rewrite app_length, map_length; reflexivity).
      specialize (IH (pre ++ map fst b) out1 ND2 Ea1 Ho1). rewrite <- Lp in IH.
      destruct next as [l|].
      + destruct SN as (SN1 & SN2 & SN3). destruct l as [|x l]; [intros R; apply (SN3 R); reflexivity|]. set (lx := x :: l) in *.
        destruct (search_all S D c prompts t (length pre + length b) all (map (@length _) beams) (concat beams) out1) as [[[out' ns] cs]|]; [|exact IH].
        destruct IH as (ips' & beams' & I1 & I2 & I3 & I4 & I5 & I6 & I7 & I8).
        destruct (select_ok t i p all lx SN2 ltac:(discriminate)) as [Q1 Q2].
        exists ((i, p) :: ips'), (select S D t all lx :: beams'). repeat split.
        * constructor; assumption.
        * rewrite select_app, I2. reflexivity.
        * cbn [map]. rewrite Q2, I3. reflexivity.
        * cbn [map fst]. constructor; auto.
        * cbn [map fst]. intros j [<-|Hj]; [left; reflexivity|right; auto].
        * lia.
        * intros j Hj. cbn [map fst] in Hj. rewrite I7, T2; auto; intros Q; apply Hj; [left|right]; auto.
        * destruct H as [E|Hj]; [cbn [fst] in E; subst j; rewrite I7 by exact ND1; exact T3|apply I8, Hj].
        * destruct H as [E|Hj]; [cbn [fst] in E; subst j; intros _; rewrite I7 by exact ND1; exact SN1|].
          intros [E|Hi]; [cbn [fst] in E; subst j; contradiction|apply I8; assumption].
        * destruct H as [E|Hj]; [cbn [fst] in E; subst j; intros Q; destruct Q; left; reflexivity|]. intros Q. apply I8; [exact Hj|]. intros Q1'. apply Q. right. exact Q1'.
        * destruct H as [E|Hj]; [cbn [fst] in E; subst j; rewrite I7 by exact ND1; exact SL|apply I8, Hj].
      + destruct (search_all S D c prompts t (length pre + length b) all (map (@length _) beams) (concat beams) out1) as [[[out' ns] cs]|]; [|exact IH].
        destruct IH as (ips' & beams' & I1 & I2 & I3 & I4 & I5 & I6 & I7 & I8).
        exists ips', beams'. repeat split; auto.
        * cbn [map fst]. intros j Hj. right. auto.
        * lia.
        * intros j Hj. cbn [map fst] in Hj. rewrite I7, T2; auto; intros Q; apply Hj; [left|right]; auto.
        * destruct H as [E|Hj]; [cbn [fst] in E; subst j; rewrite I7 by exact ND1; exact T3|apply I8, Hj].
        * destruct H as [E|Hj]; [cbn [fst] in E; subst j|apply I8; assumption]. intros Q. destruct (ND1 (I5 _ Q)).
        * destruct H as [E|Hj]; [cbn [fst] in E; subst j; intros _; rewrite I7 by exact ND1; exact SN|apply I8; assumption].
        * destruct H as [E|Hj]; [cbn [fst] in E; subst j; rewrite I7 by exact ND1; exact SL|apply I8, Hj].
  Qed.

  (** ** The loop *)
  Record state_ok (t : nat) (s : state S D) : Prop := {
    so_beams : exists ips beams, rows S D s = concat beams /\ beam_sizes S D s = map (@length _) beams /\ Forall2 (beam_ok t) ips beams /\ NoDup (map fst ips) /\
      forall i, i < length prompts -> (In i (map fst ips) -> length (nth i (output S D s) []) < B) /\ (~ In i (map fst ips) -> length (nth i (output S D s) []) = B);
    so_len : length (output S D s) = length prompts;
    so_hyps : forall i, i < length prompts -> Forall (HP i) (nth i (output S D s) []) }.
  (** All prompts have hypotheses. *)
  Definition final (s : state S D) : Prop :=
    length (output S D s) = length prompts /\
    forall i, i < length prompts -> Forall (HP i) (nth i (output S D s) []) /\ length (nth i (output S D s) []) <= B /\ (reg -> nth i (output S D s) [] <> []).

  Lemma decode_beams t ips beams : 1 <= t < MAX -> Forall2 (beam_ok t) ips beams -> Forall2 (dbeam_ok t) ips (map (map (decode_row S D c prompts t)) beams).
  Proof.
    intros Ht. induction 1 as [|ip b ips beams (H1 & H2 & H3 & H4) _ IH]; simpl; constructor; auto. unfold dbeam_ok. rewrite map_length.
    split; [destruct b; [congruence|discriminate]|]. split; [exact H2|]. split; [exact H3|]. apply Forall_map. eapply Forall_impl; [|exact H4].
    intros r [A1 A2]. apply decode_ok; assumption.
  Qed.

  Lemma step_ok t s : minp <= t -> 1 <= t < MAX -> state_ok t s ->
    match step S D c prompts t s with
    | InternalError _ => ~ reg
    | Ok _ (s', true) => state_ok (t + 1) s' /\ (t = MAX - 1 -> final s')
    | Ok _ (s', false) => final s'
    end.
  Proof.
    intros Hm Ht [(ips & beams & E1 & E2 & E3 & E4 & E5) Lo Hh]. unfold step. rewrite E1, E2, concat_map.
    pose proof (decode_beams t ips beams Ht E3) as DB.
    assert (ML : map (@length _) beams = map (@length _) (map (map (decode_row S D c prompts t)) beams)).
    { rewrite map_map. apply map_ext. intros b. rewrite map_length. reflexivity. }
    rewrite ML. set (dbeams := map (map (decode_row S D c prompts t)) beams) in *. set (all := map fst (concat dbeams)).
    assert (IB : forall i, In i (map fst ips) -> i < length prompts).
    { intros i Hi. apply in_map_iff in Hi. destruct Hi as ([i' p] & <- & Hin). simpl. clear -E3 Hin Hs Hlen. induction E3 as [|ip b ips beams (H1 & _ & _ & H4) _ IH]; [destruct Hin|].
      destruct Hin as [->|Hin]; [|auto]. destruct b as [|r b]; [congruence|]. inversion H4 as [|? ? [HR _] _]. apply (prompt_bounds i' p (ro_prompt _ _ _ _ HR)). }
    pose proof (search_all_ok t all Hm Ht ips dbeams DB [] (output S D s) E4 eq_refl) as SA.
    assert (P : forall i, In i (map fst ips) -> i < length (output S D s) /\ Forall (HP i) (nth i (output S D s) []) /\ length (nth i (output S D s) []) < B).
    { intros i Hi. rewrite Lo. split; [auto|]. split; [apply Hh; auto|]. apply E5; auto. }
    specialize (SA P). change (length (@nil row)) with 0 in SA.
    destruct (search_all S D c prompts t 0 all (map (@length _) dbeams) (concat dbeams) (output S D s)) as [[[out' ns] cs]|]; [|exact SA].
    destruct SA as (ips' & beams' & I1 & I2 & I3 & I4 & I5 & I6 & I7 & I8).
    assert (HH : forall i, i < length prompts -> Forall (HP i) (nth i out' []) /\ (In i (map fst ips') -> length (nth i out' []) < B) /\ (~ In i (map fst ips') -> length (nth i out' []) = B) /\ (reg -> t = MAX - 1 -> nth i out' [] <> [])).
    { intros i Hi. destruct (in_dec Nat.eq_dec i (map fst ips)) as [Y|Y]; [apply I8, Y|]. rewrite I7 by exact Y. split; [apply Hh, Hi|].
      split; [intros Q; destruct (Y (I5 _ Q))|]. split; [intros _; apply E5; auto|]. intros _ _ Q. destruct (E5 i Hi) as [_ E6]. specialize (E6 Y). rewrite Q in E6. simpl in E6. pose proof (sd_beam _ _ _ _ Hs). lia. }
    destruct ns as [|n ns].
    - destruct beams' as [|]; [|discriminate]. inversion I1; subst ips'. unfold final. cbn [output]. split; [lia|]. intros i Hi. destruct (HH i Hi) as (A1 & A2 & A3 & A4).
      split; [exact A1|]. specialize (A3 (fun x => x)). split; [lia|]. intros _ Q. rewrite Q in A3. simpl in A3. pose proof (sd_beam _ _ _ _ Hs). lia.
    - split.
      + split; cbn [output rows beam_sizes].
        * exists ips', beams'. repeat split; auto; apply HH; assumption.
        * lia.
        * intros i Hi. apply HH, Hi.
      + intros Em. unfold final. cbn [output]. split; [lia|]. intros i Hi. destruct (HH i Hi) as (A1 & A2 & A3 & A4). split; [exact A1|]. split; [|auto].
        destruct (in_dec Nat.eq_dec i (map fst ips')) as [Y|Y]; [specialize (A2 Y)|specialize (A3 Y)]; lia.
  Qed.

  Lemma loop_ok n : forall t s, minp <= t -> 1 <= t -> t + n = MAX -> 1 <= n -> state_ok t s ->
    match loop S D c prompts (seq t n) s with InternalError _ => ~ reg | Ok _ s' => final s' end.
  Proof.
    induction n as [|n IH]; intros t s Hm Ht Hn Hn1 H; [lia|]. cbn [seq loop]. pose proof (step_ok t s Hm ltac:(lia) H) as SO.
    destruct (step S D c prompts t s) as [[s' []]|]; [|exact SO|exact SO]. destruct SO as [S1 S2]. destruct n as [|n].
    - simpl. apply S2. lia.
    - specialize (IH (Datatypes.S t) s'). rewrite <- (Nat.add_1_r t) in *. apply IH; auto; lia.
  Qed.

  (** ** The beginning *)
  Lemma init_rows_ok : prompts <> [] -> Forall2 (fun ip r => row_ok minp (fst ip) (snd ip) r /\ ds_at (minp - 1) r) (combine (seq 0 (length prompts)) prompts) (prepare S D c prompts (mapi (init_row S D c prompts) prompts)).
  Proof.
    intros N. pose proof max_bounds as MB. destruct args as (_ & _ & _ & Hc). pose proof (min_prompt_pos prompts N (sd_prompts _ _ _ _ Hs)) as MP.
    assert (A : forall ps a, (forall k p, nth_error ps k = Some p -> nth_error prompts (a + k) = Some p) ->
      Forall2 (fun ip r => r_prompt S D r = fst ip /\ r_len S D r = length (snd ip) /\ length (r_buf S D r) = MAX /\ length (r_sc S D r) = MAX /\ firstn (length (snd ip)) (r_buf S D r) = snd ip /\ nth_error prompts (fst ip) = Some (snd ip) /\
                 nth 0 (r_sc S D r) (zero S) = zero S /\ r_ds S D r = start D (r_prompt S D r)) (combine (seq a (length ps)) ps) (mapi_from (init_row S D c prompts) a ps)).
    { induction ps as [|p ps IH]; intros a Ha; simpl; constructor.
      - unfold init_row; cbn [r_prompt r_len r_buf r_sc r_ds fst snd]. assert (E : nth_error prompts a = Some p) by (rewrite <- (Nat.add_0_r a); apply Ha; reflexivity).
        pose proof (prompt_bounds a p E) as PB. repeat split; auto.
        + rewrite app_length, map_length, seq_length. lia.
        + apply repeat_length.
        + rewrite firstn_app, Nat.sub_diag, firstn_all. simpl. apply app_nil_r.
        + apply nth_repeat.
      - apply IH. intros k q E. replace (Datatypes.S a + k) with (a + Datatypes.S k) by lia. apply Ha. exact E. }
    specialize (A prompts 0 (fun k p E => E)). fold (mapi (init_row S D c prompts) prompts) in A.
    set (ips := combine (seq 0 (length prompts)) prompts) in *. set (rs := mapi (init_row S D c prompts) prompts) in *.
    assert (P : Forall2 (ready S D c prompts minp) rs (prepare S D c prompts rs)).
    { apply prepare_ok; auto. apply Forall_forall. intros r Hr'. destruct (Forall2_in_r _ _ _ A r Hr') as (ip & _ & B1 & B2 & B3 & B4 & B5 & B6 & B7 & B8).
      pose proof (prompt_bounds _ _ B6). repeat split; auto; lia. }
    clearbody rs ips. revert P. generalize (prepare S D c prompts rs). intros rs' P. revert ips A. induction P as [|r r' rs rs' H _ IH]; intros ips A; inversion A as [|x ? ips0 ? HX HXs]; subst; constructor; auto.
    destruct H as (R1 & R2 & R3 & R4 & R5 & R6). destruct HX as (B1 & B2 & B3 & B4 & B5 & B6 & B7 & B8). pose proof (prompt_bounds _ _ B6) as PB. split.
    - split; auto; try congruence; rewrite ?R3.
      + intros j Hj. lia.
      + rewrite <- B1. exact R6.
      + intros R HM. assert (E : firstn minp (r_buf S D r) = firstn minp (snd x)) by (rewrite <- B5 at 1; rewrite firstn_firstn, Nat.min_l by lia; reflexivity).
        rewrite E. apply prompt_score_finite; auto. lia.
      + intros _ _ j Hj. lia.
    - unfold ds_at. rewrite R1, R3. exact R5.
  Qed.

  Lemma init_ok : prompts <> [] -> state_ok minp (init_state S D c prompts).
  Proof.
    intros N. pose proof (init_rows_ok N) as A. unfold init_state. set (rs := prepare S D c prompts (mapi (init_row S D c prompts) prompts)) in *.
    set (ips := combine (seq 0 (length prompts)) prompts) in *.
    assert (Fi : map fst ips = seq 0 (length prompts)) by (unfold ips; apply map_fst_combine; rewrite seq_length; reflexivity).
    assert (No : forall i, nth i (map (fun _ : list nat => @nil (hyp S)) prompts) [] = []).
    { intros i. exact (map_nth (fun _ : list nat => @nil (hyp S)) prompts [] i). }
    pose proof (sd_beam _ _ _ _ Hs) as HB. split; cbn [rows beam_sizes output].
    - exists ips, (map (fun r => [r]) rs). repeat split.
      + clear. induction rs; simpl; congruence.
      + assert (length prompts = length rs). { apply Forall2_len in A. rewrite <- A. unfold ips. rewrite combine_length, seq_length. lia. }
        clear -H. revert H. generalize prompts. induction rs as [|r rs IH]; intros [|p ps] H; simpl in *; try lia; [reflexivity|]. f_equal. apply IH. lia.
      + clear -A HB. induction A as [|ip r ips rs H _ IH]; simpl; constructor; auto. unfold beam_ok. repeat split; auto; discriminate.
      + rewrite Fi. apply seq_NoDup.
      + intros _. rewrite No. simpl. lia.
      + intros Q. destruct Q. rewrite Fi. apply in_seq. lia.
    - apply map_length.
    - intros i Hi. rewrite No. constructor.
  Qed.

  Lemma generate_ok : prompts <> [] ->
    match generate S D c prompts with
    | Hyps _ out => exists s, final s /\ out = map (sort_hyps S) (output S D s)
    | PromptTooLong _ => False
    | Broken _ => ~ reg
    end.
  Proof.
    intros N. unfold generate. destruct (Nat.leb_spec (cfg_max_seq_len c) maxp); [lia|]. pose proof max_bounds as MB.
    pose proof (min_prompt_pos prompts N (sd_prompts _ _ _ _ Hs)) as MP.
    assert (minp <= maxp). { destruct prompts as [|p ps]; [congruence|]. pose proof (min_prompt_le (p :: ps) p (or_introl eq_refl)). pose proof (max_prompt_ge (p :: ps) p (or_introl eq_refl)). lia. }
    pose proof (loop_ok (MAX - minp) minp (init_state S D c prompts) ltac:(lia) MP ltac:(lia) ltac:(lia) (init_ok N)) as LO.
    destruct (loop S D c prompts _ _) as [s|]; [|exact LO]. exists s. auto.
  Qed.
End Beam.
