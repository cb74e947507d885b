(** C59: attention of batches. *)
From Coq Require Import ZArith List Bool Arith Lia Reals Lra.
From Verif Require Import Batch_Model Batch_Spec Batch_Props Pos_Spec Bias_Model Bias_Spec Bias_Proofs.
Import ListNotations.

Lemma layout_flag sh le p y : batch_layout sh le p = Batch_Model.Ok y -> packed y = p.
Proof. destruct p; intros H; [apply (layout_packed _ _ _ H)|apply (layout_padded _ _ _ H)]. Qed.
Lemma lens_length y : length (nat_lens y) = length (seq_lens y).
Proof. unfold nat_lens. apply map_length. Qed.
Lemma good_none h qsh qle qy ksh kle ky : batch_layout qsh qle false = Batch_Model.Ok qy -> batch_layout ksh kle false = Batch_Model.Ok ky -> length (seq_lens qy) = length (seq_lens ky) ->
  padded ky = false -> good NoBias h qy ky (fun _ _ _ => Some 0%R).
Proof.
  intros Hq Hk El Pk. split; [intros; cbn [bias_row]; eauto|]. intros s p Hs Hp. rewrite (layout_flag _ _ _ _ Hq). cbv zeta. cbn [bias_row]. eexists. split; [reflexivity|].
  split; [reflexivity|]. intros j Hj [Q|Q]; [lia|]. destruct (layout_padded _ _ _ Hk) as (_ & _ & _ & _ & Wk & _). specialize (Wk Pk). rewrite Forall_forall in Wk.
  assert (Hs2 : s < length (nat_lens ky)) by (rewrite lens_length; lia). specialize (Wk _ (nth_In _ 0 Hs2)). lia.
Qed.
Lemma good_ext tb h qsh qle qp qy ky e e' : batch_layout qsh qle qp = Batch_Model.Ok qy -> good tb h qy ky e ->
  (forall s p j, s < length (seq_lens qy) -> p < nth s (nat_lens qy) 0 -> j < nth s (nat_lens ky) 0 -> e s p j = e' s p j) -> good tb h qy ky e'.
Proof.
  intros Hq [G1 G2] H. split; [exact G1|]. intros s p Hs Hp. specialize (G2 s p Hs Hp). cbv zeta in *. destruct (packed qy); destruct G2 as (r & Er & R1 & R2);
    (exists r; split; [exact Er|]; split; [|exact R2]; intros j Hj; rewrite (R1 j Hj); now apply H).
Qed.

(** Which biases are made of one row of zeros for a query alone. *)
Definition plain (b : bias) (qy ky : layout) : Prop :=
  match b with Identity => True | Causal (Some w) => 1 <= w | Causal None => True | Chunked _ => seq_lens qy = seq_lens ky | ALiBi n => n = 1 end.
(** A batch of queries of length 1 is not padded, nor are the keys. *)
Definition steps_whole (b : bias) (qy ky : layout) : Prop :=
  match b with Causal _ | Chunked _ => packed qy = true \/ max_len qy <> 1%Z \/ padded qy = false /\ padded ky = false | _ => True end.

Lemma create_plain b qy ky s : plain b qy ky -> exists t, create b (nth s (nat_lens qy) 0) (nth s (nat_lens ky) 0) = Bias_Model.Ok t /\ flat t.
Proof.
  destruct b as [|w|n|n]; cbn [plain create]; intros P.
  - eexists. split; reflexivity.
  - eexists. split; reflexivity.
  - unfold nat_lens. rewrite P, Nat.eqb_refl. cbn [negb]. eexists. split; reflexivity.
  - subst n. eexists. split; reflexivity.
Qed.
Definition shortcut (b : bias) (qy ky : layout) : bool :=
  match b with
  | Identity => negb (packed qy) && negb (padded qy) && (negb (packed ky) && negb (padded ky))
  | Causal _ | Chunked _ => negb (packed qy) && (max_len qy =? 1)%Z
  | ALiBi _ => false
  end.
Lemma naive_ok {Q K} score value b h qsh qle qp qy ksh kle kp ky (qs : list (list Q)) (ks : list (list K)) :
  batch_layout qsh qle qp = Batch_Model.Ok qy -> batch_layout ksh kle kp = Batch_Model.Ok ky -> packed qy = packed ky -> length (seq_lens qy) = length (seq_lens ky) -> seq_lens qy <> [] ->
  fits qy qs -> fits ky ks -> steps_whole b qy ky ->
  (forall s, s < length (seq_lens qy) -> exists t, create b (nth s (nat_lens qy) 0) (nth s (nat_lens ky) 0) = Bias_Model.Ok t /\ (flat t \/ whole_rows qy /\ whole_rows ky)) ->
  exists out, fst (naive score value b qy ky [] h qs ks) = Bias_Model.Ok out /\ fits qy out /\
    forall s, s < length (seq_lens qy) -> seq_of qy s out = mapi (fun p q => attend score value h (if shortcut b qy ky then fun _ => Some 0%R else entries b h (nth s (nat_lens qy) 0) (nth s (nat_lens ky) 0) p) q (seq_of ky s ks)) 0 (seq_of qy s qs).
Proof.
  intros Hq Hk Ep El Nn Fq Fk Sw G. unfold naive, get_bias. cbn [fst snd cached].
  change (match b with Identity => _ | Causal _ | Chunked _ => _ | ALiBi _ => false end) with (shortcut b qy ky).
  destruct (shortcut b qy ky) eqn:Sh; cbn [fst bind].
  - assert (P : packed qy = false /\ padded ky = false).
    { destruct b as [|w|n|n]; cbn [shortcut steps_whole] in *.
      - apply andb_true_iff in Sh as [S1 S2]. apply andb_true_iff in S1 as [S1 _]. apply andb_true_iff in S2 as [_ S2]. now rewrite negb_true_iff in S1, S2.
      - apply andb_true_iff in Sh as [S1 S2]. rewrite negb_true_iff in S1. apply Z.eqb_eq in S2. destruct Sw as [Sw|[Sw|[_ Sw]]]; [congruence|contradiction|auto].
      - apply andb_true_iff in Sh as [S1 S2]. rewrite negb_true_iff in S1. apply Z.eqb_eq in S2. destruct Sw as [Sw|[Sw|[_ Sw]]]; [congruence|contradiction|auto].
      - discriminate Sh. }
    destruct P as [P1 P2]. pose proof (layout_flag _ _ _ _ Hq) as Fq1. pose proof (layout_flag _ _ _ _ Hk) as Fk1. assert (qp = false) by congruence. assert (kp = false) by congruence.
    rewrite H in Hq. rewrite H0 in Hk.
    exact (attention_ok score value NoBias h (fun _ _ _ => Some 0%R) _ _ _ _ _ _ _ _ qs ks Hq Hk Ep El Fq Fk (good_none h _ _ _ _ _ _ Hq Hk El P2)).
  - destruct (bias_rows b h _ _ _ _ _ _ _ _ Hq Hk Ep El Nn G) as (tb & -> & Gd). cbn [fst bind].
    exact (attention_ok score value tb h _ _ _ _ _ _ _ _ _ qs ks Hq Hk Ep El Fq Fk Gd).
Qed.

Section Props.
Context {Q K : Type}.
Variable score : nat -> Q -> K -> R.
Variable value : nat -> K -> R.
Notation naive := (Bias_Model.naive score value).
Notation torch := (Bias_Model.torch score value).

(** Without a mask every query sees all keys of its sequence, and nothing else. *)
Theorem C59_identity : forall h qsh qle qp qy ksh kle kp ky (qs : list (list Q)) (ks : list (list K)),
  batch_layout qsh qle qp = Batch_Model.Ok qy -> batch_layout ksh kle kp = Batch_Model.Ok ky ->
  qp = kp -> length (seq_lens qy) = length (seq_lens ky) -> seq_lens qy <> [] -> fits qy qs -> fits ky ks ->
  exists out, fst (naive Identity qy ky [] h qs ks) = Bias_Model.Ok out /\ fits qy out /\
    forall s, s < length (seq_lens qy) -> seq_of qy s out = map (fun q => attends (score h q) (value h) (seq_of ky s ks)) (seq_of qy s qs).
Proof.
  intros h qsh qle qp qy ksh kle kp ky qs ks Hq Hk E El Nn Fq Fk.
  destruct (naive_ok score value Identity h _ _ _ _ _ _ _ _ qs ks Hq Hk) as (out & E1 & E2 & E3); try assumption.
  - rewrite (layout_flag _ _ _ _ Hq), (layout_flag _ _ _ _ Hk). exact E.
  - exact I.
  - intros s Hs. destruct (create_plain Identity qy ky s I) as (t & Et & Fl). eauto.
  - exists out. split; [exact E1|]. split; [exact E2|]. intros s Hs. rewrite (E3 s Hs). rewrite <- (mapi_map _ 0). apply mapi_ext. intros p q _ _.
    rewrite <- (attend_const score value h 0 q). destruct (shortcut _ _ _); reflexivity.
Qed.

(** With a causal mask a query sees the keys of its sequence up to its own position, or as many of them as the window holds.
    Queries are the last ones of the keys. *)
Theorem C59_causal : forall w h qsh qle qp qy ksh kle kp ky (qs : list (list Q)) (ks : list (list K)),
  batch_layout qsh qle qp = Batch_Model.Ok qy -> batch_layout ksh kle kp = Batch_Model.Ok ky ->
  qp = kp -> length (seq_lens qy) = length (seq_lens ky) -> seq_lens qy <> [] -> fits qy qs -> fits ky ks ->
  (forall s, s < length (seq_lens qy) -> (nth s (seq_lens qy) 0 <= nth s (seq_lens ky) 0)%Z) ->
  match w with
  | None => True
  | Some w => 1 <= w /\ forall s, s < length (seq_lens qy) -> (Z.of_nat w < nth s (seq_lens qy) 0 \/ nth s (seq_lens ky) 0 <= Z.of_nat w)%Z
  end ->
  (packed qy = true \/ max_len qy <> 1%Z \/ padded qy = false /\ padded ky = false) ->
  exists out, fst (naive (Causal w) qy ky [] h qs ks) = Bias_Model.Ok out /\ fits qy out /\
    forall s, s < length (seq_lens qy) ->
      seq_of qy s out = map (fun pq => attends (score h (snd pq)) (value h) (visible w (fst pq) (seq_of ky s ks)))
                            (positioned (Z.to_nat (nth s (seq_lens ky) 0 - nth s (seq_lens qy) 0)%Z) (seq_of qy s qs)).
Proof.
  intros w h qsh qle qp qy ksh kle kp ky qs ks Hq Hk E El Nn Fq Fk Lq Lw Sw.
  destruct (naive_ok score value (Causal w) h _ _ _ _ _ _ _ _ qs ks Hq Hk) as (out & E1 & E2 & E3); try assumption.
  - rewrite (layout_flag _ _ _ _ Hq), (layout_flag _ _ _ _ Hk). exact E.
  - intros s Hs. eexists. split; [reflexivity|]. left. reflexivity.
  - exists out. split; [exact E1|]. split; [exact E2|]. intros s Hs. rewrite (E3 s Hs). specialize (Lq s Hs).
    assert (Hs2 : s < length (seq_lens ky)) by lia.
    assert (Gq : (1 <= nth s (seq_lens qy) 0)%Z).
    { assert (F : Forall (fun n => 1 <= n) (nat_lens qy)). { destruct qp; [apply (layout_packed _ _ _ Hq)|]. destruct (layout_padded _ _ _ Hq) as (_ & F & _). eapply Forall_impl; [|exact F]. cbv beta. intros; lia. }
      rewrite Forall_forall in F. assert (Hs1 : s < length (nat_lens qy)) by (rewrite lens_length; exact Hs). specialize (F _ (nth_In _ 0 Hs1)). rewrite <- nat_lens_nth in F. lia. }
    assert (Ls : length (seq_of qy s qs) = nth s (nat_lens qy) 0 /\ length (seq_of ky s ks) = nth s (nat_lens ky) 0).
    { split.
      - destruct qp.
        + destruct (layout_packed _ _ _ Hq) as (_ & _ & Sq & Rq & Bq). destruct (Rq _ _ Fq) as (q & -> & Eq). rewrite (seq_of_packed qy s _ _ (Bq s Hs)), firstn_length, skipn_length.
          pose proof (list_sum_firstn (nat_lens qy) s ltac:(rewrite lens_length; exact Hs)). lia.
        + destruct (layout_padded _ _ _ Hq) as (_ & Nq & Rq & Bq & _). destruct (Rq _ _ Fq) as [L1 L2]. assert (Hs1 : s < length (nat_lens qy)) by (rewrite lens_length; exact Hs).
          rewrite Forall_forall in Nq. specialize (Nq _ (nth_In _ 0 Hs1)). rewrite (seq_of_padded qy s _ _ (Bq s Hs) L2) by lia. rewrite firstn_length. rewrite Forall_forall in L2. rewrite (L2 (nth s qs [])) by (apply nth_In; lia). lia.
      - rewrite E in *. clear qp E. destruct kp.
        + destruct (layout_packed _ _ _ Hk) as (_ & _ & Sq & Rq & Bq). destruct (Rq _ _ Fk) as (q & -> & Eq). rewrite (seq_of_packed ky s _ _ (Bq s Hs2)), firstn_length, skipn_length.
          pose proof (list_sum_firstn (nat_lens ky) s ltac:(rewrite lens_length; exact Hs2)). lia.
        + destruct (layout_padded _ _ _ Hk) as (_ & Nq & Rq & Bq & _). destruct (Rq _ _ Fk) as [L1 L2]. assert (Hs1 : s < length (nat_lens ky)) by (rewrite lens_length; exact Hs2).
          rewrite Forall_forall in Nq. specialize (Nq _ (nth_In _ 0 Hs1)). rewrite (seq_of_padded ky s _ _ (Bq s Hs2) L2) by lia. rewrite firstn_length. rewrite Forall_forall in L2. rewrite (L2 (nth s ks [])) by (apply nth_In; lia). lia. }
    destruct Ls as [Ls1 Ls2]. rewrite <- !nat_lens_nth in *. set (qn := nth s (seq_lens qy) 0%Z) in *. set (kn := nth s (seq_lens ky) 0%Z) in *.
    assert (Pm : forall (f : nat * Q -> option R) i l, map f (positioned i l) = mapi (fun p q => f (i + p, q)) 0 l).
    { intros f i l. rewrite <- (mapi_shift (fun p q => f (p, q)) 0 i). rewrite Nat.add_0_r. revert i. induction l as [|x l IH]; intros i; [reflexivity|]. cbn [positioned map mapi]. now rewrite IH. }
    rewrite Pm. apply mapi_ext. intros p q Hp _. cbn [fst snd]. rewrite Ls1 in Hp. cbn [Nat.add] in Hp.
    set (d := Z.to_nat (kn - qn)). set (hi := S (d + p)). set (lo := match w with None => 0 | Some w => hi - w end).
    assert (Ev : visible w (d + p) (seq_of ky s ks) = firstn (hi - lo) (skipn lo (seq_of ky s ks))).
    { unfold visible, lo. fold hi. destruct w as [w|]; [|cbn [skipn]; now rewrite Nat.sub_0_r].
      rewrite firstn_length, Ls2. replace (Nat.min hi (Z.to_nat kn)) with hi by lia. apply skipn_firstn_comm. }
    rewrite Ev. apply attend_between; [unfold lo; destruct w; lia|rewrite Ls2; lia|]. rewrite Ls2. intros j Hj.
    destruct (shortcut (Causal w) qy ky) eqn:Sh.
    + cbn [shortcut] in Sh. apply andb_true_iff in Sh as [S1 S2]. rewrite negb_true_iff in S1. apply Z.eqb_eq in S2.
      assert (Eqf : qp = false) by (rewrite <- (layout_flag _ _ _ _ Hq); exact S1). rewrite Eqf in Hq. destruct (layout_padded _ _ _ Hq) as (_ & _ & _ & _ & _ & M1 & _). specialize (M1 S2).
      rewrite Forall_forall in M1. assert (Hs1 : s < length (nat_lens qy)) by (rewrite lens_length; exact Hs). specialize (M1 _ (nth_In _ 0 Hs1)). rewrite <- nat_lens_nth in M1. fold qn in M1.
      assert (lo = 0). { unfold lo. destruct w as [w|]; [|reflexivity]. destruct Lw as [W1 W2]. specialize (W2 s Hs). fold qn kn in W2. lia. }
      destruct (Nat.leb_spec lo j); [|lia]. destruct (Nat.ltb_spec j hi); [reflexivity|lia].
    + unfold entries. cbn [create srow causal_mat at_]. f_equal. unfold tril, triu.
      assert (Tr : (Z.of_nat j - Z.of_nat p <=? Z.of_nat (Z.to_nat kn) - Z.of_nat (Z.to_nat qn))%Z = Nat.ltb j hi) by (destruct (Nat.ltb_spec j hi); [apply Z.leb_le|apply Z.leb_gt]; lia).
      destruct w as [w|].
      * destruct Lw as [W1 W2]. specialize (W2 s Hs). fold qn kn in W2. destruct (Nat.ltb_spec w (Z.to_nat qn)) as [W|W]; cbv beta; rewrite Tr, andb_true_r.
        -- f_equal. destruct (Nat.leb_spec lo j); [apply Z.leb_le|apply Z.leb_gt]; unfold lo in *; lia.
        -- destruct (Nat.leb_spec lo j); [reflexivity|]. unfold lo in *. lia.
      * rewrite Nat.ltb_irrefl. cbv beta. rewrite Tr, andb_true_r. reflexivity.
Qed.

(** A batch of one sequence. *)
Lemma one_layout n : 1 <= n -> exists y, batch_layout [1; Z.of_nat n]%Z None false = Batch_Model.Ok y /\ seq_lens y = [Z.of_nat n] /\ nat_lens y = [n] /\ packed y = false /\ padded y = false /\ max_len y = Z.of_nat n /\
  forall A (x : list A), length x = n -> fits y [x] /\ seq_of y 0 [x] = x.
Proof.
  intros L. destruct (proj2 (C24_accept_padded [1; Z.of_nat n]%Z None)) as [y H].
  { exists 1%Z, (Z.of_nat n). split; [reflexivity|]. split; [lia|]. cbv zeta. split; [reflexivity|]. repeat constructor; lia. }
  exists y. split; [exact H|]. destruct (C24_padded _ _ _ _ H) as (Ew & Ek & Es & Eb & Ep & _ & Epd). change (repeat (Z.of_nat n) (Z.to_nat 1)) with [Z.of_nat n] in *. cbv zeta in *.
  split; [exact Es|]. assert (En : nat_lens y = [n]) by (unfold nat_lens; rewrite Es; cbn [map]; now rewrite Nat2Z.id). split; [exact En|]. split; [exact Ek|].
  assert (Pd : padded y = false).
  { destruct (padded y) eqn:Q0; [|reflexivity]. exfalso. clear Q0. pose proof (proj1 Epd eq_refl) as Q0. unfold num_padding in Q0. rewrite Ep in Q0. cbn [map concat] in Q0. rewrite app_nil_r in Q0. unfold padded_row in Q0.
    rewrite Z.sub_diag in Q0. cbn [Z.to_nat repeat] in Q0. rewrite app_nil_r in Q0. unfold iota in Q0. rewrite Nat2Z.id in Q0.
    assert (E0 : forall a l, filter (fun x => (x =? -1)%Z) (map Z.of_nat (seq a l)) = []). { intros a0 l0. revert a0. induction l0 as [|l0 IH]; intros a0; [reflexivity|]. cbn [seq map filter]. destruct (Z.eqb_spec (Z.of_nat a0) (-1)); [lia|]. apply IH. }
    rewrite E0 in Q0. simpl in Q0. lia. }
  split; [exact Pd|]. destruct (layout_padded _ _ _ H) as (_ & _ & _ & Bk & _ & _ & Mx). split; [rewrite Mx, Ew by (rewrite ?Es; congruence || discriminate); reflexivity|].
  intros A x Lx. split.
  - unfold fits. rewrite Ep. cbn [map]. f_equal. unfold padded_row. rewrite app_length, iota_length, repeat_length. lia.
  - rewrite (seq_of_padded y 0 [x] (Z.to_nat (width y))); [|rewrite Bk; [reflexivity|rewrite Es; simpl; lia]|constructor; [rewrite Ew; lia|constructor]|rewrite En, Ew; cbn; lia|simpl; lia].
    rewrite En. cbn [nth]. rewrite <- Lx. apply firstn_all.
Qed.
Lemma fits_one n y A (o : list (list A)) : fits y o -> batch_layout [1; Z.of_nat n]%Z None false = Batch_Model.Ok y -> exists r, o = [r] /\ length r = n.
Proof.
  intros Fo H. destruct (C24_padded _ _ _ _ H) as (Ew & _ & Es & _). destruct (layout_padded _ _ _ H) as (_ & _ & R & _). destruct (R _ _ Fo) as [L F]. unfold nat_lens in L. rewrite Es in L.
  change (repeat (Z.of_nat n) (Z.to_nat 1)) with [Z.of_nat n] in L. destruct o as [|r [|? ?]]; try discriminate L. exists r. split; [reflexivity|]. inversion_clear F. rewrite Ew in *. lia.
Qed.
Lemma seq_of_length {A} sh le p y (xs : list (list A)) s : batch_layout sh le p = Batch_Model.Ok y -> fits y xs -> s < length (seq_lens y) -> length (seq_of y s xs) = nth s (nat_lens y) 0 /\ 1 <= nth s (nat_lens y) 0.
Proof.
  intros H F Hs. assert (Hs1 : s < length (nat_lens y)) by (rewrite lens_length; exact Hs). destruct p.
  - destruct (layout_packed _ _ _ H) as (_ & N & Sq & Rq & Bq). destruct (Rq _ _ F) as (q & -> & Eq). rewrite (seq_of_packed y s _ _ (Bq s Hs)), firstn_length, skipn_length.
    pose proof (list_sum_firstn (nat_lens y) s Hs1). rewrite Forall_forall in N. specialize (N _ (nth_In _ 0 Hs1)). lia.
  - destruct (layout_padded _ _ _ H) as (_ & N & Rq & Bq & _). destruct (Rq _ _ F) as [L1 L2]. rewrite Forall_forall in N. specialize (N _ (nth_In _ 0 Hs1)).
    rewrite (seq_of_padded y s _ _ (Bq s Hs) L2) by lia. rewrite firstn_length. rewrite Forall_forall in L2. rewrite (L2 (nth s xs [])) by (apply nth_In; lia). lia.
Qed.

(** What a sequence of a batch gets is what it gets alone, whatever else is in the batch and however it is padded or packed. *)
Theorem C59_alone : forall b h qsh qle qp qy ksh kle kp ky (qs : list (list Q)) (ks : list (list K)),
  batch_layout qsh qle qp = Batch_Model.Ok qy -> batch_layout ksh kle kp = Batch_Model.Ok ky ->
  qp = kp -> length (seq_lens qy) = length (seq_lens ky) -> seq_lens qy <> [] -> fits qy qs -> fits ky ks ->
  match b with Identity | Causal None => True | Causal (Some w) => 1 <= w | Chunked _ => seq_lens qy = seq_lens ky | ALiBi n => n = 1 end ->
  match b with Causal _ | Chunked _ => packed qy = true \/ max_len qy <> 1%Z \/ padded qy = false /\ padded ky = false | _ => True end ->
  exists out, fst (naive b qy ky [] h qs ks) = Bias_Model.Ok out /\ fits qy out /\
    forall s, s < length (seq_lens qy) ->
      exists y1 y2, batch_layout [1; nth s (seq_lens qy) 0]%Z None false = Batch_Model.Ok y1 /\ batch_layout [1; nth s (seq_lens ky) 0]%Z None false = Batch_Model.Ok y2 /\
        fst (naive b y1 y2 [] h [seq_of qy s qs] [seq_of ky s ks]) = Bias_Model.Ok [seq_of qy s out].
Proof.
  intros b h qsh qle qp qy ksh kle kp ky qs ks Hq Hk E El Nn Fq Fk Pl Sw.
  assert (Ep : packed qy = packed ky) by (rewrite (layout_flag _ _ _ _ Hq), (layout_flag _ _ _ _ Hk); exact E).
  assert (Pl' : plain b qy ky) by (destruct b as [|[w|]|n|n]; exact Pl).
  destruct (naive_ok score value b h _ _ _ _ _ _ _ _ qs ks Hq Hk Ep El Nn Fq Fk Sw) as (out & E1 & E2 & E3).
  { intros s Hs. destruct (create_plain b qy ky s Pl') as (t & Et & Fl). eauto. }
  exists out. split; [exact E1|]. split; [exact E2|]. intros s Hs. specialize (E3 s Hs).
  destruct (seq_of_length _ _ _ _ qs s Hq Fq Hs) as [Lq Gq]. destruct (seq_of_length _ _ _ _ ks s Hk Fk ltac:(lia)) as [Lk Gk].
  set (qn := nth s (nat_lens qy) 0) in *. set (kn := nth s (nat_lens ky) 0) in *.
  assert (Zq : nth s (seq_lens qy) 0%Z = Z.of_nat qn) by (unfold qn in *; rewrite <- nat_lens_nth in *; lia).
  assert (Zk : nth s (seq_lens ky) 0%Z = Z.of_nat kn) by (unfold kn in *; rewrite <- nat_lens_nth in *; lia).
  rewrite Zq, Zk.
  destruct (one_layout qn Gq) as (y1 & H1 & Es1 & En1 & Pk1 & Pd1 & Mx1 & X1). destruct (one_layout kn Gk) as (y2 & H2 & Es2 & En2 & Pk2 & Pd2 & Mx2 & X2).
  exists y1, y2. split; [exact H1|]. split; [exact H2|]. destruct (X1 _ (seq_of qy s qs) Lq) as [F1 S1]. destruct (X2 _ (seq_of ky s ks) Lk) as [F2 S2].
  assert (Pl1 : plain b y1 y2).
  { destruct b as [|[w|]|n|n]; try exact Pl. cbn [plain] in *. rewrite Es1, Es2. f_equal. rewrite Pl in Zq. congruence. }
  destruct (naive_ok score value b h _ _ _ _ _ _ _ _ [seq_of qy s qs] [seq_of ky s ks] H1 H2) as (o & O1 & O2 & O3); try assumption.
  { congruence. } { now rewrite Es1, Es2. } { rewrite Es1. discriminate. } { destruct b; cbn [steps_whole]; auto. }
  { intros s' Hs'. destruct (create_plain b y1 y2 s' Pl1) as (t & Et & Fl). eauto. }
  rewrite O1. do 2 f_equal. destruct (fits_one _ _ _ _ O2 H1) as (r & -> & Lr). specialize (O3 0 ltac:(rewrite Es1; simpl; lia)). destruct (X1 _ r Lr) as [_ S3]. rewrite S1, S2, S3 in O3.
  rewrite O3, E3. f_equal. rewrite En1, En2. cbn [nth]. apply mapi_ext. intros p q Hp _. rewrite Lq in Hp.
  assert (Eq1 : shortcut b y1 y2 = match b with Identity => true | Causal _ | Chunked _ => Nat.eqb qn 1 | ALiBi _ => false end).
  { destruct b; cbn [shortcut]; rewrite ?Pk1, ?Pd1, ?Pk2, ?Pd2; try reflexivity; rewrite Mx1; cbn [negb andb]; destruct (Nat.eqb_spec qn 1); [apply Z.eqb_eq|apply Z.eqb_neq|apply Z.eqb_eq|apply Z.eqb_neq]; clearbody qn; match goal with H : qn = 1 |- _ => rewrite H; reflexivity | H : qn <> 1 |- _ => clear - H; lia end. }
  rewrite Eq1.
  assert (Eq2 : shortcut b qy ky = true -> match b with Identity => True | Causal _ | Chunked _ => qn = 1 | ALiBi _ => False end).
  { destruct b as [|w|n|n]; cbn [shortcut]; intros Sh; try exact I; try discriminate Sh; apply andb_true_iff in Sh as [Q1 Q2]; rewrite negb_true_iff in Q1; apply Z.eqb_eq in Q2;
      (assert (Eqf : qp = false) by (rewrite <- (layout_flag _ _ _ _ Hq); exact Q1)); rewrite Eqf in Hq; destruct (layout_padded _ _ _ Hq) as (_ & _ & _ & _ & _ & M1 & _); specialize (M1 Q2);
      rewrite Forall_forall in M1; apply M1; unfold qn; apply nth_In; rewrite lens_length; exact Hs. }
  destruct b as [|w|n|n].
  - destruct (shortcut _ _ _); reflexivity.
  - destruct (Nat.eqb_spec qn 1) as [Q1|Q1]; [|destruct (shortcut _ _ _); [specialize (Eq2 eq_refl); contradiction|reflexivity]].
    destruct (shortcut _ _ _); [reflexivity|]. apply attend_ext. intros j Hj. rewrite Lk in Hj. unfold entries. cbn [create srow causal_mat at_]. rewrite Q1.
    assert (Ew : (match w with Some w => w | None => 1 end <? 1) = false) by (clear - Pl; destruct w as [w|]; [apply Nat.ltb_ge; exact Pl|reflexivity]). rewrite Ew.
    unfold tril. rewrite andb_true_r. match goal with |- context [(?a <=? ?b)%Z] => destruct (Z.leb_spec a b) as [J|J]; [reflexivity|exfalso; clear - J Hj; lia] end.
  - destruct (Nat.eqb_spec qn 1) as [Q1|Q1]; [|destruct (shortcut _ _ _); [specialize (Eq2 eq_refl); contradiction|reflexivity]].
    destruct (shortcut _ _ _); [reflexivity|]. rewrite attend_const. rewrite <- (attend_const score value h 1%R q). apply attend_ext. intros j Hj. rewrite Lk in Hj.
    assert (Ekn : kn = 1) by (rewrite Pl in Zq; clearbody qn kn; clear - Zq Zk Q1; lia). assert (p = 0 /\ j = 0) as [-> ->] by (clearbody qn kn; clear - Hp Hj Q1 Ekn; lia). unfold entries. cbn [create]. rewrite Q1, Ekn. cbn [Nat.eqb negb srow at_].
    rewrite Nat.eqb_refl. reflexivity.
  - destruct (shortcut _ _ _); [destruct (Eq2 eq_refl)|reflexivity].
Qed.

(** Feeding part of a sequence, with the keys up to its end, gives that part of what feeding the whole gives. *)
Theorem C59_stepwise : forall h m c (x : list Q) (ks : list K), 1 <= c -> m + c <= length x -> length ks = length x ->
  exists y y1 y2 out, batch_layout [1; Z.of_nat (length x)]%Z None false = Batch_Model.Ok y /\
    batch_layout [1; Z.of_nat c]%Z None false = Batch_Model.Ok y1 /\ batch_layout [1; Z.of_nat (m + c)]%Z None false = Batch_Model.Ok y2 /\
    fst (naive (Causal None) y y [] h [x] [ks]) = Bias_Model.Ok [out] /\
    fst (naive (Causal None) y1 y2 [] h [firstn c (skipn m x)] [firstn (m + c) ks]) = Bias_Model.Ok [firstn c (skipn m out)].
Proof.
  intros h m c x ks Hc Hm Lk.
  destruct (one_layout (length x) ltac:(lia)) as (y & H & Es & En & Pk & Pd & Mx & X). destruct (one_layout c Hc) as (y1 & H1 & Es1 & En1 & Pk1 & Pd1 & Mx1 & X1).
  destruct (one_layout (m + c) ltac:(lia)) as (y2 & H2 & Es2 & En2 & Pk2 & Pd2 & Mx2 & X2).
  destruct (X _ x eq_refl) as [F S]. destruct (X _ ks Lk) as [F' S'].
  destruct (X1 _ (firstn c (skipn m x)) ltac:(rewrite firstn_length, skipn_length; lia)) as [F1 S1]. destruct (X2 _ (firstn (m + c) ks) ltac:(rewrite firstn_length; lia)) as [F2 S2].
  destruct (C59_causal None h _ _ _ _ _ _ _ _ [x] [ks] H H eq_refl eq_refl ltac:(rewrite Es; discriminate) F F' ltac:(intros; lia) I ltac:(auto)) as (out & E1 & E2 & E3).
  destruct (C59_causal None h _ _ _ _ _ _ _ _ [firstn c (skipn m x)] [firstn (m + c) ks] H1 H2 eq_refl ltac:(now rewrite Es1, Es2) ltac:(rewrite Es1; discriminate) F1 F2) as (o & O1 & O2 & O3); [|exact I|auto|].
  { rewrite Es1, Es2. intros [|s] Hs; simpl in *; lia. }
  destruct (fits_one _ _ _ _ E2 H) as (r & -> & Lr). destruct (fits_one _ _ _ _ O2 H1) as (r' & -> & Lr').
  exists y, y1, y2, r. do 4 (split; [assumption|]). rewrite O1. do 2 f_equal.
  specialize (E3 0 ltac:(rewrite Es; simpl; lia)). specialize (O3 0 ltac:(rewrite Es1; simpl; lia)).
  destruct (X _ r Lr) as [_ S3]. destruct (X1 _ r' Lr') as [_ S4]. rewrite S, S', S3 in E3. rewrite S1, S2, S4, Es1, Es2 in O3. cbn [nth] in O3.
  assert (Pm : forall (f : nat * Q -> option R) i l, map f (positioned i l) = mapi (fun p q => f (i + p, q)) 0 l).
  { intros f i l. rewrite <- (mapi_shift (fun p q => f (p, q)) 0 i). rewrite Nat.add_0_r. revert i. induction l as [|z l IH]; intros i; [reflexivity|]. cbn [positioned map mapi]. now rewrite IH. }
  rewrite Pm in E3, O3. rewrite E3, O3. rewrite Es, Z.sub_diag. cbn [Z.to_nat Nat.add fst snd nth].
  rewrite mapi_skipn by lia. rewrite mapi_firstn. cbn [Nat.add]. replace m with (m + 0) at 2 by lia. rewrite mapi_shift. apply mapi_ext. intros p q Hp _. rewrite firstn_length, skipn_length in Hp.
  cbn [fst snd]. f_equal. unfold visible. replace (Z.to_nat (Z.of_nat (m + c) - Z.of_nat c)) with m by lia. rewrite firstn_firstn. f_equal. lia.
Qed.

(** The version that uses torch's own attention gives the same. *)
Lemma attention_ext t t' h (qs : list (list Q)) (ks : list (list K)) W V : length qs = length ks -> Forall (fun r => length r = W) qs -> Forall (fun r => length r = V) ks ->
  (forall n i, n < length qs -> i < W -> exists r r', bias_row t h W V n i = Bias_Model.Ok r /\ bias_row t' h W V n i = Bias_Model.Ok r' /\ forall j, j < V -> r j = r' j) ->
  attention score value t h qs ks = attention score value t' h qs ks.
Proof.
  intros L Fq Fk H. unfold attention. rewrite L, Nat.eqb_refl. cbn [negb]. f_equal. apply mapi_ext. intros n [q k] Hn En. rewrite Nat.sub_0_r in En. rewrite combine_length in Hn.
  apply nth_error_In in En. assert (Iq := in_combine_l _ _ _ _ En). assert (Ik := in_combine_r _ _ _ _ En). cbn [fst snd]. rewrite Forall_forall in Fq, Fk. rewrite (Fq _ Iq), (Fk _ Ik).
  f_equal. apply mapi_ext. intros i x Hi _. rewrite (Fq _ Iq) in Hi. destruct (H n i ltac:(lia) ltac:(lia)) as (r & r' & -> & -> & Er). cbn [bind]. f_equal. apply attend_ext.
  intros j Hj. rewrite (Fk _ Ik) in Hj. now apply Er.
Qed.
Theorem C59_torch : forall b h qsh qle qp qy ksh kle kp ky (qs : list (list Q)) (ks : list (list K)),
  batch_layout qsh qle qp = Batch_Model.Ok qy -> batch_layout ksh kle kp = Batch_Model.Ok ky ->
  length (seq_lens qy) = length (seq_lens ky) -> seq_lens qy <> [] -> fits qy qs -> fits ky ks ->
  fst (torch b qy ky [] h qs ks) = fst (naive b qy ky [] h qs ks).
Proof.
  intros b h qsh qle qp qy ksh kle kp ky qs ks Hq Hk El Nn Fq Fk. unfold Bias_Model.torch. cbv zeta.
  destruct b as [|[w|]|n|n]; try reflexivity. destruct (negb (packed qy) && negb (padded qy) && (negb (packed ky) && negb (padded ky))) eqn:Fu; [|reflexivity].
  destruct (Nat.eqb_spec (length (nth 0 qs [])) (length (nth 0 ks []))) as [Lr|_]; [|reflexivity]. cbn [andb fst].
  apply andb_true_iff in Fu as [F1 F2]. apply andb_true_iff in F1 as [P1 P2]. apply andb_true_iff in F2 as [P3 P4]. rewrite negb_true_iff in P1, P2, P3, P4.
  rewrite (layout_flag _ _ _ _ Hq) in P1. rewrite (layout_flag _ _ _ _ Hk) in P3. rewrite P1 in Hq. rewrite P3 in Hk.
  destruct (layout_padded _ _ _ Hq) as (Pk1 & Nq & Rq & _ & Wq & _ & Mq). destruct (layout_padded _ _ _ Hk) as (Pk2 & Nk & Rk & _ & Wk & _ & _).
  destruct (Rq _ _ Fq) as [L1 A1]. destruct (Rk _ _ Fk) as [L2 A2].
  assert (Ln : length qs = length ks) by (rewrite L1, L2, !lens_length; exact El). assert (Lp : 0 < length qs) by (rewrite L1, lens_length; destruct (seq_lens qy); [congruence|simpl; lia]).
  assert (B1 : length (nth 0 qs []) = Z.to_nat (width qy)) by (rewrite Forall_forall in A1; apply A1, nth_In; lia).
  assert (B2 : length (nth 0 ks []) = Z.to_nat (width ky)) by (rewrite Forall_forall in A2; apply A2, nth_In; lia).
  rewrite B1, B2 in *. set (W := Z.to_nat (width qy)) in *. rewrite <- Lr in *.
  assert (W1 : 1 <= W). { rewrite Forall_forall in Nq. assert (Hs1 : 0 < length (nat_lens qy)) by lia. specialize (Nq _ (nth_In _ 0 Hs1)). lia. }
  unfold Bias_Model.naive, get_bias. cbv zeta. rewrite Pk1. cbn [negb andb].
  destruct (Z.eqb_spec (max_len qy) 1) as [M1|M1]; cbn [fst bind cached].
  - specialize (Mq P2 Nn). assert (E1 : W = 1) by (unfold W; lia). apply (attention_ext _ _ h qs ks W W Ln A1 A2). intros n i _ Hi. cbn [bias_row tens_row nr nc at_]. unfold broadcasts. rewrite Nat.eqb_refl. cbn [orb andb].
    do 2 eexists. split; [reflexivity|]. split; [reflexivity|]. intros j Hj. cbv beta. rewrite !clip_lt by lia. replace i with 0 by lia. replace j with 0 by lia. reflexivity.
  - unfold materialize. rewrite Pk1, Pk2. cbn [xorb]. rewrite El, Nat.eqb_refl. cbn [negb]. destruct (Nat.eqb_spec (length (seq_lens ky)) 0); [rewrite L2, lens_length in Ln; lia|]. rewrite P2, P4. cbn [negb andb create bind fst].
    fold W. rewrite <- Lr. apply (attention_ext _ _ h qs ks W W Ln A1 A2). intros m i _ Hi. cbn [bias_row tens_row nr nc at_ causal_mat]. unfold broadcasts. rewrite Nat.eqb_refl. cbn [orb andb].
    do 2 eexists. split; [reflexivity|]. split; [reflexivity|]. intros j Hj. cbv beta. rewrite !clip_lt by lia. f_equal. rewrite Nat.ltb_irrefl. unfold tril. rewrite andb_true_r, Z.sub_diag.
    destruct (Nat.leb_spec j i); symmetry; [apply Z.leb_le|apply Z.leb_gt]; lia.
Qed.

(** Layers that share a cache, for the same layouts, get what each would get without it. [h] stands for the layer and the head. *)
Fixpoint run (qy ky : layout) (c : cache) (layers : list (bias * nat * list (list Q) * list (list K))) : list (res (list (list (option R)))) :=
  match layers with
  | [] => []
  | (b, h, qs, ks) :: layers' => let r := naive b qy ky c h qs ks in fst r :: run qy ky (snd r) layers'
  end.
Theorem C59_cache : forall qy ky layers,
  run qy ky [] layers = map (fun l => let '(b, h, qs, ks) := l in fst (naive b qy ky [] h qs ks)) layers.
Proof.
  intros qy ky layers.
  assert (Beq : forall a b, bias_eqb a b = true -> a = b).
  { intros [|[w|]|n|n] [|[w'|]|n'|n']; cbn [bias_eqb]; intros E; try discriminate E; try reflexivity; apply Nat.eqb_eq in E; now subst. }
  assert (G : forall layers c, (forall b t, cached c b = Some t -> materialize b qy ky = Bias_Model.Ok t) -> run qy ky c layers = map (fun l => let '(b, h, qs, ks) := l in fst (naive b qy ky [] h qs ks)) layers).
  { clear layers. induction layers as [|[[[b h] qs] ks] layers IH]; intros c C; [reflexivity|]. cbn [run map]. unfold Bias_Model.naive at 1 2 3, get_bias. cbv zeta. cbn [cached].
    destruct (match b with Identity => _ | Causal _ | Chunked _ => _ | ALiBi _ => false end); cbn [fst snd].
    - f_equal. now apply IH.
    - destruct (cached c b) as [t|] eqn:Cb; cbn [fst snd].
      + rewrite (C b t Cb). cbn [fst snd]. f_equal. now apply IH.
      + destruct (materialize b qy ky) as [t|e] eqn:M; cbn [fst snd]; f_equal; apply IH; [|exact C]. intros b' t'. cbn [cached]. destruct (bias_eqb b b') eqn:Eb; [|apply C].
        intros [= <-]. rewrite <- (Beq _ _ Eb). exact M. }
  apply G. discriminate.
Qed.
End Props.
Print Assumptions C59_identity.
Print Assumptions C59_causal.
Print Assumptions C59_alone.
Print Assumptions C59_stepwise.
Print Assumptions C59_torch.
Print Assumptions C59_cache.

(** ** ALiBi *)
Section Alibi.
Context {Q K : Type}.
Variable score : nat -> Q -> K -> R.
Variable value : nat -> K -> R.
Local Open Scope R_scope.

Lemma attends_shift {X} (f v : X -> R) c l : attends (fun x => f x + c) v l = attends f v l.
Proof.
  destruct l as [|x l]; [reflexivity|]. unfold attends. f_equal. set (L := x :: l).
  assert (N : 0 < rsum (map (fun x => exp (f x)) L)) by (apply rsum_pos; [intros; apply exp_pos|discriminate]).
  assert (E1 : sum (map (fun x => exp (f x + c)) L) = exp c * sum (map (fun x => exp (f x)) L)).
  { clear N. clearbody L. clear x l. induction L as [|y l IH]; unfold sum in *; cbn [map fold_right]; [lra|]. rewrite IH, exp_plus. lra. }
  assert (E2 : sum (map (fun x => exp (f x + c) * v x) L) = exp c * sum (map (fun x => exp (f x) * v x) L)).
  { clear N E1. clearbody L. clear x l. induction L as [|y l IH]; unfold sum in *; cbn [map fold_right]; [lra|]. rewrite IH, exp_plus. lra. }
  rewrite E1, E2. unfold rsum, sum in *. pose proof (exp_pos c). field. split; lra.
Qed.
Lemma attends_ext {X} (f g v : X -> R) l : (forall x, In x l -> f x = g x) -> attends f v l = attends g v l.
Proof.
  intros H. destruct l as [|x l]; [reflexivity|]. unfold attends. rewrite (map_ext_in (fun k => exp (f k) * v k) (fun k => exp (g k) * v k)), (map_ext_in (fun k => exp (f k)) (fun k => exp (g k))); [reflexivity| |]; intros a Ha; now rewrite (H a Ha).
Qed.
Lemma attend_upto h r q (ks : list K) g hi : (hi <= length ks)%nat -> (forall j, (j < length ks)%nat -> r j = if Nat.ltb j hi then Some (g j) else None) ->
  attend score value h r q ks = attends (fun jk => score h q (snd jk) + g (fst jk)) (fun jk => value h (snd jk)) (positioned 0 (firstn hi ks)).
Proof.
  intros L H. assert (E : ks = [] ++ firstn hi ks ++ skipn hi ks) by (cbn [app]; now rewrite firstn_skipn).
  assert (L1 : length (firstn hi ks) = hi) by (rewrite firstn_length; lia). rewrite E at 1. rewrite attend_mid; [|intros j Hj; simpl in Hj; lia|].
  2:{ rewrite <- E. cbn [length]. rewrite L1. intros j Hj. rewrite H by lia. destruct (Nat.ltb_spec j hi); [lia|reflexivity]. }
  cbn [length Nat.add]. rewrite (attend_ext score value h _ (fun j => Some (g j))).
  2:{ intros j Hj. rewrite L1 in Hj. rewrite H by lia. destruct (Nat.ltb_spec j hi); [reflexivity|lia]. }
  clear. generalize (firstn hi ks). intros l. unfold attend. cbv zeta.
  assert (M : forall (f : nat -> K -> R) i l, mapi f i l = map (fun jk => f (fst jk) (snd jk)) (positioned i l)).
  { intros f i l'. revert i. induction l' as [|x l' IH]; intros i; [reflexivity|]. cbn [mapi positioned map fst snd]. now rewrite IH. }
  rewrite !M. destruct l as [|k l]; [cbn; destruct (Req_EM_T 0 0); [reflexivity|lra]|]. destruct (Req_EM_T _ 0) as [Z|_].
  { exfalso. pose proof (rsum_pos (fun jk => exp (score h q (snd jk) + g (fst jk))) (positioned 0 (k :: l)) (fun _ => exp_pos _) ltac:(discriminate)). lra. }
  reflexivity.
Qed.

(** ALiBi lowers the score of a key in proportion to its distance from the query; batches are neither padded nor packed. *)
Theorem C59_alibi : forall H h qsh qle qy ksh kle ky (qs : list (list Q)) (ks : list (list K)), (h < H)%nat ->
  batch_layout qsh qle false = Batch_Model.Ok qy -> batch_layout ksh kle false = Batch_Model.Ok ky ->
  length (seq_lens qy) = length (seq_lens ky) -> seq_lens qy <> [] -> fits qy qs -> fits ky ks ->
  padded qy = false -> padded ky = false -> (width qy <= width ky)%Z ->
  exists out, fst (naive score value (ALiBi H) qy ky [] h qs ks) = Bias_Model.Ok out /\ fits qy out /\
    forall s, (s < length (seq_lens qy))%nat ->
      seq_of qy s out = map (fun pq => attends (fun jk => score h (snd pq) (snd jk) - slope H h * INR (fst pq - fst jk)) (fun jk => value h (snd jk))
                                               (positioned 0 (visible None (fst pq) (seq_of ky s ks))))
                            (positioned (Z.to_nat (width ky - width qy)) (seq_of qy s qs)).
Proof.
  intros H h qsh qle qy ksh kle ky qs ks Hh Hq Hk El Nn Fq Fk Pq Pk Lw.
  destruct (layout_padded _ _ _ Hq) as (Pk1 & Nq & _ & _ & Wq & _). destruct (layout_padded _ _ _ Hk) as (Pk2 & Nk & _ & _ & Wk & _). specialize (Wq Pq). specialize (Wk Pk). rewrite Forall_forall in Wq, Wk.
  destruct (naive_ok score value (ALiBi H) h _ _ _ _ _ _ _ _ qs ks Hq Hk) as (out & E1 & E2 & E3); try assumption.
  - congruence.
  - exact I.
  - intros s Hs. eexists. split; [reflexivity|]. right. repeat split; assumption.
  - exists out. split; [exact E1|]. split; [exact E2|]. intros s Hs. rewrite (E3 s Hs). cbn [shortcut].
    destruct (seq_of_length _ _ _ _ qs s Hq Fq Hs) as [Lq Gq]. destruct (seq_of_length _ _ _ _ ks s Hk Fk ltac:(lia)) as [Lk Gk].
    assert (Hs1 : (s < length (nat_lens qy))%nat) by (rewrite lens_length; exact Hs). assert (Hs2 : (s < length (nat_lens ky))%nat) by (rewrite lens_length; lia).
    rewrite (Wq _ (nth_In _ 0%nat Hs1)) in *. rewrite (Wk _ (nth_In _ 0%nat Hs2)) in *. set (qn := Z.to_nat (width qy)) in *. set (kn := Z.to_nat (width ky)) in *.
    assert (Pm : forall (f : nat * Q -> option R) i l, map f (positioned i l) = mapi (fun p q => f (i + p, q)%nat) 0 l).
    { intros f i l. rewrite <- (mapi_shift (fun p q => f (p, q)) 0 i). rewrite Nat.add_0_r. revert i. induction l as [|z l IH]; intros i; [reflexivity|]. cbn [positioned map mapi]. now rewrite IH. }
    rewrite Pm. apply mapi_ext. intros p q Hp _. rewrite Lq in Hp. cbn [fst snd]. set (d := Z.to_nat (width ky - width qy)).
    rewrite (attend_upto h _ q _ (fun j => INR j * slope H h) (S (d + p))); [|lia|].
    + unfold visible. rewrite <- (attends_shift _ _ (- (slope H h * INR (d + p)))). apply attends_ext. intros [j k] Hj. cbn [fst snd].
      assert (Hj' : (j < S (d + p))%nat).
      { assert (Pb : forall i (l : list K), In (j, k) (positioned i l) -> (j < i + length l)%nat).
        { intros i l. revert i. induction l as [|z l IH]; intros i E; [destruct E|]. destruct E as [E|E]; [|specialize (IH _ E); simpl; lia]. injection E as -> ->. simpl. lia. }
        apply Pb in Hj. rewrite firstn_length in Hj. lia. }
      rewrite minus_INR by lia. lra.
    + rewrite Lk. intros j Hj. unfold entries. cbn [create srow]. rewrite clip_lt by exact Hh. destruct (Nat.ltb_spec 1 qn) as [Q1|Q1].
      * cbn [causal_mat at_ add_entry]. rewrite Nat.ltb_irrefl. unfold tril. rewrite andb_true_r.
        destruct (Nat.ltb_spec j (S (d + p))) as [J|J]; destruct (Z.leb_spec (Z.of_nat j - Z.of_nat p) (Z.of_nat kn - Z.of_nat qn)) as [J'|J']; try lia; cbn [log01 add_entry]; [now rewrite Rplus_0_r|reflexivity].
      * destruct (Nat.ltb_spec j (S (d + p))) as [J|J]; [reflexivity|lia].
Qed.
End Alibi.
Print Assumptions C59_alibi.

(** ** What does not hold *)
Definition sc (_ : nat) (_ : unit) (_ : R) : R := 0%R.
Definition vl (_ : nat) (x : R) : R := x.
Definition lay (sh : list Z) (le : option (list Z)) (p : bool) : layout :=
  match batch_layout sh le p with Batch_Model.Ok y => y | Batch_Model.Err _ => Layout 0 [] [] [] 0 0 false false end.
Lemma attends2 a b : attends (sc 0 tt) (vl 0) [a; b] = Some ((a + b) / 2)%R.
Proof. unfold attends, sum, sc, vl. cbn [map fold_right]. rewrite exp_0. f_equal. lra. Qed.
Lemma attends1 a : attends (sc 0 tt) (vl 0) [a] = Some a.
Proof. unfold attends, sum, sc, vl. cbn [map fold_right]. rewrite exp_0. f_equal. lra. Qed.

Lemma naive_by b qy ky c t h (qs : list (list unit)) ks : fst (get_bias b qy ky c) = Bias_Model.Ok t -> fst (naive sc vl b qy ky c h qs ks) = attention sc vl t h qs ks.
Proof. unfold naive. cbn [fst]. intros ->. reflexivity. Qed.
(** A window is not applied to a step of several queries that are no more than the window, although there are more keys:
    the last of two queries sees three keys through a window of two. *)
Theorem C59_window_refuted : exists qy ky out, batch_layout [1; 2]%Z None false = Batch_Model.Ok qy /\ batch_layout [1; 3]%Z None false = Batch_Model.Ok ky /\
  fst (naive sc vl (Causal (Some 2)) qy ky [] 0 [[tt; tt]] [[3; 0; 0]%R]) = Bias_Model.Ok [[out; Some 1%R]] /\
  attends (sc 0 tt) (vl 0) (visible (Some 2) 2 [3; 0; 0]%R) = Some 0%R.
Proof.
  exists (lay [1; 2]%Z None false), (lay [1; 3]%Z None false). eexists. split; [reflexivity|]. split; [reflexivity|]. split.
  - rewrite (naive_by _ _ _ _ (Same (T2 (causal_mat 2 3 2)))) by reflexivity. cbn -[attend]. do 3 f_equal. f_equal. rewrite (attend_between sc vl 0 _ tt [3; 0; 0]%R 0 3); [|lia|simpl; lia|].
    + cbn [firstn skipn Nat.sub]. unfold attends, sum, sc, vl. cbn [map fold_right]. rewrite exp_0. f_equal. lra.
    + intros [|[|[|j]]] Hj; try reflexivity. simpl in Hj. lia.
  - cbn [visible firstn length Nat.sub skipn]. rewrite attends2. f_equal. lra.
Qed.
Print Assumptions C59_window_refuted.

(** The chunked bias masks nothing: the first of two queries sees the key after it. *)
Theorem C59_chunked_refuted : exists y x out, batch_layout [1; 2]%Z None false = Batch_Model.Ok y /\
  fst (naive sc vl (Chunked 2) y y [] 0 [[tt; tt]] [[0; 1]%R]) = Bias_Model.Ok [[Some x; out]] /\ (0 < x)%R /\
  attends (sc 0 tt) (vl 0) (visible None 0 [0; 1]%R) = Some 0%R.
Proof.
  exists (lay [1; 2]%Z None false). exists (1 / (exp 1 + 1))%R. eexists. split; [reflexivity|]. pose proof (exp_pos 1) as P. split; [|split].
  - rewrite (naive_by _ _ _ _ (Same (T2 (Mat 2 2 (fun i j => Some (if (Nat.eqb (j / 2) (i / 2) && Nat.leb j i) then 1 else 0)%R))))) by reflexivity. cbn -[attend]. do 2 f_equal. f_equal. unfold attend, sc, vl. cbn -[exp]. replace (0 + 1)%R with 1%R by lra. replace (0 + 0)%R with 0%R by lra. rewrite exp_0. destruct (Req_EM_T _ 0) as [Z|_]; [exfalso; lra|]. f_equal. field. lra.
  - apply Rdiv_lt_0_compat; lra.
  - cbn [visible firstn]. apply attends1.
Qed.
Print Assumptions C59_chunked_refuted.

(** A padded batch of queries of length 1 has no causal bias: the only query sees padding. *)
Theorem C59_single_refuted : exists y out, batch_layout [1; 2]%Z (Some [1])%Z false = Batch_Model.Ok y /\
  fst (naive sc vl (Causal None) y y [] 0 [[tt; tt]] [[0; 2]%R]) = Bias_Model.Ok [[Some 1%R; out]] /\
  attends (sc 0 tt) (vl 0) (seq_of y 0 [[0; 2]%R]) = Some 0%R.
Proof.
  exists (lay [1; 2]%Z (Some [1])%Z false). eexists. split; [reflexivity|]. split.
  - rewrite (naive_by _ _ _ _ (NoBias)) by reflexivity. cbn -[attend]. do 2 f_equal. f_equal. rewrite attend_const, attends2. f_equal. lra.
  - cbn. apply attends1.
Qed.
Print Assumptions C59_single_refuted.

(** Padding among the queries but not the keys gives NaN there. *)
Theorem C59_nan_refuted : exists qy ky out, batch_layout [1; 2]%Z (Some [1])%Z false = Batch_Model.Ok qy /\ batch_layout [1; 1]%Z None false = Batch_Model.Ok ky /\
  fst (naive sc vl Identity qy ky [] 0 [[tt; tt]] [[0]%R]) = Bias_Model.Ok [[out; None]].
Proof.
  exists (lay [1; 2]%Z (Some [1])%Z false), (lay [1; 1]%Z None false). eexists. split; [reflexivity|]. split; [reflexivity|].
  rewrite (naive_by _ _ _ _ (PerRow [T2 (Mat 2 1 (write 0 1 0 1 (fun _ _ => Some 0%R) (fun _ _ => None)))])) by reflexivity. cbn -[attend]. do 3 f_equal. f_equal. unfold attend. cbn. rewrite Rplus_0_r. destruct (Req_EM_T 0 0); [reflexivity|lra].
Qed.
Print Assumptions C59_nan_refuted.

(** ALiBi with several heads does not work for padded batches. *)
Theorem C59_alibi_refuted : exists y, batch_layout [2; 2]%Z (Some [1; 2])%Z false = Batch_Model.Ok y /\
  forall H h (qs : list (list unit)) ks, 2 <= H -> fst (naive sc vl (ALiBi H) y y [] h qs ks) = Bias_Model.Err BadShape.
Proof.
  exists (lay [2; 2]%Z (Some [1; 2])%Z false). split; [reflexivity|]. intros [|[|H]] h qs ks L; try lia. reflexivity.
Qed.
Print Assumptions C59_alibi_refuted.

(** A cache that has served one layout gives wrong results for another one of the same shape. *)
Theorem C59_cache_refuted : exists y y' c out out', batch_layout [1; 2]%Z None false = Batch_Model.Ok y /\ batch_layout [2]%Z (Some [1; 1])%Z true = Batch_Model.Ok y' /\
  c = snd (naive sc vl (Causal None) y y [] 0 [[tt; tt]] [[0; 2]%R]) /\
  fst (naive sc vl (Causal None) y' y' c 0 [[tt; tt]] [[0; 2]%R]) = Bias_Model.Ok [[out; Some 1%R]] /\
  fst (naive sc vl (Causal None) y' y' [] 0 [[tt; tt]] [[0; 2]%R]) = Bias_Model.Ok [[out'; Some 2%R]].
Proof.
  exists (lay [1; 2]%Z None false), (lay [2]%Z (Some [1; 1])%Z true). do 3 eexists. split; [reflexivity|]. split; [reflexivity|]. split; [reflexivity|]. split.
  - rewrite (naive_by _ _ _ _ (Same (T2 (causal_mat 2 2 2)))) by reflexivity. cbn -[attend]. do 3 f_equal. f_equal. rewrite (attend_between sc vl 0 _ tt [0; 2]%R 0 2); [|lia|simpl; lia|].
    + cbn [firstn skipn Nat.sub]. rewrite attends2. f_equal. lra.
    + intros [|[|j]] Hj; try reflexivity. simpl in Hj. lia.
  - rewrite (naive_by _ _ _ _ (Same (T2 (Mat 2 2 (write 1 2 1 2 (at_ (causal_mat 1 1 1)) (write 0 1 0 1 (at_ (causal_mat 1 1 1)) (fun _ _ => None))))))) by reflexivity. cbn -[attend]. do 3 f_equal. f_equal. rewrite (attend_between sc vl 0 _ tt [0; 2]%R 1 2); [|lia|simpl; lia|].
    + cbn [firstn skipn Nat.sub]. apply attends1.
    + intros [|[|j]] Hj; try reflexivity; simpl in Hj; lia.
Qed.
Print Assumptions C59_cache_refuted.

(** ** Witnesses *)
Example C59_ex_padded : exists y, batch_layout [2; 3]%Z (Some [1; 3])%Z false = Batch_Model.Ok y /\ seq_lens y <> [] /\ max_len y <> 1%Z /\
  fits y [[tt; tt; tt]; [tt; tt; tt]] /\ fits y [[7; 8; 9]; [1; 3; 5]]%R /\ seq_of y 1 [[7; 8; 9]; [1; 3; 5]]%R = [1; 3; 5]%R /\
  attends (sc 0 tt) (vl 0) (visible (Some 2) 2 [1; 3; 5]%R) = Some 4%R.
Proof. exists (lay [2; 3]%Z (Some [1; 3])%Z false). repeat split; try discriminate. cbn [visible firstn length Nat.sub skipn]. rewrite attends2. f_equal. lra. Qed.
Example C59_ex_packed : exists qy ky, batch_layout [4]%Z (Some [1; 2])%Z true = Batch_Model.Ok qy /\ batch_layout [7]%Z (Some [3; 2])%Z true = Batch_Model.Ok ky /\ seq_lens qy <> [] /\
  length (seq_lens qy) = length (seq_lens ky) /\ (forall s, s < length (seq_lens qy) -> (nth s (seq_lens qy) 0 <= nth s (seq_lens ky) 0)%Z) /\
  fits qy [[tt; tt; tt; tt]] /\ fits ky [[0; 1; 2; 3; 4; 5; 6]]%R.
Proof.
  exists (lay [4]%Z (Some [1; 2])%Z true), (lay [7]%Z (Some [3; 2])%Z true). split; [reflexivity|]. split; [reflexivity|]. split; [discriminate|]. split; [reflexivity|].
  split; [intros [|[|s]] Hs; simpl in *; lia|]. split; reflexivity.
Qed.
