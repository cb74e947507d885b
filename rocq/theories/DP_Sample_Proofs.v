(** Proofs about sample. *)

From Coq Require Import QArith Lqa Lia.
From Verif Require Import DP_Base DP_Spec DP_Sources_Model DP_Bucketing_Model DP_Multi_Model DP_Laws DP_Sources_Proofs
  DP_Sources_Proofs2 DP_Multi_Lemmas DP_BBL_Proofs DP_Zip_Proofs DP_RR_Proofs.

(** ** Cumulative sums *)
Definition nonneg (ms : list Q) : Prop := forall i q, nth_error ms i = Some q -> (0 <= q)%Q.

Lemma psum_0 ms : psum ms 0 = 0%Q.
Proof. destruct ms; reflexivity. Qed.

Lemma psum_S ms : forall i q, nth_error ms i = Some q -> (psum ms (S i) == psum ms i + q)%Q.
Proof.
  induction ms as [|m ms IH]; intros i q H; [destruct i; discriminate|]. destruct i as [|i]; simpl in H.
  - inv H. simpl. rewrite psum_0. ring.
  - cbn [psum]. rewrite (IH _ _ H). ring.
Qed.

Lemma psum_nonneg ms i : nonneg ms -> (0 <= psum ms i)%Q.
Proof.
  revert i. induction ms as [|m ms IH]; intros i H; [destruct i; simpl; lra|]. destruct i as [|i]; simpl; [lra|].
  assert (0 <= m)%Q by (apply (H 0); reflexivity). assert (0 <= psum ms i)%Q by (apply IH; intros j q Hj; apply (H (S j)); assumption). lra.
Qed.

Lemma psum_le ms i j : nonneg ms -> i <= j -> (psum ms i <= psum ms j)%Q.
Proof.
  revert i j. induction ms as [|m ms IH]; intros i j H Hij; [destruct i, j; simpl; lra|].
  destruct i as [|i].
  - rewrite psum_0. apply psum_nonneg. assumption.
  - destruct j as [|j]; [lia|]. simpl.
    assert (psum ms i <= psum ms j)%Q by (apply IH; [intros k q Hk; apply (H (S k)); assumption|lia]). lra.
Qed.

Lemma psum_upd ms : forall i q j, nth_error ms i = Some q ->
  (psum (upd ms i 0) j == psum ms j - (if (i <? j)%nat then q else 0))%Q.
Proof.
  induction ms as [|m ms IH]; intros i q j H; [destruct i; discriminate|]. destruct i as [|i]; simpl in H.
  - inv H. destruct j as [|j]; [simpl; ring|]. cbn [upd psum Nat.ltb Nat.leb]. ring.
  - destruct j as [|j]; [simpl; ring|]. cbn [upd psum]. rewrite (IH _ _ _ H). change (S i <? S j) with (i <? j). ring.
Qed.

Definition cumok (c : list (option Q)) (ms : list Q) : Prop :=
  length c = length ms /\
  ((psum ms (length ms) == 0)%Q /\ (forall j, j < length ms -> nth_error c j = Some None) \/
   (0 < psum ms (length ms))%Q /\
   (forall j, j < length ms -> exists q, nth_error c j = Some (Some q) /\ (q * psum ms (length ms) == psum ms (S j))%Q)).

Lemma flast_nth l : l <> [] -> nth_error l (length l - 1) = Some (flast l).
Proof.
  intros H. unfold flast. rewrite last_nth. apply nth_error_nth'. destruct l; [contradiction|]. simpl. lia.
Qed.

Lemma normalize_length l : length (normalize l) = length l.
Proof.
  unfold normalize. destruct (flast l) as [s|]; [destruct (Qeq_bool s 1)|]; rewrite ?map_length; reflexivity.
Qed.

(** Scaling the sums [p] by [K]. *)
Lemma cumok_normalize p ms K : (0 < K)%Q -> nonneg ms -> ms <> [] -> length p = length ms ->
  (forall j, j < length ms -> exists q, nth_error p j = Some (Some q) /\ (q * K == psum ms (S j))%Q) ->
  cumok (normalize p) ms.
Proof.
  intros HK Hnn Hne HL H. split; [rewrite normalize_length; assumption|].
  assert (HN : 0 < length ms) by (destruct ms; [contradiction|simpl; lia]).
  destruct (H (length ms - 1) ltac:(lia)) as (s & Hs & Es).
  replace (S (length ms - 1)) with (length ms) in Es by lia.
  assert (Hp : p <> []) by (intros ->; simpl in HL; lia).
  pose proof (flast_nth p Hp) as Hl. rewrite HL, Hs in Hl. inv Hl. unfold normalize. rewrite <- H1.
  set (M := psum ms (length ms)) in *. pose proof (psum_nonneg ms (length ms) Hnn) as HM. fold M in HM.
  destruct (Qeq_bool s 1) eqn:E1.
  - apply Qeq_bool_iff in E1. right. assert (EM : (M == K)%Q) by (rewrite <- Es, E1; ring). split; [rewrite EM; assumption|].
    intros j Hj. destruct (H j Hj) as (q & Hq & Eq). exists q. split; [assumption|]. rewrite EM. assumption.
  - destruct (Qeq_bool s 0) eqn:E0.
    + apply Qeq_bool_iff in E0. left. split; [rewrite <- Es, E0; ring|]. intros j Hj. destruct (H j Hj) as (q & Hq & _).
      rewrite nth_error_map, Hq. simpl. rewrite (proj2 (Qeq_bool_iff s 0) E0). reflexivity.
    + assert (Hs0 : ~ (s == 0)%Q) by (intros HX; apply Qeq_bool_iff in HX; congruence). right. split.
      * assert (~ (M == 0)%Q); [|lra]. intros HX. rewrite HX in Es. apply Qmult_integral in Es. destruct Es; [contradiction|]. lra.
      * intros j Hj. destruct (H j Hj) as (q & Hq & Eq). exists (q / s)%Q. rewrite nth_error_map, Hq. simpl. rewrite E0.
        split; [reflexivity|]. rewrite <- Es, <- Eq. field. assumption.
Qed.

Lemma cumsums_nth ws : forall acc j, j < length ws ->
  exists q, nth_error (cumsums acc ws) j = Some q /\ (q == acc + psum ws (S j))%Q.
Proof.
  induction ws as [|w ws IH]; intros acc j Hj; simpl in Hj; [lia|]. destruct j as [|j].
  - exists (acc + w)%Q. split; [reflexivity|]. simpl. rewrite psum_0. ring.
  - destruct (IH (acc + w)%Q j ltac:(lia)) as (q & Hq & E). exists q. split; [assumption|].
    rewrite E. change (psum (w :: ws) (S (S j))) with (w + psum ws (S j))%Q. ring.
Qed.

Lemma cumsums_length ws : forall acc, length (cumsums acc ws) = length ws.
Proof. induction ws; intros; simpl; auto. Qed.

Lemma init_cum_ok ws : ws <> [] -> nonneg ws -> cumok (init_cum ws) ws.
Proof.
  intros Hne Hnn. unfold init_cum. apply (cumok_normalize _ _ 1); [reflexivity|assumption|assumption| |].
  - rewrite map_length, cumsums_length. reflexivity.
  - intros j Hj. destruct (cumsums_nth ws 0 j Hj) as (q & Hq & E). exists q. rewrite nth_error_map, Hq. split; [reflexivity|].
    rewrite E. ring.
Qed.

Lemma nonneg_upd ms i : nonneg ms -> nonneg (upd ms i 0%Q).
Proof.
  intros H j q Hj. destruct (Nat.eq_dec i j) as [->|Hne].
  - destruct (Nat.lt_ge_cases j (length ms)).
    + rewrite nth_error_upd_eq in Hj by assumption. inv Hj. lra.
    + assert (HX : nth_error (upd ms j 0%Q) j = None) by (apply nth_error_None; rewrite upd_length; assumption). congruence.
  - rewrite nth_error_upd_ne in Hj by assumption. eapply H; eassumption.
Qed.

(** The list before it is normalised in [sm_block]. *)
Definition blocked (i : nat) (c : list (option Q)) : list (option Q) :=
  let ci := nth i c None in
  let '(w, c1) := match i with
                  | O => (ci, upd c 0 (Some 0%Q))
                  | S j => (opt2 Qminus ci (nth j c None), upd c i (nth j c None))
                  end in
  firstn (S i) c1 ++ map (fun x => opt2 Qminus x w) (skipn (S i) c1).

Lemma sm_block_eq i c : sm_block i c = normalize (blocked i c).
Proof. unfold sm_block, blocked. destruct i; reflexivity. Qed.

Lemma nth_error_firstn_lt {A} (l : list A) n j : j < n -> nth_error (firstn n l) j = nth_error l j.
Proof.
  revert n j. induction l as [|x l IH]; intros [|n] [|j] H; simpl; auto; try lia. apply IH. lia.
Qed.

Lemma nth_error_skipn' {A} (l : list A) n j : nth_error (skipn n l) j = nth_error l (n + j).
Proof. revert l. induction n as [|n IH]; intros l; [reflexivity|]. destruct l; [destruct j; reflexivity|]. apply IH. Qed.

Lemma nth_error_blocked i c j : i < length c -> j < length c ->
  nth_error (blocked i c) j =
    Some (if j <? i then nth j c None
          else let prev := match i with O => Some 0%Q | S k => nth k c None end in
               if j =? i then prev
               else opt2 Qminus (nth j c None) (match i with O => nth 0 c None | S k => opt2 Qminus (nth i c None) (nth k c None) end)).
Proof.
  intros Hi Hj. unfold blocked.
  set (w := match i with O => nth 0 c None | S k => opt2 Qminus (nth i c None) (nth k c None) end).
  set (prev := match i with O => Some 0%Q | S k => nth k c None end).
  assert (E : (let '(w, c1) := match i with
                  | O => (nth i c None, upd c 0 (Some 0%Q))
                  | S j => (opt2 Qminus (nth i c None) (nth j c None), upd c i (nth j c None))
                  end in
    firstn (S i) c1 ++ map (fun x => opt2 Qminus x w) (skipn (S i) c1)) =
    firstn (S i) (upd c i prev) ++ map (fun x => opt2 Qminus x w) (skipn (S i) (upd c i prev))).
  { unfold w, prev. destruct i; reflexivity. }
  cbv zeta. rewrite E. clear E. clearbody w prev.
  assert (HL : length (firstn (S i) (upd c i prev)) = S i) by (rewrite firstn_length, upd_length; lia).
  destruct (Nat.ltb_spec j i) as [H|H]; [|destruct (Nat.eqb_spec j i) as [->|Hne]].
  - rewrite nth_error_app1 by lia. rewrite nth_error_firstn_lt by lia. rewrite nth_error_upd_ne by lia.
    apply nth_error_nth'. assumption.
  - rewrite nth_error_app1 by lia. rewrite nth_error_firstn_lt by lia. apply nth_error_upd_eq. assumption.
  - rewrite nth_error_app2 by lia. rewrite HL, nth_error_map, nth_error_skipn', nth_error_upd_ne by lia.
    replace (S i + (j - S i)) with j by lia. rewrite (nth_error_nth' c None Hj). reflexivity.
Qed.

Lemma blocked_length i c : length (blocked i c) = length c.
Proof.
  unfold blocked. destruct i; rewrite app_length, map_length, <- app_length, firstn_skipn, upd_length; reflexivity.
Qed.

Lemma normalize_none p : p <> [] -> (flast p = None \/ p = [Some 0%Q]) -> forall j, j < length p -> nth_error (normalize p) j = Some None.
Proof.
  intros Hp [H| ->] j Hj; unfold normalize.
  - rewrite H, nth_error_map, (nth_error_nth' p None Hj). reflexivity.
  - simpl in Hj. assert (j = 0) by lia. subst j. reflexivity.
Qed.

Lemma block_ok c ms i : nonneg ms -> i < length ms -> cumok c ms -> cumok (sm_block i c) (upd ms i 0%Q).
Proof.
  intros Hnn Hi (HL & HC). rewrite sm_block_eq.
  destruct (nth_error ms i) as [mi|] eqn:Emi; [|apply nth_error_None in Emi; lia].
  assert (Hne : upd ms i 0%Q <> []) by (intros E; apply (f_equal (@length _)) in E; rewrite upd_length in E; simpl in E; lia).
  destruct HC as [(HM & HC)|(HM & HC)].
  - split; [rewrite normalize_length, blocked_length, upd_length; assumption|]. left. rewrite upd_length.
    assert (Hm0 : (mi == 0)%Q).
    { assert (0 <= mi)%Q by (eapply Hnn; eassumption). pose proof (psum_S ms i mi Emi) as E.
      pose proof (psum_le ms (S i) (length ms) Hnn ltac:(lia)). pose proof (psum_nonneg ms i Hnn). lra. }
    split.
    + rewrite (psum_upd _ _ _ _ Emi). destruct (i <? length ms); rewrite ?Hm0, HM; ring.
    + intros j Hj. assert (Hb : blocked i c <> []) by (intros E; apply (f_equal (@length _)) in E; rewrite blocked_length in E; simpl in E; lia).
      apply normalize_none; [assumption| |rewrite blocked_length; lia].
      pose proof (flast_nth _ Hb) as Hf. rewrite blocked_length in Hf. rewrite nth_error_blocked in Hf by lia.
      assert (HN : forall j, j < length c -> nth j c None = None).
      { intros k Hk. apply nth_error_nth. apply HC. lia. }
      destruct (Nat.eq_dec i (length c - 1)) as [Ei|Ei].
      * rewrite Ei, Nat.ltb_irrefl, Nat.eqb_refl in Hf. destruct (length c - 1) as [|k] eqn:Ek.
        -- right. destruct c as [|c0 [|c1 c]]; simpl in *; try lia. subst i. reflexivity.
        -- left. rewrite HN in Hf by lia. congruence.
      * left. destruct (Nat.ltb_spec (length c - 1) i); [lia|]. destruct (Nat.eqb_spec (length c - 1) i); [lia|].
        rewrite HN in Hf by lia. simpl in Hf. congruence.
  - apply (cumok_normalize _ _ (psum ms (length ms))); [assumption|apply nonneg_upd; assumption|assumption| |].
    + rewrite blocked_length, upd_length. assumption.
    + rewrite upd_length. intros j Hj. rewrite nth_error_blocked by lia. cbv zeta.
      assert (HN : forall j, j < length ms -> exists q, nth j c None = Some q /\ (q * psum ms (length ms) == psum ms (S j))%Q).
      { intros k Hk. destruct (HC k Hk) as (q & Hq & E). exists q. split; [apply nth_error_nth; assumption|assumption]. }
      assert (HP : exists q, match i with O => Some 0%Q | S k => nth k c None end = Some q /\ (q * psum ms (length ms) == psum ms i)%Q).
      { destruct i as [|k]; [exists 0%Q; split; [reflexivity|]; rewrite psum_0; ring|apply HN; lia]. }
      destruct HP as (qp & Hqp & Ep). destruct (HN i Hi) as (qi & Hqi & Ei). destruct (HN j Hj) as (qj & Hqj & Ej).
      destruct (Nat.ltb_spec j i) as [H|H]; [|destruct (Nat.eqb_spec j i) as [->|Hji]].
      * exists qj. rewrite Hqj. split; [reflexivity|]. rewrite (psum_upd _ _ _ _ Emi).
        destruct (Nat.ltb_spec i (S j)); [lia|]. rewrite Ej. ring.
      * exists qp. rewrite Hqp. split; [reflexivity|]. rewrite (psum_upd _ _ _ _ Emi).
        destruct (Nat.ltb_spec i (S i)); [|lia]. rewrite Ep, (psum_S _ _ _ Emi). ring.
      * assert (EW : exists w, match i with O => nth 0 c None | S k => opt2 Qminus (nth i c None) (nth k c None) end = Some w /\
                     (w * psum ms (length ms) == mi)%Q).
        { destruct i as [|k].
          - exists qi. split; [assumption|]. rewrite Ei, (psum_S _ _ _ Emi), psum_0. ring.
          - rewrite Hqi, Hqp. exists (qi - qp)%Q. split; [reflexivity|].
            transitivity (qi * psum ms (length ms) - qp * psum ms (length ms))%Q; [ring|]. rewrite Ei, Ep, (psum_S _ _ _ Emi). ring. }
        destruct EW as (w & Hw & Ew). rewrite Hqj, Hw. exists (qj - w)%Q. split; [reflexivity|]. rewrite (psum_upd _ _ _ _ Emi).
        destruct (Nat.ltb_spec i (S j)); [|lia].
        transitivity (qj * psum ms (length ms) - w * psum ms (length ms))%Q; [ring|]. rewrite Ej, Ew. reflexivity.
Qed.

(** ** The binary search *)
Lemma bsearch_spec c x : forall f l r, r - l <= f -> l <= r ->
  (l = 0 \/ flt (nth (l - 1) c None) x = true) -> (r = length c - 1 \/ flt (nth r c None) x = false) ->
  let i := bsearch f l r c x in
  l <= i <= r /\ (i = 0 \/ flt (nth (i - 1) c None) x = true) /\ (i = length c - 1 \/ flt (nth i c None) x = false).
Proof.
  induction f as [|f IH]; intros l r Hf Hlr H1 H2; cbn [bsearch].
  - assert (l = r) by lia. subst. auto.
  - destruct (Nat.ltb_spec 0 (r - l)) as [H|H]; [|assert (l = r) by lia; subst; auto].
    set (m := l + (r - l) / 2). assert (Hm : l <= m < r).
    { unfold m. pose proof (Nat.div_lt (r - l) 2 H ltac:(lia)). lia. }
    destruct (flt (nth m c None) x) eqn:E.
    + destruct (IH (S m) r ltac:(lia) ltac:(lia)) as (A & B & C); [right; replace (S m - 1) with m by lia; assumption|assumption|].
      split; [lia|]. split; assumption.
    + destruct (IH l m ltac:(lia) ltac:(lia) H1 (or_intror E)) as (A & B & C). split; [lia|]. split; assumption.
Qed.

Lemma flt_spec q x : flt (Some q) x = true <-> (q < x)%Q.
Proof.
  unfold flt. rewrite negb_true_iff. split; intros H.
  - apply Qnot_le_lt. intros HX. apply Qle_bool_iff in HX. congruence.
  - apply not_true_iff_false. intros HX. apply Qle_bool_iff in HX. lra.
Qed.

Lemma bsearch_pick c ms x : cumok c ms -> nonneg ms -> (0 < psum ms (length ms))%Q -> (0 <= x)%Q -> (x < 1)%Q -> ms <> [] ->
  let i := bsearch (length c) 0 (length c - 1) c x in
  let p := (x * psum ms (length ms))%Q in
  i < length ms /\ (i = 0 \/ (psum ms i < p)%Q) /\ (p <= psum ms (S i))%Q.
Proof.
  intros (HL & HC) Hnn HM Hx0 Hx1 Hne. set (M := psum ms (length ms)) in *. set (i := bsearch (length c) 0 (length c - 1) c x).
  destruct HC as [(H0 & _)|(_ & HC)]; [fold M in H0; lra|].
  destruct (bsearch_spec c x (length c) 0 (length c - 1) ltac:(lia) ltac:(lia) (or_introl eq_refl) (or_introl eq_refl)) as (A & B & C).
  fold i in A, B, C. cbv zeta. assert (HN : 0 < length ms) by (destruct ms; [contradiction|simpl; lia]).
  split; [lia|]. split.
  - destruct B as [B|B]; [auto|]. destruct (Nat.eq_dec i 0) as [|Hi]; [auto|]. right.
    destruct (HC (i - 1) ltac:(lia)) as (q & Hq & E). rewrite (nth_error_nth c (i - 1) None Hq) in B. apply flt_spec in B.
    replace (S (i - 1)) with i in E by lia. fold M in E. rewrite <- E. apply Qmult_lt_compat_r; assumption.
  - destruct C as [C|C].
    + replace (S i) with (length ms) by lia. fold M. setoid_replace M with (1 * M)%Q at 2 by ring.
      apply Qmult_le_compat_r; lra.
    + destruct (HC i ltac:(lia)) as (q & Hq & E). rewrite (nth_error_nth c i None Hq) in C. fold M in E. rewrite <- E.
      apply Qmult_le_compat_r; [|lra]. apply Qnot_lt_le. intros HX. apply flt_spec in HX. congruence.
Qed.

Lemma sm_draw_range rnd g : (0 <= sm_draw rnd g)%Q /\ (sm_draw rnd g < 1)%Q.
Proof.
  unfold sm_draw, Qle, Qlt. cbn [Qnum Qden]. pose proof (Z.mod_pos_bound (rnd (fst g) (snd g)) (2 ^ 24) ltac:(lia)).
  change (Z.pos (2 ^ 24)%positive) with (2 ^ 24)%Z. lia.
Qed.

Lemma skip_done_here done : forall i, nth_error done i = Some false -> skip_done done i = Some i.
Proof.
  induction done as [|b done IH]; intros i H; [destruct i; discriminate|]. destruct i as [|i]; simpl in *.
  - inv H. reflexivity.
  - rewrite (IH _ H). reflexivity.
Qed.

Lemma skip_done_first done : forallb (fun b => b) done = false ->
  exists j, skip_done done 0 = Some j /\ nth_error done j = Some false /\ forall k, k < j -> nth_error done k = Some true.
Proof.
  induction done as [|b done IH]; intros H; [discriminate|]. simpl in *. destruct b.
  - destruct (IH H) as (j & A & B & C). exists (S j). rewrite A. split; [reflexivity|]. split; [assumption|].
    intros [|k] Hk; [reflexivity|]. apply C. lia.
  - exists 0. split; [reflexivity|]. split; [reflexivity|]. lia.
Qed.

Lemma skip_done_lt done : forall l j, skip_done done l = Some j -> j < length done.
Proof.
  induction done as [|b done IH]; intros l j H; [discriminate|]. destruct l as [|l]; simpl in *.
  - destruct b; [|inv H; lia]. destruct (skip_done done 0) eqn:E; inv H. apply IH in E. lia.
  - destruct (skip_done done l) eqn:E; inv H. apply IH in E. lia.
Qed.

Definition positive (ws : list Q) : Prop := Forall (fun w => (0 < w)%Q) ws.

Lemma masked_length ws act : length act = length ws -> length (masked ws act) = length ws.
Proof. intros H. unfold masked. rewrite map_length, combine_length. lia. Qed.

Lemma masked_nth ws : forall act i w a, nth_error ws i = Some w -> nth_error act i = Some a ->
  nth_error (masked ws act) i = Some (if a : bool then w else 0%Q).
Proof.
  induction ws as [|w0 ws IH]; intros act i w a Hw Ha; [destruct i; discriminate|].
  destruct act as [|a0 act]; [destruct i; discriminate|]. destruct i as [|i]; simpl in *; [inv Hw; inv Ha; reflexivity|].
  apply IH; assumption.
Qed.

Lemma masked_nth_inv ws : forall act i q, nth_error (masked ws act) i = Some q ->
  exists w a, nth_error ws i = Some w /\ nth_error act i = Some a /\ q = if a : bool then w else 0%Q.
Proof.
  induction ws as [|w0 ws IH]; intros act i q H; [destruct i; discriminate|].
  destruct act as [|a0 act]; [destruct i; discriminate|]. destruct i as [|i]; simpl in *; [inv H; eauto|].
  apply IH; assumption.
Qed.

Lemma masked_nonneg ws act : positive ws -> nonneg (masked ws act).
Proof.
  intros HP i q H. apply masked_nth_inv in H. destruct H as (w & a & Hw & _ & ->). destruct a; [|lra].
  apply nth_error_In in Hw. pose proof (proj1 (Forall_forall _ _) HP w Hw). simpl in *. lra.
Qed.

Lemma masked_total ws act i : positive ws -> length act = length ws -> nth_error act i = Some true ->
  (0 < psum (masked ws act) (length (masked ws act)))%Q.
Proof.
  intros HP HL Hi. assert (Hlt : i < length ws) by (rewrite <- HL; apply nth_error_Some; congruence).
  destruct (nth_error ws i) as [w|] eqn:Ew; [|apply nth_error_None in Ew; lia].
  pose proof (psum_S _ _ _ (masked_nth _ _ _ _ _ Ew Hi)) as E. pose proof (masked_nonneg ws act HP) as Hnn.
  pose proof (psum_nonneg _ i Hnn). assert (0 < w)%Q by (eapply (proj1 (Forall_forall _ _) HP), nth_error_In; exact Ew).
  pose proof (psum_le (masked ws act) (S i) (length (masked ws act)) Hnn ltac:(rewrite masked_length; lia)). lra.
Qed.

Lemma psum_zero ms : forall i, (forall k, k < i -> nth_error ms k = Some 0%Q) -> (psum ms i == 0)%Q.
Proof.
  induction i as [|i IH]; intros H; [rewrite psum_0; reflexivity|].
  rewrite (psum_S ms i 0 (H i ltac:(lia))), IH by (intros; apply H; lia). ring.
Qed.

(** The index that is chosen. *)
Lemma index_pick rnd (ar : bool) ws g c done : positive ws -> length done = length ws -> ws <> [] ->
  (ar = true \/ forallb (fun b => b) done = false) ->
  cumok c (masked ws (map (fun b => if ar then true else negb b) done)) ->
  exists i, sm_index rnd ar g c done = Some i /\ i < length ws /\
    picked ws (map (fun b => if ar then true else negb b) done) (sm_draw rnd g) i.
Proof.
  intros HP HL Hne Hor HC. set (act := map (fun b => if ar then true else negb b) done) in *.
  assert (HLa : length act = length ws) by (unfold act; rewrite map_length; assumption).
  pose proof (masked_length ws act HLa) as HLm. pose proof (masked_nonneg ws act HP) as Hnn.
  destruct (sm_draw_range rnd g) as [Hx0 Hx1]. set (x := sm_draw rnd g) in *.
  assert (Hact : exists i, nth_error act i = Some true).
  { unfold act. destruct ar.
    - exists 0. rewrite nth_error_map. destruct done as [|b done]; [destruct ws; [contradiction|discriminate]|]. reflexivity.
    - destruct Hor as [|Hor]; [discriminate|]. destruct (skip_done_first done Hor) as (j & _ & B & _). exists j.
      rewrite nth_error_map, B. reflexivity. }
  assert (HT : (0 < psum (masked ws act) (length (masked ws act)))%Q) by (destruct Hact as (i & Hi); eapply masked_total; eassumption).
  assert (Hne' : masked ws act <> []) by (intros E; rewrite E in HLm; destruct ws; [contradiction|discriminate]).
  destruct (bsearch_pick c _ x HC Hnn HT Hx0 Hx1 Hne') as (A & B & C).
  unfold sm_index. fold x. set (i := bsearch (length c) 0 (length c - 1) c x) in *. cbv zeta.
  assert (Hai : nth_error act i <> None) by (apply nth_error_Some; lia).
  destruct ar.
  - exists i. split; [reflexivity|]. split; [lia|]. split; [|split; [|assumption]].
    + unfold act in *. rewrite nth_error_map in *. destruct (nth_error done i); [reflexivity|contradiction].
    + destruct B as [-> |B]; [|left; assumption]. rewrite psum_0.
      destruct (Qlt_le_dec 0 x) as [Hx|Hx]; [left; apply Qmult_lt_0_compat; assumption|right; split; [lra|reflexivity]].
  - destruct (Qlt_le_dec 0 x) as [Hx|Hx].
    + assert (HB : (psum (masked ws act) i < x * psum (masked ws act) (length (masked ws act)))%Q).
      { destruct B as [Ei|B]; [|assumption]. rewrite Ei, psum_0. apply Qmult_lt_0_compat; assumption. }
      assert (Hact_i : nth_error act i = Some true).
      { destruct (nth_error act i) as [[|]|] eqn:Ea; [reflexivity| |contradiction]. exfalso.
        destruct (nth_error ws i) as [w|] eqn:Ew; [|apply nth_error_None in Ew; lia].
        pose proof (psum_S _ _ _ (masked_nth _ _ _ _ _ Ew Ea)) as E. simpl in E. lra. }
      exists i. split; [apply skip_done_here|split; [lia|split; [assumption|split; [left; assumption|assumption]]]].
      unfold act in Hact_i. rewrite nth_error_map in Hact_i. destruct (nth_error done i) as [[|]|]; try discriminate. reflexivity.
    + assert (Ex : (x == 0)%Q) by lra.
      assert (Ei : i = 0).
      { destruct B as [B|B]; [assumption|]. exfalso. pose proof (psum_nonneg _ i Hnn). rewrite Ex in B. lra. }
      destruct Hor as [|Hor]; [discriminate|]. destruct (skip_done_first done Hor) as (j & J1 & J2 & J3).
      exists j. rewrite Ei. assert (Hj : j < length ws) by (rewrite <- HL; apply nth_error_Some; congruence).
      split; [assumption|]. split; [assumption|]. split; [unfold act; rewrite nth_error_map, J2; reflexivity|].
      split.
      * right. split; [assumption|]. apply psum_zero. intros k Hk.
        destruct (nth_error ws k) as [w|] eqn:Ew; [|apply nth_error_None in Ew; lia].
        erewrite masked_nth; [|exact Ew|unfold act; rewrite nth_error_map, (J3 k Hk); reflexivity]. reflexivity.
      * rewrite Ex. setoid_replace (0 * psum (masked ws act) (length (masked ws act)))%Q with 0%Q by ring. apply psum_nonneg. assumption.
Qed.

(** ** Running *)
Section SMP.
  Variable rnd : Z -> nat -> Z.
  Variable ps : list source.
  Variable ws : list Q.
  Variable seed0 : Z.
  Variable ar : bool.
  Notation sm := (src_sample rnd ps ws seed0 ar).
  Hypothesis HM : Forall mono ps.

  Lemma sm_fetch_mono n m i done c s r : n <= m -> sm_fetch ps ar n i done c s = Some r -> sm_fetch ps ar m i done c s = Some r.
  Proof.
    intros Hn. unfold sm_fetch. destruct (hnext ps i n s) as [[o s1]|] eqn:E; [|discriminate].
    rewrite (hnext_mono ps HM _ _ _ _ _ Hn E). destruct o; auto. destruct ar; auto.
    destruct (hnext ps i n (hreset1 ps i false s1)) as [[o2 s2]|] eqn:E2; [|discriminate].
    rewrite (hnext_mono ps HM _ _ _ _ _ Hn E2). auto.
  Qed.

  Lemma sm_gather_mono n m : n <= m -> forall k i b done c s r,
    sm_gather ps ar n k i b done c s = Some r -> sm_gather ps ar m k i b done c s = Some r.
  Proof.
    intros Hn k. induction k as [|k IH]; intros i b done c s r H; [exact H|]. cbn [sm_gather] in *.
    destruct (sm_fetch ps ar n i done c s) as [[[[[o|e] d] c'] s']|] eqn:E; try discriminate;
      rewrite (sm_fetch_mono _ _ _ _ _ _ _ Hn E); auto.
  Qed.

  (** [sm_next] after the first examples have been gathered. *)
  Definition sm_body (n : nat) (sd : Z) (g : Z * nat) (b : list (option data)) (done : list bool) (c : list (option Q)) (s : hst ps)
    : option (out * sm_st ps) :=
    let gen := (fst g, S (snd g)) in
    match sm_index rnd ar g c done with
    | None => Some (Err Fatal, SmSt b done sd gen c s)
    | Some i =>
      match sm_fetch ps ar n i done c s with
      | None => None
      | Some (inr e, done', c', s') => Some (Err e, SmSt b done' sd gen c' s')
      | Some (inl o, done', c', s') =>
        Some (match nth i b None with Some d => Val d | None => Eod end,
              SmSt (upd b i o) done' sd gen c' s')
      end
    end.

  Lemma sm_next_eq n x : sm_next rnd ps ar n x =
    if (length ps =? 0) || forallb (fun b => b) (sm_done x) then Some (Eod, x)
    else match sm_buf x with
         | [] => match sm_gather ps ar n (length ps) 0 [] (sm_done x) (sm_cum x) (sm_ps x) with
                 | None => None
                 | Some (b, Some e, done, c, s) => Some (Err e, SmSt b done (sm_seed x) (sm_gen x) c s)
                 | Some (b, None, done, c, s) => sm_body n (sm_seed x) (sm_gen x) b done c s
                 end
         | b => sm_body n (sm_seed x) (sm_gen x) b (sm_done x) (sm_cum x) (sm_ps x)
         end.
  Proof. unfold sm_next, sm_body. destruct (_ || _); [reflexivity|]. destruct (sm_buf x); reflexivity. Qed.

  Lemma sm_body_mono n m sd g b done c s r : n <= m -> sm_body n sd g b done c s = Some r -> sm_body m sd g b done c s = Some r.
  Proof.
    intros Hn. unfold sm_body. destruct (sm_index rnd ar g c done) as [i|]; [|auto].
    destruct (sm_fetch ps ar n i done c s) as [[[[r1 d] c'] s']|] eqn:E; [|discriminate].
    rewrite (sm_fetch_mono _ _ _ _ _ _ _ Hn E). auto.
  Qed.

  Lemma sm_mono : mono sm.
  Proof.
    intros n m x r Hn H. cbn [next src_sample] in *. rewrite sm_next_eq in *.
    destruct ((length ps =? 0) || forallb (fun b => b) (sm_done x)); auto.
    destruct (sm_buf x) as [|b0 b]; [|eapply sm_body_mono; eassumption].
    destruct (sm_gather ps ar n (length ps) 0 [] (sm_done x) (sm_cum x) (sm_ps x)) as [[[[[b [e|]] dn] c] s]|] eqn:E; try discriminate;
      rewrite (sm_gather_mono n m Hn _ _ _ _ _ _ _ E); [assumption|eapply sm_body_mono; eassumption].
  Qed.

  Lemma sm_fetch_rr n i done c s o d' s' : rr_fetch ps ar n i done s = Some (inl o, d', s') -> (o = None -> ar = false) ->
    sm_fetch ps ar n i done c s = Some (inl o, d', match o with None => sm_block i c | Some _ => c end, s').
  Proof.
    unfold rr_fetch, sm_fetch. intros H Ho. destruct (hnext ps i n s) as [[[d| |e] s1]|]; try discriminate.
    - inv H. reflexivity.
    - destruct ar.
      + destruct (hnext ps i n (hreset1 ps i false s1)) as [[[d| |e] s2]|]; try discriminate.
        * inv H. reflexivity.
        * inv H. specialize (Ho eq_refl). discriminate.
      + inv H. reflexivity.
  Qed.

  Variable ks : list kid.
  Notation N := (length ps).
  Notation kd := (fun i => nth i ks (Kid (fun _ => None) 0)).
  Hypothesis HL : length ks = N.
  Hypothesis HN : 0 < N.
  Hypothesis HW : length ws = N.
  Hypothesis HP : positive ws.
  (** With repeats a pipeline never runs dry, without it does so at its end. *)
  Hypothesis Hkid : forall i e, i < N -> if ar then k_item (kd i) e <> None else (k_item (kd i) e = None <-> k_len (kd i) <= e).

  Definition kdone (e : nat -> nat) : list bool := tab N (fun i => k_len (kd i) <=? e i).
  Definition kact (e : nat -> nat) : list bool := map (fun b => if ar then true else negb b) (kdone e).
  Definition bump (e : nat -> nat) (i : nat) : nat -> nat := fun j => if j =? i then S (e j) else e j.

  Definition slive (e : nat -> nat) (b : list (option data)) (done : list bool) (c : list (option Q)) (s : hst ps) : Prop :=
    b = tab N (fun i => k_item (kd i) (e i)) /\ done = kdone e /\ hkids ar ps s ks (tab N (fun i => S (e i))) /\
    cumok c (masked ws (kact e)) /\ (ar = true -> c = init_cum ws).

  Lemma ws_ne : ws <> [].
  Proof. intros E. rewrite E in HW. simpl in HW. lia. Qed.

  Lemma tab_map {A B} (g : A -> B) n h : map g (tab n h) = tab n (fun i => g (h i)).
  Proof. unfold tab. apply map_map. Qed.

  Lemma masked_tab (h : nat -> bool) : masked ws (tab N h) = tab N (fun i => if h i then nth i ws 0%Q else 0%Q).
  Proof.
    apply nth_error_ext; [rewrite masked_length, tab_length; [assumption|rewrite tab_length; auto]|].
    rewrite masked_length by (rewrite tab_length; auto). rewrite HW. intros i Hi. rewrite tab_nth_error by assumption.
    erewrite masked_nth; [reflexivity|apply nth_error_nth'; lia|apply tab_nth_error; assumption].
  Qed.

  (** After pipeline [i] has been chosen. *)
  Lemma act_bump e i c : ar = false -> i < N -> k_item (kd i) (e i) <> None -> cumok c (masked ws (kact e)) ->
    cumok (match k_item (kd i) (S (e i)) with None => sm_block i c | Some _ => c end) (masked ws (kact (bump e i))).
  Proof.
    intros Har Hi Hd HC. unfold kact, kdone in HC |- *. rewrite Har in HC |- *. rewrite tab_map, masked_tab in HC |- *.
    pose proof (Hkid i (e i) Hi) as K0. pose proof (Hkid i (S (e i)) Hi) as K1. rewrite Har in K0, K1. cbn beta in *.
    assert (H0 : e i < k_len (kd i)) by (destruct (Nat.le_gt_cases (k_len (kd i)) (e i)); [tauto|assumption]).
    destruct (k_item (kd i) (S (e i))) as [d|] eqn:E1.
    - assert (H1 : S (e i) < k_len (kd i)).
      { destruct (Nat.le_gt_cases (k_len (kd i)) (S (e i))) as [HX|]; [|assumption]. apply K1 in HX. discriminate. }
      erewrite tab_ext; [exact HC|]. intros j Hj. unfold bump. destruct (Nat.eqb_spec j i) as [->|]; [|reflexivity].
      destruct (Nat.leb_spec (k_len (kd i)) (S (e i))), (Nat.leb_spec (k_len (kd i)) (e i)); try lia; reflexivity.
    - assert (H1 : k_len (kd i) <= S (e i)) by (apply K1; reflexivity).
      apply (block_ok c _ i) in HC.
      + rewrite tab_upd in HC by assumption. erewrite tab_ext; [exact HC|]. intros j Hj. unfold bump.
        destruct (Nat.eqb_spec j i) as [->|]; [|reflexivity]. rewrite (proj2 (Nat.leb_le _ _) H1). reflexivity.
      + rewrite <- masked_tab. apply masked_nonneg. assumption.
      + rewrite tab_length. assumption.
  Qed.

  Lemma sm_body_run e sd g b done c s : slive e b done c s -> (ar = true \/ forallb (fun x => x) (kdone e) = false) ->
    exists n i d x', sm_body n sd g b done c s = Some (Val d, x') /\ i < N /\ k_item (kd i) (e i) = Some d /\
      picked ws (kact e) (sm_draw rnd g) i /\ sm_index rnd ar g c done = Some i /\
      sm_seed x' = sd /\ sm_gen x' = (fst g, S (snd g)) /\ sm_buf x' <> [] /\
      slive (bump e i) (sm_buf x') (sm_done x') (sm_cum x') (sm_ps x').
  Proof.
    intros (Hb & Hd & HK & HC & Hi0) Hor. subst done.
    assert (HLd : length (kdone e) = length ws) by (unfold kdone; rewrite tab_length; auto).
    destruct (index_pick rnd ar ws g c (kdone e) HP HLd ws_ne Hor HC) as (i & Ei & Hi & Hpick).
    rewrite HW in Hi. pose proof (Hkid i (e i) Hi) as K0. pose proof (Hkid i (S (e i)) Hi) as K1. cbn beta in *.
    assert (Hit : k_item (kd i) (e i) <> None).
    { destruct ar eqn:Ear; [assumption|]. intros HX. apply K0 in HX. destruct Hpick as (Hp & _).
      unfold kact, kdone in Hp. rewrite tab_map, tab_nth_error in Hp by assumption.
      rewrite (proj2 (Nat.leb_le _ _) HX) in Hp. discriminate. }
    destruct (k_item (kd i) (e i)) as [d|] eqn:Ed; [|contradiction].
    assert (Hkd : nth_error ks i = Some (kd i)) by (apply nth_error_nth'; lia).
    destruct (rr_fetch_run ps ar HM s ks _ (kdone e) i (kd i) (S (e i)) HK Hkd) as (n & s1 & Hn & HK1).
    { rewrite tab_nth_error by assumption. reflexivity. }
    { unfold kdone. rewrite tab_nth_error by assumption. reflexivity. }
    assert (Har : k_item (kd i) (S (e i)) = None -> ar = false) by (intros HX; destruct ar; [contradiction|reflexivity]).
    apply (sm_fetch_rr n i (kdone e) c) in Hn; [|assumption].
    exists n, i, d. eexists. unfold sm_body. rewrite Ei, Hn, Hb, tab_nth by assumption. rewrite Ed.
    split; [reflexivity|]. split; [assumption|]. split; [reflexivity|]. split; [assumption|]. split; [reflexivity|].
    cbn [sm_seed sm_gen sm_buf sm_done sm_cum sm_ps]. split; [reflexivity|]. split; [reflexivity|]. split.
    { intros HX. apply (f_equal (@length _)) in HX. rewrite upd_length, tab_length in HX. simpl in HX. lia. }
    split; [|split; [|split; [|split]]].
    - rewrite tab_upd by assumption. apply tab_ext. intros j Hj. unfold bump. destruct (Nat.eqb_spec j i) as [->|]; reflexivity.
    - unfold kdone. rewrite tab_upd by assumption. apply tab_ext. intros j Hj. unfold bump.
      destruct (Nat.eqb_spec j i) as [->|]; reflexivity.
    - rewrite tab_upd in HK1 by assumption. erewrite tab_ext; [exact HK1|]. intros j Hj. unfold bump. simpl.
      destruct (Nat.eqb_spec j i) as [->|]; reflexivity.
    - destruct (bool_dec ar true) as [Ear|Ear].
      + destruct (k_item (kd i) (S (e i))); [|specialize (Har eq_refl); congruence].
        unfold kact, kdone in HC |- *. rewrite Ear in HC |- *. rewrite tab_map in HC |- *. exact HC.
      + apply not_true_is_false in Ear. apply act_bump; try assumption. cbn beta. congruence.
    - intros Ht. destruct (k_item (kd i) (S (e i))); [auto|]. specialize (Har eq_refl). congruence.
  Qed.

  (** The first examples are gathered. *)
  Definition upto (i : nat) : list bool := tab N (fun j => if j <? i then k_len (kd j) <=? 0 else false).

  Lemma sm_gather_run : forall k i c s, k + i = N ->
    hkids ar ps s ks (tab N (fun j => if j <? i then 1 else 0)) ->
    cumok c (masked ws (map (fun b => if ar then true else negb b) (upto i))) -> (ar = true -> c = init_cum ws) ->
    exists n c' s',
      sm_gather ps ar n k i (map (fun j => k_item (kd j) 0) (seq 0 i)) (upto i) c s =
      Some (map (fun j => k_item (kd j) 0) (seq 0 N), None, kdone (fun _ => 0), c', s') /\
      slive (fun _ => 0) (map (fun j => k_item (kd j) 0) (seq 0 N)) (kdone (fun _ => 0)) c' s'.
  Proof.
    induction k as [|k IH]; intros i c s Hk HK HC Hc.
    - assert (i = N) by lia. subst i.
      assert (EU : upto N = kdone (fun _ => 0)).
      { unfold upto, kdone. apply tab_ext. intros j Hj. rewrite (proj2 (Nat.ltb_lt j N) Hj). reflexivity. }
      exists 0, c, s. cbn [sm_gather]. rewrite EU in *. split; [reflexivity|].
      split; [reflexivity|]. split; [reflexivity|]. split; [|split; assumption].
      erewrite tab_ext; [exact HK|]. intros j Hj. simpl. rewrite (proj2 (Nat.ltb_lt j N) Hj). reflexivity.
    - assert (Hi : i < N) by lia. assert (Hkd : nth_error ks i = Some (kd i)) by (apply nth_error_nth'; lia).
      pose proof (Hkid i 0 Hi) as K0. cbn beta in K0.
      destruct (rr_fetch_run ps ar HM s ks _ (upto i) i (kd i) 0 HK Hkd) as (n & s1 & Hn & HK1).
      { rewrite tab_nth_error by assumption. rewrite Nat.ltb_irrefl. reflexivity. }
      { unfold upto. rewrite tab_nth_error by assumption. rewrite Nat.ltb_irrefl. reflexivity. }
      assert (Har : k_item (kd i) 0 = None -> ar = false) by (intros HX; destruct ar; [contradiction|reflexivity]).
      apply (sm_fetch_rr n i (upto i) c) in Hn; [|assumption].
      assert (EU : upd (upto i) i (k_len (kd i) <=? 0) = upto (S i)).
      { unfold upto. rewrite tab_upd by assumption. apply tab_ext. intros j Hj.
        destruct (Nat.eqb_spec j i), (Nat.ltb_spec j (S i)), (Nat.ltb_spec j i); subst; try reflexivity; lia. }
      rewrite EU in Hn.
      set (c1 := match k_item (kd i) 0 with Some _ => c | None => sm_block i c end) in *.
      destruct (IH (S i) c1 s1 ltac:(lia)) as (n2 & c2 & s2 & H2 & HS).
      { rewrite tab_upd in HK1 by assumption. erewrite tab_ext; [exact HK1|]. intros j Hj. simpl.
        destruct (Nat.eqb_spec j i), (Nat.ltb_spec j (S i)), (Nat.ltb_spec j i); subst; try reflexivity; lia. }
      { unfold c1. unfold upto in HC |- *. destruct (bool_dec ar true) as [Ear|Ear].
        - destruct (k_item (kd i) 0); [|specialize (Har eq_refl); congruence]. rewrite Ear in HC |- *. rewrite tab_map in HC |- *. exact HC.
        - apply not_true_is_false in Ear. rewrite Ear in HC, K0 |- *. rewrite tab_map, masked_tab in HC |- *. destruct (k_item (kd i) 0) as [d|] eqn:Ed.
          + erewrite tab_ext; [exact HC|]. intros j Hj. simpl.
            destruct (Nat.ltb_spec j (S i)), (Nat.ltb_spec j i); try reflexivity; [|lia]. assert (j = i) by lia. subst j.
            destruct (Nat.leb_spec (k_len (kd i)) 0) as [HX|]; [|reflexivity]. apply K0 in HX. discriminate.
          + apply (block_ok c _ i) in HC.
            * rewrite tab_upd in HC by assumption. erewrite tab_ext; [exact HC|]. intros j Hj. simpl.
              destruct (Nat.eqb_spec j i), (Nat.ltb_spec j (S i)), (Nat.ltb_spec j i); subst; try reflexivity; try lia.
              rewrite (proj2 (Nat.leb_le _ _)) by (apply K0; reflexivity). reflexivity.
            * rewrite <- masked_tab. apply masked_nonneg. assumption.
            * rewrite tab_length. assumption. }
      { intros Ht. unfold c1. destruct (k_item (kd i) 0); [auto|]. specialize (Har eq_refl). congruence. }
      exists (n + n2), c2, s2. split; [|assumption]. cbn [sm_gather].
      rewrite (sm_fetch_mono n (n + n2) _ _ _ _ _ ltac:(lia) Hn).
      rewrite <- (sm_gather_mono n2 (n + n2) ltac:(lia) _ _ _ _ _ _ _ H2). f_equal.
      rewrite seq_S, map_app. reflexivity.
  Qed.

  Definition sm_fresh (x : sm_st ps) : Prop :=
    sm_buf x = [] /\ sm_done x = repeat false N /\ sm_cum x = init_cum ws /\ hkids ar ps (sm_ps x) ks (repeat 0 N).

  (** A running state: fresh with all counts 0, or after at least one example. *)
  Definition sm_at (e : nat -> nat) (x : sm_st ps) : Prop :=
    (sm_fresh x /\ forall i, e i = 0) \/ (sm_buf x <> [] /\ slive e (sm_buf x) (sm_done x) (sm_cum x) (sm_ps x)).

  Lemma slive_ext e e' b done c s : (forall i, e i = e' i) -> slive e b done c s -> slive e' b done c s.
  Proof.
    intros He (A & B & C & D & E). unfold slive, kact, kdone in *.
    assert (E1 : forall {A} (g : nat -> nat -> A), tab N (fun i => g i (e i)) = tab N (fun i => g i (e' i))).
    { intros T g. apply tab_ext. intros i _. rewrite He. reflexivity. }
    rewrite (E1 _ (fun i m => k_item (kd i) m)) in A. rewrite (E1 _ (fun i m => k_len (kd i) <=? m)) in *.
    rewrite (E1 _ (fun i m => S m)) in C. auto 6.
  Qed.

  Lemma sm_step e x : sm_at e x -> (ar = true \/ forallb (fun b => b) (kdone e) = false) ->
    (forallb (fun b => b) (sm_done x) = false) ->
    exists n i d x', next sm n x = Some (Val d, x') /\ i < N /\ k_item (kd i) (e i) = Some d /\
      picked ws (kact e) (sm_draw rnd (sm_gen x)) i /\ (ar = true -> sm_index rnd ar (sm_gen x) (init_cum ws) [] = Some i) /\
      sm_seed x' = sm_seed x /\ sm_gen x' = (fst (sm_gen x), S (snd (sm_gen x))) /\ sm_buf x' <> [] /\
      slive (bump e i) (sm_buf x') (sm_done x') (sm_cum x') (sm_ps x').
  Proof.
    intros HA Hor Hnd.
    assert (HI : forall c done i, (ar = true -> c = init_cum ws) -> sm_index rnd ar (sm_gen x) c done = Some i ->
               ar = true -> sm_index rnd ar (sm_gen x) (init_cum ws) [] = Some i).
    { intros c done i Hc HX Ht. rewrite (Hc Ht) in HX. unfold sm_index in *. rewrite Ht in *. assumption. }
    assert (HN0 : (N =? 0) = false) by (apply Nat.eqb_neq; lia).
    destruct HA as [((Hb & Hd & Hc & HK) & He)|(Hb & HS)].
    - destruct (sm_gather_run N 0 (sm_cum x) (sm_ps x) ltac:(lia)) as (n1 & c1 & s1 & H1 & HS).
      { rewrite repeat_tab in HK. erewrite tab_ext; [exact HK|]. intros; reflexivity. }
      { rewrite Hc. unfold upto. rewrite tab_map, masked_tab.
        replace (tab N (fun i => if (if ar then true else negb (if i <? 0 then k_len (kd i) <=? 0 else false)) then nth i ws 0%Q else 0%Q))
          with ws; [apply init_cum_ok; [apply ws_ne|]|].
        - intros i q Hq. apply nth_error_In in Hq. pose proof (proj1 (Forall_forall _ _) HP q Hq) as HX. simpl in HX. lra.
        - apply nth_error_ext; [rewrite tab_length; assumption|]. intros i Hi. rewrite tab_nth_error by lia.
          rewrite (nth_error_nth' ws 0%Q Hi). destruct ar; reflexivity. }
      { intros _. assumption. }
      assert (EU : upto 0 = sm_done x).
      { rewrite Hd, repeat_tab. unfold upto. apply tab_ext. reflexivity. }
      rewrite EU in H1. cbn [seq map] in H1.
      apply (slive_ext _ e) in HS; [|intros i; rewrite He; reflexivity].
      assert (EK : kdone (fun _ => 0) = kdone e) by (unfold kdone; apply tab_ext; intros i _; rewrite He; reflexivity).
      rewrite EK in H1, HS.
      destruct (sm_body_run e (sm_seed x) (sm_gen x) _ _ _ _ HS Hor) as (n2 & i & d & x' & B1 & B2 & B3 & B4 & B5 & B6).
      exists (n1 + n2), i, d, x'. cbn [next src_sample]. rewrite sm_next_eq, HN0, Hnd, Hb. cbn [orb].
      rewrite (sm_gather_mono n1 (n1 + n2) ltac:(lia) _ _ _ _ _ _ _ H1).
      rewrite (sm_body_mono n2 (n1 + n2) _ _ _ _ _ _ _ ltac:(lia) B1).
      split; [reflexivity|]. split; [assumption|]. split; [assumption|]. split; [assumption|]. split; [|assumption].
      eapply HI; [|exact B5]. apply HS.
    - destruct (sm_body_run e (sm_seed x) (sm_gen x) _ _ _ _ HS Hor) as (n2 & i & d & x' & B1 & B2 & B3 & B4 & B5 & B6).
      exists n2, i, d, x'. cbn [next src_sample]. rewrite sm_next_eq, HN0, Hnd. cbn [orb].
      destruct (sm_buf x) as [|b0 b]; [contradiction|]. rewrite B1.
      split; [reflexivity|]. split; [assumption|]. split; [assumption|]. split; [assumption|]. split; [|assumption].
      eapply HI; [|exact B5]. apply HS.
  Qed.
End SMP.

Lemma kdone_all ps ks e : forallb (fun b => b) (kdone ps ks e) = true <->
  forall i, i < length ps -> k_len (nth i ks (Kid (fun _ => None) 0)) <= e i.
Proof.
  unfold kdone. rewrite forallb_forall. split.
  - intros H i Hi. apply Nat.leb_le. apply H. eapply nth_error_In. apply (tab_nth_error (length ps) (fun i => k_len (nth i ks (Kid (fun _ => None) 0)) <=? e i)). assumption.
  - intros H b Hb. unfold tab in Hb. apply in_map_iff in Hb. destruct Hb as (i & <- & Hi). apply in_seq in Hi. apply Nat.leb_le. apply H. lia.
Qed.

Lemma nth_map_kid ar (cs : list supply) i c : nth_error cs i = Some c -> nth i (map (kid_of ar) cs) (Kid (fun _ => None) 0) = kid_of ar c.
Proof. intros H. apply nth_error_nth. rewrite nth_error_map, H. reflexivity. Qed.

Lemma upd_app {A} (l1 : list A) x y l2 : upd (l1 ++ x :: l2) (length l1) y = l1 ++ y :: l2.
Proof. induction l1 as [|a l1 IH]; simpl; [reflexivity|]. rewrite IH. reflexivity. Qed.

Lemma list_sum_upd (l : list (list data)) : forall i d r, nth_error l i = Some (d :: r) ->
  S (list_sum (map (@length _) (upd l i r))) = list_sum (map (@length _) l).
Proof.
  induction l as [|x l IH]; intros i d r H; [destruct i; discriminate|]. destruct i as [|i]; simpl in *.
  - inv H. simpl. lia.
  - rewrite <- (IH _ _ _ H). lia.
Qed.

Lemma forallb_repeat_false n : 0 < n -> forallb (fun b : bool => b) (repeat false n) = false.
Proof. destruct n; [lia|reflexivity]. Qed.

(** ** Sampling without repeats *)
Section SampleOnce.
  Variable rnd : Z -> nat -> Z.
  Variable ps : list source.
  Variable ws : list Q.
  Variable seed0 : Z.
  Notation sm := (src_sample rnd ps ws seed0 false).
  Hypothesis HM : Forall mono ps.
  Hypothesis HW : length ws = length ps.
  Hypothesis HP : positive ws.

  Definition once (l : list data) : supply := Epochs (fun _ => l).

  (** A state that has not been used since it was created or reset. *)
  Definition sample_fresh (x : sm_st ps) : Prop :=
    sm_buf x = [] /\ sm_done x = repeat false (length ps) /\ sm_cum x = init_cum ws.

  Variable ls : list (list data).
  Notation N := (length ps).
  Notation ks := (map (kid_of false) (map once ls)).
  Definition rest (e : nat -> nat) : list (list data) := tab N (fun i => skipn (e i) (nth i ls [])).

  Hypothesis HLs : length ls = N.

  Lemma kd_once i : i < N -> nth i ks (Kid (fun _ => None) 0) = kid_of false (once (nth i ls [])).
  Proof. intros Hi. apply nth_map_kid. rewrite nth_error_map, (nth_error_nth' ls []) by lia. reflexivity. Qed.

  Lemma once_kid i e : i < N ->
    k_item (nth i ks (Kid (fun _ => None) 0)) e = None <-> k_len (nth i ks (Kid (fun _ => None) 0)) <= e.
  Proof. intros Hi. rewrite kd_once by assumption. simpl. apply nth_error_None. Qed.

  Lemma rest_act e : map nonempty (rest e) = kact ps false ks e.
  Proof.
    unfold rest, kact, kdone. rewrite !tab_map. apply tab_ext. intros i Hi. rewrite kd_once by assumption. cbn [kid_of k_len once epoch_len].
    destruct (skipn (e i) (nth i ls [])) as [|d r] eqn:E; apply (f_equal (@length _)) in E; rewrite skipn_length in E; simpl in E;
      destruct (Nat.leb_spec (length (nth i ls [])) (e i)); simpl; try reflexivity; lia.
  Qed.

  Definition once_at (x : sm_st ps) (kl : nat * list (list data)) : Prop :=
    exists e, sm_at ps ws false ks e x /\ snd kl = rest e /\ snd (sm_gen x) = fst kl /\
      (sm_buf x = [] -> exists l, In l ls /\ l <> []).

  Theorem sample_once x : 0 < N -> sample_fresh x -> hsupplies false ps (sm_ps x) (map once ls) -> (exists l, In l ls /\ l <> []) ->
    exists out, sampled (fun k => sm_draw rnd (fst (sm_gen x), k)) ws (snd (sm_gen x)) ls out /\ holds sm x out.
  Proof.
    intros HN (F1 & F2 & F3) HS Hne. set (sd := fst (sm_gen x)).
    destruct (meas_holds sm (nat * list (list data)) (fun (x : St sm) kl => once_at x kl /\ fst (sm_gen x) = sd)
       (fun x : St sm => forallb (fun b => b) (sm_done x) = true) (fun kl l => sampled (fun k => sm_draw rnd (sd, k)) ws (fst kl) (snd kl) l)
       (fun kl => list_sum (map (@length _) (snd kl)))) with (s := x) (a := (snd (sm_gen x), ls)) as (out & Ho & Hh).
    - apply sm_mono. assumption.
    - intros y Hy. exists 0, y. split; [|assumption]. cbn [next src_sample]. rewrite sm_next_eq, Hy, orb_true_r. reflexivity.
    - intros y [k rs] ((e & HA & Hr & Hk & Hf) & Hsd). cbn [fst snd] in *.
      destruct (forallb (fun b => b) (kdone ps ks e)) eqn:ED.
      + left. assert (Hr0 : forall l, In l rs -> l = []).
        { intros l Hl. subst rs. unfold rest, tab in Hl. apply in_map_iff in Hl. destruct Hl as (i & <- & Hi). apply in_seq in Hi.
          apply skipn_all2. pose proof (proj1 (kdone_all ps ks e) ED i ltac:(lia)) as HX. rewrite kd_once in HX by lia. exact HX. }
        split; [|constructor; assumption]. destruct HA as [((Hb & _) & He)|(Hb & HS')].
        * exfalso. destruct (Hf Hb) as (l & Hl & Hln). apply Hln. apply In_nth_error in Hl. destruct Hl as (i & Hi).
          assert (Hlt : i < N) by (rewrite <- HLs; apply nth_error_Some; congruence).
          specialize (Hr0 (skipn (e i) l)). rewrite He in Hr0. simpl in Hr0. apply Hr0. subst rs. unfold rest.
          eapply nth_error_In. rewrite tab_nth_error by exact Hlt. rewrite He, (nth_error_nth ls i [] Hi). reflexivity.
        * destruct HS' as (_ & -> & _). assumption.
      + right.
        assert (Hnd : forallb (fun b => b) (sm_done y) = false).
        { destruct HA as [((_ & Hd & _) & _)|(_ & (_ & Hd & _))]; rewrite Hd; [apply forallb_repeat_false; assumption|assumption]. }
        destruct (sm_step rnd ps ws seed0 false HM ks) with (e := e) (x := y) as (n & i & d & y' & S1 & S2 & S3 & S4 & _ & _ & S7 & S8 & S9).
        { rewrite !map_length. assumption. } { assumption. } { assumption. } { assumption. }
        { intros i0 e0 Hi0. apply once_kid. assumption. } { assumption. } { right. assumption. } { assumption. }
        assert (Hit : nth_error rs i = Some (d :: skipn (S (e i)) (nth i ls []))).
        { subst rs. unfold rest. rewrite tab_nth_error by assumption. f_equal. rewrite kd_once in S3 by assumption.
          cbn [kid_of k_item turn once] in S3. apply nth_error_split in S3. destruct S3 as (l1 & l2 & E & HL1). rewrite E, <- HL1.
          change (S (length l1)) with (1 + length l1).
          rewrite skipn_app, skipn_all, Nat.sub_diag. cbn [skipn app]. f_equal.
          replace (l1 ++ d :: l2) with ((l1 ++ [d]) ++ l2) by (rewrite <- app_assoc; reflexivity).
          replace (1 + length l1) with (length (l1 ++ [d])) by (rewrite app_length; simpl; lia).
          rewrite skipn_app, skipn_all, Nat.sub_diag. reflexivity. }
        exists n, d, y', (S k, rest (bump e i)).
        assert (Er : rest (bump e i) = upd rs i (skipn (S (e i)) (nth i ls []))).
        { subst rs. unfold rest. rewrite tab_upd by assumption. apply tab_ext. intros j Hj. unfold bump.
          destruct (Nat.eqb_spec j i) as [->|]; reflexivity. }
        split; [assumption|]. split; [|split].
        * split; [|rewrite S7; assumption]. exists (bump e i). cbn [fst snd]. split; [right; split; assumption|]. split; [reflexivity|].
          split; [rewrite S7; simpl; congruence|]. intros HX. contradiction.
        * cbn [snd]. rewrite Er. pose proof (list_sum_upd _ _ _ _ Hit). lia.
        * cbn [fst snd]. intros l Hl. rewrite Er in Hl. rewrite <- rest_act, <- Hr in S4.
          replace (sm_gen y) with (sd, k) in S4 by (destruct (sm_gen y); simpl in *; congruence).
          apply nth_error_split in Hit. destruct Hit as (l1 & l2 & E & HL1). rewrite E in *. rewrite <- HL1 in *.
          rewrite upd_app in Hl. apply sampled_cons; assumption.
    - split; [|reflexivity]. exists (fun _ => 0). cbn [fst snd]. split; [left|split; [|split; [reflexivity|auto]]].
      + split; [|reflexivity]. split; [assumption|]. split; [assumption|]. split; [assumption|]. apply hkids_supplies; assumption.
      + unfold rest. cbn [skipn]. apply nth_error_ext; [rewrite tab_length; assumption|]. intros i Hi.
        rewrite tab_nth_error by lia. apply nth_error_nth'. assumption.
    - exists out. split; assumption.
  Qed.
End SampleOnce.

Lemma sampled_interleaving draw ws k ls out : sampled draw ws k ls out -> interleaving ls out.
Proof. induction 1; constructor; assumption. Qed.

(** ** Sampling with repeats *)
Section SampleRepeat.
  Variable rnd : Z -> nat -> Z.
  Variable ps : list source.
  Variable ws : list Q.
  Variable seed0 : Z.
  Notation sm := (src_sample rnd ps ws seed0 true).
  Hypothesis HM : Forall mono ps.
  Hypothesis HW : length ws = length ps.
  Hypothesis HP : positive ws.
  Notation N := (length ps).

  Definition never_empty (c : supply) : Prop := match c with Epochs ep => forall k, ep k <> [] | Endless _ => True end.

  Lemma turn_some c r : never_empty c -> turn true c r <> None.
  Proof.
    destruct c as [ep|f]; simpl; [|discriminate]. intros H. change (ep 0 ++ concat (map ep (seq 1 r))) with (pre ep (S r)).
    intros HX. apply nth_error_None in HX. pose proof (pre_length ep (S r) H). lia.
  Qed.

  Definition the_picks (g : Z * nat) (t : nat) : nat :=
    match sm_index rnd true (fst g, snd g + t) (init_cum ws) [] with Some i => i | None => 0 end.

  Theorem sample_repeat x cs : 0 < N -> sample_fresh ps ws x -> hsupplies true ps (sm_ps x) cs -> Forall never_empty cs ->
    exists picks,
      (forall t, picked ws (repeat true N) (sm_draw rnd (fst (sm_gen x), snd (sm_gen x) + t)) (picks t)) /\
      forall T, (forall t, t < T -> ~ sampling_over cs picks t) ->
        exists out, length out = T /\
          (forall t, t < T -> exists c, nth_error cs (picks t) = Some c /\ nth_error out t = turn true c (times picks t (picks t))) /\
          (exists x', yields sm x (map Val out) x') /\
          (sampling_over cs picks T -> holds sm x out).
  Proof.
    intros HN (F1 & F2 & F3) HS Hne. pose proof (hsupplies_length _ _ _ _ HS) as HLc.
    set (ks := map (kid_of true) cs). set (g := sm_gen x). set (picks := the_picks g).
    assert (Hkid : forall i e, i < N -> if true then k_item (nth i ks (Kid (fun _ => None) 0)) e <> None
                else (k_item (nth i ks (Kid (fun _ => None) 0)) e = None <-> k_len (nth i ks (Kid (fun _ => None) 0)) <= e)).
    { intros i e Hi. destruct (nth_error cs i) as [c|] eqn:Ec; [|apply nth_error_None in Ec; lia]. unfold ks.
      rewrite (nth_map_kid true cs i c Ec). apply turn_some. eapply (proj1 (Forall_forall _ _) Hne), nth_error_In; eassumption. }
    assert (HLk : length ks = N) by (unfold ks; rewrite map_length; assumption).
    assert (Hws : ws <> []) by (intros E; rewrite E in HW; simpl in HW; lia).
    exists picks. split.
    { intros t. pose proof (index_pick rnd true ws (fst g, snd g + t) (init_cum ws) (repeat false N) HP) as HX.
      rewrite repeat_length in HX. specialize (HX (eq_sym HW) Hws (or_introl eq_refl)).
      replace (map (fun b : bool => if true then true else negb b) (repeat false N)) with (repeat true N) in HX
        by (clear; induction N; simpl; congruence).
      destruct HX as (i & Hi & _ & Hpk).
      - replace (masked ws (repeat true N)) with ws; [apply init_cum_ok; [assumption|]|].
        + intros j q Hq. apply nth_error_In in Hq. pose proof (proj1 (Forall_forall _ _) HP q Hq) as HX. simpl in HX. lra.
        + rewrite <- HW. clear. induction ws as [|w l IH]; [reflexivity|]. unfold masked in *. simpl. congruence.
      - unfold picks, the_picks. unfold sm_index in Hi |- *. cbv zeta in Hi |- *. injection Hi as Hi. rewrite Hi. exact Hpk. }
    assert (Hover : forall t, 1 <= t -> (sampling_over cs picks t <-> forallb (fun b => b) (kdone ps ks (times picks t)) = true)).
    { intros t Ht. rewrite kdone_all. unfold sampling_over. split.
      - intros [_ H] i Hi. destruct (nth_error cs i) as [c|] eqn:Ec; [|apply nth_error_None in Ec; lia]. unfold ks.
        rewrite (nth_map_kid true cs i c Ec). apply (H i c Ec).
      - intros H. split; [assumption|]. intros i c Ec. assert (Hi : i < N) by (rewrite <- HLc; apply nth_error_Some; congruence).
        specialize (H i Hi). unfold ks in H. rewrite (nth_map_kid true cs i c Ec) in H. exact H. }
    assert (HT : forall T, (forall t, t < T -> ~ sampling_over cs picks t) ->
        exists out x', length out = T /\
          (forall t, t < T -> exists c, nth_error cs (picks t) = Some c /\ nth_error out t = turn true c (times picks t (picks t))) /\
          yields sm x (map Val out) x' /\ sm_gen x' = (fst g, snd g + T) /\
          sm_at ps ws true ks (times picks T) x' /\ (1 <= T -> sm_done x' = kdone ps ks (times picks T))).
    { induction T as [|T IH]; intros HT.
      - exists [], x. split; [reflexivity|]. split; [lia|]. split; [constructor|]. split; [rewrite Nat.add_0_r; apply surjective_pairing|].
        split; [|lia]. left. split; [|reflexivity]. split; [assumption|]. split; [assumption|]. split; [assumption|].
        apply hkids_supplies; assumption.
      - destruct (IH ltac:(intros; apply HT; lia)) as (out & x1 & O1 & O2 & O3 & O4 & O5 & O6).
        assert (Hnd : forallb (fun b => b) (sm_done x1) = false).
        { destruct T as [|T].
          - destruct out; [|discriminate]. inversion O3; subst. rewrite F2. apply forallb_repeat_false. assumption.
          - rewrite O6 by lia. apply not_true_iff_false. intros HX. apply (HT (S T)); [lia|]. apply Hover; [lia|assumption]. }
        destruct (sm_step rnd ps ws seed0 true HM ks HLk HN HW HP Hkid _ _ O5 (or_introl eq_refl) Hnd)
          as (n & i & d & x' & S1 & S2 & S3 & S4 & S5 & S6 & S7 & S8 & S9).
        assert (Ei : i = picks T).
        { unfold picks, the_picks. rewrite O4 in S5. rewrite (S5 eq_refl). reflexivity. }
        exists (out ++ [d]), x'. split; [rewrite app_length; simpl; lia|]. split; [|split; [|split; [|split]]].
        + intros t Ht. destruct (Nat.eq_dec t T) as [->|].
          * destruct (nth_error cs i) as [c|] eqn:Ec; [|apply nth_error_None in Ec; lia]. exists c. rewrite <- Ei. split; [assumption|].
            rewrite nth_error_app2 by lia. replace (T - length out) with 0 by lia. unfold ks in S3.
            rewrite (nth_map_kid true cs i c Ec) in S3. cbn [kid_of k_item] in S3. rewrite S3. reflexivity.
          * destruct (O2 t ltac:(lia)) as (c & Hc & Hoc). exists c. split; [assumption|]. rewrite nth_error_app1 by lia. assumption.
        + rewrite map_app. eapply yields_app; [eassumption|]. eapply yields_cons; [eassumption|constructor].
        + rewrite S7, O4. simpl. f_equal. lia.
        + right. split; [assumption|]. eapply slive_ext; [|exact S9]. intros j. unfold bump. simpl. rewrite <- Ei. rewrite (Nat.eqb_sym i j).
          destruct (j =? i); lia.
        + intros _. destruct S9 as (_ & -> & _). unfold kdone. apply tab_ext. intros j Hj. unfold bump. simpl. rewrite <- Ei.
          rewrite (Nat.eqb_sym i j). destruct (j =? i); reflexivity. }
    intros T HTn. destruct (HT T HTn) as (out & x' & O1 & O2 & O3 & O4 & O5 & O6).
    exists out. split; [assumption|]. split; [assumption|]. split; [eauto|].
    intros Ho. apply total_holds; [apply sm_mono; assumption|]. intros k. exists x'. eapply yields_app; [eassumption|].
    pose proof Ho as [H1 _]. apply Hover in Ho; [|assumption]. rewrite <- O6 in Ho by assumption.
    induction k as [|k IHk]; [constructor|]. simpl. eapply yields_cons with (n := 0); [|exact IHk].
    cbn [next src_sample]. rewrite sm_next_eq, Ho, orb_true_r. reflexivity.
  Qed.
End SampleRepeat.

(** ** Positions *)
Section SmPos.
  Variable rnd : Z -> nat -> Z.
  Variable ps : list source.
  Variable ws : list Q.
  Variable seed0 : Z.
  Variable ar : bool.
  Notation sm := (src_sample rnd ps ws seed0 ar).

  Definition sm_R (x y : sm_st ps) : Prop :=
    sm_buf x = sm_buf y /\ sm_done x = sm_done y /\ sm_seed x = sm_seed y /\ sm_gen x = sm_gen y /\ sm_cum x = sm_cum y /\
    hequiv ps (sm_ps x) (sm_ps y).

  Lemma sm_fetch_equiv n i done c a b : hequiv ps a b ->
    match sm_fetch ps ar n i done c a, sm_fetch ps ar n i done c b with
    | Some (r, d, c1, s), Some (r', d', c1', s') => r = r' /\ d = d' /\ c1 = c1' /\ hequiv ps s s'
    | None, None => True
    | _, _ => False
    end.
  Proof.
    intros H. unfold sm_fetch. pose proof (hequiv_next ps i n a b H) as HN.
    destruct (hnext ps i n a) as [[o a']|], (hnext ps i n b) as [[o' b']|]; simpl in HN; try contradiction; auto.
    destruct HN as [<- HN]. destruct o as [d| |e]; [|destruct ar|]; auto.
    - rewrite (hequiv_fin ps i a' b' HN). auto.
    - pose proof (hequiv_next ps i n _ _ (hequiv_reset1 ps i false a' b' HN)) as HN2.
      destruct (hnext ps i n (hreset1 ps i false a')) as [[o2 a2]|], (hnext ps i n (hreset1 ps i false b')) as [[o2' b2]|];
        simpl in HN2; try contradiction; auto. destruct HN2 as [<- HN2]. destruct o2; auto.
  Qed.

  Lemma sm_gather_equiv n k : forall i b done c x y, hequiv ps x y ->
    match sm_gather ps ar n k i b done c x, sm_gather ps ar n k i b done c y with
    | Some (b1, e, d, c1, s), Some (b1', e', d', c1', s') => b1 = b1' /\ e = e' /\ d = d' /\ c1 = c1' /\ hequiv ps s s'
    | None, None => True
    | _, _ => False
    end.
  Proof.
    induction k as [|k IH]; intros i b done c x y H; [simpl; auto 6|]. cbn [sm_gather].
    pose proof (sm_fetch_equiv n i done c x y H) as HF.
    destruct (sm_fetch ps ar n i done c x) as [[[[r d] c1] s]|], (sm_fetch ps ar n i done c y) as [[[[r' d'] c1'] s']|]; try contradiction; auto.
    destruct HF as (<- & <- & <- & HF). destruct r; auto 6. apply IH. assumption.
  Qed.

  Lemma sm_body_equiv n sd g b done c x y : hequiv ps x y ->
    res_rel sm_R (sm_body rnd ps ar n sd g b done c x) (sm_body rnd ps ar n sd g b done c y).
  Proof.
    intros H. unfold sm_body. destruct (sm_index rnd ar g c done) as [i|].
    - pose proof (sm_fetch_equiv n i done c x y H) as HF.
      destruct (sm_fetch ps ar n i done c x) as [[[[r d] c1] s]|], (sm_fetch ps ar n i done c y) as [[[[r' d'] c1'] s']|];
        try contradiction; [|exact Logic.I].
      destruct HF as (<- & <- & <- & HF). destruct r; (split; [reflexivity|]); unfold sm_R; cbn; auto 8.
    - split; [reflexivity|]. unfold sm_R; cbn; auto 8.
  Qed.

  Lemma sm_R_bisim : bisim sm sm_R.
  Proof.
    intros x y (H1 & H2 & H3 & H4 & H5 & H). split; [|split]; [|intros g|reflexivity].
    2:{ cbn [reset src_sample]. unfold sm_R. cbn [sm_buf sm_done sm_seed sm_gen sm_cum sm_ps]. rewrite H3, H4, H5.
        repeat split. apply hequiv_reset. assumption. }
    intros n. cbn [next src_sample]. rewrite !sm_next_eq. rewrite <- H1, <- H2, <- H3, <- H4, <- H5.
    destruct ((length ps =? 0) || forallb (fun b => b) (sm_done x)); [split; [reflexivity|]; unfold sm_R; auto 8|].
    destruct (sm_buf x) as [|b0 b]; [|apply sm_body_equiv; assumption].
    pose proof (sm_gather_equiv n (length ps) 0 [] (sm_done x) (sm_cum x) _ _ H) as HG.
    destruct (sm_gather ps ar n (length ps) 0 [] (sm_done x) (sm_cum x) (sm_ps x)) as [[[[[b1 e1] d1] c1] s1]|];
      destruct (sm_gather ps ar n (length ps) 0 [] (sm_done x) (sm_cum x) (sm_ps y)) as [[[[[b1' e1'] d1'] c1'] s1']|];
      try contradiction; [|exact Logic.I].
    destruct HG as (<- & <- & <- & <- & HG). destruct e1 as [e1|]; [|apply sm_body_equiv; assumption].
    split; [reflexivity|]. unfold sm_R; cbn; auto 8.
  Qed.

  Variable clean : bool.
  Variables Is Ts : hpred ps.
  Hypothesis HR : hresumable clean ps Is Ts.
  Hypothesis HW : length ws = length ps.
  Hypothesis Hseed : (0 <= seed0 < 2 ^ 63)%Z.

  Definition sm_inv (x : sm_st ps) : Prop :=
    sm_seed x = seed0 /\ length (sm_done x) = length ps /\ length (sm_cum x) = length ps /\ (ar = true -> sm_cum x = init_cum ws) /\
    hall ps Is (sm_ps x).
  Definition sm_tgt (x : sm_st ps) : Prop := hall ps Ts (sm_ps x).

  (** No cumulative sum is NaN: it is so once all pipelines are used up (without repeats). *)
  Definition weighed (x : sm_st ps) : Prop := forall o, In o (sm_cum x) -> o <> None.

  Lemma sm_fetch_inv n i done c s r d c1 s' : hall ps Is s -> i < length ps -> length done = length ps -> length c = length ps ->
    (ar = true -> c = init_cum ws) -> sm_fetch ps ar n i done c s = Some (r, d, c1, s') ->
    length d = length ps /\ length c1 = length ps /\ (ar = true -> c1 = init_cum ws) /\
    match r with inr e => okstep clean (hall ps Is s') (Err e) | _ => hall ps Is s' end.
  Proof.
    intros Hs Hi Hd Hc Har H. unfold sm_fetch in H. destruct (hnext ps i n s) as [[o s1]|] eqn:E; [|discriminate].
    pose proof (hall_next clean ps Is Ts HR i n s o s1 Hs Hi E) as Hs1.
    destruct o as [x| |e].
    - inv H. split; [destruct (fin_eqb _ _); rewrite ?upd_length; assumption|]. auto.
    - destruct (bool_dec ar true) as [Ear|Ear].
      + rewrite Ear in H. destruct (hnext ps i n (hreset1 ps i false s1)) as [[o2 s2]|] eqn:E2; [|discriminate].
        pose proof (hall_next clean ps Is Ts HR i n _ o2 s2 (hall_reset1 clean ps Is Ts i false s1 HR Hs1) Hi E2) as Hs2.
        destruct o2; inv H; rewrite upd_length; (split; [assumption|]); (split; [assumption|]); (split; [exact Har|]); exact Hs2 || exact Logic.I.
      + apply not_true_is_false in Ear. rewrite Ear in H. inv H. rewrite upd_length. split; [assumption|].
        rewrite sm_block_eq, normalize_length, blocked_length. split; [assumption|]. split; [congruence|assumption].
    - inv H. auto.
  Qed.

  Lemma sm_gather_inv n k : forall i b done c s b' e d c1 s', hall ps Is s -> k + i = length ps ->
    length done = length ps -> length c = length ps -> (ar = true -> c = init_cum ws) ->
    sm_gather ps ar n k i b done c s = Some (b', e, d, c1, s') ->
    length d = length ps /\ length c1 = length ps /\ (ar = true -> c1 = init_cum ws) /\
    match e with Some e => okstep clean (hall ps Is s') (Err e) | _ => hall ps Is s' end.
  Proof.
    induction k as [|k IH]; intros i b done c s b' e d c1 s' Hs Hk Hd Hc Har H; cbn [sm_gather] in H.
    - inv H. auto.
    - destruct (sm_fetch ps ar n i done c s) as [[[[r d1] c2] s1]|] eqn:E; [|discriminate].
      destruct (sm_fetch_inv n i done c s r d1 c2 s1 Hs ltac:(lia) Hd Hc Har E) as (A & B & C & D). destruct r as [o|er].
      + eapply IH; [| | | | |exact H]; try assumption; lia.
      + inv H. auto.
  Qed.

  Lemma index_lt g c done i : 0 < length ps -> length done = length ps -> length c = length ps ->
    sm_index rnd ar g c done = Some i -> i < length ps.
  Proof.
    intros HN Hd Hc H. unfold sm_index in H.
    destruct (bsearch_spec c (sm_draw rnd g) (length c) 0 (length c - 1) ltac:(lia) ltac:(lia) (or_introl eq_refl) (or_introl eq_refl)) as (A & _).
    cbv zeta in A. destruct ar; [inv H; lia|]. apply skip_done_lt in H. lia.
  Qed.

  Lemma sm_body_inv n g b done c s o x' : 0 < length ps -> hall ps Is s -> length done = length ps -> length c = length ps ->
    (ar = true -> c = init_cum ws) -> sm_body rnd ps ar n seed0 g b done c s = Some (o, x') -> okstep clean (sm_inv x') o.
  Proof.
    intros HN Hs Hd Hc Har H. unfold sm_body in H. destruct (sm_index rnd ar g c done) as [i|] eqn:Ei; [|inv H; exact Logic.I].
    destruct (sm_fetch ps ar n i done c s) as [[[[r d1] c2] s1]|] eqn:E; [|discriminate].
    destruct (sm_fetch_inv n i done c s r d1 c2 s1 Hs (index_lt _ _ _ _ HN Hd Hc Ei) Hd Hc Har E) as (A & B & C & D).
    destruct r as [o1|er]; inv H.
    - apply okstep_intro; [|destruct (nth i b None); exact Logic.I]. unfold sm_inv; cbn; auto 6.
    - eapply okstep_impl; [exact D|]. intros. unfold sm_inv; cbn; auto 6.
  Qed.

  Lemma init_cum_length : length (init_cum ws) = length ps.
  Proof. unfold init_cum. rewrite normalize_length, map_length, cumsums_length. assumption. Qed.

  Lemma sm_next_inv n x o x' : sm_inv x -> next sm n x = Some (o, x') -> okstep clean (sm_inv x') o.
  Proof.
    intros (HS & Hd & Hc & Har & HI) H. cbn [next src_sample] in H. rewrite sm_next_eq in H.
    destruct (Nat.eqb_spec (length ps) 0) as [E0|E0]; [inv H; unfold sm_inv; cbn; auto 6|]. cbn [orb] in H.
    destruct (forallb (fun b => b) (sm_done x)); [inv H; unfold sm_inv; cbn; auto 6|]. rewrite HS in H.
    destruct (sm_buf x) as [|b0 b]; [|eapply sm_body_inv; [| | | | |exact H]; try assumption; lia].
    destruct (sm_gather ps ar n (length ps) 0 [] (sm_done x) (sm_cum x) (sm_ps x)) as [[[[[b1 e1] d1] c1] s1]|] eqn:E; [|discriminate].
    destruct (sm_gather_inv n (length ps) 0 [] (sm_done x) (sm_cum x) (sm_ps x) b1 e1 d1 c1 s1 HI ltac:(lia) Hd Hc Har E) as (A & B & C & D).
    destruct e1 as [e1|]; [|eapply sm_body_inv; [| | | | |exact H]; try assumption; lia].
    inv H. eapply okstep_impl; [exact D|]. intros. unfold sm_inv; cbn; auto 6.
  Qed.

  Lemma weighed_some (c : list (option Q)) : (forall o, In o c -> o <> None) -> exists qs, c = map Some qs.
  Proof.
    induction c as [|o c IH]; intros H; [exists []; reflexivity|].
    destruct IH as (qs & ->); [intros; apply H; right; assumption|].
    destruct o as [q|]; [exists (q :: qs); reflexivity|]. exfalso. apply (H None (or_introl eq_refl)). reflexivity.
  Qed.

  Lemma sm_resume x x0 : sm_inv x -> weighed x -> sm_tgt x0 ->
    exists t, record_pos sm true x = Some t /\
      forall rest, exists x1, reload_pos sm true x0 (t ++ rest) = Some (x1, rest) /\ equiv sm x x1 /\ sm_inv x1.
  Proof.
    intros (HS & Hd & Hc & Har & HI) HWx Ht. destruct (hall_resume clean ps Is Ts _ _ HR HI Ht) as (t & Hr & Hl).
    destruct x as [b dn sd g c s]. cbn [sm_buf sm_done sm_seed sm_gen sm_cum sm_ps] in *. subst sd.
    destruct (weighed_some c HWx) as (qs & Eq).
    cbn [record_pos src_sample sm_buf sm_done sm_seed sm_gen sm_cum sm_ps]. rewrite Hr. eexists. split; [reflexivity|]. intros rest.
    destruct (Hl rest) as (s1 & E & He & Hi). cbn [reload_pos src_sample]. rewrite <- !app_assoc, rd_wr_optvec.
    rewrite rd_wr_vec by apply rd_wr_bool. rewrite (rd_wr_u64 _ _ Hseed). unfold rd_gen, wr_gen. rewrite rd_wr_tensor.
    rewrite Nat2Z.id. cbn [fst snd]. unfold rd_floats.
    assert (EW : wr_vec wr_float c = wr_vec (fun q => wr_float (Some q)) qs).
    { rewrite Eq. Transparent wr_vec. unfold wr_vec. Opaque wr_vec. rewrite map_length, flat_map_concat_map, map_map, <- flat_map_concat_map. reflexivity. }
    rewrite EW, rd_wr_vec by apply rd_wr_float. rewrite E. eexists. split; [reflexivity|]. destruct g as [ga gk].
    split; [|unfold sm_inv; cbn; rewrite <- Eq; auto 6].
    exists sm_R. split; [apply sm_R_bisim|]. unfold sm_R. cbn. rewrite <- Eq. auto 8.
  Qed.

  Lemma sm_reset_inv g x : sm_inv x -> sm_inv (reset sm g x).
  Proof.
    intros (HS & Hd & Hc & Har & HI). unfold sm_inv. cbn. split; [assumption|]. split; [apply repeat_length|].
    split; [destruct ar; [assumption|apply init_cum_length]|]. split; [intros E; rewrite E; auto|eapply hall_reset; eassumption].
  Qed.

  Lemma sm_init_inv : sm_inv (init sm) /\ sm_tgt (init sm).
  Proof.
    split; [|apply (hall_init clean ps Is Ts HR)]. unfold sm_inv. cbn. split; [reflexivity|]. split; [apply repeat_length|].
    split; [apply init_cum_length|]. split; [auto|apply (hall_init clean ps Is Ts HR)].
  Qed.

  Lemma init_cum_weighed : positive ws -> forall o, In o (init_cum ws) -> o <> None.
  Proof.
    intros HP o Ho E. subst o.
    assert (Hnn : nonneg ws).
    { intros j q Hq. apply nth_error_In in Hq. pose proof (proj1 (Forall_forall _ _) HP q Hq) as HX. simpl in HX. lra. }
    assert (Hne : ws <> []) by (intros E; rewrite E in Ho; destruct Ho).
    destruct (init_cum_ok ws Hne Hnn) as (HL & HC).
    apply In_nth_error in Ho. destruct Ho as (i & Hi). assert (Hlt : i < length ws) by (rewrite <- HL; apply nth_error_Some; congruence).
    destruct HC as [(H0 & _)|(_ & HC)].
    - destruct (nth_error ws i) as [w|] eqn:Ew; [|apply nth_error_None in Ew; lia].
      pose proof (psum_S ws i w Ew) as E. pose proof (psum_nonneg ws i Hnn).
      pose proof (psum_le ws (S i) (length ws) Hnn ltac:(lia)).
      assert (0 < w)%Q by (eapply (proj1 (Forall_forall _ _) HP), nth_error_In; exact Ew). lra.
    - destruct (HC i Hlt) as (q & Hq & _). congruence.
  Qed.

  Lemma sm_resumable : ar = true -> positive ws -> resumable clean sm sm_inv sm_tgt.
  Proof.
    intros Har HP. constructor.
    - apply sm_init_inv.
    - apply sm_init_inv.
    - intros n x o x'. apply sm_next_inv.
    - intros g x. apply sm_reset_inv.
    - intros x x0 HX Ht. apply sm_resume; try assumption. destruct HX as (_ & _ & _ & Hc & _). unfold weighed. rewrite (Hc Har).
      apply init_cum_weighed. assumption.
  Qed.

  Lemma sm_restarts : hrestarts true ps Is -> restarts sm sm_inv true.
  Proof.
    intros H x (HS & Hd & Hc & Har & HI). exists sm_R. split; [apply sm_R_bisim|]. unfold sm_R. cbn.
    split; [reflexivity|]. split; [reflexivity|]. split; [assumption|]. split; [rewrite HS; reflexivity|].
    split; [destruct ar; [apply Har|]; reflexivity|]. eapply hrestart; eassumption.
  Qed.
End SmPos.
