(** Theorems about learning rate schedulers. *)
From Coq Require Import Reals List Arith ZArith Lia Lra.
From Verif Require Import LR_Model LR_Spec LR_Proofs.
Import ListNotations.
Open Scope R_scope.

Lemma line_top (base start : list R) : Forall2 Rle start base -> each (fun b s x => x = s + (b - s) * 1) base start base.
Proof. induction 1; constructor; [lra|assumption]. Qed.
Lemma line_warm c (base start : list R) : Forall2 Rle start base -> each (fun b s x => x = s + (b - s) * c) base start (warmup c base start).
Proof. intros F. apply each_zip. eapply Forall2_impl2; [|apply Forall2_flip, F]. intros b s _. reflexivity. Qed.
Lemma each_below (base start : list R) : Forall2 Rle start base -> each (fun b s x => s <= x <= b) base start base.
Proof. induction 1; constructor; [lra|assumption]. Qed.

(** C45, MyleLR *)
Theorem C45_myle : forall T start base, myle_init T = true -> Forall2 Rle start base -> Forall (Rle 0) base ->
  let f := myle T start base in
  line T base start f /\ (forall t, (t <= T)%nat -> each (fun b s x => s <= x <= b) base start (f t)) /\ rises 0 T f /\
  f T = base /\ falls T f /\ (forall t, (T <= t)%nat -> each (fun b _ x => x = b * sqrt (INR T / INR t) /\ 0 <= x <= b) base start (f t)).
Proof.
  intros T start base Hi F P f. assert (T0 : (0 < T)%nat) by (unfold myle_init in Hi; destruct T; [discriminate|lia]).
  assert (A : forall t, (t < T)%nat -> f t = warmup (INR t / INR T) base start) by (intros t H; unfold f, myle; destruct (Nat.ltb_spec t T); [reflexivity|lia]).
  assert (B : forall t, (T <= t)%nat -> f t = map (fun b => b * Rpower (INR T / INR t) (1 / 2)) base) by (intros t H; unfold f, myle; destruct (Nat.ltb_spec t T); [lia|reflexivity]).
  assert (C : f T = base). { rewrite B by lia. apply map_same. intros b. rewrite frac_same by exact T0. unfold Rpower. rewrite ln_1, Rmult_0_r, exp_0. lra. }
  split; [|split; [|split; [|split; [exact C|split]]]].
  - intros t L _. destruct (Nat.eq_dec t T) as [->|N]; [rewrite C, frac_same by exact T0; apply line_top, F|]. rewrite A by lia. apply line_warm, F.
  - intros t L. destruct (Nat.eq_dec t T) as [->|N]; [rewrite C; apply each_below, F|]. rewrite A by lia. apply warmup_each; [exact F|apply frac_range; lia].
  - intros t t' _ L L'. destruct (Nat.eq_dec t' T) as [->|N].
    + rewrite C. destruct (Nat.eq_dec t T) as [->|N]; [rewrite C; apply le_refl_all|]. rewrite A by lia. apply warmup_below; [exact F|apply frac_range; lia].
    + rewrite !A by lia. apply warmup_le; [exact F|apply frac_le; lia].
  - intros t t' L L'. rewrite !B by lia. apply le_map. eapply Forall_impl; [|exact P]. intros b Hb. apply Rmult_le_compat_l; [exact Hb|]. apply Rpower_mono; [|lra].
    split; [apply myle_frac; lia|]. apply Rmult_le_compat_l; [apply pos_INR|]. apply Rinv_le_contravar; [apply INR_pos; lia|apply le_INR, L'].
  - intros t L. rewrite B by exact L. apply each_map. eapply Forall2_impl2; [|apply (Forall2_l _ (Rle 0) _ _ (Forall2_flip _ _ _ F)); exact P].
    intros b s [Hb _]. pose proof (myle_frac T t T0 L) as Fr. split; [rewrite <- Rpower_sqrt by lra; f_equal; f_equal; lra|].
    pose proof (Rpower_le_1 (INR T / INR t) (1 / 2) Fr ltac:(lra)) as [R1 R2]. split; [apply Rmult_le_pos; lra|]. rewrite <- (Rmult_1_r b) at 2. apply Rmult_le_compat_l; lra.
Qed.
Print Assumptions C45_myle.
Example C45_myle_ex : myle_init 100 = true /\ Forall2 Rle [0; 1/10] [1; 1/2] /\ myle 100 [0; 1/10] [1; 1/2] 50 = [1/2; 3/10].
Proof.
  split; [reflexivity|]. split; [repeat constructor; lra|]. unfold myle, warmup, zip_with. simpl combine. simpl map. replace (50 <? 100) with true by reflexivity.
  replace (INR 50 / INR 100) with (1 / 2). 2: { rewrite !INR_IZR_INZ. simpl. lra. } f_equal; [lra|]. f_equal. lra.
Qed.

(** C45, NoamLR. The highest value is base / sqrt(T). *)
Theorem C45_noam : forall T base, Forall (Rle 0) base ->
  let f := noam T base in
  rises 0 T f /\ falls T f /\
  (forall t, (t <= T)%nat -> (0 < T)%nat -> each (fun b _ x => x = b / sqrt (INR T) * (INR t / INR T)) base base (f t)) /\
  (forall t, (T <= t)%nat -> (0 < t)%nat -> each (fun b _ x => x = b / sqrt (INR t)) base base (f t)) /\ (T = 0%nat -> f 0%nat = base).
Proof.
  intros T base P f.
  set (c := fun t => if (t <? T)%nat then INR t * Rpower (INR T) (- (3 / 2)) else if Nat.eqb t 0 then 1 else Rpower (INR t) (- (1 / 2))).
  assert (E : forall t, f t = map (fun b => b * c t) base) by reflexivity.
  assert (M : forall t t', c t <= c t' -> le_all (f t) (f t')) by (intros t t' L; rewrite !E; apply le_map; eapply Forall_impl; [|exact P]; intros b Hb; apply Rmult_le_compat_l; assumption).
  assert (S : forall t, (0 < t)%nat -> Rpower (INR t) (- (1 / 2)) = / sqrt (INR t)) by (intros t Ht; rewrite Rpower_Ropp; f_equal; rewrite <- Rpower_sqrt by (apply INR_pos, Ht); f_equal; lra).
  assert (C1 : forall t, (t <= T)%nat -> (0 < T)%nat -> c t = INR t * Rpower (INR T) (- (3 / 2))).
  { intros t L T0. unfold c. destruct (Nat.ltb_spec t T); [reflexivity|]. assert (t = T) by lia. subst t. destruct (Nat.eqb_spec T 0); [lia|].
    rewrite <- (Rpower_1 (INR T)) at 2 by (apply INR_pos, T0). rewrite <- Rpower_plus. f_equal. lra. }
  assert (C2 : forall t, (T <= t)%nat -> (0 < t)%nat -> c t = Rpower (INR t) (- (1 / 2))) by (intros t L T0; unfold c; destruct (Nat.ltb_spec t T); [lia|]; destruct (Nat.eqb_spec t 0); [lia|reflexivity]).
  split; [|split; [|split; [|split]]].
  - intros t t' _ L L'. apply M. destruct T as [|T']; [assert (t = t') by lia; subst; lra|]. rewrite !C1 by lia. apply Rmult_le_compat_r; [left; apply exp_pos|apply le_INR, L].
  - intros t t' L L'. apply M. destruct t as [|t].
    + assert (T = 0)%nat by lia. destruct t' as [|t']; [lra|]. rewrite (C2 (Datatypes.S t')) by lia. replace (c 0%nat) with 1 by (unfold c; subst T; reflexivity). rewrite Rpower_Ropp. apply Rle_trans with (/ 1); [|lra]. apply Rinv_le_contravar; [lra|].
      apply Rle_trans with (Rpower 1 (1 / 2)); [unfold Rpower; rewrite ln_1, !Rmult_0_r, exp_0; lra|]. apply Rpower_mono; [|lra]. split; [lra|]. rewrite S_INR. pose proof (pos_INR t'). lra.
    + rewrite !C2 by lia. apply Rpower_anti; [|lra]. split; [apply INR_pos; lia|apply le_INR, L'].
  - intros t L T0. rewrite E. apply each_map. rewrite C1 by assumption. clear P M E. induction base as [|b base IH]; constructor; [|exact IH].
    replace (- (3 / 2)) with (- (1 / 2) + - (1)) by lra. rewrite Rpower_plus, S by exact T0. rewrite Rpower_Ropp, Rpower_1 by (apply INR_pos, T0). unfold Rdiv. lra.
  - intros t L T0. rewrite E. apply each_map. rewrite C2, S by assumption. clear P M E. induction base as [|b base IH]; constructor; [reflexivity|exact IH].
  - intros ->. rewrite E. apply map_same. intros b. unfold c. simpl. lra.
Qed.
Print Assumptions C45_noam.
Example C45_noam_ex : Forall (Rle 0) [2; 0]. Proof. repeat constructor; lra. Qed.

(** C45, PolynomialDecayLR, for a positive power *)
Theorem C45_polynomial : forall N T power start final base, polynomial_init N T = true -> 0 < power -> Forall2 Rle start base -> Forall2 Rle final base ->
  let f := polynomial N T power start final base in
  line T base start f /\ (forall t, (t <= T)%nat -> each (fun b s x => s <= x <= b) base start (f t)) /\ rises 0 T f /\
  f T = base /\ falls T f /\ (forall t, (T <= t < N)%nat -> each (fun b e x => x = e + (b - e) * Rpower ((INR N - INR t) / (INR N - INR T)) power /\ e <= x <= b) base final (f t)) /\
  (forall t, (N <= t)%nat -> f t = final).
Proof.
  intros N T p start final base Hi Hp F G f. assert (TN : (T < N)%nat) by (apply Nat.ltb_lt, Hi).
  assert (A : forall t, (t < T)%nat -> f t = warmup (INR t / INR T) base start) by (intros t H; unfold f, polynomial; destruct (Nat.leb_spec N t); [lia|]; destruct (Nat.ltb_spec t T); [reflexivity|lia]).
  assert (B : forall t, (T <= t < N)%nat -> f t = zip_with (fun b e => e + (b - e) * Rpower ((INR N - INR t) / (INR N - INR T)) p) base final) by (intros t H; unfold f, polynomial; destruct (Nat.leb_spec N t); [lia|]; destruct (Nat.ltb_spec t T); [lia|reflexivity]).
  assert (Z : forall t, (N <= t)%nat -> f t = final) by (intros t H; unfold f, polynomial; destruct (Nat.leb_spec N t); [reflexivity|lia]).
  assert (D : 0 < INR N - INR T) by (apply lt_INR in TN; lra).
  assert (Q : forall t, (T <= t < N)%nat -> 0 < (INR N - INR t) / (INR N - INR T) <= 1).
  { intros t [H1 H2]. apply le_INR in H1. apply lt_INR in H2. split; [apply Rmult_lt_0_compat; [lra|apply Rinv_0_lt_compat; lra]|]. apply Rmult_le_reg_r with (INR N - INR T); [lra|]. unfold Rdiv. rewrite Rmult_assoc, Rinv_l, Rmult_1_r; lra. }
  assert (C : f T = base). { rewrite B by lia. apply zip_same. eapply Forall2_impl2; [|apply Forall2_flip, G]. intros b e _. unfold Rdiv. rewrite Rinv_r by lra. unfold Rpower. rewrite ln_1, Rmult_0_r, exp_0. lra. }
  split; [|split; [|split; [|split; [exact C|split; [|split; [|exact Z]]]]]].
  - intros t L T0. destruct (Nat.eq_dec t T) as [->|Ne]; [rewrite C, frac_same by exact T0; apply line_top, F|]. rewrite A by lia. apply line_warm, F.
  - intros t L. destruct (Nat.eq_dec t T) as [->|Ne]; [rewrite C; apply each_below, F|]. rewrite A by lia. apply warmup_each; [exact F|apply frac_range; lia].
  - intros t t' _ L L'. destruct (Nat.eq_dec t' T) as [->|Ne].
    + rewrite C. destruct (Nat.eq_dec t T) as [->|Ne]; [rewrite C; apply le_refl_all|]. rewrite A by lia. apply warmup_below; [exact F|apply frac_range; lia].
    + rewrite !A by lia. apply warmup_le; [exact F|apply frac_le; lia].
  - intros t t' L L'. destruct (le_lt_dec N t') as [H'|H'].
    + rewrite (Z t' H'). destruct (le_lt_dec N t) as [H|H]; [rewrite Z by exact H; apply le_refl_all|]. rewrite B by lia. pose proof (Q t ltac:(lia)) as Qt.
      pose proof (Rpower_le_1 _ p Qt ltac:(lra)) as R1. revert G R1. generalize (Rpower ((INR N - INR t) / (INR N - INR T)) p). clear. intros c G R1. unfold le_all, zip_with. induction G as [|e b final base L G IH]; simpl; constructor; [|exact IH].
      assert (0 <= (b - e) * c) by (apply Rmult_le_pos; lra). lra.
    + rewrite !B by lia. apply le_zip. eapply Forall2_impl2; [|apply Forall2_flip, G]. intros b e Lb. apply mix_le; [exact Lb|]. apply Rpower_mono; [|lra]. split; [apply Q; lia|]. apply Rmult_le_compat_r; [left; apply Rinv_0_lt_compat; lra|].
      apply le_INR in L'. lra.
  - intros t H. rewrite B by exact H. apply each_zip. eapply Forall2_impl2; [|apply Forall2_flip, G]. intros b e Lb. split; [reflexivity|]. apply mix_range; [exact Lb|]. pose proof (Rpower_le_1 _ p (Q t H) ltac:(lra)). lra.
Qed.
Print Assumptions C45_polynomial.
Example C45_polynomial_ex : polynomial_init 1000 100 = true /\ Forall2 Rle [0; 1/10] [1; 1/2] /\ Forall2 Rle [1/100; 1/2] [1; 1/2].
Proof. split; [reflexivity|]. split; repeat constructor; lra. Qed.
(** A negative power is not rejected and takes the learning rate above its base value. *)
Theorem C45_power_refuted : exists N T start final base t x, polynomial_init N T = true /\ Forall2 Rle start base /\ Forall2 Rle final base /\ polynomial N T (- (1)) start final base t = [x] /\ 2 <= x /\ base = [1].
Proof.
  exists 2%nat, 0%nat, [0], [0], [1], 1%nat, 2. split; [reflexivity|]. split; [repeat constructor; lra|]. split; [repeat constructor; lra|]. split; [|split; [lra|reflexivity]].
  unfold polynomial, zip_with. simpl. f_equal. replace ((1 + 1 - 1) / (1 + 1 - 0)) with (/ 2) by lra. rewrite Rpower_Ropp, Rpower_1 by lra. rewrite Rinv_inv. lra.
Qed.
Print Assumptions C45_power_refuted.

(** C45, TriStageLR *)
Theorem C45_tri_stage : forall n0 n1 n2 ss fs base, Forall2 (fun s b => 0 < s <= 1 /\ 0 <= b) ss base -> Forall2 (fun s b => 0 < s <= 1 /\ 0 <= b) fs base ->
  let f := tri_stage n0 n1 n2 ss fs base in
  (forall t, (t < n0)%nat -> got (f t) (each (fun b s x => x = s * b + (b - s * b) * (INR t / INR n0) /\ s * b <= x <= b) base ss)) /\
  (forall t, (n0 <= t < n0 + n1)%nat -> f t = Ok base) /\
  (forall t, (n0 + n1 <= t <= n0 + n1 + n2)%nat -> (0 < n2)%nat -> got (f t) (each (fun b s x => x = b * Rpower s (INR (t - n0 - n1) / INR n2) /\ s * b <= x <= b) base fs)) /\
  (forall t, (n0 + n1 + n2 <= t)%nat -> got (f t) (each (fun b s x => x = s * b) base fs)).
Proof.
  intros n0 n1 n2 ss fs base Hs Hf f.
  assert (Fin : got (Ok (zip_with Rmult fs base)) (each (fun b s x => x = s * b) base fs)).
  { eexists. split; [reflexivity|]. clear - Hf. unfold zip_with. induction Hf; simpl; constructor; [reflexivity|assumption]. }
  split; [|split; [|split]].
  - intros t L. unfold f, tri_stage. destruct (Nat.ltb_spec t n0); [|lia]. eexists. split; [reflexivity|]. pose proof (frac_range t n0 ltac:(lia) ltac:(lia)) as R.
    revert R. generalize (INR t / INR n0). clear - Hs. intros c R. unfold warmup, zip_with. induction Hs as [|s b ss base [S B] Hs IH]; simpl; constructor; [|exact IH]. split; [reflexivity|]. apply mix_range; [|exact R].
    rewrite <- (Rmult_1_l b) at 2. apply Rmult_le_compat_r; lra.
  - intros t L. unfold f, tri_stage. destruct (Nat.ltb_spec t n0); [lia|]. destruct (Nat.ltb_spec (t - n0) n1); [reflexivity|lia].
  - intros t L N2. destruct (Nat.eq_dec t (n0 + n1 + n2)) as [->|Ne].
    + unfold f, tri_stage. destruct (Nat.ltb_spec (n0 + n1 + n2) n0); [lia|]. destruct (Nat.ltb_spec (n0 + n1 + n2 - n0) n1); [lia|]. destruct (Nat.ltb_spec (n0 + n1 + n2 - n0 - n1) n2); [lia|].
      eexists. split; [reflexivity|]. replace (n0 + n1 + n2 - n0 - n1)%nat with n2 by lia. rewrite frac_same by exact N2. clear - Hf. unfold zip_with. induction Hf as [|s b fs base [S B] Hs IH]; simpl; constructor; [|exact IH].
      rewrite Rpower_1 by lra. split; [lra|]. split; [lra|]. rewrite <- (Rmult_1_l b) at 2. apply Rmult_le_compat_r; lra.
    + unfold f, tri_stage. destruct (Nat.ltb_spec t n0); [lia|]. destruct (Nat.ltb_spec (t - n0) n1); [lia|]. destruct (Nat.ltb_spec (t - n0 - n1) n2); [|lia].
      replace (existsb (fun f => if Rle_dec f 0 then true else false) fs) with false by (clear - Hf; induction Hf as [|s b fs base [S B] Hs IH]; simpl; [reflexivity|]; destruct (Rle_dec s 0); [lra|exact IH]).
      eexists. split; [reflexivity|]. pose proof (frac_range (t - n0 - n1) n2 ltac:(lia) ltac:(lia)) as R. revert R. generalize (INR (t - n0 - n1) / INR n2). clear - Hf. intros c R. unfold zip_with.
      induction Hf as [|s b fs base [S B] Hs IH]; simpl; constructor; [|exact IH]. unfold Rpower. rewrite (Rmult_comm (ln s) c). split; [reflexivity|]. fold (Rpower s c). split.
      * rewrite Rmult_comm. apply Rmult_le_compat_l; [exact B|]. rewrite <- (Rpower_1 s) at 1 by lra. replace 1 with (c + (1 - c)) by lra. rewrite Rpower_plus. pose proof (Rpower_le_1 s (1 - c) S ltac:(lra)) as [R1 R2]. pose proof (exp_pos (c * ln s)) as R3. fold (Rpower s c) in R3.
        rewrite <- (Rmult_1_r (Rpower s c)) at 2. apply Rmult_le_compat_l; lra.
      * rewrite <- (Rmult_1_r b) at 2. apply Rmult_le_compat_l; [exact B|]. apply Rpower_le_1; [exact S|lra].
  - intros t L. unfold f, tri_stage. destruct (Nat.ltb_spec t n0); [lia|]. destruct (Nat.ltb_spec (t - n0) n1); [lia|]. destruct (Nat.ltb_spec (t - n0 - n1) n2); [lia|]. exact Fin.
Qed.
Print Assumptions C45_tri_stage.
Example C45_tri_stage_ex : Forall2 (fun s b => 0 < s <= 1 /\ 0 <= b) [1/100; 1] [1; 0]. Proof. repeat constructor; lra. Qed.
(** C45, TriStageLR: rises, holds, falls; the final value is reached within the number of steps. *)
Theorem C45_tri_stage_monotone : forall n0 n1 n2 ss fs base t t' r r', Forall2 (fun s b => 0 < s <= 1 /\ 0 <= b) ss base -> Forall2 (fun s b => 0 < s <= 1 /\ 0 <= b) fs base -> (t <= t')%nat ->
  tri_stage n0 n1 n2 ss fs base t = Ok r -> tri_stage n0 n1 n2 ss fs base t' = Ok r' -> ((t' < n0 + n1)%nat -> le_all r r') /\ ((n0 <= t)%nat -> le_all r' r).
Proof.
  intros n0 n1 n2 ss fs base t t' r r' Hs Hf L E E'.
  assert (Below : forall c, 0 <= c <= 1 -> le_all (warmup c base (zip_with Rmult ss base)) base /\ forall c', c <= c' -> le_all (warmup c base (zip_with Rmult ss base)) (warmup c' base (zip_with Rmult ss base))).
  { intros c Hc. assert (W : Forall2 Rle (zip_with Rmult ss base) base). { clear - Hs. unfold zip_with. induction Hs as [|s b ss base [S B] Hs IH]; simpl; constructor; [|exact IH]. rewrite <- (Rmult_1_l b) at 2. apply Rmult_le_compat_r; lra. }
    split; [apply warmup_below; assumption|]. intros c' Hc'. apply warmup_le; assumption. }
  destruct (C45_tri_stage n0 n1 n2 ss fs base Hs Hf) as (_ & Hold & Dec & Fin). cbv zeta in Hold, Dec, Fin. split; intros H.
  - destruct (le_lt_dec n0 t) as [H1|H1].
    + rewrite Hold in E, E' by lia. injection E as <-. injection E' as <-. apply le_refl_all.
    + unfold tri_stage in E. destruct (Nat.ltb_spec t n0); [|lia]. injection E as <-. destruct (Below (INR t / INR n0) (frac_range t n0 ltac:(lia) ltac:(lia))) as [B1 B2]. destruct (le_lt_dec n0 t') as [H2|H2].
      * rewrite Hold in E' by lia. injection E' as <-. exact B1.
      * unfold tri_stage in E'. destruct (Nat.ltb_spec t' n0); [|lia]. injection E' as <-. apply B2, frac_le; lia.
  - assert (Cases : forall u v, (n0 <= u)%nat -> tri_stage n0 n1 n2 ss fs base u = Ok v -> (v = base /\ (u < n0 + n1)%nat) \/ (each (fun b s x => x = b * Rpower s (INR (u - n0 - n1) / INR n2)) base fs v /\ (0 < n2)%nat /\ (n0 + n1 <= u < n0 + n1 + n2)%nat) \/ (each (fun b s x => x = s * b) base fs v /\ (n0 + n1 + n2 <= u)%nat)).
    { intros u v Hu Ev. destruct (le_lt_dec (n0 + n1) u) as [H1|H1]; [|left; rewrite Hold in Ev by lia; injection Ev as <-; auto]. right. destruct (le_lt_dec (n0 + n1 + n2) u) as [H2|H2].
      - right. destruct (Fin u H2) as (w & W1 & W2). rewrite Ev in W1. injection W1 as ->. auto.
      - left. destruct (Dec u ltac:(lia) ltac:(lia)) as (w & W1 & W2). rewrite Ev in W1. injection W1 as ->. split; [|lia]. eapply each_impl; [|exact W2]. intros a b x X. apply X. }
    assert (Mono : forall P Q (l m x y : list R), each P l m x -> each Q l m y -> Forall2 (fun s b => 0 < s <= 1 /\ 0 <= b) m l -> (forall b s u v, 0 < s <= 1 -> 0 <= b -> P b s u -> Q b s v -> u <= v) -> le_all x y).
    { clear. intros P Q l m x y X. revert y. induction X as [|a b u l m x PX X IH]; intros y Y S M; inversion Y; subst; [constructor|]. inversion S as [|? ? ? ? [S1 S2] S3]; subst. constructor; [eapply M; eassumption|eapply IH; eassumption]. }
    assert (MonoB : forall P (l m x : list R), each P l m x -> Forall2 (fun s b => 0 < s <= 1 /\ 0 <= b) m l -> (forall b s u, 0 < s <= 1 -> 0 <= b -> P b s u -> u <= b) -> le_all x l).
    { clear. intros P l m x X. induction X as [|a b u l m x PX X IH]; intros S M; [constructor|]. inversion S as [|? ? ? ? [S1 S2] S3]; subst. constructor; [eapply M; eassumption|eapply IH; eassumption]. }
    assert (Up : forall b s c, 0 < s <= 1 -> 0 <= b -> 0 <= c -> b * Rpower s c <= b) by (intros b s c S B C; rewrite <- (Rmult_1_r b) at 2; apply Rmult_le_compat_l; [exact B|apply Rpower_le_1; lra]).
    assert (Dn : forall b s c c', 0 < s <= 1 -> 0 <= b -> c <= c' -> b * Rpower s c' <= b * Rpower s c).
    { intros b s c c' S B C. replace c' with (c + (c' - c)) by lra. rewrite Rpower_plus, <- Rmult_assoc. apply (Up (b * Rpower s c) s (c' - c)); [exact S|apply Rmult_le_pos; [exact B|left; apply exp_pos]|lra]. }
    destruct (Cases t r H E) as [(-> & X)|[(X & N2 & Y)|(X & Y)]]; destruct (Cases t' r' ltac:(lia) E') as [(-> & X')|[(X' & N2' & Y')|(X' & Y')]]; try lia.
    + apply le_refl_all.
    + eapply MonoB; [exact X'|exact Hf|]. intros b s u S B ->. apply Up; [exact S|exact B|]. apply frac_range; lia.
    + eapply MonoB; [exact X'|exact Hf|]. intros b s u S B ->. rewrite <- (Rmult_1_l b) at 2. apply Rmult_le_compat_r; lra.
    + eapply Mono; [exact X'|exact X|exact Hf|]. intros b s u v S B -> ->. apply Dn; [exact S|exact B|apply frac_le; lia].
    + eapply Mono; [exact X'|exact X|exact Hf|]. intros b s u v S B -> ->. rewrite (Rmult_comm s b). rewrite <- (Rpower_1 s) at 1 by lra. apply Dn; [exact S|exact B|apply frac_range; lia].
    + eapply Mono; [exact X'|exact X|exact Hf|]. intros b s u v S B -> ->. lra.
Qed.
Print Assumptions C45_tri_stage_monotone.
Theorem C45_tri_stage_steps : forall N a b c, 0 <= a -> 0 <= b -> 0 <= c -> a + b + c = 1 -> (stage_steps N a + stage_steps N b + stage_steps N c <= N)%nat.
Proof.
  intros N a b c A B C S. unfold stage_steps. pose proof (pos_INR N) as P. pose proof (int_spec (a * INR N) ltac:(apply Rmult_le_pos; lra)). pose proof (int_spec (b * INR N) ltac:(apply Rmult_le_pos; lra)). pose proof (int_spec (c * INR N) ltac:(apply Rmult_le_pos; lra)).
  apply INR_le. rewrite !plus_INR. replace (INR N) with (a * INR N + b * INR N + c * INR N) at 4 by (rewrite <- !Rmult_plus_distr_r, S; lra). lra.
Qed.
Print Assumptions C45_tri_stage_steps.
Example C45_tri_stage_steps_ex : stage_steps 10 (1/4) = 2%nat. Proof. apply int_unique. rewrite !INR_IZR_INZ. simpl. lra. Qed.
(** With a final scale of 0, which is not rejected, the first decay step raises an error; without decay steps the learning rate jumps. *)
Theorem C45_tri_stage_refuted : (forall n0 n1 n2 s b, (0 < n2)%nat -> tri_stage n0 n1 n2 [s] [0] [b] (n0 + n1) = ValueErr) /\
  (forall n0 n1 s e b, tri_stage n0 (S n1) 0 [s] [e] [b] (n0 + n1) = Ok [b] /\ tri_stage n0 (S n1) 0 [s] [e] [b] (n0 + S n1) = Ok [e * b]).
Proof.
  split.
  - intros n0 n1 n2 s b L. unfold tri_stage. destruct (Nat.ltb_spec (n0 + n1) n0); [lia|]. destruct (Nat.ltb_spec (n0 + n1 - n0) n1); [lia|]. destruct (Nat.ltb_spec (n0 + n1 - n0 - n1) n2); [|lia]. simpl. destruct (Rle_dec 0 0); [reflexivity|lra].
  - intros n0 n1 s e b. unfold tri_stage. split.
    + destruct (Nat.ltb_spec (n0 + n1) n0); [lia|]. destruct (Nat.ltb_spec (n0 + n1 - n0) (S n1)); [reflexivity|lia].
    + destruct (Nat.ltb_spec (n0 + S n1) n0); [lia|]. destruct (Nat.ltb_spec (n0 + S n1 - n0) (S n1)); [lia|]. reflexivity.
Qed.
Print Assumptions C45_tri_stage_refuted.

(** C45, CosineAnnealingLR with cycles of equal length *)
Theorem C45_cosine : forall len T m start final base, (0 < len)%nat -> 0 <= m -> Forall2 Rle start base -> Forall2 Rle final base ->
  let f := cosine len T 1 m start final base in
  (forall t, (t <= T)%nat -> (0 < T)%nat -> got (f t) (each (fun b s x => x = s + (b - s) * (INR t / INR T) /\ s <= x <= b) base start)) /\ f T = Ok base /\
  (forall t, (T <= t)%nat -> let n := ((t - T) / len)%nat in let k := ((t - T) mod len)%nat in
     got (f t) (each (fun e b x => x = m ^ n * (e + (b - e) * ((1 + cos (PI * (INR k / INR len))) / 2)) /\ m ^ n * e <= x <= m ^ n * b) final base)) /\
  (forall t t' r r', (T <= t)%nat -> (t <= t')%nat -> ((t - T) / len = (t' - T) / len)%nat -> f t = Ok r -> f t' = Ok r' -> le_all r' r).
Proof.
  intros len T m start final base L M F G f.
  assert (Cy : forall t, (T <= t)%nat -> f t = Ok (zip_with (fun mn mx => mn * m ^ ((t - T) / len) + (1 / 2) * (mx * m ^ ((t - T) / len) - mn * m ^ ((t - T) / len)) * (1 + cos (PI * (INR ((t - T) mod len) / INR len)))) final base)).
  { intros t H. unfold f, cosine. destruct (Nat.ltb_spec t T); [lia|]. unfold cycle. destruct (Req_EM_T 1 1); [|lra]. destruct (Nat.eqb_spec len 0); [lia|].
    replace (IZR (Z.of_nat (t - T) - Z.of_nat ((t - T) / len * len))) with (INR ((t - T) mod len)).
    2: { rewrite INR_IZR_INZ. f_equal. pose proof (Nat.div_mod (t - T) len ltac:(lia)). rewrite (Nat.mul_comm ((t - T) / len)). lia. }
    destruct (Nat.eqb_spec len 0); [lia|]. do 2 f_equal. unfold Rdiv. rewrite Rmult_assoc. reflexivity. }
  assert (Cs : forall k, (k < len)%nat -> 0 <= PI * (INR k / INR len) <= PI).
  { intros k Hk. pose proof (frac_range k len ltac:(lia) L). pose proof PI_RGT_0. split; [apply Rmult_le_pos; lra|]. rewrite <- (Rmult_1_r PI) at 2. apply Rmult_le_compat_l; lra. }
  assert (Top : f T = Ok base).
  { rewrite Cy by lia. f_equal. rewrite Nat.sub_diag, Nat.div_0_l, Nat.mod_0_l by lia. simpl. unfold Rdiv at 2. rewrite Rmult_0_l, Rmult_0_r, cos_0. clear - G. unfold zip_with. induction G as [|e b final base H G IH]; simpl; [reflexivity|]. rewrite IH. f_equal. lra. }
  split; [|split; [exact Top|split]].
  - intros t H T0. destruct (Nat.eq_dec t T) as [->|Ne].
    + rewrite Top. eexists. split; [reflexivity|]. rewrite frac_same by exact T0. clear - F. induction F; constructor; [lra|assumption].
    + unfold f, cosine. destruct (Nat.ltb_spec t T); [|lia]. eexists. split; [reflexivity|]. apply each_zip. eapply Forall2_impl2; [|apply Forall2_flip, F]. intros b s Lb. split; [reflexivity|]. apply mix_range; [exact Lb|apply frac_range; lia].
  - intros t H n k. eexists. split; [apply Cy, H|]. fold n k. apply each_zip. eapply Forall2_impl2; [|exact G]. intros e b Lb. split; [lra|]. pose proof (COS_bound (PI * (INR k / INR len))) as CB. pose proof (pow_le m n M) as Pm.
    set (c := cos _) in *. replace (e * m ^ n + 1 / 2 * (b * m ^ n - e * m ^ n) * (1 + c)) with (m ^ n * (e + (b - e) * ((1 + c) / 2))) by lra. pose proof (mix_range e b ((1 + c) / 2) Lb ltac:(lra)) as [X1 X2]. split; apply Rmult_le_compat_l; assumption.
  - intros t t' r r' H1 H2 En E E'. rewrite Cy in E, E' by lia. injection E as <-. injection E' as <-. rewrite En. apply le_zip. eapply Forall2_impl2; [|exact G]. intros e b Lb. pose proof (pow_le m ((t' - T) / len) M) as Pm.
    pose proof (Nat.div_mod (t - T) len ltac:(lia)) as D1. pose proof (Nat.div_mod (t' - T) len ltac:(lia)) as D2. rewrite En in D1.
    pose proof (Nat.mod_upper_bound (t - T) len ltac:(lia)) as B1. pose proof (Nat.mod_upper_bound (t' - T) len ltac:(lia)) as B2.
    assert (cos (PI * (INR ((t' - T) mod len) / INR len)) <= cos (PI * (INR ((t - T) mod len) / INR len))).
    { apply cos_le; [|apply Cs, B2]. split; [apply Cs, B1|]. apply Rmult_le_compat_l; [left; apply PI_RGT_0|]. apply frac_le; lia. }
    apply Rplus_le_compat_l. apply Rmult_le_compat_l; [|lra]. apply Rmult_le_pos; [lra|]. replace (b * _ - e * _) with ((b - e) * m ^ ((t' - T) / len)) by lra. apply Rmult_le_pos; lra.
Qed.
Print Assumptions C45_cosine.
Example C45_cosine_ex : Forall2 Rle [0; 1/10] [1; 1/2] /\ cosine 10 5 1 (1/2) [0] [0] [1] 5 = Ok [1].
Proof. split; [repeat constructor; lra|]. apply (C45_cosine 10 5 (1/2) [0] [0] [1]); [lia|lra|repeat constructor; lra|repeat constructor; lra]. Qed.
(** C45, CosineAnnealingLR with cycles that are each [k] times as long as the one before *)
Lemma starts_INR len k n : (2 <= k)%nat -> INR (starts len k n) = (1 - INR k ^ n) / (1 - INR k) * INR len.
Proof.
  intros K. assert (2 <= INR k) by (apply le_INR in K; simpl in K; lra). induction n as [|n IH]; [simpl; field; lra|]. cbn [starts]. rewrite plus_INR, mult_INR, pow_INR, IH. simpl. field. lra.
Qed.
Lemma cycle_int len k cur : (0 < len)%nat -> (2 <= k)%nat -> exists n, cycle len (INR k) cur = Ok (n, (k ^ n * len)%nat, (Z.of_nat cur - Z.of_nat (starts len k n))%Z) /\ (starts len k n <= cur < starts len k (S n))%nat.
Proof.
  intros L K. assert (K2 : 2 <= INR k) by (apply le_INR in K; simpl in K; lra). pose proof (INR_pos len L) as PL. pose proof (pos_INR cur) as PC. unfold cycle. destruct (Req_EM_T (INR k) 1) as [|Nk]; [lra|]. destruct (Nat.eqb_spec len 0) as [|Nl]; [lia|].
  set (x := 1 - INR cur / INR len * (1 - INR k)). assert (0 <= INR cur / INR len * (INR k - 1)) by (apply Rmult_le_pos; [apply Rmult_le_pos; [lra|left; apply Rinv_0_lt_compat; lra]|lra]).
  assert (X : 1 <= x) by (unfold x; lra). destruct (Rle_dec x 0) as [|Nx]; [lra|]. destruct (Rle_dec (INR k) 0) as [|Nk']; [lra|].
  assert (Ln : 0 < ln (INR k)) by (rewrite <- ln_1; apply ln_increasing; lra). assert (Lx : 0 <= ln x) by (destruct X as [X|X]; [left; rewrite <- ln_1; apply ln_increasing; lra|rewrite <- X, ln_1; lra]).
  pose proof (int_spec (ln x / ln (INR k)) ltac:(apply Rmult_le_pos; [lra|left; apply Rinv_0_lt_compat; lra])) as [I1 I2]. set (n := int (ln x / ln (INR k))) in *. exists n.
  assert (E : ln x = ln x / ln (INR k) * ln (INR k)) by (field; lra).
  assert (B1 : INR k ^ n <= x). { rewrite <- Rpower_pow by lra. rewrite <- (exp_ln x) by lra. unfold Rpower. rewrite E. assert (Le : INR n * ln (INR k) <= ln x / ln (INR k) * ln (INR k)) by (apply Rmult_le_compat_r; lra). destruct Le as [Le|Le]; [left; apply exp_increasing, Le|rewrite Le; lra]. }
  assert (B2 : x < INR k ^ S n). { rewrite <- Rpower_pow by lra. rewrite <- (exp_ln x) by lra. unfold Rpower. rewrite E. apply exp_increasing. rewrite S_INR. apply Rmult_lt_compat_r; lra. }
  assert (E1 : int (INR k ^ n * INR len) = (k ^ n * len)%nat) by (apply int_unique; rewrite mult_INR, pow_INR; lra).
  assert (E2 : int ((1 - INR k ^ n) / (1 - INR k) * INR len) = starts len k n) by (apply int_unique; rewrite starts_INR by exact K; lra).
  cbv zeta. rewrite E1, E2. split; [reflexivity|]. unfold x in *.
  assert (Y : forall j, (1 - INR k ^ j) / (1 - INR k) * INR len = (INR k ^ j - 1) * (INR len / (INR k - 1))) by (intros j; field; lra).
  assert (Cu : INR cur = (INR cur / INR len * (INR k - 1)) * (INR len / (INR k - 1))) by (field; lra). assert (Po : 0 < INR len / (INR k - 1)) by (apply Rmult_lt_0_compat; [lra|apply Rinv_0_lt_compat; lra]).
  split; [apply INR_le|apply INR_lt]; rewrite starts_INR, Y, Cu by exact K; [apply Rmult_le_compat_r; lra|apply Rmult_lt_compat_r; lra].
Qed.
Lemma starts_mono len k a b : (a <= b)%nat -> (starts len k a <= starts len k b)%nat.
Proof. induction 1; cbn [starts]; lia. Qed.
Theorem C45_cosine_multiple : forall len T k m start final base, (0 < len)%nat -> (2 <= k)%nat -> 0 <= m -> Forall2 Rle final base ->
  let f := cosine len T (INR k) m start final base in
  forall t n, (T + starts len k n <= t < T + starts len k (S n))%nat ->
    got (f t) (each (fun e b x => x = m ^ n * (e + (b - e) * ((1 + cos (PI * (INR (t - T - starts len k n) / INR (k ^ n * len)))) / 2)) /\ m ^ n * e <= x <= m ^ n * b) final base) /\
    forall t' r r', (t <= t' < T + starts len k (S n))%nat -> f t = Ok r -> f t' = Ok r' -> le_all r' r.
Proof.
  intros len T k m start final base L K M G f t n H. assert (W : (0 < k ^ n * len)%nat) by (apply Nat.mul_pos_pos; [apply Nat.neq_0_lt_0, Nat.pow_nonzero; lia|exact L]).
  assert (Cy : forall t, (T + starts len k n <= t < T + starts len k (S n))%nat -> f t = Ok (zip_with (fun mn mx => mn * m ^ n + (1 / 2) * (mx * m ^ n - mn * m ^ n) * (1 + cos (PI * (INR (t - T - starts len k n) / INR (k ^ n * len))))) final base)).
  { intros u Hu. unfold f, cosine. destruct (Nat.ltb_spec u T); [lia|]. destruct (cycle_int len k (u - T) L K) as (n' & -> & B). assert (n' = n).
    { destruct (lt_eq_lt_dec n' n) as [[Q|Q]|Q]; [|exact Q|]; [pose proof (starts_mono len k (S n') n Q)|pose proof (starts_mono len k (S n) n' Q)]; lia. }
    subst n'. destruct (Nat.eqb_spec (k ^ n * len) 0); [lia|]. do 2 f_equal. replace (Z.of_nat (u - T) - Z.of_nat (starts len k n))%Z with (Z.of_nat (u - T - starts len k n)) by lia. rewrite <- INR_IZR_INZ. unfold Rdiv. rewrite Rmult_assoc. reflexivity. }
  pose proof (pow_le m n M) as Pm. split.
  - eexists. split; [apply Cy, H|]. apply each_zip. eapply Forall2_impl2; [|exact G]. intros e b Lb. split; [lra|]. pose proof (COS_bound (PI * (INR (t - T - starts len k n) / INR (k ^ n * len)))) as CB.
    set (c := cos _) in *. replace (e * m ^ n + 1 / 2 * (b * m ^ n - e * m ^ n) * (1 + c)) with (m ^ n * (e + (b - e) * ((1 + c) / 2))) by lra. pose proof (mix_range e b ((1 + c) / 2) Lb ltac:(lra)) as [X1 X2]. split; apply Rmult_le_compat_l; assumption.
  - intros t' r r' H' E E'. rewrite Cy in E, E' by lia. injection E as <-. injection E' as <-. apply le_zip. eapply Forall2_impl2; [|exact G]. intros e b Lb.
    assert (cos (PI * (INR (t' - T - starts len k n) / INR (k ^ n * len))) <= cos (PI * (INR (t - T - starts len k n) / INR (k ^ n * len)))).
    { pose proof PI_RGT_0. cbn [starts] in H, H'. pose proof (frac_range (t - T - starts len k n) (k ^ n * len) ltac:(lia) W). pose proof (frac_range (t' - T - starts len k n) (k ^ n * len) ltac:(lia) W).
      apply cos_le; [split; [apply Rmult_le_pos; lra|]|rewrite <- (Rmult_1_r PI) at 2]; (apply Rmult_le_compat_l; [lra|]); [apply frac_le; lia|lra]. }
    apply Rplus_le_compat_l. apply Rmult_le_compat_l; [|lra]. apply Rmult_le_pos; [lra|]. replace (b * _ - e * _) with ((b - e) * m ^ n) by lra. apply Rmult_le_pos; lra.
Qed.
Print Assumptions C45_cosine_multiple.
Example C45_cosine_multiple_ex : (2 <= 3)%nat /\ (5 + starts 10 3 2 <= 50 < 5 + starts 10 3 3)%nat. Proof. simpl. lia. Qed.
(** C45, CosineAnnealingLR with cycles of any length: in range *)
Theorem C45_cosine_range : forall len T mul m start final base t r, 0 <= m -> Forall2 Rle start base -> Forall2 Rle final base -> cosine len T mul m start final base t = Ok r ->
  ((t < T)%nat -> each (fun b s x => s <= x <= b) base start r) /\ ((T <= t)%nat -> exists n, each (fun e b x => m ^ n * e <= x <= m ^ n * b) final base r).
Proof.
  intros len T mul m start final base t r M F G E. unfold cosine in E. destruct (Nat.ltb_spec t T) as [L|L].
  - injection E as <-. split; [|lia]. intros _. apply warmup_each; [exact F|apply frac_range; lia].
  - split; [lia|]. intros _. destruct (cycle len mul (t - T)) as [[[n k] pos]| | |]; try discriminate. destruct (Nat.eqb k 0); [discriminate|]. injection E as <-. exists n. apply each_zip. eapply Forall2_impl2; [|exact G]. intros e b Lb.
    pose proof (COS_bound (PI * IZR pos / INR k)) as CB. pose proof (pow_le m n M) as Pm. set (c := cos _) in *.
    replace (e * m ^ n + 1 / 2 * (b * m ^ n - e * m ^ n) * (1 + c)) with (m ^ n * (e + (b - e) * ((1 + c) / 2))) by lra. pose proof (mix_range e b ((1 + c) / 2) Lb ltac:(lra)) as [X1 X2]. split; apply Rmult_le_compat_l; assumption.
Qed.
Print Assumptions C45_cosine_range.
(** ... but cycles that shrink end with an error, ... *)
Theorem C45_cosine_shrink_refuted : forall len mul T m start final base t, (0 < len)%nat -> 0 < mul < 1 -> (T <= t)%nat -> INR len / (1 - mul) <= INR (t - T) -> cosine len T mul m start final base t = ValueErr.
Proof.
  intros len mul T m start final base t L M H X. unfold cosine. destruct (Nat.ltb_spec t T); [lia|]. unfold cycle. destruct (Req_EM_T mul 1); [lra|]. destruct (Nat.eqb_spec len 0); [lia|]. destruct (Rle_dec _ 0) as [|N]; [reflexivity|]. exfalso. apply N.
  pose proof (INR_pos len L) as P. assert (1 <= INR (t - T) / INR len * (1 - mul)); [|lra]. apply Rmult_le_reg_r with (INR len / (1 - mul)); [apply Rmult_lt_0_compat; [lra|apply Rinv_0_lt_compat; lra]|].
  replace (INR (t - T) / INR len * (1 - mul) * (INR len / (1 - mul))) with (INR (t - T)) by (field; lra). lra.
Qed.
Print Assumptions C45_cosine_shrink_refuted.
Example C45_cosine_shrink_refuted_ex : INR 10 / (1 - 1/2) <= INR (20 - 0). Proof. rewrite !INR_IZR_INZ. simpl. lra. Qed.
(** ... and cycles that grow need not fall to their end: the last step of the third cycle goes up again. *)
Theorem C45_cosine_grow_refuted : forall final base, final < base -> exists x y, cosine 3 0 (3 / 2) 1 [0] [final] [base] 13 = Ok [x] /\ cosine 3 0 (3 / 2) 1 [0] [final] [base] 14 = Ok [y] /\ cycle 3 (3 / 2) 13 = Ok (2%nat, 6%nat, 6%Z) /\ cycle 3 (3 / 2) 14 = Ok (2%nat, 6%nat, 7%Z) /\ x < y.
Proof.
  intros final base L.
  assert (Ln : 0 < ln (3 / 2)) by (rewrite <- ln_1; apply ln_increasing; lra).
  assert (Two : forall x, (3 / 2) * (3 / 2) <= x < (3 / 2) * ((3 / 2) * (3 / 2)) -> int (ln x / ln (3 / 2)) = 2%nat).
  { intros x [X1 X2]. apply int_unique. replace (INR 2) with 2 by (simpl; lra). split.
    - apply Rmult_le_reg_r with (ln (3 / 2)); [exact Ln|]. unfold Rdiv at 2. rewrite Rmult_assoc, Rinv_l, Rmult_1_r by lra. replace (2 * ln (3 / 2)) with (ln (3 / 2 * (3 / 2))) by (rewrite ln_mult by lra; lra).
      destruct X1 as [X1|X1]; [left; apply ln_increasing; lra|rewrite X1; lra].
    - apply Rmult_lt_reg_r with (ln (3 / 2)); [exact Ln|]. unfold Rdiv at 1. rewrite Rmult_assoc, Rinv_l, Rmult_1_r by lra. replace ((2 + 1) * ln (3 / 2)) with (ln (3 / 2 * (3 / 2 * (3 / 2)))) by (rewrite !ln_mult by lra; lra).
      apply ln_increasing; lra. }
  assert (Cy : forall k p, (13 <= k <= 14)%nat -> (p = Z.of_nat k - 7)%Z -> cycle 3 (3 / 2) k = Ok (2%nat, 6%nat, p)).
  { intros k p Hk ->. assert (K : 13 <= INR k <= 14) by (destruct Hk as [A B]; apply le_INR in A; apply le_INR in B; rewrite INR_IZR_INZ in A; rewrite (INR_IZR_INZ 14) in B; simpl in A, B; lra).
    unfold cycle. destruct (Req_EM_T (3 / 2) 1); [lra|]. cbn [Nat.eqb]. replace (INR 3) with 3 by (simpl; lra). destruct (Rle_dec _ 0); [lra|]. destruct (Rle_dec (3 / 2) 0); [lra|].
    rewrite Two by lra. replace (int ((3 / 2) ^ 2 * 3)) with 6%nat by (symmetry; apply int_unique; simpl; lra). replace (int ((1 - (3 / 2) ^ 2) / (1 - 3 / 2) * 3)) with 7%nat by (symmetry; apply int_unique; simpl; lra). reflexivity. }
  pose proof (Cy 13%nat 6%Z ltac:(lia) eq_refl) as C13. pose proof (Cy 14%nat 7%Z ltac:(lia) eq_refl) as C14.
  assert (X : forall k p, cycle 3 (3 / 2) k = Ok (2%nat, 6%nat, p) -> cosine 3 0 (3 / 2) 1 [0] [final] [base] k = Ok [final + 1 / 2 * (base - final) * (1 + cos (PI * IZR p / 6))]).
  { intros k p C. unfold cosine. cbn [Nat.ltb Nat.leb]. rewrite Nat.sub_0_r, C. cbn [Nat.eqb]. unfold zip_with. cbn [combine map fst snd]. rewrite pow1, !Rmult_1_r. replace (INR 6) with 6 by (simpl; lra). reflexivity. }
  eexists. eexists. split; [apply X, C13|]. split; [apply X, C14|]. split; [exact C13|]. split; [exact C14|]. apply Rplus_lt_compat_l. apply Rmult_lt_compat_l; [lra|]. apply Rplus_lt_compat_l.
  replace (PI * 6 / 6) with PI by lra. replace (PI * 7 / 6) with (PI / 6 + PI) by lra. rewrite neg_cos, cos_PI. pose proof PI_RGT_0. pose proof (cos_decreasing_1 0 (PI / 6) ltac:(lra) ltac:(lra) ltac:(lra) ltac:(lra) ltac:(lra)) as D. rewrite cos_0 in D. lra.
Qed.
Print Assumptions C45_cosine_grow_refuted.

(** C45: a parameter is given once for all groups or once for each. An int, like 0, is not accepted for all. *)
Theorem C45_groups : forall n x l, per_param_group n (Float x) = Ok (repeat x n) /\ (length l = n -> per_param_group n (Seq l) = Ok l) /\ (length l <> n -> per_param_group n (Seq l) = ValueErr).
Proof. intros n x l. split; [reflexivity|]. simpl. destruct (Nat.eqb_spec (length l) n); split; intros; congruence. Qed.
Print Assumptions C45_groups.
Example C45_groups_ex : per_param_group 2 (Seq [1; 2]) = Ok [1; 2]. Proof. reflexivity. Qed.
Theorem C45_int_refuted : forall n z, per_param_group n (Int z) = TypeErr.
Proof. reflexivity. Qed.
Print Assumptions C45_int_refuted.
