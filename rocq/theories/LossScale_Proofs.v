From Coq Require Import QArith Qabs Qminmax Qfield Bool List Lia Lqa.
From Verif Require Import LossScale_Model LossScale_Spec.
Import ListNotations.

Lemma run_steps_app c h1 h2 g :
  run_steps c (h1 ++ h2) g =
  (fst (run_steps c h1 g) ++ fst (run_steps c h2 (snd (run_steps c h1 g))), snd (run_steps c h2 (snd (run_steps c h1 g)))).
Proof.
  revert g. induction h1 as [|f h1 IH]; intros g; simpl.
  - destruct (run_steps c h2 g). reflexivity.
  - destruct (run_optimizer_step c f g) as [[r st] g1]. rewrite (IH g1). destruct (run_steps c h1 g1). reflexivity.
Qed.

Lemma inv_bounds f : 1 < f -> 0 < 1 / f /\ 1 / f < 1 /\ f * (1 / f) == 1.
Proof.
  intros H. assert (Hf : ~ f == 0) by lra.
  assert (E : f * (1 / f) == 1) by (field; assumption).
  assert (P : 0 < 1 / f). { apply Qlt_shift_div_l; lra. }
  split; [assumption|]. split; [|assumption]. apply Qlt_shift_div_r; lra.
Qed.

Lemma isclose_far a b : Qmax ((13 # 10000000) * Qmax (Qabs a) (Qabs b)) (1 # 100000) < Qabs (a - b) -> isclose a b = false.
Proof.
  intros H. unfold isclose. apply orb_false_iff. split.
  - destruct (Qeq_bool a b) eqn:E; [|reflexivity]. apply Qeq_bool_iff in E.
    assert (HZ : Qabs (a - b) == 0) by (rewrite E; setoid_replace (b - b) with 0 by ring; reflexivity).
    rewrite HZ in H. pose proof (Q.le_max_r ((13 # 10000000) * Qmax (Qabs a) (Qabs b)) (1 # 100000)). lra.
  - destruct (Qle_bool _ _) eqn:E; [|reflexivity]. apply Qle_bool_iff in E. lra.
Qed.

Lemma isclose_refl a : isclose a a = true.
Proof. unfold isclose. assert (E : Qeq_bool a a = true) by (apply Qeq_bool_iff; reflexivity). rewrite E. reflexivity. Qed.

Lemma not_le a b : b < a -> Qle_bool a b = false.
Proof. intros H. destruct (Qle_bool a b) eqn:E; [|reflexivity]. apply Qle_bool_iff in E. lra. Qed.

Lemma isclose_down c s : visible c -> min_scale c <= s -> isclose (s * (1 / scale_factor c)) s = false.
Proof.
  intros (H1 & H2 & H3 & _) Hs. destruct (inv_bounds _ H1) as (I1 & I2 & I3).
  set (i := 1 / scale_factor c) in *. apply isclose_far.
  assert (Hm : 0 < min_scale c) by nra. assert (Hp : 0 < s) by lra.
  assert (E1 : Qabs (s * i - s) == s * (1 - i)).
  { rewrite Qabs_neg by nra. ring. }
  rewrite E1, (Qabs_pos (s * i)), (Qabs_pos s) by nra.
  apply Q.max_lub_lt; [|nra].
  rewrite Q.max_r by nra. nra.
Qed.

Lemma isclose_up c s : visible c -> min_scale c <= s -> isclose (s * scale_factor c) s = false.
Proof.
  intros (H1 & H2 & H3 & _) Hs. destruct (inv_bounds _ H1) as (I1 & I2 & I3).
  set (i := 1 / scale_factor c) in *. set (f := scale_factor c) in *. apply isclose_far.
  assert (Hm : 0 < min_scale c) by nra. assert (Hp : 0 < s) by lra.
  assert (E1 : Qabs (s * f - s) == s * f * (1 - i)).
  { rewrite Qabs_pos by nra. setoid_replace (s * f * (1 - i)) with (s * f - s * (f * i)) by ring. rewrite I3. ring. }
  rewrite E1, (Qabs_pos (s * f)), (Qabs_pos s) by nra.
  assert (Hsf : s < s * f) by nra.
  apply Q.max_lub_lt.
  - rewrite Q.max_l by lra. nra.
  - assert (min_scale c * (1 - i) <= s * f * (1 - i)) by nra. lra.
Qed.

(** One step. *)
Lemma update_true c g : visible c -> min_scale c <= gs_scale g ->
  exists r g', update_scale c true g = (r, g') /\ old_scale r = gs_scale g /\ new_scale r = gs_scale g' /\
    overflowed r = true /\ scaled r = false /\ gs_tracker g' = 0%nat /\
    (exploded r = true <-> gs_scale g / scale_factor c < min_scale c) /\
    gs_scale g' == Qmax (gs_scale g / scale_factor c) (min_scale c).
Proof.
  intros HV Hs. unfold update_scale. simpl. rewrite isclose_down by assumption.
  pose proof HV as (H1 & H2 & H3 & _). destruct (inv_bounds _ H1) as (I1 & I2 & I3).
  assert (ED : gs_scale g / scale_factor c == gs_scale g * (1 / scale_factor c)) by (field; lra).
  assert (Hm : 0 < min_scale c) by nra.
  assert (HL : Qle_bool (gs_scale g * (1 / scale_factor c)) (gs_scale g) = true) by (apply Qle_bool_iff; nra).
  rewrite HL. simpl. destruct (Qle_bool (min_scale c) (gs_scale g * (1 / scale_factor c))) eqn:E; simpl.
  - apply Qle_bool_iff in E. eexists _, _. split; [reflexivity|]. simpl. repeat (split; [reflexivity|]).
    split; [split; [discriminate|intros HX; rewrite ED in HX; lra]|]. rewrite ED. symmetry. apply Q.max_l. assumption.
  - assert (E' : gs_scale g * (1 / scale_factor c) < min_scale c).
    { apply Qnot_le_lt. intros HX. apply Qle_bool_iff in HX. congruence. }
    eexists _, _. split; [reflexivity|]. simpl. repeat (split; [reflexivity|]).
    split; [split; [intros _; rewrite ED; assumption|reflexivity]|]. rewrite ED. symmetry. apply Q.max_r. lra.
Qed.

Lemma update_false c g : visible c -> min_scale c <= gs_scale g ->
  exists r g', update_scale c false g = (r, g') /\ old_scale r = gs_scale g /\ new_scale r = gs_scale g' /\
    overflowed r = false /\ exploded r = false /\
    (scaled r = true <-> S (gs_tracker g) = scale_window c) /\
    gs_tracker g' = (if Nat.eqb (S (gs_tracker g)) (scale_window c) then 0 else S (gs_tracker g))%nat /\
    gs_scale g' == (if scaled r then gs_scale g * scale_factor c else gs_scale g).
Proof.
  intros HV Hs. unfold update_scale, gs_update. destruct (Nat.eqb_spec (S (gs_tracker g)) (scale_window c)) as [E|E]; cbn [gs_scale gs_tracker].
  - rewrite isclose_up by assumption. pose proof HV as (H1 & H2 & H3 & _). destruct (inv_bounds _ H1) as (I1 & I2 & I3).
    assert (Hm : 0 < min_scale c) by nra.
    rewrite not_le by nra. simpl. eexists _, _. split; [reflexivity|]. simpl. repeat (split; [reflexivity|]).
    split; [split; auto|]. split; reflexivity.
  - rewrite isclose_refl. eexists _, _. split; [reflexivity|]. simpl. repeat (split; [reflexivity|]).
    split; [split; [discriminate|contradiction]|]. split; reflexivity.
Qed.

Lemma streak_snoc h f : streak (h ++ [f]) = if f then 0%nat else S (streak h).
Proof. unfold streak. rewrite rev_app_distr. destruct f; reflexivity. Qed.

Definition after (c : scaler_cfg) (s : Q) (h : list bool) : grad_scaler := snd (run_steps c h (gs_init s)).

Lemma after_inv c s h : visible c -> min_scale c <= s ->
  min_scale c <= gs_scale (after c s h) /\ (gs_tracker (after c s h) < scale_window c)%nat /\
  Nat.divide (scale_window c) (streak h - gs_tracker (after c s h)) /\ (gs_tracker (after c s h) <= streak h)%nat.
Proof.
  intros HV Hs. pose proof HV as (_ & _ & _ & Hw). unfold after. induction h as [|f h IH] using rev_ind.
  - simpl. repeat split; try lia; try assumption. exists 0%nat. reflexivity.
  - rewrite run_steps_app. simpl. destruct (snd (run_steps c h (gs_init s))) as [sc tr] eqn:E. simpl in IH.
    destruct IH as (I1 & I2 & I3 & I4). unfold run_optimizer_step. rewrite streak_snoc. destruct f.
    + destruct (update_true c (GS sc tr) HV I1) as (r & g' & -> & _ & _ & _ & _ & Ht & _ & Hg). simpl.
      rewrite Ht, Hg. simpl. split; [apply Q.le_max_r|]. split; [lia|]. split; [exists 0%nat; reflexivity|lia].
    + destruct (update_false c (GS sc tr) HV I1) as (r & g' & -> & _ & _ & _ & _ & Hsc & Ht & Hg). cbn [snd gs_scale gs_tracker] in *.
      rewrite Ht, Hg. split.
      * pose proof HV as (H1 & _ & H3 & _). destruct (inv_bounds _ H1) as (J1 & J2 & _).
        assert (Hm : 0 < min_scale c) by nra. destruct (scaled r); nra.
      * destruct (Nat.eqb_spec (S tr) (scale_window c)) as [Ew|Ew].
        -- split; [lia|]. split; [|lia]. rewrite Nat.sub_0_r.
           replace (S (streak h)) with ((streak h - tr) + scale_window c)%nat by lia.
           apply Nat.divide_add_r; [assumption|apply Nat.divide_refl].
        -- split; [lia|]. split; [|lia]. assumption.
Qed.

Lemma scale_lemma : forall c s h f, visible c -> min_scale c <= s ->
  min_scale c <= scale_after c s h /\
  exists r stepped, last_report c s h f r stepped /\
    old_scale r = scale_after c s h /\ new_scale r = scale_after c s (h ++ [f]) /\
    stepped = negb f /\ overflowed r = f /\
    (f = true -> scaled r = false /\
       (exploded r = true <-> scale_after c s h / scale_factor c < min_scale c) /\
       scale_after c s (h ++ [f]) == Qmax (scale_after c s h / scale_factor c) (min_scale c)) /\
    (f = false -> exploded r = false /\
       (scaled r = true <-> Nat.divide (scale_window c) (streak (h ++ [f]))) /\
       scale_after c s (h ++ [f]) == (if scaled r then scale_after c s h * scale_factor c else scale_after c s h)).
Proof.
  intros c s h f HV Hs. destruct (after_inv c s h HV Hs) as (I1 & I2 & I3 & I4).
  unfold scale_after, last_report. rewrite run_steps_app. fold (after c s h) in *. simpl.
  unfold run_optimizer_step. split; [exact I1|]. destruct f.
  - destruct (update_true c (after c s h) HV I1) as (r & g' & E & E1 & E2 & E3 & E4 & _ & E5 & E6).
    rewrite E. simpl. exists r, false. split; [eexists; reflexivity|]. repeat (split; [assumption||reflexivity|]).
    split; [intros _; auto|discriminate].
  - destruct (update_false c (after c s h) HV I1) as (r & g' & E & E1 & E2 & E3 & E4 & E5 & _ & E6).
    rewrite E. simpl. exists r, true. split; [eexists; reflexivity|]. repeat (split; [assumption||reflexivity|]).
    split; [discriminate|]. intros _. split; [assumption|]. split; [|assumption].
    rewrite E5, streak_snoc. set (tr := gs_tracker (after c s h)) in *. split.
    + intros Ew. replace (S (streak h)) with ((streak h - tr) + scale_window c)%nat by lia.
      apply Nat.divide_add_r; [assumption|apply Nat.divide_refl].
    + intros HD. replace (S (streak h)) with ((streak h - tr) + S tr)%nat in HD by lia.
      apply Nat.divide_add_cancel_r in HD; [|assumption]. destruct HD as [k Hk]. destruct k as [|[|k]]; simpl in Hk; lia.
Qed.

Lemma load_state_lemma sd g : NoDup (map fst sd) -> (scaler_load_state_dict sd = Some g <-> sd = scaler_state_dict g).
Proof.
  intros HN. split; [|intros ->; reflexivity]. unfold scaler_load_state_dict, scaler_state_dict. intros H.
  destruct (find (fun kv => Nat.eqb (fst kv) 0) sd) as [[k [g'|]]|] eqn:EF; try discriminate.
  destruct (forallb (fun kv => Nat.eqb (fst kv) 0) sd) eqn:EA; [|discriminate]. inversion H; subst g'.
  destruct sd as [|[k1 v1] [|[k2 v2] sd]]; [discriminate| |]; simpl in *.
  - destruct (Nat.eqb k1 0) eqn:E1; [|discriminate]. apply Nat.eqb_eq in E1. inversion EF; subst. reflexivity.
  - apply andb_prop in EA. destruct EA as [A1 A2]. apply andb_prop in A2. destruct A2 as [A2 _]. apply Nat.eqb_eq in A1, A2. subst.
    inversion HN as [|? ? HH]; subst. exfalso. apply HH. left. reflexivity.
Qed.
