From Coq Require Import Reals List Arith ZArith Lia Lra.
From Verif Require Import LR_Model LR_Spec.
Import ListNotations.
Open Scope R_scope.

Lemma each_zip (P : R -> R -> R -> Prop) f l m : Forall2 (fun a b => P a b (f a b)) l m -> each P l m (zip_with f l m).
Proof. induction 1; unfold zip_with; simpl; constructor; assumption. Qed.
Lemma each_map (P : R -> R -> R -> Prop) f l m : Forall2 (fun a b => P a b (f a)) l m -> each P l m (map f l).
Proof. induction 1; simpl; constructor; assumption. Qed.
Lemma each_impl (P Q : R -> R -> R -> Prop) l m r : (forall a b x, P a b x -> Q a b x) -> each P l m r -> each Q l m r.
Proof. intros H. induction 1; constructor; auto. Qed.
Lemma Forall2_impl2 {A B} (P Q : A -> B -> Prop) l m : (forall a b, P a b -> Q a b) -> Forall2 P l m -> Forall2 Q l m.
Proof. intros H. induction 1; constructor; auto. Qed.
Lemma Forall2_flip {A B} (P : A -> B -> Prop) l m : Forall2 P l m -> Forall2 (fun b a => P a b) m l.
Proof. induction 1; constructor; auto. Qed.
Lemma le_zip f g l m : Forall2 (fun a b => f a b <= g a b) l m -> le_all (zip_with f l m) (zip_with g l m).
Proof. induction 1; unfold zip_with, le_all in *; simpl; constructor; assumption. Qed.
Lemma le_zip_map f g l m : Forall2 (fun a b => f a b <= g a) l m -> le_all (zip_with f l m) (map g l).
Proof. induction 1; unfold zip_with, le_all in *; simpl; constructor; assumption. Qed.
Lemma le_map (f g : R -> R) l : Forall (fun a => f a <= g a) l -> le_all (map f l) (map g l).
Proof. induction 1; unfold le_all in *; simpl; constructor; assumption. Qed.
Lemma zip_same f l m : Forall2 (fun a b => f a b = a) l m -> zip_with f l m = l.
Proof. induction 1; unfold zip_with in *; simpl; [reflexivity|]. rewrite H, IHForall2. reflexivity. Qed.
Lemma map_same f l : (forall a : R, f a = a) -> map f l = l.
Proof. intros H. induction l; simpl; congruence. Qed.
Lemma zip_ext f g l m : Forall2 (fun a b => f a b = g a b) l m -> zip_with f l m = zip_with g l m.
Proof. induction 1; unfold zip_with in *; simpl; [reflexivity|]. rewrite H, IHForall2. reflexivity. Qed.
Lemma le_refl_all l : le_all l l. Proof. induction l; constructor; [lra|assumption]. Qed.

Lemma INR_pos n : (0 < n)%nat -> 0 < INR n. Proof. intros H. apply lt_0_INR, H. Qed.
Lemma frac_range a b : (a <= b)%nat -> (0 < b)%nat -> 0 <= INR a / INR b <= 1.
Proof.
  intros L P. pose proof (INR_pos b P). pose proof (pos_INR a). apply le_INR in L. split; [apply Rmult_le_pos; [lra|left; apply Rinv_0_lt_compat; lra]|].
  apply Rmult_le_reg_r with (INR b); [lra|]. unfold Rdiv. rewrite Rmult_assoc, Rinv_l, Rmult_1_r; lra.
Qed.
Lemma frac_le a a' b : (a <= a')%nat -> (0 < b)%nat -> INR a / INR b <= INR a' / INR b.
Proof. intros L P. pose proof (INR_pos b P). apply le_INR in L. apply Rmult_le_compat_r; [left; apply Rinv_0_lt_compat; lra|lra]. Qed.
Lemma frac_same b : (0 < b)%nat -> INR b / INR b = 1.
Proof. intros P. pose proof (INR_pos b P). unfold Rdiv. rewrite Rinv_r; lra. Qed.
(** Points between s and b *)
Lemma mix_range s b c : s <= b -> 0 <= c <= 1 -> s <= s + (b - s) * c <= b.
Proof. intros L [C1 C2]. assert (0 <= (b - s) * c) by (apply Rmult_le_pos; lra). assert ((b - s) * c <= (b - s) * 1) by (apply Rmult_le_compat_l; lra). lra. Qed.
Lemma mix_le s b c c' : s <= b -> c <= c' -> s + (b - s) * c <= s + (b - s) * c'.
Proof. intros L C. apply Rplus_le_compat_l, Rmult_le_compat_l; lra. Qed.

Lemma warmup_each c base start : Forall2 Rle start base -> 0 <= c <= 1 -> each (fun b s x => s <= x <= b) base start (warmup c base start).
Proof. intros F C. apply each_zip. eapply Forall2_impl2; [|apply Forall2_flip, F]. intros b s L. apply mix_range; [exact L|exact C]. Qed.
Lemma warmup_le c c' base start : Forall2 Rle start base -> c <= c' -> le_all (warmup c base start) (warmup c' base start).
Proof. intros F C. apply le_zip. eapply Forall2_impl2; [|apply Forall2_flip, F]. intros b s L. apply mix_le; [exact L|exact C]. Qed.
Lemma warmup_below c base start : Forall2 Rle start base -> 0 <= c <= 1 -> le_all (warmup c base start) base.
Proof.
  intros F C. pose proof (warmup_each c base start F C) as E. clear F. unfold le_all. induction E; constructor; [lra|assumption].
Qed.
Lemma warmup_top base start : length start = length base -> warmup 1 base start = base.
Proof. revert start. induction base as [|b base IH]; intros [|s start] H; try discriminate; [reflexivity|]. unfold warmup, zip_with in *. simpl. rewrite IH by (injection H as H; exact H). f_equal. lra. Qed.

Lemma Rpower_le_1 x p : 0 < x <= 1 -> 0 <= p -> 0 < Rpower x p <= 1.
Proof.
  intros [H1 H2] P. split; [apply exp_pos|]. unfold Rpower. rewrite <- exp_0. assert (L : ln x <= 0) by (rewrite <- ln_1; destruct (Req_dec x 1) as [->|]; [lra|left; apply ln_increasing; lra]).
  destruct (Req_dec (p * ln x) 0) as [->|N]; [lra|]. left. apply exp_increasing. assert (p * ln x <= 0); [|lra]. replace 0 with (p * 0) by lra. apply Rmult_le_compat_l; lra.
Qed.
Lemma Rpower_mono x y p : 0 < x <= y -> 0 <= p -> Rpower x p <= Rpower y p.
Proof. intros [H1 H2] P. apply Rle_Rpower_l; lra. Qed.
Lemma Rpower_anti x y p : 0 < x <= y -> 0 <= p -> Rpower y (- p) <= Rpower x (- p).
Proof. intros [H1 H2] P. rewrite !Rpower_Ropp. apply Rinv_le_contravar; [apply exp_pos|apply Rle_Rpower_l; lra]. Qed.

(** ** MyleLR *)
Lemma myle_frac T t : (0 < T)%nat -> (T <= t)%nat -> 0 < INR T / INR t <= 1.
Proof. intros P L. assert (0 < t)%nat by lia. pose proof (INR_pos T P). pose proof (INR_pos t ltac:(lia)). split; [apply Rmult_lt_0_compat; [lra|apply Rinv_0_lt_compat; lra]|apply frac_range; lia]. Qed.
Lemma Forall2_l {A B} (P : A -> B -> Prop) (Q : A -> Prop) l m : Forall2 P l m -> Forall Q l -> Forall2 (fun a b => Q a /\ P a b) l m.
Proof. induction 1; intros F; inversion F; subst; constructor; auto. Qed.

(** ** Cosine *)
Lemma cos_half c : -1 <= c <= 1 -> 0 <= (1 / 2) * (1 + c) <= 1. Proof. lra. Qed.
Lemma cos_le x y : 0 <= x <= y -> y <= PI -> cos y <= cos x.
Proof. intros [H1 H2] H3. destruct (Req_dec x y) as [->|N]; [lra|]. left. apply cos_decreasing_1; lra. Qed.

(** ** int *)
Lemma int_spec x : 0 <= x -> INR (int x) <= x < INR (int x) + 1.
Proof.
  intros H. unfold int. destruct (base_Int_part x) as [A B]. assert (0 <= Int_part x)%Z. { assert (IZR (-1) < IZR (Int_part x)) by lra. apply lt_IZR in H0. lia. }
  rewrite INR_IZR_INZ, Z2Nat.id by assumption. lra.
Qed.
Lemma int_unique x n : INR n <= x < INR n + 1 -> int x = n.
Proof.
  intros [A B]. assert (P : 0 <= x) by (pose proof (pos_INR n); lra). destruct (int_spec x P) as [C D].
  assert (INR (int x) < INR (S n)) by (rewrite S_INR; lra). assert (INR n < INR (S (int x))) by (rewrite S_INR; lra). apply INR_lt in H. apply INR_lt in H0. lia.
Qed.
