(** C72: the gradient of a training step *)
From Coq Require Import List Bool Arith QArith Lia Permutation Lqa.
From Verif Require Import Grad_Model.
Import ListNotations.
Local Open Scope Q_scope.
Local Arguments Qplus : simpl never. Local Arguments Qmult : simpl never. Local Arguments Qdiv : simpl never. Local Arguments Qminus : simpl never.

(** ** Specification: the batches of a step, of all ranks *)
Definition total_grad (bs : list batch) : Q := qsum (map grad bs).
Definition total_targets (bs : list batch) : nat := fold_right Nat.add 0%nat (map batch_targets bs).
(** [cols]: every rank has as many batches; column j has the j-th batch of every rank *)
Definition rectangular (size : nat) (cols : list (list batch)) : Prop := cols <> [] /\ (0 < size)%nat /\ Forall (fun col => length col = size) cols.
Definition with_targets (b : batch) : Prop := targets b <> None.
Definition without_targets (b : batch) : Prop := targets b = None.
(** The targets of one rank *)
Definition rank_targets (cols : list (list batch)) (rank : nat) : nat := fold_right Nat.add 0%nat (map (fun col => match nth_error col rank with Some b => batch_targets b | None => 0%nat end) cols).

Lemma of_nat_pos : forall n, (0 < n)%nat -> 0 < of_nat n.
Proof. intros n H. unfold of_nat, Qlt. cbn. lia. Qed.
Lemma of_nat_nz : forall n, (0 < n)%nat -> ~ of_nat n == 0.
Proof. intros n H E. pose proof (of_nat_pos n H) as P. rewrite E in P. discriminate. Qed.
Lemma of_nat_S : forall n, of_nat (S n) == 1 + of_nat n.
Proof. intros n. unfold of_nat. rewrite Nat2Z.inj_succ, <- Z.add_1_l, inject_Z_plus. reflexivity. Qed.
Lemma qsum_app : forall a b, qsum (a ++ b) == qsum a + qsum b.
Proof. induction a as [|x a IH]; intros b; cbn; [ring|]. rewrite IH. ring. Qed.
Lemma qsum_perm : forall a b, Permutation a b -> qsum a == qsum b.
Proof. induction 1; cbn; [reflexivity|rewrite IHPermutation; reflexivity|ring|etransitivity; eauto]. Qed.
Lemma qsum_scale : forall A k (f : A -> Q) l, qsum (map (fun x => k * f x) l) == k * qsum (map f l).
Proof. induction l as [|x l IH]; cbn; [ring|]. rewrite IH. ring. Qed.
Lemma qsum_const : forall A (l : list A) (f : A -> Q) c, Forall (fun x => f x == c) l -> qsum (map f l) == of_nat (length l) * c.
Proof. induction 1 as [|x l E F IH]; [reflexivity|]. cbn [map qsum fold_right length]. fold (qsum (map f l)). rewrite IH, E, of_nat_S. ring. Qed.
Lemma qsum_plus : forall A (l : list A) (f g : A -> Q), qsum (map (fun x => f x + g x) l) == qsum (map f l) + qsum (map g l).
Proof. induction l as [|x l IH]; intros f g; cbn; [ring|]. rewrite IH. ring. Qed.
Lemma zip_length : forall A B C (f : A -> B -> C) l l', length l = length l' -> length (zip_with f l l') = length l.
Proof. induction l as [|x l IH]; intros [|y l'] H; try discriminate; auto. cbn in *. rewrite IH; auto. Qed.

(** What is averaged is the same on all ranks; with what is pending it makes up the sum of all gradients so far. *)
Definition invariant (size : nat) (s : Q) (st : list grad_state) : Prop := length st = size /\ exists r, Forall (fun x => fst x == r) st /\ of_nat size * r + qsum (map snd st) == s.
Lemma pending_inv : forall st new r, length st = length new -> Forall (fun x => fst x == r) st ->
  Forall (fun x => fst x == r) (zip_with add_local st new) /\ qsum (map snd (zip_with add_local st new)) == qsum (map snd st) + qsum new.
Proof.
  induction st as [|x st IH]; intros [|n new] r L F; try discriminate; [cbn; split; [constructor|reflexivity]|]. inversion F; subst. destruct (IH new r) as [A E]; auto. cbn [zip_with map qsum fold_right]. split; [constructor; auto|].
  fold (qsum (map snd (zip_with add_local st new))). rewrite E. cbn [add_local snd]. fold (qsum (map snd st)). fold (qsum new). ring.
Qed.
Lemma accumulate_inv : forall c sync size s st new, (0 < size)%nat -> length new = size -> invariant size s st -> invariant size (s + qsum new) (accumulate c sync st new) /\ (sync = true -> Forall (fun x => snd x = 0) (accumulate c sync st new)).
Proof.
  intros c sync size s st new P L (Ls & r & F & E). unfold accumulate. destruct (pending_inv st new r) as [F' E']; [congruence|auto|]. assert (Lz : length (zip_with add_local st new) = size) by (rewrite zip_length; congruence).
  set (pend := zip_with add_local st new) in *. assert (Nz : ~ of_nat size == 0) by (apply of_nat_nz; auto).
  destruct sync; [|split; [|discriminate]; split; [exact Lz|]; exists r; split; auto; rewrite E', Qplus_assoc, E; reflexivity].
  assert (Z : forall A (l : list A) (f : A -> Q), qsum (map snd (map (fun x => (f x, 0)) l)) == 0). { induction l as [|x l IH]; intros f; cbn; [reflexivity|]. fold (qsum (map snd (map (fun x => (f x, 0)) l))). rewrite IH. reflexivity. }
  destruct (ddp c).
  - set (m := mean (map (fun s0 => fst s0 + snd s0) pend)). split; [|intros _; apply Forall_forall; intros x I; apply in_map_iff in I; destruct I as (? & <- & _); auto]. split; [rewrite map_length; exact Lz|]. exists m.
    split; [apply Forall_forall; intros x I; apply in_map_iff in I; destruct I as (? & <- & _); reflexivity|]. rewrite (Z _ pend (fun _ => m)). unfold m, mean. rewrite map_length, Lz, qsum_plus, (qsum_const _ pend fst r F'), Lz, E'. rewrite <- E. field. auto.
  - set (m := mean (map snd pend)). split; [|intros _; apply Forall_forall; intros x I; apply in_map_iff in I; destruct I as (? & <- & _); auto]. split; [rewrite map_length; exact Lz|]. exists (r + m).
    split; [apply Forall_forall; intros x I; apply in_map_iff in I; destruct I as (y & <- & I); cbn; rewrite Forall_forall in F'; rewrite (F' y I); reflexivity|]. rewrite (Z _ pend (fun s0 => fst s0 + m)). unfold m, mean. rewrite map_length, Lz, E', <- E. field. auto.
Qed.
Lemma run_inv : forall c size nb cols k st s, (0 < size)%nat -> Forall (fun col => length col = size) cols -> invariant size s st -> (k + length cols = nb)%nat ->
  invariant size (s + qsum (map (backward c nb) (concat cols))) (run_batches c nb k cols st) /\ (cols <> [] -> Forall (fun x => snd x = 0) (run_batches c nb k cols st)).
Proof.
  intros c size nb. induction cols as [|col cols IH]; intros k st s P F I K. { cbn. split; [|easy]. destruct I as (L & r & A & E). split; auto. exists r. split; auto. rewrite E. ring. }
  pose proof (Forall_inv F) as F1; pose proof (Forall_inv_tail F) as F2; cbn beta in F1. cbn [run_batches concat]. destruct (accumulate_inv c (syncs c k nb) size s st (map (backward c nb) col)) as [I1 Z1]; auto; [rewrite map_length; auto|]. cbn [length] in K.
  destruct (IH (S k) _ _ P F2 I1 ltac:(lia)) as [I2 Z2]. split.
  - destruct I2 as (L & r & A & E). split; auto. exists r. split; auto. rewrite E, map_app, qsum_app. ring.
  - intros _. destruct cols as [|col' cols]; [|apply Z2; discriminate]. cbn [run_batches]. apply Z1. unfold syncs. destruct (no_sync c); auto. destruct (Nat.ltb_spec k (nb - 1)); auto. cbn in K. lia.
Qed.
Lemma start_inv : forall size, invariant size 0 (repeat (0, 0) size).
Proof.
  intros size. split; [apply repeat_length|]. exists 0. split; [apply Forall_forall; intros x I; apply repeat_spec in I; subst; reflexivity|]. assert (Z : qsum (map snd (repeat (0, 0) size)) == 0) by (clear; induction size as [|n IH]; cbn; [reflexivity|]; rewrite IH; ring). rewrite Z. ring.
Qed.
Lemma run_mean : forall c size cols, rectangular size cols -> length (run_batches c (length cols) 0 cols (repeat (0, 0) size)) = size /\
  Forall (fun x => fst x + snd x == qsum (map (backward c (length cols)) (concat cols)) / of_nat size) (run_batches c (length cols) 0 cols (repeat (0, 0) size)).
Proof.
  intros c size cols (N & P & F). destruct (run_inv c size (length cols) cols 0 _ 0 P F (start_inv size) eq_refl) as [(L & r & A & E) Z]. specialize (Z N). split; auto.
  rewrite Forall_forall in *. intros x I. rewrite (A x I), (Z x I). assert (Nz : ~ of_nat size == 0) by (apply of_nat_nz; auto). rewrite Qplus_0_l in E. rewrite <- E. 
  assert (Q0 : qsum (map snd (run_batches c (length cols) 0 cols (repeat (0, 0) size))) == 0). { revert Z. clear. intros Z. generalize dependent (run_batches c (length cols) 0 cols (repeat (0, 0) size)). induction l as [|y l IH]; intros Z; [reflexivity|]. cbn [map qsum fold_right]. fold (qsum (map snd l)). rewrite (Z y) by (left; auto). rewrite IH by (intros; apply Z; right; auto). reflexivity. }
  rewrite Q0. field. auto.
Qed.
Lemma nts_nth : forall size cols i, Forall (fun col => length col = size) cols -> (i < size)%nat -> nth_error (num_targets size cols) i = Some (rank_targets cols i).
Proof.
  induction cols as [|col cols IH]; intros i F H. { cbn. rewrite nth_error_repeat; auto. } pose proof (Forall_inv F) as F1; pose proof (Forall_inv_tail F) as F2; cbn beta in F1. cbn [num_targets]. unfold rank_targets. cbn [map fold_right]. fold (rank_targets cols i). specialize (IH i F2 H). revert IH.
  assert (Hc : (i < length col)%nat) by lia. clear - Hc. generalize (rank_targets cols i) as t. generalize (num_targets size cols) as nts. revert i Hc. induction col as [|b col IHc]; intros [|i] H [|n nts] t E; cbn in *; try lia; try discriminate.
  - injection E as ->. auto.
  - apply IHc; auto. lia.
Qed.
Lemma nts_length : forall size cols, Forall (fun col => length col = size) cols -> length (num_targets size cols) = size.
Proof. induction cols as [|col cols IH]; intros F; [apply repeat_length|]. pose proof (Forall_inv F) as F1; pose proof (Forall_inv_tail F) as F2; cbn beta in F1. cbn [num_targets]. rewrite zip_length; rewrite map_length; auto. rewrite IH; auto. Qed.
Lemma nts_sum : forall size cols, Forall (fun col => length col = size) cols -> fold_right Nat.add 0%nat (num_targets size cols) = total_targets (concat cols).
Proof.
  induction cols as [|col cols IH]; intros F. { cbn. clear. induction size; auto. } pose proof (Forall_inv F) as F1; pose proof (Forall_inv_tail F) as F2; cbn beta in F1. cbn [num_targets concat]. unfold total_targets. rewrite map_app, fold_right_app. fold (total_targets (concat cols)). rewrite <- IH by auto.
  assert (L : length (num_targets size cols) = length col) by (rewrite F1; apply nts_length; auto). clear - L. revert L. generalize (num_targets size cols) as nts. induction col as [|b col IHc]; intros [|n nts] L; try discriminate; auto. cbn in *. rewrite IHc by auto. 
  assert (X : forall a s l, fold_right Nat.add (a + s)%nat l = (a + fold_right Nat.add s l)%nat) by (clear; induction l; cbn; lia). rewrite X. lia.
Qed.
Lemma sum_pos : forall l, l <> [] -> (forall n, In n l -> (0 < n)%nat) -> (0 < fold_right Nat.add 0%nat l)%nat.
Proof. intros [|n l] N H; [easy|]. cbn. specialize (H n (or_introl eq_refl)). lia. Qed.

(** With units that return sums of losses and numbers of targets: the optimizer gets, on every rank, the gradient of the mean loss over all targets of all batches
    of all ranks, whatever the wrapper, whether gradients are averaged after each batch or only after the last, and whatever the loss scale. *)
Theorem C72_mean : forall c size cols, rectangular size cols -> ~ scale c == 0 -> Forall with_targets (concat cols) -> (forall rank, (rank < size)%nat -> (0 < rank_targets cols rank)%nat) ->
  exists gs, step_grads c size cols = Some gs /\ length gs = size /\ Forall (fun g => g == total_grad (concat cols) / of_nat (total_targets (concat cols))) gs.
Proof.
  intros c size cols R Sc W T. destruct (run_mean c size cols R) as [L A]. destruct R as (N & P & F). unfold step_grads. set (st := run_batches _ _ _ _ _) in *. unfold normalize. pose proof (nts_length size cols F) as Ln. pose proof (nts_sum size cols F) as Sn.
  assert (Pos : forall n, In n (num_targets size cols) -> (0 < n)%nat). { intros n I. apply In_nth_error in I. destruct I as [i E]. assert (i < size)%nat by (rewrite <- Ln; apply nth_error_Some; congruence). rewrite (nts_nth size cols i F) in E by auto. injection E as <-. auto. }
  assert (B1 : forallb (fun n => (0 <? n)%nat) (num_targets size cols) = true) by (apply forallb_forall; intros n I; apply Nat.ltb_lt; auto). rewrite B1. cbn [option_map]. eexists. split; [reflexivity|]. rewrite !map_length. split; auto.
  apply Forall_forall. intros g I. rewrite map_map in I. rewrite map_map in I. apply in_map_iff in I. destruct I as (x & <- & I). rewrite Forall_forall in A. rewrite (A x I), Ln, Sn.
  assert (E : qsum (map (backward c (length cols)) (concat cols)) == scale c * total_grad (concat cols)).
  { unfold total_grad. rewrite <- qsum_scale. rewrite (map_ext_in (backward c (length cols)) (fun b => scale c * grad b)); [reflexivity|]. intros b Ib. rewrite Forall_forall in W. specialize (W b Ib). unfold backward, with_targets in *. destruct (targets b); [auto|easy]. }
  rewrite E. assert (~ of_nat size == 0) by (apply of_nat_nz; auto). assert (~ of_nat (total_targets (concat cols)) == 0). { apply of_nat_nz. rewrite <- Sn. apply sum_pos; auto. intros Z. rewrite Z in Ln. cbn in Ln. lia. }
  field. auto.
Qed.
Print Assumptions C72_mean.

(** With units that return mean losses: the mean over all batches of all ranks. *)
Theorem C72_mean_losses : forall c size cols, rectangular size cols -> ~ scale c == 0 -> Forall without_targets (concat cols) ->
  exists gs, step_grads c size cols = Some gs /\ length gs = size /\ Forall (fun g => g == total_grad (concat cols) / of_nat (length (concat cols))) gs.
Proof.
  intros c size cols R Sc W. destruct (run_mean c size cols R) as [L A]. destruct R as (N & P & F). unfold step_grads. set (st := run_batches _ _ _ _ _) in *. unfold normalize. pose proof (nts_length size cols F) as Ln.
  assert (Zero : forall n, In n (num_targets size cols) -> n = 0%nat).
  { intros n I. pose proof (nts_sum size cols F) as S. assert (T0 : total_targets (concat cols) = 0%nat). { unfold total_targets. clear - W. induction W as [|b l E W IH]; auto. cbn. unfold batch_targets at 1. rewrite E. auto. }
    rewrite T0 in S. revert I S. clear. induction (num_targets size cols) as [|m l IH]; [easy|]. cbn. intros [->|I] S; [lia|]. apply IH; auto. lia. }
  assert (B1 : forallb (fun n => (0 <? n)%nat) (num_targets size cols) = false). { destruct (num_targets size cols) as [|n l]; [cbn in Ln; lia|]. cbn. rewrite (Zero n) by (left; auto). auto. }
  assert (B2 : forallb (fun n => (n =? 0)%nat) (num_targets size cols) = true) by (apply forallb_forall; intros n I; apply Nat.eqb_eq; auto). rewrite B1, B2. cbn [option_map]. eexists. split; [reflexivity|]. rewrite !map_length. split; auto.
  apply Forall_forall. intros g I. rewrite map_map in I. apply in_map_iff in I. destruct I as (x & <- & I). rewrite Forall_forall in A. rewrite (A x I).
  assert (Nb : (0 < length cols)%nat) by (destruct cols; [easy|cbn; lia]).
  assert (E : qsum (map (backward c (length cols)) (concat cols)) == (scale c / of_nat (length cols)) * total_grad (concat cols)).
  { unfold total_grad. rewrite <- qsum_scale. assert (X : forall l, Forall without_targets l -> qsum (map (backward c (length cols)) l) == qsum (map (fun b => scale c / of_nat (length cols) * grad b) l)).
    { induction 1 as [|b l E W' IH]; [reflexivity|]. cbn [map qsum fold_right]. fold (qsum (map (backward c (length cols)) l)). rewrite IH. unfold backward at 1. rewrite E. fold (qsum (map (fun b => scale c / of_nat (length cols) * grad b) l)). field. apply of_nat_nz; auto. }
    apply X. auto. }
  assert (Len : of_nat (length (concat cols)) == of_nat size * of_nat (length cols)). { clear - F. induction F as [|col l E F IH]; [cbn [concat length]; change (of_nat 0) with 0; ring|]. cbn [concat]. rewrite app_length. cbn [length]. rewrite of_nat_S. unfold of_nat in *. rewrite Nat2Z.inj_add, inject_Z_plus, IH, E. ring. }
  rewrite E, Len. field. repeat split; auto; apply of_nat_nz; auto.
Qed.
Print Assumptions C72_mean_losses.

(** The gradient does not depend on how the batches are distributed, over ranks or over the batches of a rank. *)
Theorem C72_distribution : forall c c' size size' cols cols', rectangular size cols -> rectangular size' cols' -> ~ scale c == 0 -> ~ scale c' == 0 -> Permutation (concat cols) (concat cols') ->
  (Forall with_targets (concat cols) /\ (forall rank, (rank < size)%nat -> (0 < rank_targets cols rank)%nat) /\ (forall rank, (rank < size')%nat -> (0 < rank_targets cols' rank)%nat)) \/ Forall without_targets (concat cols) ->
  exists gs gs', step_grads c size cols = Some gs /\ step_grads c' size' cols' = Some gs' /\ forall g g', In g gs -> In g' gs' -> g == g'.
Proof.
  intros c c' size size' cols cols' R R' S S' P H.
  assert (TG : total_grad (concat cols) == total_grad (concat cols')) by (apply qsum_perm, Permutation_map, P).
  assert (TT : total_targets (concat cols) = total_targets (concat cols')). { unfold total_targets. generalize (Permutation_map batch_targets P). generalize (map batch_targets (concat cols)) as a, (map batch_targets (concat cols')) as b. clear. induction 1; cbn; lia. }
  destruct H as [(W & T & T')|W].
  - destruct (C72_mean c size cols R S W T) as (gs & E & _ & A). destruct (C72_mean c' size' cols' R' S') as (gs' & E' & _ & A'); auto. { rewrite Forall_forall in *. intros b I. apply W. eapply Permutation_in; [apply Permutation_sym, P|auto]. }
    exists gs, gs'. split; auto. split; auto. intros g g' I I'. rewrite Forall_forall in A, A'. rewrite (A g I), (A' g' I'), TG, TT. reflexivity.
  - destruct (C72_mean_losses c size cols R S W) as (gs & E & _ & A). destruct (C72_mean_losses c' size' cols' R' S') as (gs' & E' & _ & A'). { rewrite Forall_forall in *. intros b I. apply W. eapply Permutation_in; [apply Permutation_sym, P|auto]. }
    exists gs, gs'. split; auto. split; auto. intros g g' I I'. rewrite Forall_forall in A, A'. rewrite (A g I), (A' g' I'), TG. rewrite (Permutation_length P). reflexivity.
Qed.
Print Assumptions C72_distribution.

(** A rank whose batches have no target does not take part in the reduction of the number of targets: the other ranks wait for it, for ever. *)
Theorem C72_no_targets_refuted : forall c, step_grads c 2 [[B 1 (Some 3%nat); B 0 (Some 0%nat)]] = None.
Proof. intros. reflexivity. Qed.
Print Assumptions C72_no_targets_refuted.

(** ** The check of gradient norms *)
Lemma abs_spec : forall q, 0 <= Qabs' q /\ (Qabs' q == q \/ Qabs' q == - q).
Proof. intros q. unfold Qabs'. destruct (Qle_bool 0 q) eqn:E; [apply Qle_bool_iff in E; split; auto; left; reflexivity|]. assert (~ 0 <= q) by (intros H; apply Qle_bool_iff in H; congruence). split; [lra|right; reflexivity]. Qed.
Lemma max_spec : forall l x q, fold_left Qmax' l x <= q <-> x <= q /\ forall y, In y l -> y <= q.
Proof.
  induction l as [|y l IH]; intros x q; cbn [fold_left]; [split; [intros H; split; auto; intros y []|intros [H _]; auto]|]. rewrite IH. unfold Qmax'. destruct (Qle_bool x y) eqn:E.
  - apply Qle_bool_iff in E. split; [intros [A B']; split; [lra|]; intros z [<-|I]; auto|intros [A B']; split; [apply B'; left; auto|intros; apply B'; right; auto]].
  - assert (~ x <= y) by (intros H; apply Qle_bool_iff in H; congruence). split; [intros [A B']; split; [lra|]; intros z [<-|I]; auto; lra|intros [A B']; split; [auto|intros; apply B'; right; auto]].
Qed.
Lemma max_in : forall l x, In (fold_left Qmax' l x) (x :: l).
Proof.
  induction l as [|y l IH]; intros x; [left; auto|]. cbn [fold_left]. destruct (IH (Qmax' x y)) as [E|I]; [|right; right; auto]. unfold Qmax' in E at 1. destruct (Qle_bool x y); [right; left; auto|left; auto].
Qed.
(** Finite norms: nothing is raised if and only if every rank's norm is within a relative 1e-6 of that of the first. *)
Theorem C72_check : forall n0 ns, Forall (fun n => 0 <= n) (n0 :: ns) -> ns <> [] ->
  (check_grad_norms (map Fin (n0 :: ns)) = true <-> forall n, In n ns -> Qabs' (n - n0) < (1 # 1000000) * (n0 + (1 # 1000000))).
Proof.
  intros n0 ns P N. assert (P0 : 0 <= n0) by (inversion P; auto). unfold check_grad_norms. rewrite map_length. destruct ns as [|n1 ns]; [easy|]. cbn [length]. change (S (S (length ns)) =? 1)%nat with false. cbn match.
  assert (Af : forallb is_finite (map Fin (n0 :: n1 :: ns)) = true) by (apply forallb_forall; intros x I; apply in_map_iff in I; destruct I as (? & <- & _); auto). rewrite Af. cbn [map hd value].
  cbn [maximum]. set (D := n0 + (1 # 1000000)). assert (PD : 0 < D) by (unfold D; lra). rewrite (map_map Fin (fun n => Qabs' (value n - n0)) ns). cbn [value]. set (l := Qabs' (n1 - n0) :: map (fun n => Qabs' (n - n0)) ns). set (M := fold_left Qmax' l (Qabs' (n0 - n0))).
  assert (Eq0 : Qabs' (n0 - n0) == 0) by (destruct (abs_spec (n0 - n0)) as [_ [E|E]]; rewrite E; ring).
  assert (H : negb (Qle_bool (1 # 1000000) (M / D)) = true <-> M < (1 # 1000000) * D).
  { split.
    - intros H. destruct (Qlt_le_dec M ((1 # 1000000) * D)) as [|G]; auto. exfalso. assert ((1 # 1000000) <= M / D) by (apply Qle_shift_div_l; auto). apply Qle_bool_iff in H0. rewrite H0 in H. discriminate.
    - intros H. destruct (Qle_bool (1 # 1000000) (M / D)) eqn:E; auto. apply Qle_bool_iff in E. exfalso. assert ((1 # 1000000) * D <= M) by (apply (Qmult_le_r _ _ (/ D)); [apply Qinv_lt_0_compat; auto|]; rewrite <- Qmult_assoc, Qmult_inv_r by lra; rewrite Qmult_1_r; exact E). lra. }
  rewrite H. assert (In_l : forall n, In n (n1 :: ns) -> In (Qabs' (n - n0)) l). { intros n [<-|I]; [left; auto|right; apply in_map_iff; eauto]. } split.
  - intros Lt n I. assert (Le : M <= M) by lra. apply max_spec in Le. destruct Le as [_ Le]. specialize (Le _ (In_l n I)). lra.
  - intros A. pose proof (max_in l (Qabs' (n0 - n0))) as I. fold M in I. destruct I as [E|I].
    + rewrite <- E, Eq0. apply Qmult_lt_0_compat; [reflexivity|auto].
    + unfold l in I. destruct I as [<-|I]; [apply A; left; auto|]. apply in_map_iff in I. destruct I as (n & <- & I). apply A. right. auto.
Qed.
Print Assumptions C72_check.

(** A rank without a finite norm among ranks with one is not reported, although the check is documented to let pass only the case that all are not finite. *)
Theorem C72_check_refuted : check_grad_norms [Fin 1; NaN; Fin 1] = true /\ forall ns, forallb is_finite ns = false -> check_grad_norms ns = true.
Proof. split; [reflexivity|]. intros ns H. unfold check_grad_norms. rewrite H. destruct (length ns =? 1)%nat; auto. Qed.
Print Assumptions C72_check_refuted.

(** A case: two ranks, three batches each, of different sizes *)
Example C72_case : let cols := [[B 2 (Some 1%nat); B 3 (Some 4%nat)]; [B (-1) (Some 2%nat); B 0 (Some 0%nat)]; [B 5 (Some 3%nat); B 6 (Some 5%nat)]] in
  rectangular 2 cols /\ Forall with_targets (concat cols) /\ (forall rank, (rank < 2)%nat -> (0 < rank_targets cols rank)%nat) /\
  option_map (map Qred) (step_grads (Cfg true true 8) 2 cols) = Some [1; 1] /\ option_map (map Qred) (step_grads (Cfg false false 1) 2 cols) = Some [1; 1] /\
  check_grad_norms [Fin 1; Fin 1] = true /\ check_grad_norms [Fin 1; Fin (11 # 10)] = false.
Proof.
  split; [|split; [|split; [|vm_compute; auto]]].
  - split; [discriminate|]. split; [lia|]. repeat constructor.
  - repeat constructor; discriminate.
  - intros [|[|rank]] H; cbn; lia.
Qed.
