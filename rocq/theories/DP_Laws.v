(** Proof tools: determinism of [next], simulation proofs of [holds], bisimilarity of states, and the laws about saving and
    restoring positions that every combinator preserves. *)

From Verif Require Import DP_Base DP_Spec.
From Coq Require Import Lia.

(** ** Fuel monotonicity *)
Definition mono (X : source) : Prop :=
  forall n m s r, n <= m -> next X n s = Some r -> next X m s = Some r.

Lemma mono_det X : mono X -> forall n m s r r',
  next X n s = Some r -> next X m s = Some r' -> r = r'.
Proof.
  intros HM n m s r r' H1 H2.
  assert (E1 : next X (n + m) s = Some r) by (eapply HM; [|exact H1]; lia).
  assert (E2 : next X (n + m) s = Some r') by (eapply HM; [|exact H2]; lia).
  congruence.
Qed.

Lemma yields_det X : mono X -> forall s os os' s1 s2,
  yields X s os s1 -> yields X s os' s2 -> length os = length os' -> os = os' /\ s1 = s2.
Proof.
  intros HM s os os' s1 s2 H. revert os' s2.
  induction H as [s|n s o sa os sb Hn Hy IH]; intros os' s2 H' HL.
  - destruct os'; [|discriminate]. inversion H'; subst. auto.
  - destruct os' as [|o' os']; [discriminate|]. inversion H'; subst.
    match goal with Hx : next X _ s = Some (o', _) |- _ =>
      pose proof (mono_det X HM _ _ _ _ _ Hn Hx) as E end.
    inversion E; subst.
    match goal with Hx : yields X _ os' _ |- _ => destruct (IH _ _ Hx) as [-> ->] end; auto.
Qed.

Lemma yields_app X s os s1 os' s2 :
  yields X s os s1 -> yields X s1 os' s2 -> yields X s (os ++ os') s2.
Proof.
  induction 1 as [s|n s o sa os sb Hn Hy IH]; intros H'; simpl; [assumption|].
  econstructor; [eassumption|auto].
Qed.

(** ** Simulation proofs of [holds] *)
Definition progress (X : source) (Rep : St X -> list data -> Prop) : Prop :=
  forall s l, Rep s l ->
    match l with
    | [] => exists n s', next X n s = Some (Eod, s') /\ Rep s' []
    | x :: l' => exists n s', next X n s = Some (Val x, s') /\ Rep s' l'
    end.

Lemma firstn_repeat {A} (a : A) m n : firstn m (repeat a n) = repeat a (Nat.min m n).
Proof.
  revert n; induction m; intros [|n]; simpl; auto. f_equal; apply IHm.
Qed.

Lemma expected_cons x l k : expected (x :: l) (S k) = Val x :: expected l k.
Proof.
  unfold expected. simpl. f_equal. rewrite !firstn_app. f_equal.
  change (Eod :: repeat Eod k) with (repeat Eod (S k)).
  rewrite !firstn_repeat. f_equal. lia.
Qed.

Lemma expected_nil k : expected [] k = repeat Eod k.
Proof. unfold expected; simpl. rewrite <- (repeat_length Eod k) at 1. apply firstn_all. Qed.

Lemma expected_length l k : length (expected l k) = k.
Proof.
  unfold expected. rewrite firstn_length, app_length, repeat_length. lia.
Qed.

Lemma expected_eod k : expected [] (S k) = Eod :: expected [] k.
Proof. rewrite !expected_nil. reflexivity. Qed.

Lemma progress_yields X Rep : progress X Rep ->
  forall k s l, Rep s l -> exists s', yields X s (expected l k) s'.
Proof.
  intros HP k. induction k as [|k IH]; intros s l HR.
  - exists s. unfold expected; simpl. constructor.
  - destruct l as [|x l].
    + destruct (HP _ _ HR) as (n & s1 & Hn & HR1).
      destruct (IH _ _ HR1) as [s2 H2]. exists s2.
      rewrite expected_eod. econstructor; eassumption.
    + destruct (HP _ _ HR) as (n & s1 & Hn & HR1).
      destruct (IH _ _ HR1) as [s2 H2]. exists s2.
      rewrite expected_cons. econstructor; eassumption.
Qed.

Theorem progress_holds X Rep : mono X -> progress X Rep ->
  forall s l, Rep s l -> holds X s l.
Proof.
  intros HM HP s l HR. split.
  - intros k. eapply progress_yields; eassumption.
  - intros os s' Hy.
    destruct (progress_yields X Rep HP (length os) s l HR) as [s2 H2].
    apply (yields_det X HM _ _ _ _ _ Hy H2). rewrite expected_length. reflexivity.
Qed.

Lemma holds_step X : mono X -> progress X (holds X).
Proof.
  intros HM s l [HA HB].
  assert (G : forall o s' n l', next X n s = Some (o, s') ->
            (forall k, expected l (S k) = o :: expected l' k) -> holds X s' l').
  { intros o s' n l' Hn HE. split.
    - intros k. destruct (HA (S k)) as [s2 H2]. rewrite HE in H2.
      inversion H2; subst.
      match goal with Hx : next X _ s = Some (o, _) |- _ =>
        pose proof (mono_det X HM _ _ _ _ _ Hn Hx) as E end.
      inversion E; subst. eauto.
    - intros os s2 Hy.
      assert (HC : yields X s (o :: os) s2) by (econstructor; eassumption).
      apply HB in HC. simpl in HC. rewrite HE in HC. inversion HC; auto.
      match goal with Hx : os = _ |- _ => rewrite <- Hx end. assumption. }
  destruct (HA 1) as [s1 H1].
  destruct l as [|x l].
  - rewrite expected_eod in H1. inversion H1; subst.
    eexists _, _. split; [eassumption|]. eapply G; [eassumption|]. intros; apply expected_eod.
  - rewrite expected_cons in H1. inversion H1; subst.
    eexists _, _. split; [eassumption|]. eapply G; [eassumption|]. intros; apply expected_cons.
Qed.

Lemma holds_cons X n s d s' l : mono X -> next X n s = Some (Val d, s') -> holds X s' l -> holds X s (d :: l).
Proof.
  intros HM Hn [HA HB]. split.
  - intros [|k]; [exists s; constructor|]. destruct (HA k) as [s2 H2]. exists s2. rewrite expected_cons.
    econstructor; eassumption.
  - intros os s2 Hy. inversion Hy; subst; [reflexivity|].
    match goal with Hx : next X _ s = Some (?o, _) |- _ => pose proof (mono_det X HM _ _ _ _ _ Hn Hx) as E end.
    inversion E; subst. simpl. rewrite expected_cons. f_equal. eauto.
Qed.

(** Nondeterministic contents: [Out a] are the lists allowed by the abstract state [a]; [size a] elements are left. *)
Lemma rel_holds X (A : Type) (Rep : St X -> A -> Prop) (Out : A -> list data -> Prop) (size : A -> nat) :
  mono X ->
  (forall s a, Rep s a -> size a = 0 -> Out a [] /\ exists n s' a', next X n s = Some (Eod, s') /\ Rep s' a' /\ size a' = 0) ->
  (forall s a k, Rep s a -> size a = S k ->
     exists n d s' a', next X n s = Some (Val d, s') /\ Rep s' a' /\ size a' = k /\ forall l, Out a' l -> Out a (d :: l)) ->
  forall s a, Rep s a -> exists l, Out a l /\ holds X s l /\ length l = size a.
Proof.
  intros HM H0 HS s a. remember (size a) as k eqn:Hk. revert s a Hk. induction k as [|k IH]; intros s a Hk HR.
  - exists []. split; [apply (H0 s a); auto|]. split; [|reflexivity].
    apply (progress_holds X (fun s l => l = [] /\ exists a, Rep s a /\ size a = 0)); auto.
    + intros s1 l (-> & a1 & H1 & H2). destruct (H0 _ _ H1 H2) as (_ & n & s2 & a2 & Hn & HR2 & Hs2). exists n, s2. eauto.
    + split; auto. exists a; auto.
  - destruct (HS s a k HR (eq_sym Hk)) as (n & d & s' & a' & Hn & HR' & Hs' & HO).
    destruct (IH s' a' (eq_sym Hs') HR') as (l & H1 & H2 & H3). exists (d :: l).
    split; [auto|]. split; [eapply holds_cons; eassumption|simpl; congruence].
Qed.

(** A source whose outputs are described by a measure that decreases with every element. *)
Lemma meas_holds X (A : Type) (Rep : St X -> A -> Prop) (Fin : St X -> Prop) (Out : A -> list data -> Prop) (m : A -> nat) :
  mono X ->
  (forall s, Fin s -> exists n s', next X n s = Some (Eod, s') /\ Fin s') ->
  (forall s a, Rep s a -> (Fin s /\ Out a []) \/
     exists n d s' a', next X n s = Some (Val d, s') /\ Rep s' a' /\ m a' < m a /\ forall l, Out a' l -> Out a (d :: l)) ->
  forall s a, Rep s a -> exists l, Out a l /\ holds X s l.
Proof.
  intros HM HF HS s a HR. remember (m a) as k eqn:Ek. revert s a Ek HR. induction k as [k IH] using lt_wf_ind.
  intros s a Ek HR. destruct (HS s a HR) as [[Hf Ho]|(n & d & s' & a' & Hn & HR' & Hm & Ho)].
  - exists []. split; [assumption|].
    apply (progress_holds X (fun s l => Fin s /\ l = [])); [assumption| |auto].
    clear -HF. intros s l [Hf ->]. destruct (HF s Hf) as (n & s' & Hn & Hf'). exists n, s'. auto.
  - subst k. destruct (IH (m a') Hm s' a' eq_refl HR') as (l & Hl & Hh). exists (d :: l). split; [auto|].
    eapply holds_cons; eassumption.
Qed.

(** ** Bisimilarity *)
Definition res_rel {A B} (R : A -> B -> Prop) (x : option (out * A)) (y : option (out * B)) : Prop :=
  match x, y with
  | None, None => True
  | Some (o, a), Some (o', b) => o = o' /\ R a b
  | _, _ => False
  end.

Definition bisim (X : source) (R : St X -> St X -> Prop) : Prop :=
  forall a b, R a b ->
    (forall n, res_rel R (next X n a) (next X n b)) /\
    (forall g, R (reset X g a) (reset X g b)) /\
    finitude_type X a = finitude_type X b.

Definition equiv (X : source) (a b : St X) : Prop := exists R, bisim X R /\ R a b.

Lemma res_rel_mono {A B} (R R' : A -> B -> Prop) x y :
  (forall a b, R a b -> R' a b) -> res_rel R x y -> res_rel R' x y.
Proof. intros H. destruct x as [[o a]|], y as [[o' b]|]; simpl; intuition. Qed.

Lemma equiv_bisim X : bisim X (equiv X).
Proof.
  intros a b (R & HR & Hab). destruct (HR a b Hab) as (H1 & H2 & H3).
  repeat split.
  - intros n. eapply res_rel_mono; [|apply H1]. intros; exists R; auto.
  - intros g. exists R; auto.
  - assumption.
Qed.

Lemma equiv_refl X a : equiv X a a.
Proof.
  exists eq. split; [|reflexivity]. intros x y <-. repeat split; auto.
  intros n. destruct (next X n x) as [[o s]|]; simpl; auto.
Qed.

Lemma equiv_sym X a b : equiv X a b -> equiv X b a.
Proof.
  intros (R & HR & Hab). exists (fun x y => R y x). split; [|assumption].
  intros x y Hxy. destruct (HR _ _ Hxy) as (H1 & H2 & H3). repeat split; auto.
  intros n. specialize (H1 n).
  destruct (next X n x) as [[o s]|], (next X n y) as [[o' s']|]; simpl in *; intuition.
Qed.

Lemma equiv_trans X a b c : equiv X a b -> equiv X b c -> equiv X a c.
Proof.
  intros H1 H2. exists (fun x z => exists y, equiv X x y /\ equiv X y z).
  split; [|eauto]. clear a b c H1 H2.
  intros a c (b & H1 & H2).
  destruct (equiv_bisim X _ _ H1) as (N1 & R1 & F1).
  destruct (equiv_bisim X _ _ H2) as (N2 & R2 & F2).
  repeat split.
  - intros n. specialize (N1 n). specialize (N2 n).
    destruct (next X n a) as [[? ?]|], (next X n b) as [[? ?]|], (next X n c) as [[? ?]|]; simpl in *;
      intuition; try congruence. eauto.
  - intros g. eauto.
  - congruence.
Qed.

Lemma equiv_next X a b n : equiv X a b -> res_rel (equiv X) (next X n a) (next X n b).
Proof. intros H. apply (equiv_bisim X _ _ H). Qed.

Lemma equiv_reset X a b g : equiv X a b -> equiv X (reset X g a) (reset X g b).
Proof. intros H. apply (equiv_bisim X _ _ H). Qed.

Lemma equiv_fin X a b : equiv X a b -> finitude_type X a = finitude_type X b.
Proof. intros H. apply (equiv_bisim X _ _ H). Qed.

Lemma equiv_yields X a b os s' : equiv X a b -> yields X a os s' ->
  exists s'', yields X b os s'' /\ equiv X s' s''.
Proof.
  intros H Hy. revert b H. induction Hy as [s|n s o s1 os s2 Hn Hy IH]; intros b H.
  - exists b. split; [constructor|assumption].
  - pose proof (equiv_next X _ _ n H) as HN. rewrite Hn in HN.
    destruct (next X n b) as [[o' b1]|] eqn:E; simpl in HN; [|contradiction].
    destruct HN as [-> H1]. destruct (IH _ H1) as (s'' & Hy' & He).
    exists s''. split; [econstructor; eassumption|assumption].
Qed.

Theorem equiv_same_future X a b : equiv X a b -> same_future X a b.
Proof.
  intros H os. split; intros [s' Hy].
  - destruct (equiv_yields _ _ _ _ _ H Hy) as (s'' & ? & _). eauto.
  - destruct (equiv_yields _ _ _ _ _ (equiv_sym _ _ _ H) Hy) as (s'' & ? & _). eauto.
Qed.

Theorem equiv_same_behaviour X a b : equiv X a b -> same_behaviour X a b.
Proof.
  assert (G : forall a b os s', equiv X a b -> runs X a os s' -> exists s'', runs X b os s'').
  { clear a b. intros a b os s' H Hy. revert b H. induction Hy as [s|n s o s1 os s2 Hn Hy IH|g s os s2 Hy IH]; intros b H.
    - exists b. constructor.
    - pose proof (equiv_next X _ _ n H) as HN. rewrite Hn in HN.
      destruct (next X n b) as [[o' b1]|] eqn:E; simpl in HN; [|contradiction].
      destruct HN as [-> H1]. destruct (IH _ H1) as (s'' & Hy'). exists s''. econstructor; eassumption.
    - destruct (IH _ (equiv_reset X _ _ g H)) as (s'' & Hy'). exists s''. constructor. assumption. }
  intros H os. split; intros [s' Hy]; [eapply G; eassumption|]. eapply G; [apply equiv_sym|]; eassumption.
Qed.

(** ** Saving and restoring positions

    [Inv]: an invariant of the states that can be saved. [Tgt]: the states a saved position can be loaded into.
    [clean]: no call of [next] fails recoverably. Fatal failures are possible; nothing is said about the state after one. *)
Definition okerr (clean : bool) (o : out) : Prop :=
  match o with
  | Err Recoverable => clean = false
  | _ => True
  end.

(** [P] holds after the call that returned [o], except that nothing is said after a fatal error. *)
Definition okstep (clean : bool) (P : Prop) (o : out) : Prop :=
  match o with
  | Err Fatal => True
  | Err Recoverable => P /\ clean = false
  | _ => P
  end.

Lemma okstep_intro clean (P : Prop) o : P -> okerr clean o -> okstep clean P o.
Proof. destruct o as [d| |[]]; simpl; auto. Qed.

Lemma okstep_impl clean (P Q : Prop) o : okstep clean P o -> (P -> Q) -> okstep clean Q o.
Proof. destruct o as [d| |[]]; simpl; intuition. Qed.

Record resumable (clean : bool) (X : source) (Inv Tgt : St X -> Prop) : Prop := {
  rs_init : Inv (init X);
  rs_tinit : Tgt (init X);
  rs_next : forall n s o s', Inv s -> next X n s = Some (o, s') -> okstep clean (Inv s') o;
  rs_reset : forall g s, Inv s -> Inv (reset X g s);
  rs_resume : forall s s0, Inv s -> Tgt s0 ->
    exists t, record_pos X true s = Some t /\
      forall rest, exists s1,
        reload_pos X true s0 (t ++ rest) = Some (s1, rest) /\ equiv X s s1 /\ Inv s1
}.

(** [reset] leads back to the beginning; with [g = false] the random generators are not reset. *)
Definition restarts (X : source) (Inv : St X -> Prop) (g : bool) : Prop :=
  forall s, Inv s -> equiv X (reset X g s) (init X).

(** ** Tape round trips *)
Lemma rd_wr_size n r : rd_size (wr_size n ++ r) = Some (n, r).
Proof.
  simpl. destruct (Z.leb_spec 0 (Z.of_nat n)); [|lia]. rewrite Nat2Z.id. reflexivity.
Qed.

Lemma rd_wr_bool b r : rd_bool (wr_bool b ++ r) = Some (b, r).
Proof. reflexivity. Qed.

Lemma rd_wr_int z r : rd_int (wr_int z ++ r) = Some (z, r).
Proof. reflexivity. Qed.

Lemma rd_wr_data d r : rd_data (wr_data d ++ r) = Some (d, r).
Proof. reflexivity. Qed.

Lemma rd_wr_list l r : rd_list (wr_list l ++ r) = Some (l, r).
Proof. reflexivity. Qed.

Lemma rd_wr_tensor v r : rd_tensor (wr_tensor v ++ r) = Some (v, r).
Proof. reflexivity. Qed.

Lemma to_int64_id z : (0 <= z < 2 ^ 63)%Z -> to_int64 z = z.
Proof.
  intros H. unfold to_int64.
  assert (2 ^ 64 = 2 * 2 ^ 63)%Z by reflexivity.
  rewrite Z.mod_small by lia. lia.
Qed.

Lemma rd_wr_u64 z r : (0 <= z < 2 ^ 63)%Z -> rd_u64 (wr_u64 z ++ r) = Some (z, r).
Proof.
  intros H. unfold wr_u64. rewrite to_int64_id by assumption. cbn -[Z.leb].
  destruct (Z.leb_spec 0 z); [reflexivity|lia].
Qed.

Lemma rd_wr_opt {A} (wr : A -> tape) (rd : reader A) :
  (forall a r, rd (wr a ++ r) = Some (a, r)) ->
  forall o r, rd_opt rd (wr_opt wr o ++ r) = Some (o, r).
Proof. intros H [a|] r; simpl; [|reflexivity]. rewrite H. reflexivity. Qed.

Lemma rd_wr_n {A} (wr : A -> tape) (rd : reader A) :
  (forall a r, rd (wr a ++ r) = Some (a, r)) ->
  forall l r, rd_n rd (length l) (flat_map wr l ++ r) = Some (l, r).
Proof.
  intros H l. induction l as [|a l IH]; intros r; simpl; [reflexivity|].
  rewrite <- app_assoc, H, IH. reflexivity.
Qed.

Lemma rd_wr_vec {A} (wr : A -> tape) (rd : reader A) :
  (forall a r, rd (wr a ++ r) = Some (a, r)) ->
  forall l r, rd_vec rd (wr_vec wr l ++ r) = Some (l, r).
Proof.
  intros H l r. unfold rd_vec, wr_vec. rewrite <- app_assoc, rd_wr_size. apply rd_wr_n; assumption.
Qed.

Lemma rd_wr_optvec l r : rd_vec (rd_opt rd_data) (wr_vec (wr_opt wr_data) l ++ r) = Some (l, r).
Proof. apply rd_wr_vec. intros; apply rd_wr_opt. intros; apply rd_wr_data. Qed.

Lemma rd_wr_float q r : rd_float (wr_float (Some q) ++ r) = Some (q, r).
Proof. reflexivity. Qed.

Global Opaque rd_float wr_float rd_size rd_bool rd_int rd_data rd_list rd_u64 rd_tensor rd_vec rd_opt
  wr_size wr_bool wr_int wr_data wr_list wr_u64 wr_tensor wr_vec wr_opt.
