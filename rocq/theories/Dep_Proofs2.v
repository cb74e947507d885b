(** Proofs about the dependency container: singletons and results. *)
From Coq Require Import List Arith Bool Lia.
From Verif Require Import Dep_Model Dep_Spec Dep_Proofs.
Import ListNotations.

Section P.
Variable sub : cls -> cls -> bool.
Notation get_instance := (get_instance sub).
Notation client := (client sub).

Lemma listed_frame s s' q r : frame s s' -> listed s' q r <-> listed s q r.
Proof. intros F. unfold listed. rewrite (f_regs _ _ F), (f_colls _ _ F). reflexivity. Qed.
Lemma created_app r a b : created r (a ++ b) = created r a ++ created r b.
Proof. unfold created. apply flat_map_app. Qed.
Lemma got_app r a b : got r (a ++ b) = got r a ++ got r b.
Proof. unfold got. apply flat_map_app. Qed.

(** ** Singletons *)
Definition single (s : state) (r : reg) : Prop :=
  match objs s (rid r) with
  | None => created (rid r) (log s) = [] /\ got (rid r) (log s) = []
  | Some o => created (rid r) (log s) = [o] /\ Forall (fun x => x = o) (got (rid r) (log s))
  end.
Definition uniq (s : state) : Prop := forall q r q' r', listed s q r -> listed s q' r' -> rid r = rid r' -> q = q' /\ r = r'.
Definition singles (s : state) : Prop := forall q r, listed s q r -> singleton r = true -> single s r.
Definition keeps (s s' : state) : Prop :=
  frame s s' /\ (uniq s -> (singles s -> singles s') /\
    (forall q r, listed s q r -> incall s (rid r) = true -> objs s (rid r) = None -> objs s' (rid r) = None /\ created (rid r) (log s') = created (rid r) (log s) /\ got (rid r) (log s') = got (rid r) (log s))).
Lemma uniq_frame s s' : frame s s' -> uniq s -> uniq s'.
Proof. intros F U q r q' r' A B. apply (listed_frame _ _ _ _ F) in A. apply (listed_frame _ _ _ _ F) in B. apply U; assumption. Qed.
Lemma keeps_refl s : keeps s s.
Proof. split; [apply frame_refl|]. auto. Qed.
Lemma keeps_trans a b c : keeps a b -> keeps b c -> keeps a c.
Proof.
  intros [F1 K1] [F2 K2]. split; [eapply frame_trans; eassumption|]. intros U. destruct (K1 U) as [S1 P1]. destruct (K2 (uniq_frame _ _ F1 U)) as [S2 P2]. split; [auto|].
  intros q r L C O. destruct (P1 q r L C O) as (X1 & X2 & X3). destruct (P2 q r) as (Y1 & Y2 & Y3); [apply (listed_frame _ _ _ _ F1), L|rewrite (f_incall _ _ F1); exact C|exact X1|]. split; [exact Y1|]. split; congruence.
Qed.
Lemma keeps_same s s' : keeps s s' -> regs s' = regs s /\ colls s' = colls s.
Proof. intros [F _]. apply frame_same, F. Qed.
Lemma get_keeps fuel : forall q r s, listed s q r -> keeps s (snd (get_instance fuel q r s)).
Proof.
  assert (Hit : forall q r s o, objs s (rid r) = Some o -> listed s q r -> keeps s (add_log (EGot (rid r) o) s)).
  { intros q r s o O L. split; [apply frame_log|]. intros U. split.
    - intros S q' r' L' B. specialize (S q' r' L' B). unfold single in *. simpl. rewrite created_app, got_app. simpl. rewrite app_nil_r. destruct (Nat.eqb_spec (rid r) (rid r')) as [E|E]; [|rewrite app_nil_r; exact S].
      rewrite <- E, O in S |- *. destruct S as [S1 S2]. split; [exact S1|]. apply Forall_app. split; [exact S2|constructor; auto].
    - intros q' r' L' C O'. simpl. rewrite created_app, got_app. simpl. rewrite app_nil_r. split; [exact O'|]. split; [reflexivity|]. destruct (Nat.eqb_spec (rid r) (rid r')) as [E|E]; [congruence|apply app_nil_r]. }
  induction fuel as [|fuel IH]; intros q r s L; cbn [Dep_Model.get_instance]; destruct (objs s (rid r)) as [o|] eqn:O; try (apply (Hit q); assumption); destruct (incall s (rid r)) eqn:C; try apply keeps_refl.
  - split; [apply frame_stuck|]. auto.
  - assert (K : keeps (set_incall (rid r) true s) (snd (run (get_instance fuel) (provider r) (set_incall (rid r) true s)))).
    { apply rel_run; try (intros; split; [first [apply frame_refl|apply frame_frozen|apply frame_next]|auto]; fail); [apply keeps_trans|apply keeps_same|exact IH]. }
    destruct K as [F K]. set (s0 := set_incall (rid r) true s) in *.
    assert (L0 : forall q r, listed s0 q r <-> listed s q r) by (intros; reflexivity).
    assert (Err : forall s', snd (run (get_instance fuel) (provider r) s0) = s' -> keeps s (set_incall (rid r) false s')).
    { intros s' E. rewrite E in *. split; [apply frame_call; assumption|]. intros U. destruct (K U) as [K1 K2]. split; [exact K1|]. intros q' r' L' C' O'. apply (K2 q' r' L'); [|exact O']. unfold s0. simpl. unfold upd. destruct (Nat.eqb (rid r') (rid r)); [reflexivity|exact C']. }
    destruct (run (get_instance fuel) (provider r) s0) as [[o|e] s'] eqn:R; simpl in Err, F, K; [|destruct e; apply Err; reflexivity].
    destruct (Err s' eq_refl) as [Fe Ke]. pose proof (get_frame sub (S fuel) q r s) as G. cbn [Dep_Model.get_instance] in G. rewrite O, C in G. fold s0 in G. rewrite R in G. split; [exact G|]. clear G. intros U. destruct (Ke U) as [Ke1 Ke2]. destruct (K U) as [K1 K2].
    destruct (K2 q r L) as (X1 & X2 & X3); [unfold s0; simpl; unfold upd; rewrite Nat.eqb_refl; reflexivity|exact O|]. split.
    + intros S q' r' L' B. assert (L2 : listed s q' r'). { destruct Fe as [Fr Fc _ _ _ _]. simpl in Fr, Fc. revert L'. unfold listed. cbv zeta. destruct (singleton r); simpl; rewrite Fr, Fc; auto. }
      assert (Pre : single s' r'). { apply (Ke1 S q' r'); [|exact B]. apply (listed_frame _ _ _ _ Fe), L2. }
      destruct (Nat.eq_dec (rid r) (rid r')) as [E|E].
      * destruct (U q r q' r' L L2 E) as [<- <-]. rewrite B. unfold single in *. simpl. unfold upd. rewrite Nat.eqb_refl. rewrite X1 in Pre. destruct Pre as [P1 P2]. rewrite !created_app, !got_app, P1, P2. simpl. rewrite Nat.eqb_refl. simpl. auto.
      * assert (Z : single (add_log (EGot (rid r) o) (if singleton r then set_obj (rid r) o (add_log (ECreated (rid r) o) (set_incall (rid r) false s')) else add_log (ECreated (rid r) o) (set_incall (rid r) false s'))) r' <-> single s' r'); [|apply Z, Pre].
        unfold single. destruct (singleton r); simpl; unfold upd; (destruct (Nat.eqb_spec (rid r') (rid r)); [congruence|]); rewrite !created_app, !got_app; simpl; (destruct (Nat.eqb_spec (rid r) (rid r')); [contradiction|]); rewrite !app_nil_r; reflexivity.
    + intros q' r' L' C' O'. assert (E : rid r <> rid r') by congruence. destruct (Ke2 q' r' L' C' O') as (Y1 & Y2 & Y3). simpl in Y1, Y2, Y3.
      cbv zeta. destruct (singleton r); simpl; unfold upd; (destruct (Nat.eqb_spec (rid r') (rid r)); [congruence|]); rewrite !created_app, !got_app; simpl; (destruct (Nat.eqb_spec (rid r) (rid r')); [contradiction|]); rewrite !app_nil_r; auto.
Qed.
Lemma run_keeps fuel p s : keeps s (snd (run (get_instance fuel) p s)).
Proof. apply rel_run; try (intros; split; [first [apply frame_refl|apply frame_frozen|apply frame_next]|auto]; fail); [apply keeps_trans|apply keeps_same|apply get_keeps]. Qed.
Lemma singles_step s o : good s -> singles s -> singles (step sub s o).
Proof.
  intros G S. destruct o as [q p b|q p b|p]; cbn [step].
  - unfold register. destruct (frozen s) eqn:Fz; [exact S|]. destruct (existsb _ _); [exact S|]. destruct (g_fresh _ G Fz) as [G1 G2]. intros q' r' _ _. unfold single. simpl. rewrite G1, G2. auto.
  - unfold register_in_collection. destruct (frozen s) eqn:Fz; [exact S|]. destruct (g_fresh _ G Fz) as [G1 G2]. intros q' r' _ _. unfold single. simpl. rewrite G1, G2. auto.
  - apply run_keeps; [exact (g_unique _ G)|exact S].
Qed.
Lemma reachable_singles s : reachable sub s -> singles s.
Proof.
  intros (h & ->). assert (X : forall h s, good s -> singles s -> singles (fold_left (step sub) h s)).
  { clear. induction h as [|o h IH]; intros s G S; [exact S|]. simpl. apply IH; [apply good_step, G|apply singles_step; assumption]. }
  apply X; [apply good_init|]. intros q r [[]|[]].
Qed.

(** ** Dependencies that cannot be satisfied *)
Definition never (S : name -> Prop) (s : state) : Prop := forall q r, S q -> In (q, r) (regs s) -> objs s (rid r) = None.
Section Never.
Variable S : name -> Prop.
Definition doomed (s : state) : Prop := forall q r, S q -> In (q, r) (regs s) -> strict (provider r) /\ needs S (provider r).
Variable get : name -> reg -> state -> res (option obj) * state.
Hypothesis get_fr : forall q r s, frame s (snd (get q r s)).
Hypothesis get_never : forall q r s, doomed s -> uniq s -> never S s -> listed s q r -> never S (snd (get q r s)).
Hypothesis get_fails : forall q r s, doomed s -> uniq s -> never S s -> S q -> In (q, r) (regs s) -> exists e, fst (get q r s) = Err e.
Lemma doomed_frame s s' : frame s s' -> doomed s -> doomed s'.
Proof. intros F D q r. rewrite (f_regs _ _ F). apply D. Qed.
Lemma never_run p s : doomed s -> uniq s -> never S s -> never S (snd (run get p s)).
Proof.
  intros D U N. assert (X : (fun s s' => frame s s' /\ (doomed s -> uniq s -> never S s -> never S s')) s (snd (run get p s))); [|apply X; assumption].
  apply rel_run.
  - intros a. split; [apply frame_refl|auto].
  - intros a b c [F1 K1] [F2 K2]. split; [eapply frame_trans; eassumption|]. intros Da Ua Na. apply K2; [eapply doomed_frame; eassumption|eapply uniq_frame; eassumption|auto].
  - intros a. split; [apply frame_frozen|auto].
  - intros a. split; [apply frame_next|auto].
  - intros a b [F _]. apply frame_same, F.
  - intros q r a L. split; [apply get_fr|]. intros Da Ua Na. apply get_never; assumption.
Qed.
Lemma doomed_resolve q s : doomed s -> uniq s -> never S s -> S q -> exists e, fst (resolve get q s) = Err e.
Proof.
  intros D U N H. unfold resolve. destruct (find_reg q (set_frozen s)) as [r|] eqn:E; [|simpl; eauto]. apply find_reg_in in E. destruct (get_fails q r (set_frozen s) D U N H E) as (e & G). destruct (get q r (set_frozen s)) as [x s']. simpl in G. subst x. simpl. eauto.
Qed.
Lemma needs_fails p : strict p -> needs S p -> forall s, doomed s -> uniq s -> never S s -> exists e, fst (run get p s) = Err e.
Proof.
  intros St. induction St as [o|n| |c a k _ IH|q k E _ IH|q k E _ IH|q k E _ IH]; intros Nd s D U N; cbn [run].
  - inversion Nd.
  - simpl; eauto.
  - simpl; eauto.
  - inversion Nd; subst. apply IH; auto.
  - assert (Fr : forall x s', resolve get q s = (x, s') -> frame s s' /\ never S s').
    { intros x s' R. replace s' with (snd (resolve get q s)) by (rewrite R; reflexivity). split.
      - apply rel_resolve; auto using frame_refl, frame_frozen, frame_next, frame_same. apply frame_trans.
      - pose proof (never_run (PResolve q (fun _ => PRet None)) s D U N) as X. cbn [run] in X. destruct (resolve get q s); exact X. }
    destruct (resolve get q s) as [x s'] eqn:R. destruct (Fr x s' eq_refl) as [F' N']. destruct x as [o|e]; [|rewrite E; simpl; eauto].
    inversion Nd as [|q0 k0 Sq| |q0 k0 Nk| |]; subst.
    + exfalso. destruct (doomed_resolve q s D U N Sq) as (e & X). rewrite R in X. discriminate.
    + apply IH; [apply Nk|eapply doomed_frame; eassumption|eapply uniq_frame; eassumption|exact N'].
  - assert (Fr : forall x s', maybe_resolve get q s = (x, s') -> frame s s' /\ never S s').
    { intros x s' R. replace s' with (snd (maybe_resolve get q s)) by (rewrite R; reflexivity). split.
      - apply rel_maybe; auto using frame_refl, frame_frozen, frame_next, frame_same. apply frame_trans.
      - pose proof (never_run (PMaybe q (fun _ => PRet None)) s D U N) as X. cbn [run] in X. destruct (maybe_resolve get q s); exact X. }
    destruct (maybe_resolve get q s) as [x s'] eqn:R. destruct (Fr x s' eq_refl) as [F' N']. destruct x as [o|e]; [|rewrite E; simpl; eauto].
    inversion Nd as [| | | |q0 k0 Nk|]; subst. apply IH; [apply Nk|eapply doomed_frame; eassumption|eapply uniq_frame; eassumption|exact N'].
  - assert (Fr : forall x s', resolve_all get q s = (x, s') -> frame s s' /\ never S s').
    { intros x s' R. replace s' with (snd (resolve_all get q s)) by (rewrite R; reflexivity). split.
      - apply rel_all; auto using frame_refl, frame_frozen, frame_next, frame_same. apply frame_trans.
      - pose proof (never_run (PAll q (fun _ => PRet None)) s D U N) as X. cbn [run] in X. destruct (resolve_all get q s); exact X. }
    destruct (resolve_all get q s) as [x s'] eqn:R. destruct (Fr x s' eq_refl) as [F' N']. destruct x as [o|e]; [|rewrite E; simpl; eauto].
    inversion Nd as [| | | | |q0 k0 Nk]; subst. apply IH; [apply Nk|eapply doomed_frame; eassumption|eapply uniq_frame; eassumption|exact N'].
Qed.
End Never.
Lemma get_doomed S fuel : forall q r s, doomed S s -> uniq s -> never S s -> listed s q r ->
  never S (snd (get_instance fuel q r s)) /\ (S q -> In (q, r) (regs s) -> exists e, fst (get_instance fuel q r s) = Err e).
Proof.
  induction fuel as [|fuel IH]; intros q r s D U N L; cbn [Dep_Model.get_instance]; destruct (objs s (rid r)) as [o|] eqn:O; try (split; [exact N|intros Sq I; rewrite (N q r Sq I) in O; discriminate]); destruct (incall s (rid r)) eqn:C; try (split; [exact N|simpl; eauto]).
  set (s0 := set_incall (rid r) true s).
  pose proof (never_run S (get_instance fuel) (get_frame sub fuel) (fun q r s D U N L => proj1 (IH q r s D U N L)) (provider r) s0 D U N) as Nr.
  pose proof (run_frame sub fuel (provider r) s0) as F.
  assert (Ne : S q -> In (q, r) (regs s) -> exists e, fst (run (get_instance fuel) (provider r) s0) = Err e).
  { intros Sq I. destruct (D q r Sq I) as [D1 D2]. apply (needs_fails S (get_instance fuel) (get_frame sub fuel) (fun q r s D U N L => proj1 (IH q r s D U N L)) (fun q r s D U N Sq I => proj2 (IH q r s D U N (or_introl I)) Sq I)); assumption. }
  destruct (run (get_instance fuel) (provider r) s0) as [[o|e] s']; simpl in Nr, Ne, F.
  - split.
    + intros q' r' Sq I. cbv zeta. assert (I0 : In (q', r') (regs s)) by (pose proof (f_regs _ _ F) as Fr; simpl in Fr; rewrite <- Fr; revert I; destruct (singleton r); exact (fun x => x)). cbv zeta in I.
      pose proof (Nr q' r' Sq ltac:(rewrite (f_regs _ _ F); exact I0)) as X. destruct (singleton r) eqn:B; [|exact X]. simpl. unfold upd. destruct (Nat.eqb_spec (rid r') (rid r)) as [E|]; [|exact X].
      exfalso. destruct (U q' r' q r (or_introl I0) L E) as [-> ->]. destruct (Ne Sq I0) as (e & Y). discriminate.
    + intros Sq I. destruct (Ne Sq I) as (e & Y). discriminate.
  - split; [destruct e; exact Nr|]. destruct e; simpl; eauto.
Qed.

(** ** Cycles *)
Lemma chain_frame s s' l : frame s s' -> chain s' l <-> chain s l.
Proof.
  intros F. induction l as [|a l IH]; [reflexivity|]. destruct l as [|b l]; [reflexivity|]. cbn [chain] in *. rewrite IH. split; intros ((r & L & A) & C); (split; [|exact C]); exists r; split; try exact A; apply (listed_frame _ _ _ _ F); exact L.
Qed.
Lemma chain_incall s i b l : chain (set_incall i b s) l <-> chain s l.
Proof. induction l as [|a l IH]; [reflexivity|]. destruct l as [|c l]; [reflexivity|]. cbn [chain] in *. rewrite IH. reflexivity. Qed.
(** The path [l] goes back to itself, or ends in something that is being provided. *)
Definition closed (l : list name) : Prop := exists l1 x l2, l = l1 ++ x :: l2 ++ [x].
Definition ends (s : state) (l : list name) : Prop := exists l1 q r, l = l1 ++ [q] /\ listed s q r /\ incall s (rid r) = true.
Definition traced (s : state) (q : name) (l : list name) : Prop := (exists l', l = q :: l') /\ chain s l /\ (closed l \/ ends s l).
Definition all_strict (s : state) : Prop := forall q r, listed s q r -> strict (provider r).
Lemma traced_frame s s' q l : frame s s' -> traced s' q l -> traced s q l.
Proof.
  intros F (A & B & C). split; [exact A|]. split; [apply (chain_frame _ _ _ F), B|]. destruct C as [C|(l1 & q' & r & E & L & I)]; [left; exact C|right]. exists l1, q', r. split; [exact E|]. split; [apply (listed_frame _ _ _ _ F), L|]. rewrite <- (f_incall _ _ F). exact I.
Qed.
Section Cyc.
Variable get : name -> reg -> state -> res (option obj) * state.
Hypothesis get_fr : forall q r s, frame s (snd (get q r s)).
Hypothesis get_tr : forall q r s l, all_strict s -> uniq s -> listed s q r -> fst (get q r s) = Err (Cycle l) -> traced s q l.
Lemma strict_frame s s' : frame s s' -> all_strict s -> all_strict s'.
Proof. intros F A q r L. apply (A q), (listed_frame _ _ _ _ F), L. Qed.
Lemma traced_resolve q s l : all_strict s -> uniq s -> fst (resolve get q s) = Err (Cycle l) -> traced s q l.
Proof.
  intros A U. unfold resolve. destruct (find_reg q (set_frozen s)) as [r|] eqn:E; [|discriminate]. apply find_reg_in in E. pose proof (get_tr q r (set_frozen s) l A U (or_introl E)) as G.
  destruct (get q r (set_frozen s)) as [[[o|]|e] s']; simpl in *; intros H; try discriminate. injection H as ->. apply (traced_frame _ _ _ _ (frame_frozen s)). exact (G eq_refl).
Qed.
Lemma traced_maybe q s l : all_strict s -> uniq s -> fst (maybe_resolve get q s) = Err (Cycle l) -> traced s q l.
Proof.
  intros A U. unfold maybe_resolve. pose proof (traced_resolve q s l A U) as X. destruct (resolve get q s) as [[o|e] s']; [discriminate|]. destruct e; try (intros H; discriminate H); [destruct (name_eqb q0 q); discriminate|]. intros H. injection H as ->. exact (X eq_refl).
Qed.
Lemma traced_iterate q l0 : forall s l, (forall r, In r l0 -> In (q, r) (colls s)) -> all_strict s -> uniq s -> fst (iterate get q l0 s) = Err (Cycle l) -> traced s q l.
Proof.
  induction l0 as [|r l0 IH]; intros s l H A U E; [discriminate|]. cbn [iterate] in E. pose proof (get_tr q r s l A U (or_intror (H r (or_introl eq_refl)))) as G. pose proof (get_fr q r s) as F. destruct (get q r s) as [[o|e] s']; [|injection E as ->; exact (G eq_refl)]. simpl in F.
  apply (traced_frame _ _ _ _ F). apply IH; [|eapply strict_frame; eassumption|eapply uniq_frame; eassumption|].
  - intros r' I. rewrite (f_colls _ _ F). apply H. right. exact I.
  - destruct (iterate get q l0 s') as [[os|e] s'']; [discriminate|exact E].
Qed.
Lemma traced_run p : strict p -> forall s l, all_strict s -> uniq s -> fst (run get p s) = Err (Cycle l) -> exists q, asks p q /\ traced s q l.
Proof.
  assert (RF : forall p s, frame s (snd (run get p s))) by (intros p0 s; apply rel_run; auto using frame_refl, frame_frozen, frame_next, frame_same; apply frame_trans).
  intros St. induction St as [o|n| |c a k _ IH|q k E _ IH|q k E _ IH|q k E _ IH]; intros s l A U H; cbn [run] in H; try discriminate.
  - destruct (IH _ (set_next s) _ A U H) as (q & X & Y). exists q. split; [eapply as_new, X|apply (traced_frame _ _ _ _ (frame_next s)), Y].
  - pose proof (traced_resolve q s) as X. pose proof (RF (PResolve q (fun _ => PRet None)) s) as F. cbn [run] in F. destruct (resolve get q s) as [[o|e] s']; simpl in F.
    + destruct (IH o s' l) as (q' & Y1 & Y2); [eapply strict_frame; eassumption|eapply uniq_frame; eassumption|exact H|]. exists q'. split; [eapply as_resolve_then, Y1|eapply traced_frame; eassumption].
    + rewrite E in H. exists q. split; [constructor|]. injection H as ->. apply X; auto.
  - pose proof (traced_maybe q s) as X. pose proof (RF (PMaybe q (fun _ => PRet None)) s) as F. cbn [run] in F. destruct (maybe_resolve get q s) as [[o|e] s']; simpl in F.
    + destruct (IH o s' l) as (q' & Y1 & Y2); [eapply strict_frame; eassumption|eapply uniq_frame; eassumption|exact H|]. exists q'. split; [eapply as_maybe_then, Y1|eapply traced_frame; eassumption].
    + rewrite E in H. exists q. split; [constructor|]. injection H as ->. apply X; auto.
  - pose proof (traced_iterate q (find_all q (set_frozen s)) (set_frozen s) l (fun r I => proj1 (find_all_in q s r) I)) as X. pose proof (RF (PAll q (fun _ => PRet None)) s) as F. cbn [run] in F. unfold resolve_all in *. destruct (iterate get q (find_all q (set_frozen s)) (set_frozen s)) as [[o|e] s']; simpl in F.
    + destruct (IH o s' l) as (q' & Y1 & Y2); [eapply strict_frame; eassumption|eapply uniq_frame; eassumption|exact H|]. exists q'. split; [eapply as_all_then, Y1|eapply traced_frame; eassumption].
    + rewrite E in H. exists q. split; [constructor|]. injection H as ->. apply (traced_frame _ _ _ _ (frame_frozen s)). apply X; [exact A|exact U|reflexivity].
Qed.
End Cyc.
Lemma get_traced fuel : forall q r s l, all_strict s -> uniq s -> listed s q r -> fst (get_instance fuel q r s) = Err (Cycle l) -> traced s q l.
Proof.
  induction fuel as [|fuel IH]; intros q r s l A U L H; cbn [Dep_Model.get_instance] in H; destruct (objs s (rid r)) as [o|] eqn:O.
  1, 3: (unfold check in H; destruct o as [o|]; [destruct (sub (ocls o) (fst q))|]; discriminate).
  all: destruct (incall s (rid r)) eqn:C; try (injection H as <-; split; [eauto|]; split; [exact I|]; right; exists [], q, r; auto).
  - discriminate.
  - set (s0 := set_incall (rid r) true s) in *. pose proof (traced_run (get_instance fuel) (get_frame sub fuel) IH (provider r) (A q r L) s0) as T.
    destruct (run (get_instance fuel) (provider r) s0) as [[o|e] s'].
    + exfalso. cbv zeta in H. unfold check in H. simpl in H. destruct o as [o|]; [destruct (sub (ocls o) (fst q))|]; discriminate.
    + destruct e; try discriminate. injection H as <-. destruct (T l0 A U eq_refl) as (q' & As & (l' & ->) & Ch & En). split; [eauto|]. split; [split; [exists r; auto|apply chain_incall in Ch; exact Ch]|].
      destruct En as [(l1 & x & l2 & E)|(l1 & q2 & r2 & E & L2 & I2)]; [left; exists (q :: l1), x, l2; simpl; congruence|]. rewrite E. unfold s0 in I2. simpl in I2. unfold upd in I2. destruct (Nat.eqb_spec (rid r2) (rid r)) as [Er|Er].
      * left. destruct (U q2 r2 q r L2 L Er) as [-> ->]. exists [], q, l1. reflexivity.
      * right. exists (q :: l1), q2, r2. auto.
Qed.

(** ** Success *)
Definition typed (s : state) : Prop := forall q r o, listed s q r -> objs s (rid r) = Some o -> exists o', o = Some o' /\ sub (ocls o') (fst q) = true.
Section Del.
Variables (rank crank : name -> nat) (bound fuel : nat).
Variable get : name -> reg -> state -> res (option obj) * state.
Definition okp (s : state) : Prop := well_built sub s rank crank /\ uniq s /\ typed s /\ free s <= fuel /\ (forall q r q' r', In (q, r) (regs s) -> In (q', r') (colls s) -> rid r <> rid r') /\
  (forall q r, In (q, r) (regs s) -> rank q < bound -> incall s (rid r) = false) /\ (forall q r, In (q, r) (colls s) -> crank q < bound -> incall s (rid r) = false).
Hypothesis get_fr : forall q r s, frame s (snd (get q r s)).
Hypothesis get_ok : forall q r s, okp s -> (In (q, r) (regs s) /\ rank q < bound \/ In (q, r) (colls s) /\ crank q < bound) ->
  (exists o, fst (get q r s) = Ok (Some o) /\ sub (ocls o) (fst q) = true) /\ typed (snd (get q r s)).
Lemma well_frame s s' : frame s s' -> well_built sub s rank crank -> well_built sub s' rank crank.
Proof. intros F [A B]. unfold well_built. rewrite (f_regs _ _ F), (f_colls _ _ F). split; assumption. Qed.
Lemma okp_frame s s' : frame s s' -> typed s' -> okp s -> okp s'.
Proof.
  intros F T (A & B & C & Fu & Dj & D1 & D2). split; [eapply well_frame; eassumption|]. split; [eapply uniq_frame; eassumption|]. split; [exact T|]. split; [rewrite (free_frame _ _ F); exact Fu|]. split; [rewrite (f_regs _ _ F), (f_colls _ _ F); exact Dj|]. split; intros q r I L; rewrite (f_incall _ _ F); [eapply D1|eapply D2]; try exact L; [rewrite <- (f_regs _ _ F)|rewrite <- (f_colls _ _ F)]; exact I.
Qed.
Lemma del_resolve q s : okp s -> (exists r, In (q, r) (regs s)) -> rank q < bound -> exists o s', resolve get q s = (Ok o, s') /\ sub (ocls o) (fst q) = true /\ frame s s' /\ typed s'.
Proof.
  intros K (r & I) B. unfold resolve. destruct (find_reg q (set_frozen s)) as [r'|] eqn:E; [|exfalso; apply (proj1 (find_reg_none q (set_frozen s)) E r I)]. apply find_reg_in in E.
  destruct (get_ok q r' (set_frozen s)) as ((o & X & Y) & Z); [apply (okp_frame s); [apply frame_frozen|apply K|exact K]|left; auto|].
  pose proof (get_fr q r' (set_frozen s)) as F. destruct (get q r' (set_frozen s)) as [x s']. simpl in *. subst x. exists o, s'. split; [reflexivity|]. split; [exact Y|]. split; [eapply frame_trans; [apply frame_frozen|exact F]|exact Z].
Qed.
Lemma del_iterate q l : forall s, okp s -> (forall r, In r l -> In (q, r) (colls s)) -> crank q < bound -> exists os s', iterate get q l s = (Ok os, s') /\ Forall (fun o => sub (ocls o) (fst q) = true) os /\ frame s s' /\ typed s'.
Proof.
  induction l as [|r l IH]; intros s K H B; cbn [iterate]; [exists [], s; split; [reflexivity|]; split; [constructor|]; split; [apply frame_refl|apply K]|].
  destruct (get_ok q r s K) as ((o & X & Y) & Z); [right; split; [apply H; left; reflexivity|exact B]|]. pose proof (get_fr q r s) as F. destruct (get q r s) as [x s']. simpl in *. subst x.
  destruct (IH s') as (os & s2 & E & P & F2 & T2); [eapply okp_frame; eassumption|intros r' I; rewrite (f_colls _ _ F); apply H; right; exact I|exact B|]. rewrite E. exists (o :: os), s2. split; [reflexivity|]. split; [constructor; assumption|]. split; [eapply frame_trans; eassumption|exact T2].
Qed.
Lemma del_run (R C : name -> Prop) c p : delivers sub R C c p -> forall s, okp s -> (forall q, R q -> (exists r, In (q, r) (regs s)) /\ rank q < bound) -> (forall q, C q -> crank q < bound) ->
  exists o s', run get p s = (Ok (Some o), s') /\ sub (ocls o) c = true /\ typed s'.
Proof.
  intros D. induction D as [o H|c' a k _ IH|q k Rq _ IH|q k Rq _ IH|q k Cq _ IH]; intros s K HR HC; cbn [run].
  - exists o, s. split; [reflexivity|]. split; [exact H|apply K].
  - apply IH; [|exact HR|exact HC]. apply (okp_frame s); [apply frame_next|apply K|exact K].
  - destruct (HR q Rq) as [I B]. destruct (del_resolve q s K I B) as (o & s' & E & T & F & Ty). rewrite E. apply IH; [exact T|eapply okp_frame; eassumption| |exact HC]. intros q' Rq'. rewrite (f_regs _ _ F). apply HR, Rq'.
  - destruct (HR q Rq) as [I B]. destruct (del_resolve q s K I B) as (o & s' & E & T & F & Ty). unfold maybe_resolve. rewrite E. apply IH; [exact T|eapply okp_frame; eassumption| |exact HC]. intros q' Rq'. rewrite (f_regs _ _ F). apply HR, Rq'.
  - unfold resolve_all. destruct (del_iterate q (find_all q (set_frozen s)) (set_frozen s)) as (os & s' & E & T & F & Ty); [apply (okp_frame s); [apply frame_frozen|apply K|exact K]|intros r I; apply find_all_in in I; exact I|apply HC, Cq|]. rewrite E.
    apply IH; [exact T| | |exact HC].
    + apply (okp_frame (set_frozen s)); [exact F|exact Ty|]. apply (okp_frame s); [apply frame_frozen|apply K|exact K].
    + intros q' Rq'. rewrite (f_regs _ _ F). apply HR, Rq'.
Qed.
End Del.
Lemma get_delivers rank crank fuel : forall bound q r s, okp rank crank bound fuel s -> (In (q, r) (regs s) /\ rank q < bound \/ In (q, r) (colls s) /\ crank q < bound) ->
  (exists o, fst (get_instance fuel q r s) = Ok (Some o) /\ sub (ocls o) (fst q) = true) /\ typed (snd (get_instance fuel q r s)).
Proof.
  induction fuel as [|fuel IH]; intros bound q r s K H; pose proof K as (W & U & Ty & Fu & Dj & D1 & D2); cbn [Dep_Model.get_instance].
  all: assert (L : listed s q r) by (destruct H as [[H _]|[H _]]; [left|right]; exact H).
  all: destruct (objs s (rid r)) as [o|] eqn:O; [destruct (Ty q r o L O) as (o' & -> & T); split; [exists o'; simpl; rewrite T; auto|exact Ty]|].
  all: assert (C : incall s (rid r) = false) by (destruct H as [[H B]|[H B]]; [eapply D1|eapply D2]; eassumption); rewrite C.
  - pose proof (free_call s q r L C). lia.
  - set (s0 := set_incall (rid r) true s). pose proof (run_frame sub fuel (provider r) s0) as F.
    assert (X : exists o s', run (get_instance fuel) (provider r) s0 = (Ok (Some o), s') /\ sub (ocls o) (fst q) = true /\ typed s').
    { pose proof (free_call s q r L C) as Fr. fold s0 in Fr. destruct H as [[H B]|[H B]].
      - eapply (del_run rank crank (rank q) fuel (get_instance fuel) (get_frame sub fuel) (IH (rank q))); [apply (proj1 W q r H)| | |].
        + split; [exact W|]. split; [exact U|]. split; [exact Ty|]. split; [lia|]. split; [exact Dj|]. split; intros q' r' I' B'; unfold s0; simpl; unfold upd; (destruct (Nat.eqb_spec (rid r') (rid r)) as [E|E]).
          * destruct (U q' r' q r (or_introl I') L E) as [-> _]. lia.
          * eapply D1; [exact I'|lia].
          * exfalso. eapply Dj; [exact H|exact I'|congruence].
          * eapply D2; [exact I'|lia].
        + intros q' [R1 R2]. auto.
        + auto.
      - eapply (del_run rank crank (crank q) fuel (get_instance fuel) (get_frame sub fuel) (IH (crank q))); [apply (proj2 W q r H)| | |].
        + split; [exact W|]. split; [exact U|]. split; [exact Ty|]. split; [lia|]. split; [exact Dj|]. split; intros q' r' I' B'; unfold s0; simpl; unfold upd; (destruct (Nat.eqb_spec (rid r') (rid r)) as [E|E]).
          * exfalso. eapply Dj; [exact I'|exact H|exact E].
          * eapply D1; [exact I'|lia].
          * destruct (U q' r' q r (or_intror I') L E) as [-> _]. lia.
          * eapply D2; [exact I'|lia].
        + intros q' [R1 R2]. auto.
        + auto. }
    destruct X as (o & s' & E & T & Ty'). rewrite E in *. simpl in F. cbv zeta. simpl fst. split; [exists o; rewrite T; auto|].
    assert (L' : forall q' r', listed s' q' r' <-> listed s q' r') by (intros; apply (listed_frame _ _ _ _ F)).
    intros q' r' o' Lq Oq. destruct (singleton r).
    + simpl in Oq. unfold upd in Oq. destruct (Nat.eqb_spec (rid r') (rid r)) as [Er|Er]; [|apply (Ty' q' r'); assumption]. injection Oq as <-. exists o. split; [reflexivity|]. destruct (U q' r' q r) as [-> _]; [apply L', Lq|exact L|exact Er|exact T].
    + apply (Ty' q' r'); assumption.
Qed.
(** ** Cached objects have the right class. *)
Definition okall rank crank fuel (s : state) : Prop := well_built sub s rank crank /\ uniq s /\ typed s /\ free s <= fuel /\ (forall q r q' r', In (q, r) (regs s) -> In (q', r') (colls s) -> rid r <> rid r') /\ (forall i, incall s i = false).
Lemma typed_client rank crank p s : good s -> well_built sub s rank crank -> typed s -> typed (snd (client p s)).
Proof.
  intros G W Ty. unfold Dep_Model.client. set (fuel := length (regs s) + length (colls s)).
  assert (X : (fun a b => frame a b /\ (okall rank crank fuel a -> typed b)) s (snd (run (get_instance fuel) p s))).
  { assert (OF : forall a b, frame a b -> typed b -> okall rank crank fuel a -> okall rank crank fuel b).
    { intros a b F T (A & B & _ & Fu & Dj & I). split; [eapply well_frame; eassumption|]. split; [eapply uniq_frame; eassumption|]. split; [exact T|]. split; [rewrite (free_frame _ _ F); exact Fu|]. split; [rewrite (f_regs _ _ F), (f_colls _ _ F); exact Dj|]. intros i. rewrite (f_incall _ _ F). apply I. }
    apply rel_run.
    - intros a. split; [apply frame_refl|]. intros K. apply K.
    - intros a b c [F1 K1] [F2 K2]. split; [eapply frame_trans; eassumption|]. intros K. apply K2. apply (OF a); auto.
    - intros a. split; [apply frame_frozen|]. intros K. apply K.
    - intros a. split; [apply frame_next|]. intros K. apply K.
    - intros a b [F _]. apply frame_same, F.
    - intros q r a L. split; [apply get_frame|]. intros (A & B & T & Fu & Dj & I). apply (get_delivers rank crank fuel (S (rank q + crank q))).
      + split; [exact A|]. split; [exact B|]. split; [exact T|]. split; [exact Fu|]. split; [exact Dj|]. split; intros; apply I.
      + destruct L as [L|L]; [left|right]; split; try exact L; lia. }
  apply X. split; [exact W|]. split; [exact (g_unique _ G)|]. split; [exact Ty|]. split; [apply free_le|]. split; [exact (g_disjoint _ G)|]. apply (g_incall _ G).
Qed.
Lemma reachable_typed rank crank s : reachable sub s -> well_built sub s rank crank -> typed s.
Proof.
  intros (h & ->). induction h as [|o h IH] using rev_ind; intros W; [intros q r o [[]|[]]|]. rewrite fold_left_app in *. cbn [fold_left] in *. set (s := fold_left (step sub) h init) in *.
  assert (G : good s) by (apply good_steps, good_init). destruct o as [q p b|q p b|p]; cbn [step] in *.
  - unfold register in *. destruct (frozen s) eqn:Fz; [apply IH, W|]. destruct (existsb _ _); [apply IH, W|]. destruct (g_fresh _ G Fz) as [G1 _]. intros q' r' o' _ H. simpl in H. rewrite G1 in H. discriminate.
  - unfold register_in_collection in *. destruct (frozen s) eqn:Fz; [apply IH, W|]. destruct (g_fresh _ G Fz) as [G1 _]. intros q' r' o' _ H. simpl in H. rewrite G1 in H. discriminate.
  - assert (W0 : well_built sub s rank crank). { pose proof (run_frame sub (length (regs s) + length (colls s)) p s) as F. unfold well_built in *. unfold Dep_Model.client in W. rewrite (f_regs _ _ F), (f_colls _ _ F) in W. exact W. }
    eapply typed_client; [exact G|exact W0|apply IH, W0].
Qed.
Lemma never_reachable S s : reachable sub s -> doomed S s -> never S s.
Proof.
  intros (h & ->). induction h as [|o h IH] using rev_ind; intros D; [intros q r _ []|]. rewrite fold_left_app in *. cbn [fold_left] in *. set (s := fold_left (step sub) h init) in *.
  assert (G : good s) by (apply good_steps, good_init). destruct o as [q p b|q p b|p]; cbn [step] in *.
  - unfold register in *. destruct (frozen s) eqn:Fz; [apply IH, D|]. destruct (existsb _ _); [apply IH, D|]. destruct (g_fresh _ G Fz) as [G1 _]. intros q' r' _ _. apply G1.
  - unfold register_in_collection in *. destruct (frozen s) eqn:Fz; [apply IH, D|]. destruct (g_fresh _ G Fz) as [G1 _]. intros q' r' _ _. apply G1.
  - assert (D0 : doomed S s). { pose proof (run_frame sub (length (regs s) + length (colls s)) p s) as F. unfold doomed in *. unfold Dep_Model.client in D. rewrite (f_regs _ _ F) in D. exact D. }
    apply (never_run S (get_instance _) (get_frame sub _) (fun q r s D U N L => proj1 (get_doomed S _ q r s D U N L))); [exact D0|exact (g_unique _ G)|apply IH, D0].
Qed.

(** ** Missing dependencies *)
Definition busy (s : state) (q : name) : Prop := exists r, find_reg q s = Some r /\ incall s (rid r) = true /\ objs s (rid r) = None.
Section Nf.
Variable get : name -> reg -> state -> res (option obj) * state.
Hypothesis get_kp : forall q r s, listed s q r -> keeps s (snd (get q r s)).
Hypothesis get_nf : forall q0 q r s, all_strict s -> uniq s -> busy s q0 -> listed s q r -> fst (get q r s) <> Err (NotFound q0).
Hypothesis get_busy : forall q r s, busy s q -> find_reg q s = Some r -> exists e, fst (get q r s) = Err e.
Lemma busy_keeps s s' q : keeps s s' -> uniq s -> busy s q -> busy s' q.
Proof.
  intros [F K] U (r & Fi & C & O). destruct (K U) as [_ P]. exists r. split; [unfold find_reg in *; rewrite (f_regs _ _ F); exact Fi|]. split; [rewrite (f_incall _ _ F); exact C|]. apply (P q r); [left; apply find_reg_in, Fi|exact C|exact O].
Qed.
Lemma nf_resolve q0 q s : all_strict s -> uniq s -> busy s q0 -> fst (resolve get q s) <> Err (NotFound q0).
Proof.
  intros A U B. unfold resolve. destruct (find_reg q (set_frozen s)) as [r|] eqn:E.
  - pose proof (get_nf q0 q r (set_frozen s) A U B (or_introl (find_reg_in _ _ _ E))) as G. pose proof (get_busy q r (set_frozen s)) as Gb. destruct (get q r (set_frozen s)) as [[[o|]|e] s']; simpl in *.
    + discriminate.
    + intros H. injection H as ->. destruct Gb as (e & X); [exact B|exact E|discriminate].
    + intros H. injection H as ->. apply G. reflexivity.
  - intros H. injection H as ->. destruct B as (r & B & _). change (find_reg q0 (set_frozen s)) with (find_reg q0 s) in E. congruence.
Qed.
Lemma nf_run q0 p : strict p -> forall s, all_strict s -> uniq s -> busy s q0 -> fst (run get p s) <> Err (NotFound q0).
Proof.
  assert (RK : forall p s, keeps s (snd (run get p s))) by (intros p1 s; apply rel_run; try (intros; split; [first [apply frame_refl|apply frame_frozen|apply frame_next]|auto]; fail); [apply keeps_trans|apply keeps_same|exact get_kp]).
  intros St. induction St as [o|n| |c a k _ IH|q k E _ IH|q k E _ IH|q k E _ IH]; intros s A U B; cbn [run]; try discriminate.
  - apply IH; assumption.
  - pose proof (nf_resolve q0 q s A U B) as X. pose proof (RK (PResolve q (fun _ => PRet None)) s) as K. cbn [run] in K. destruct (resolve get q s) as [[o|e] s']; simpl in *.
    + apply IH; [eapply strict_frame; [apply K|exact A]|eapply uniq_frame; [apply K|exact U]|eapply busy_keeps; eassumption].
    + rewrite E. intros H. injection H as ->. apply X. reflexivity.
  - pose proof (nf_resolve q0 q s A U B) as X. pose proof (RK (PResolve q (fun _ => PRet None)) s) as K. cbn [run] in K. unfold maybe_resolve.
    assert (Go : forall o s', keeps s s' -> fst (run get (k (Ok o)) s') <> Err (NotFound q0)) by (intros o s' K'; apply IH; [eapply strict_frame; [apply K'|exact A]|eapply uniq_frame; [apply K'|exact U]|eapply busy_keeps; eassumption]).
    destruct (resolve get q s) as [[o|e] s']; simpl in *; [apply Go, K|]. destruct e as [q1| | | |]; try (rewrite E; discriminate). destruct (name_eqb q1 q); [apply Go, K|]. rewrite E. intros H. injection H as ->. apply X. reflexivity.
  - pose proof (RK (PAll q (fun _ => PRet None)) s) as K. cbn [run] in K. unfold resolve_all in *.
    assert (X : fst (iterate get q (find_all q (set_frozen s)) (set_frozen s)) <> Err (NotFound q0)).
    { assert (Gen : forall l s, (forall r, In r l -> In (q, r) (colls s)) -> all_strict s -> uniq s -> busy s q0 -> fst (iterate get q l s) <> Err (NotFound q0)); [|apply Gen; [intros r; apply find_all_in|exact A|exact U|exact B]].
      clear - get_nf get_kp. intros l. induction l as [|r l IH]; intros s I A U B; cbn [iterate]; [intros H; discriminate H|].
      assert (L : listed s q r) by (right; apply I; left; reflexivity). pose proof (get_nf q0 q r s A U B L) as G. pose proof (get_kp q r s L) as K. destruct (get q r s) as [[o|e] s']; simpl in *; [|intros H; injection H as ->; apply G; reflexivity].
      specialize (IH s'). destruct (iterate get q l s') as [[os|e] s2]; [discriminate|]. simpl in *. intros H. injection H as ->. apply IH; [|eapply strict_frame; [apply K|exact A]|eapply uniq_frame; [apply K|exact U]|eapply busy_keeps; eassumption|reflexivity].
      intros r' I'. rewrite (f_colls _ _ (proj1 K)). apply I. right. exact I'. }
    destruct (iterate get q _ _) as [[o|e] s']; simpl in *.
    + apply IH; [eapply strict_frame; [apply K|exact A]|eapply uniq_frame; [apply K|exact U]|eapply busy_keeps; eassumption].
    + rewrite E. intros H. injection H as ->. apply X. reflexivity.
Qed.
End Nf.
Lemma get_not_found fuel : forall q0 q r s, all_strict s -> uniq s -> busy s q0 -> listed s q r -> fst (get_instance fuel q r s) <> Err (NotFound q0).
Proof.
  induction fuel as [|fuel IH]; intros q0 q r s A U B L; cbn [Dep_Model.get_instance]; destruct (objs s (rid r)) as [o|] eqn:O.
  1, 3: (unfold check; destruct o as [o|]; [destruct (sub (ocls o) (fst q))|]; discriminate).
  all: destruct (incall s (rid r)) eqn:C; try discriminate.
  set (s0 := set_incall (rid r) true s).
  assert (B0 : busy s0 q0). { destruct B as (r0 & B1 & B2 & B3). exists r0. split; [exact B1|]. split; [|exact B3]. unfold s0. simpl. unfold upd. destruct (Nat.eqb (rid r0) (rid r)); [reflexivity|exact B2]. }
  pose proof (nf_run (get_instance fuel) (get_keeps fuel) IH (fun q r s B F => match B with ex_intro _ r' (conj B1 (conj B2 B3)) => ltac:(rewrite F in B1; injection B1 as <-; destruct fuel; cbn [Dep_Model.get_instance]; rewrite B3, B2; simpl; eauto) end) q0 (provider r) (A q r L) s0 A U B0) as X.
  destruct (run (get_instance fuel) (provider r) s0) as [[o|e] s']; [cbv zeta; unfold check; simpl; destruct o as [o|]; [destruct (sub (ocls o) (fst q))|]; discriminate|]. destruct e; try discriminate. simpl in *. exact X.
Qed.
Lemma get_class fuel q r s o : fst (get_instance fuel q r s) = Ok (Some o) -> sub (ocls o) (fst q) = true.
Proof.
  assert (C : forall x, check sub (fst q) x = Ok (Some o) -> sub (ocls o) (fst q) = true) by (intros [x|]; unfold check; [destruct (sub (ocls x) (fst q)) eqn:E; [|discriminate]; intros H; injection H as <-; exact E|discriminate]).
  destruct fuel as [|fuel]; cbn [Dep_Model.get_instance]; destruct (objs s (rid r)); try (simpl; apply C); destruct (incall s (rid r)); try discriminate. destruct (run _ _ _) as [[x|e] s']; [simpl; apply C|]. destruct e; discriminate.
Qed.
Lemma get_got fuel q r s x : fst (get_instance fuel q r s) = Ok x -> In x (got (rid r) (log (snd (get_instance fuel q r s)))).
Proof.
  assert (C : forall y, check sub (fst q) y = Ok x -> y = x) by (intros [y|]; unfold check; [destruct (sub (ocls y) (fst q)); congruence|congruence]).
  assert (N : forall s, In x (got (rid r) (log (add_log (EGot (rid r) x) s)))) by (intros s1; simpl; rewrite got_app; apply in_or_app; right; simpl; rewrite Nat.eqb_refl; left; reflexivity).
  destruct fuel as [|fuel]; cbn [Dep_Model.get_instance]; destruct (objs s (rid r)).
  1, 3: (cbn [fst snd]; intros H; apply C in H; subst; apply N).
  all: destruct (incall s (rid r)); try discriminate. destruct (run _ _ _) as [[y|e] s']; [|destruct e; discriminate]. cbv zeta. cbn [fst snd]. intros H. apply C in H. subst. apply N.
Qed.
End P.
