(** Proofs about the dependency container: states. *)
From Coq Require Import List Arith Bool Lia.
From Verif Require Import Dep_Model Dep_Spec.
Import ListNotations.

Lemma name_eqb_iff a b : name_eqb a b = true <-> a = b.
Proof.
  destruct a as [a x], b as [b y]. unfold name_eqb. simpl. rewrite andb_true_iff, Nat.eqb_eq. split.
  - intros [-> H]. destruct x, y; try discriminate H; [apply Nat.eqb_eq in H; subst|]; reflexivity.
  - intros E. injection E as -> ->. split; [reflexivity|]. destruct y; [apply Nat.eqb_refl|reflexivity].
Qed.
Lemma find_reg_in q s r : find_reg q s = Some r -> In (q, r) (regs s).
Proof. unfold find_reg. destruct (find _ _) as [[q' r']|] eqn:E; [|discriminate]. intros H. injection H as <-. apply find_some in E. destruct E as [I E]. apply name_eqb_iff in E. simpl in *. subst. exact I. Qed.
Lemma find_reg_none q s : find_reg q s = None <-> forall r, ~ In (q, r) (regs s).
Proof.
  unfold find_reg. destruct (find _ _) as [[q' r']|] eqn:E; split; intros H; try discriminate; try reflexivity.
  - apply find_some in E. destruct E as [I E]. apply name_eqb_iff in E. simpl in E. subst. destruct (H r' I).
  - intros r I. apply (find_none _ _ E) in I. simpl in I. assert (name_eqb q q = true) by (apply name_eqb_iff; reflexivity). congruence.
Qed.
Lemma find_all_in q s r : In r (find_all q s) <-> In (q, r) (colls s).
Proof.
  unfold find_all. rewrite in_map_iff. split.
  - intros ([q' r'] & <- & I). apply filter_In in I. destruct I as [I E]. apply name_eqb_iff in E. simpl in *. subst. exact I.
  - intros I. exists (q, r). split; [reflexivity|]. apply filter_In. split; [exact I|]. apply name_eqb_iff. reflexivity.
Qed.

Section P.
Variable sub : cls -> cls -> bool.
Notation get_instance := (get_instance sub).
Notation client := (client sub).

(** ** A relation between the states before and after holds for programs if it holds for calls of providers. *)
Section Rel.
Variable get : name -> reg -> state -> res (option obj) * state.
Variable T : state -> state -> Prop.
Hypothesis T_refl : forall s, T s s.
Hypothesis T_trans : forall a b c, T a b -> T b c -> T a c.
Hypothesis T_frozen : forall s, T s (set_frozen s).
Hypothesis T_next : forall s, T s (set_next s).
Hypothesis T_same : forall s s', T s s' -> regs s' = regs s /\ colls s' = colls s.
Hypothesis T_get : forall q r s, listed s q r -> T s (snd (get q r s)).
Lemma rel_resolve q s : T s (snd (resolve get q s)).
Proof.
  unfold resolve. destruct (find_reg q (set_frozen s)) as [r|] eqn:E; [|apply T_frozen]. apply find_reg_in in E.
  pose proof (T_get q r (set_frozen s) (or_introl E)) as G. destruct (get q r (set_frozen s)) as [[[o|]|e] s']; simpl in *; eapply T_trans; try apply T_frozen; exact G.
Qed.
Lemma rel_maybe q s : T s (snd (maybe_resolve get q s)).
Proof. unfold maybe_resolve. pose proof (rel_resolve q s) as R. destruct (resolve get q s) as [[o|e] s']; [exact R|]. destruct e; try exact R. destruct (name_eqb q0 q); exact R. Qed.
Lemma rel_iterate q l : forall s, (forall r, In r l -> In (q, r) (colls s)) -> T s (snd (iterate get q l s)).
Proof.
  induction l as [|r l IH]; intros s H; [apply T_refl|]. cbn [iterate]. pose proof (T_get q r s (or_intror (H r (or_introl eq_refl)))) as G. destruct (get q r s) as [[o|e] s'] eqn:E; [|exact G]. simpl in G.
  assert (X : T s' (snd (iterate get q l s'))) by (apply IH; intros r' I; rewrite (proj2 (T_same _ _ G)); apply H; right; exact I). destruct (iterate get q l s') as [[os|e] s'']; eapply T_trans; eassumption.
Qed.
Lemma rel_all q s : T s (snd (resolve_all get q s)).
Proof. unfold resolve_all. eapply T_trans; [apply T_frozen|]. apply rel_iterate. intros r I. apply find_all_in, I. Qed.
Lemma rel_run p : forall s, T s (snd (run get p s)).
Proof.
  induction p as [o|e|c a k IH|q k IH|q k IH|q k IH]; intros s; cbn [run]; try apply T_refl.
  - eapply T_trans; [apply T_next|apply IH].
  - pose proof (rel_resolve q s) as G. destruct (resolve get q s) as [x s']. eapply T_trans; [exact G|apply IH].
  - pose proof (rel_maybe q s) as G. destruct (maybe_resolve get q s) as [x s']. eapply T_trans; [exact G|apply IH].
  - pose proof (rel_all q s) as G. destruct (resolve_all get q s) as [x s']. eapply T_trans; [exact G|apply IH].
Qed.
End Rel.

(** ** What never changes *)
Record frame (s s' : state) : Prop := {
  f_regs : regs s' = regs s; f_colls : colls s' = colls s; f_incall : forall i, incall s' i = incall s i; f_frozen : frozen s = true -> frozen s' = true;
  f_objs : forall i o, objs s i = Some o -> objs s' i = Some o; f_log : exists l, log s' = log s ++ l }.
Lemma frame_refl s : frame s s.
Proof. constructor; auto. exists []. rewrite app_nil_r. reflexivity. Qed.
Lemma frame_trans a b c : frame a b -> frame b c -> frame a c.
Proof.
  intros [A1 A2 A3 A4 A5 (l1 & A6)] [B1 B2 B3 B4 B5 (l2 & B6)]. constructor; [congruence|congruence|intros i; rewrite B3; apply A3|auto|auto|]. exists (l1 ++ l2). rewrite B6, A6, app_assoc. reflexivity.
Qed.
Lemma frame_frozen s : frame s (set_frozen s).
Proof. constructor; auto. exists []. simpl. rewrite app_nil_r. reflexivity. Qed.
Lemma frame_next s : frame s (set_next s).
Proof. constructor; auto. exists []. simpl. rewrite app_nil_r. reflexivity. Qed.
Lemma frame_log e s : frame s (add_log e s).
Proof. constructor; auto. exists [e]. reflexivity. Qed.
Lemma frame_stuck s : frame s (set_stuck s).
Proof. constructor; auto. exists []. simpl. rewrite app_nil_r. reflexivity. Qed.
Lemma frame_call r s s' : incall s r = false -> frame (set_incall r true s) s' -> frame s (set_incall r false s').
Proof.
  intros N [A1 A2 A3 A4 A5 A6]. constructor; auto. intros i. simpl. unfold upd. destruct (Nat.eqb_spec i r) as [->|Ne]; [auto|]. rewrite A3. simpl. unfold upd. destruct (Nat.eqb_spec i r); [contradiction|reflexivity].
Qed.
Lemma frame_same s s' : frame s s' -> regs s' = regs s /\ colls s' = colls s.
Proof. intros [A B _ _ _ _]. auto. Qed.
Lemma frame_obj r o s s' : objs s r = None -> frame s s' -> frame s (set_obj r o s').
Proof. intros N [A1 A2 A3 A4 A5 A6]. constructor; auto. intros i o' H. simpl. unfold upd. destruct (Nat.eqb_spec i r) as [->|]; [congruence|apply A5, H]. Qed.
Lemma get_frame fuel : forall q r s, frame s (snd (get_instance fuel q r s)).
Proof.
  induction fuel as [|fuel IH]; intros q r s; cbn [Dep_Model.get_instance]; destruct (objs s (rid r)) as [o|] eqn:O; try apply frame_log; destruct (incall s (rid r)) eqn:C; try apply frame_refl; [apply frame_stuck|].
  pose proof (rel_run (get_instance fuel) frame frame_refl frame_trans frame_frozen frame_next frame_same (fun q r s _ => IH q r s) (provider r) (set_incall (rid r) true s)) as F.
  destruct (run (get_instance fuel) (provider r) (set_incall (rid r) true s)) as [[o|e] s']; simpl in F.
  - cbv zeta. simpl snd. eapply frame_trans; [|apply frame_log]. destruct (singleton r); [apply frame_obj; [exact O|]|]; (eapply frame_trans; [|apply frame_log]; apply frame_call; assumption).
  - destruct e; apply frame_call; assumption.
Qed.
Lemma run_frame fuel p s : frame s (snd (run (get_instance fuel) p s)).
Proof. apply rel_run; auto using frame_refl, frame_frozen, frame_next, frame_same, get_frame. apply frame_trans. Qed.

(** ** The depth of calls *)
Definition all_regs (s : state) : list reg := map snd (regs s) ++ map snd (colls s).
Definition free (s : state) : nat := length (filter (fun r => negb (incall s (rid r))) (all_regs s)).
Lemma listed_all s q r : listed s q r -> In r (all_regs s).
Proof. intros [I|I]; apply in_or_app; [left|right]; apply (in_map snd _ (q, r)), I. Qed.
Lemma all_listed s r : In r (all_regs s) -> exists q, listed s q r.
Proof. intros I. apply in_app_or in I. destruct I as [I|I]; apply in_map_iff in I; destruct I as ([q r'] & <- & I); exists q; [left|right]; exact I. Qed.
Lemma filter_ext_len {A} (f g : A -> bool) l : (forall x, f x = g x) -> filter f l = filter g l.
Proof. intros E. induction l as [|x l IH]; simpl; [reflexivity|]. rewrite E, IH. reflexivity. Qed.
Lemma free_frame s s' : frame s s' -> free s' = free s.
Proof. intros [A1 A2 A3 _ _ _]. unfold free, all_regs. rewrite A1, A2. f_equal. apply filter_ext_len. intros r. rewrite A3. reflexivity. Qed.
Lemma filter_lt {A} (f g : A -> bool) l x : (forall y, g y = true -> f y = true) -> In x l -> f x = true -> g x = false -> length (filter g l) < length (filter f l).
Proof.
  intros M. assert (Le : forall l, length (filter g l) <= length (filter f l)). { clear l. induction l as [|y l IH]; simpl; [lia|]. destruct (g y) eqn:G; [rewrite (M y G); simpl; lia|]. destruct (f y); simpl; lia. }
  induction l as [|y l IH]; intros I F G; [destruct I|]. destruct I as [->|I]; simpl.
  - rewrite F, G. simpl. specialize (Le l). lia.
  - specialize (IH I F G). destruct (g y) eqn:Gy; [rewrite (M y Gy); simpl; lia|]. destruct (f y); simpl; lia.
Qed.
Lemma free_call s q r : listed s q r -> incall s (rid r) = false -> free (set_incall (rid r) true s) < free s.
Proof.
  intros L N. apply listed_all in L. unfold free. change (all_regs (set_incall (rid r) true s)) with (all_regs s). eapply filter_lt; [|exact L| |].
  - intros y H. simpl in H. unfold upd in H. destruct (Nat.eqb (rid y) (rid r)); [discriminate|exact H].
  - rewrite N. reflexivity.
  - simpl. unfold upd. rewrite Nat.eqb_refl. reflexivity.
Qed.
Definition unstuck (fuel : nat) (s s' : state) : Prop := frame s s' /\ (free s <= fuel -> stuck s = false -> stuck s' = false).
Lemma unstuck_trans fuel a b c : unstuck fuel a b -> unstuck fuel b c -> unstuck fuel a c.
Proof. intros [A1 A2] [B1 B2]. split; [eapply frame_trans; eassumption|]. intros F S. apply B2; [rewrite (free_frame a b A1); exact F|auto]. Qed.
Lemma get_unstuck fuel : forall q r s, listed s q r -> unstuck fuel s (snd (get_instance fuel q r s)).
Proof.
  induction fuel as [|fuel IH]; intros q r s L; (split; [apply get_frame|]); intros F S; cbn [Dep_Model.get_instance]; destruct (objs s (rid r)) as [o|] eqn:O; try exact S; destruct (incall s (rid r)) eqn:C; try exact S.
  - pose proof (free_call s q r L C). lia.
  - pose proof (free_call s q r L C) as Fr.
    assert (X : unstuck fuel (set_incall (rid r) true s) (snd (run (get_instance fuel) (provider r) (set_incall (rid r) true s)))).
    { apply rel_run; try (intros; split; [first [apply frame_refl|apply frame_frozen|apply frame_next]|auto]; fail).
      - apply unstuck_trans.
      - intros a b [E _]. apply frame_same, E.
      - exact IH. }
    destruct X as [_ X]. specialize (X ltac:(lia) S). destruct (run (get_instance fuel) (provider r) (set_incall (rid r) true s)) as [[o|e] s']; simpl in X.
    + cbv zeta. destruct (singleton r); exact X.
    + destruct e; exact X.
Qed.
Lemma run_unstuck fuel p s : free s <= fuel -> stuck s = false -> stuck (snd (run (get_instance fuel) p s)) = false.
Proof.
  intros F S. assert (X : unstuck fuel s (snd (run (get_instance fuel) p s))).
  { apply rel_run; try (intros; split; [first [apply frame_refl|apply frame_frozen|apply frame_next]|auto]; fail).
    - apply unstuck_trans.
    - intros a b [E _]. apply frame_same, E.
    - apply get_unstuck. }
  apply X; assumption.
Qed.

(** ** Reachable states *)
Record good (s : state) : Prop := {
  g_unique : forall q r q' r', listed s q r -> listed s q' r' -> rid r = rid r' -> q = q' /\ r = r';
  g_bound : forall q r, listed s q r -> rid r < length (regs s) + length (colls s);
  g_disjoint : forall q r q' r', In (q, r) (regs s) -> In (q', r') (colls s) -> rid r <> rid r';
  g_names : NoDup (map fst (regs s));
  g_incall : forall i, incall s i = false;
  g_stuck : stuck s = false;
  g_fresh : frozen s = false -> (forall i, objs s i = None) /\ log s = [] }.
Lemma good_init : good init.
Proof. constructor; simpl; auto; try (intros; destruct H; contradiction); try (intros ? ? ? ? [[]|[]]). constructor. Qed.
Lemma frozen_set get p : forall s, frozen s = false -> frozen (snd (run get p s)) = false -> (forall q r s, frozen s = true -> frozen (snd (get q r s)) = true) -> objs (snd (run get p s)) = objs s /\ log (snd (run get p s)) = log s.
Proof.
  intros s F F' G.
  assert (K : forall p s, frozen s = true -> frozen (snd (run get p s)) = true).
  { clear - G. assert (I : forall q l s, frozen s = true -> frozen (snd (iterate get q l s)) = true).
    { intros q l. induction l as [|r l IH]; intros s F; [exact F|]. cbn [iterate]. pose proof (G q r s F) as X. destruct (get q r s) as [[o|e] s']; [|exact X]. specialize (IH s' X). destruct (iterate get q l s') as [[]]; exact IH. }
    assert (R : forall q s, frozen (snd (resolve get q s)) = true).
    { intros q s. unfold resolve. destruct (find_reg q (set_frozen s)) as [r|]; [|reflexivity]. pose proof (G q r (set_frozen s) eq_refl) as X. destruct (get q r (set_frozen s)) as [[[o|]|e] s']; exact X. }
    induction p as [o|e|c a k IH|q k IH|q k IH|q k IH]; intros s F; cbn [run]; try exact F.
    - apply IH, F.
    - pose proof (R q s) as X. destruct (resolve get q s) as [x s']. apply IH, X.
    - unfold maybe_resolve. pose proof (R q s) as X. destruct (resolve get q s) as [[o|e] s']; [apply IH, X|]. destruct e; try (apply IH, X). destruct (name_eqb q0 q); apply IH, X.
    - unfold resolve_all. pose proof (I q (find_all q (set_frozen s)) (set_frozen s) eq_refl) as X. destruct (iterate get q _ _) as [x s']. apply IH, X. }
  revert s F F'. induction p as [o|e|c a k IH|q k IH|q k IH|q k IH]; intros s F F'; cbn [run] in *; auto.
  - destruct (IH (Obj (next s) c a) (set_next s) F F') as [-> ->]. auto.
  - exfalso. unfold resolve in F'. destruct (find_reg q (set_frozen s)) as [r|]; [|rewrite K in F' by reflexivity; discriminate]. pose proof (G q r (set_frozen s) eq_refl) as X. destruct (get q r (set_frozen s)) as [[[o|]|e] s']; rewrite K in F' by exact X; discriminate.
  - exfalso. unfold maybe_resolve, resolve in F'. destruct (find_reg q (set_frozen s)) as [r|].
    + pose proof (G q r (set_frozen s) eq_refl) as X. destruct (get q r (set_frozen s)) as [[[o|]|e] s']; [rewrite K in F' by exact X; discriminate| |].
      * destruct (name_eqb q q); rewrite K in F' by exact X; discriminate.
      * destruct e; try (rewrite K in F' by exact X; discriminate). destruct (name_eqb q0 q); rewrite K in F' by exact X; discriminate.
    + destruct (name_eqb q q); rewrite K in F' by reflexivity; discriminate.
  - exfalso. unfold resolve_all in F'. assert (X : frozen (snd (iterate get q (find_all q (set_frozen s)) (set_frozen s))) = true).
    { generalize (find_all q (set_frozen s)) as l. intros l. assert (Y : frozen (set_frozen s) = true) by reflexivity. revert Y. generalize (set_frozen s). clear - G. induction l as [|r l IH]; intros s F; [exact F|]. cbn [iterate]. pose proof (G q r s F) as X. destruct (get q r s) as [[o|e] s']; [|exact X]. specialize (IH s' X). destruct (iterate get q l s') as [[]]; exact IH. }
    destruct (iterate get q _ _) as [x s']. rewrite K in F' by exact X. discriminate.
Qed.
Lemma filter_length_le {A} (f : A -> bool) l : length (filter f l) <= length l.
Proof. induction l as [|x l IH]; simpl; [lia|]. destruct (f x); simpl; lia. Qed.
Lemma free_le s : free s <= length (regs s) + length (colls s).
Proof. unfold free, all_regs. etransitivity; [apply filter_length_le|]. rewrite app_length, !map_length. lia. Qed.
Lemma good_client p s : good s -> good (snd (client p s)).
Proof.
  intros [G1 G2 Gd G3 G4 G5 G6]. pose proof (run_frame (length (regs s) + length (colls s)) p s) as F. unfold Dep_Model.client. set (s' := snd _) in *.
  assert (L : forall q r, listed s' q r <-> listed s q r) by (intros q r; unfold listed; rewrite (f_regs _ _ F), (f_colls _ _ F); reflexivity).
  constructor.
  - intros q r q' r' A B. apply L in A. apply L in B. eauto.
  - intros q r A. apply L in A. rewrite (f_regs _ _ F), (f_colls _ _ F). eauto.
  - rewrite (f_regs _ _ F), (f_colls _ _ F). exact Gd.
  - rewrite (f_regs _ _ F). exact G3.
  - intros i. rewrite (f_incall _ _ F). apply G4.
  - apply run_unstuck; [apply free_le|exact G5].
  - intros Z. assert (Z0 : frozen s = false) by (destruct (frozen s) eqn:E; [rewrite (f_frozen _ _ F E) in Z; discriminate|reflexivity]).
    destruct (frozen_set (get_instance (length (regs s) + length (colls s))) p s Z0 Z) as [E1 E2]; [intros q r t; apply f_frozen, get_frame|]. fold s' in E1, E2. rewrite E1, E2. apply G6, Z0.
Qed.
Lemma good_step s o : good s -> good (step sub s o).
Proof.
  intros G. destruct o as [q p b|q p b|p]; cbn [step]; [| |apply good_client, G].
  - unfold register. destruct (frozen s) eqn:Fz; [exact G|]. destruct (existsb _ _) eqn:Ex; [exact G|]. destruct G as [G1 G2 Gd G3 G4 G5 G6].
    assert (L : forall q' r, listed (State (regs s ++ [(q, Reg (length (regs s) + length (colls s)) p b)]) (colls s) false (objs s) (incall s) (next s) (log s) (stuck s)) q' r -> listed s q' r \/ (q' = q /\ r = Reg (length (regs s) + length (colls s)) p b)).
    { intros q' r [I|I]; simpl in I; [|left; right; exact I]. apply in_app_or in I. destruct I as [I|[I|[]]]; [left; left; exact I|right]. injection I as <- <-. auto. }
    constructor; simpl; auto.
    + intros q1 r1 q2 r2 A B E. apply L in A. apply L in B. destruct A as [A|(-> & ->)], B as [B|(-> & ->)]; [eauto| | |auto].
      * apply G2 in A. simpl in E. lia.
      * apply G2 in B. simpl in E. lia.
    + intros q1 r1 A. apply L in A. rewrite app_length. simpl. destruct A as [A|(-> & ->)]; [apply G2 in A; lia|simpl; lia].
    + intros q1 r1 q2 r2 A B E. apply in_app_or in A. destruct A as [A|[A|[]]]; [exact (Gd _ _ _ _ A B E)|]. injection A as <- <-. apply (or_intror (A := In (q2, r2) (regs s))), G2 in B. simpl in E. lia.
    + rewrite map_app. simpl. apply NoDup_rev in G3. rewrite <- (rev_involutive (map fst (regs s) ++ [q])). apply NoDup_rev. rewrite rev_app_distr. simpl. constructor; [|exact G3]. rewrite <- in_rev. intros I. apply in_map_iff in I. destruct I as ([q' r'] & E & I). simpl in E. subst q'.
      assert (existsb (fun x => name_eqb (fst x) q) (regs s) = true) by (apply existsb_exists; exists (q, r'); split; [exact I|apply name_eqb_iff; reflexivity]). congruence.
  - unfold register_in_collection. destruct (frozen s) eqn:Fz; [exact G|]. destruct G as [G1 G2 Gd G3 G4 G5 G6].
    assert (L : forall q' r, listed (State (regs s) (colls s ++ [(q, Reg (length (regs s) + length (colls s)) p b)]) false (objs s) (incall s) (next s) (log s) (stuck s)) q' r -> listed s q' r \/ (q' = q /\ r = Reg (length (regs s) + length (colls s)) p b)).
    { intros q' r [I|I]; simpl in I; [left; left; exact I|]. apply in_app_or in I. destruct I as [I|[I|[]]]; [left; right; exact I|right]. injection I as <- <-. auto. }
    constructor; simpl; auto.
    + intros q1 r1 q2 r2 A B E. apply L in A. apply L in B. destruct A as [A|(-> & ->)], B as [B|(-> & ->)]; [eauto| | |auto].
      * apply G2 in A. simpl in E. lia.
      * apply G2 in B. simpl in E. lia.
    + intros q1 r1 A. apply L in A. rewrite app_length. simpl. destruct A as [A|(-> & ->)]; [apply G2 in A; lia|simpl; lia].
    + intros q1 r1 q2 r2 A B E. apply in_app_or in B. destruct B as [B|[B|[]]]; [exact (Gd _ _ _ _ A B E)|]. injection B as <- <-. apply (or_introl (B := In (q1, r1) (colls s))), G2 in A. simpl in E. lia.
Qed.
Lemma good_steps h : forall s, good s -> good (fold_left (step sub) h s).
Proof. induction h as [|o h IH]; intros s G; [exact G|]. simpl. apply IH, good_step, G. Qed.
Lemma reachable_good s : reachable sub s -> good s.
Proof. intros (h & ->). apply good_steps, good_init. Qed.
End P.
