(** Theorems about the dependency container. *)
From Coq Require Import List Arith Bool Lia.
From Verif Require Import Dep_Model Dep_Spec Dep_Proofs Dep_Proofs2.
Import ListNotations.

(** C49: whatever is registered and asked for, the calls of providers are never nested deeper than the number of registrations:
    nothing loops forever. *)
Theorem C49_ends : forall sub s p, reachable sub s -> stuck (snd (client sub p s)) = false.
Proof. intros sub s p R. apply reachable_good in R. apply g_stuck, good_client, R. Qed.
Print Assumptions C49_ends.

(** C49: the provider of a singleton returns at most once, and everyone, client or provider, gets what it returned. *)
Theorem C49_singleton : forall sub s q r, reachable sub s -> listed s q r -> singleton r = true ->
  (created (rid r) (log s) = [] /\ got (rid r) (log s) = []) \/ exists o, created (rid r) (log s) = [o] /\ Forall (fun x => x = o) (got (rid r) (log s)).
Proof. intros sub s q r R L S. pose proof (reachable_singles sub s R q r L S) as X. unfold single in X. destruct (objs s (rid r)); eauto. Qed.
Print Assumptions C49_singleton.
(** C49: the provider of any other registration is called for every request: what it returned is what was given, each once. *)
Definition fresh (s : state) : Prop := forall q r, listed s q r -> singleton r = false -> objs s (rid r) = None /\ created (rid r) (log s) = got (rid r) (log s).
Lemma get_fresh sub fuel : forall q r s, listed s q r -> frame s (snd (get_instance sub fuel q r s)) /\ (uniq s -> fresh s -> fresh (snd (get_instance sub fuel q r s))).
Proof.
  induction fuel as [|fuel IH]; intros q r s L; (split; [apply get_frame|]); intros U Fr; cbn [get_instance]; destruct (objs s (rid r)) as [o|] eqn:O.
  1, 3: (intros q' r' L' B; destruct (Fr q' r' L' B) as [X Y]; split; [exact X|]; simpl; rewrite created_app, got_app; simpl; rewrite app_nil_r; destruct (Nat.eqb_spec (rid r) (rid r')) as [E|E]; [congruence|rewrite app_nil_r; exact Y]).
  all: destruct (incall s (rid r)) eqn:C; try exact Fr.
  set (s0 := set_incall (rid r) true s).
  assert (K : frame s0 (snd (run (get_instance sub fuel) (provider r) s0)) /\ (uniq s0 -> fresh s0 -> fresh (snd (run (get_instance sub fuel) (provider r) s0)))).
  { apply (rel_run (get_instance sub fuel) (fun s s' => frame s s' /\ (uniq s -> fresh s -> fresh s'))).
    - intros t. split; [apply frame_refl|auto].
    - intros a b c [F1 G1] [F2 G2]. split; [eapply frame_trans; eassumption|]. intros Ua Fa. apply G2; [eapply uniq_frame; eassumption|auto].
    - intros t. split; [apply frame_frozen|auto].
    - intros t. split; [apply frame_next|auto].
    - intros a b [F _]. apply frame_same, F.
    - exact IH. }
  destruct K as [F K]. specialize (K U Fr). destruct (run (get_instance sub fuel) (provider r) s0) as [[o|e] s'] eqn:R; simpl in K, F; [|destruct e; exact K].
  intros q' r' L' B. assert (L2 : listed s' q' r') by (revert L'; cbv zeta; destruct (singleton r); auto). destruct (K q' r' L2 B) as [X Y].
  assert (Lr : listed s' q r) by (apply (listed_frame _ _ _ _ F); exact L).
  cbv zeta. destruct (Nat.eqb_spec (rid r) (rid r')) as [E|E].
  - destruct (uniq_frame s0 s' F U q r q' r' Lr L2 E) as [<- <-]. rewrite B. split; [exact X|]. simpl. rewrite !created_app, !got_app. simpl. rewrite Nat.eqb_refl, Y. simpl. rewrite !app_nil_r. reflexivity.
  - destruct (singleton r); simpl; unfold upd; (destruct (Nat.eqb_spec (rid r') (rid r)); [congruence|]) || idtac; rewrite !created_app, !got_app; simpl; (destruct (Nat.eqb_spec (rid r) (rid r')); [contradiction|]); rewrite !app_nil_r; auto.
Qed.
Theorem C49_transient : forall sub s q r, reachable sub s -> listed s q r -> singleton r = false -> created (rid r) (log s) = got (rid r) (log s).
Proof.
  intros sub s q r (h & ->) L B. enough (X : forall h s, good s -> fresh s -> fresh (fold_left (step sub) h s)).
  { apply (X h init good_init) in L; [apply L, B|]. intros q' r' [[]|[]]. }
  clear. induction h as [|x h IH]; intros s G Fr; [exact Fr|]. cbn [fold_left]. apply IH; [apply good_step, G|]. destruct x as [q p b|q p b|p]; cbn [step].
  - unfold register. destruct (frozen s) eqn:Fz; [exact Fr|]. destruct (existsb _ _); [exact Fr|]. destruct (g_fresh _ G Fz) as [G1 G2]. intros q' r' _ _. simpl. rewrite G1, G2. auto.
  - unfold register_in_collection. destruct (frozen s) eqn:Fz; [exact Fr|]. destruct (g_fresh _ G Fz) as [G1 G2]. intros q' r' _ _. simpl. rewrite G1, G2. auto.
  - unfold client. set (fuel := length (regs s) + length (colls s)).
    apply (rel_run (get_instance sub fuel) (fun s s' => frame s s' /\ (uniq s -> fresh s -> fresh s'))); [| | | | |apply get_fresh|exact (g_unique _ G)|exact Fr].
    + intros t. split; [apply frame_refl|auto].
    + intros a b c [F1 G1] [F2 G2]. split; [eapply frame_trans; eassumption|]. intros Ua Fa. apply G2; [eapply uniq_frame; eassumption|auto].
    + intros t. split; [apply frame_frozen|auto].
    + intros t. split; [apply frame_next|auto].
    + intros a b [F _]. apply frame_same, F.
Qed.
Print Assumptions C49_transient.
(** C49: what a client gets is what [got] says. *)
Theorem C49_got : forall sub s q o s', reachable sub s -> client sub (get_one q) s = (Ok (Some o), s') -> exists r, In (q, r) (regs s) /\ In (Some o) (got (rid r) (log s')) /\ sub (ocls o) (fst q) = true.
Proof.
  intros sub s q o s' R H. unfold client, get_one in H. cbn [run] in H. unfold resolve in H. destruct (find_reg q (set_frozen s)) as [r|] eqn:E; [|discriminate]. apply find_reg_in in E. exists r. split; [exact E|].
  pose proof (get_got sub (length (regs s) + length (colls s)) q r (set_frozen s)) as G. pose proof (get_class sub (length (regs s) + length (colls s)) q r (set_frozen s)) as C. destruct (get_instance sub _ q r (set_frozen s)) as [[[x|]|e] s1]; try discriminate. injection H as <- <-. split; [apply G; reflexivity|apply C; reflexivity].
Qed.
Print Assumptions C49_got.
(** C49: once a singleton was resolved, it resolves to the same object forever. *)
Theorem C49_same : forall sub s q r o s' h, reachable sub s -> In (q, r) (regs s) -> singleton r = true -> client sub (get_one q) s = (Ok (Some o), s') ->
  fst (client sub (get_one q) (fold_left (step sub) h s')) = Ok (Some o).
Proof.
  intros sub s q r o s' h R I S H.
  assert (G : good s) by (apply (reachable_good sub), R).
  assert (R' : reachable sub s') by (destruct R as (h0 & ->); exists (h0 ++ [ORun (get_one q)]); rewrite fold_left_app; cbn [fold_left step]; rewrite H; reflexivity).
  destruct (C49_got sub s q o s' R H) as (r' & I' & Gt & Cl). assert (r' = r).
  { pose proof (g_names _ G) as N. clear - N I I'. induction (regs s) as [|[k v] l IH]; [destruct I|]. cbn [map fst] in N. inversion N as [|? ? N1 N2]; subst. destruct I as [I|I], I' as [I'|I']; [congruence| | |auto].
    - injection I as -> ->. destruct N1. apply (in_map fst _ (q, r')), I'.
    - injection I' as -> ->. destruct N1. apply (in_map fst _ (q, r)), I. }
  subst r'. pose proof (run_frame sub (length (regs s) + length (colls s)) (get_one q) s) as F. fold (client sub (get_one q) s) in F. rewrite H in F. simpl in F.
  assert (L' : In (q, r) (regs s')) by (rewrite (f_regs _ _ F); exact I).
  assert (O : objs s' (rid r) = Some (Some o)).
  { pose proof (reachable_singles sub s' R' q r (or_introl L') S) as X. unfold single in X. destruct (objs s' (rid r)) as [x|]; destruct X as [_ X]; [rewrite Forall_forall in X; rewrite (X _ Gt); reflexivity|rewrite X in Gt; destruct Gt]. }
  assert (Fz : frozen s' = true).
  { destruct (frozen s') eqn:E; [reflexivity|]. destruct (g_fresh _ (reachable_good sub s' R') E) as [Y _]. rewrite Y in O. discriminate. }
  assert (Keep : forall h s, frozen s = true -> NoDup (map fst (regs s)) -> In (q, r) (regs s) -> objs s (rid r) = Some (Some o) -> let t := fold_left (step sub) h s in frozen t = true /\ NoDup (map fst (regs t)) /\ In (q, r) (regs t) /\ objs t (rid r) = Some (Some o)).
  { clear. induction h as [|x h IH]; intros s A N B C; [auto|]. cbn [fold_left]. apply IH; destruct x as [q' p b|q' p b|p]; cbn [step]; try (unfold register; rewrite A; assumption); try (unfold register_in_collection; rewrite A; assumption); pose proof (run_frame sub (length (regs s) + length (colls s)) p s) as F; unfold client.
    - apply (f_frozen _ _ F A).
    - rewrite (f_regs _ _ F). exact N.
    - rewrite (f_regs _ _ F). exact B.
    - apply (f_objs _ _ F), C. }
  assert (N' : NoDup (map fst (regs s'))) by (rewrite (f_regs _ _ F); apply (g_names _ G)).
  destruct (Keep h s' Fz N' L' O) as (_ & Nt & It & Ot). set (t := fold_left (step sub) h s') in *. unfold client, get_one. cbn [run]. unfold resolve.
  destruct (find_reg q (set_frozen t)) as [r'|] eqn:E; [|exfalso; exact (proj1 (find_reg_none q (set_frozen t)) E r It)]. apply find_reg_in in E. simpl in E.
  assert (r' = r). { clear - Nt It E. induction (regs t) as [|[k v] l IH]; [destruct It|]. cbn [map fst] in Nt. inversion Nt as [|? ? N1 N2]; subst. destruct It as [I|I], E as [I'|I']; [congruence| | |auto].
    - injection I as -> ->. destruct N1. apply (in_map fst _ (q, r')), I'.
    - injection I' as -> ->. destruct N1. apply (in_map fst _ (q, r)), I. }
  subst r'. destruct (length (regs t) + length (colls t)); cbn [get_instance]; simpl objs; rewrite Ot; unfold check; rewrite Cl; reflexivity.
Qed.
Print Assumptions C49_same.

(** C49: what is registered resolves, unless a provider depends on itself, on something missing, or does not do its job. *)
Theorem C49_resolves : forall sub s rank crank q r, reachable sub s -> well_built sub s rank crank -> In (q, r) (regs s) ->
  exists o s', client sub (get_one q) s = (Ok (Some o), s') /\ sub (ocls o) (fst q) = true.
Proof.
  intros sub s rank crank q r R W I. pose proof (reachable_good sub s R) as G. pose proof (reachable_typed sub rank crank s R W) as T. unfold client, get_one. cbn [run]. set (fuel := length (regs s) + length (colls s)).
  assert (K : okp sub rank crank (S (rank q)) fuel s).
  { split; [exact W|]. split; [exact (g_unique _ G)|]. split; [exact T|]. split; [apply free_le|]. split; [exact (g_disjoint _ G)|]. split; intros; apply (g_incall _ G). }
  destruct (del_resolve sub rank crank (S (rank q)) fuel (get_instance sub fuel) (get_frame sub fuel) (get_delivers sub rank crank fuel (S (rank q))) q s K (ex_intro _ r I) ltac:(lia)) as (o & s' & E & Cl & _ & _).
  rewrite E. exists o, s'. split; [reflexivity|exact Cl].
Qed.
Print Assumptions C49_resolves.
(** C49: if every name in [S] is not registered or needs another name in [S] -- it depends on itself or on something missing --
    then none of them ever resolves: there is an error. *)
Theorem C49_unsatisfiable : forall sub s (S : name -> Prop) q, reachable sub s -> (forall q r, S q -> In (q, r) (regs s) -> strict (provider r) /\ needs S (provider r)) -> S q ->
  exists e, fst (client sub (get_one q) s) = Err e.
Proof.
  intros sub s S q R D H. pose proof (reachable_good sub s R) as G. pose proof (never_reachable sub S s R D) as N. unfold client, get_one. cbn [run]. set (fuel := length (regs s) + length (colls s)).
  destruct (doomed_resolve S (get_instance sub fuel) (fun q r s D U N Sq I => proj2 (get_doomed sub S fuel q r s D U N (or_introl I)) Sq I) q s D (g_unique _ G) N H) as (e & E).
  destruct (resolve (get_instance sub fuel) q s) as [x s']. simpl in E. subst x. simpl. eauto.
Qed.
Print Assumptions C49_unsatisfiable.
(** C49: a reported cycle is one: each name is asked for by a provider of the one before, and the last occurs before. *)
Theorem C49_cycle : forall sub s q l, reachable sub s -> (forall q r, listed s q r -> strict (provider r)) -> fst (client sub (get_one q) s) = Err (Cycle l) ->
  (exists l', l = q :: l') /\ chain s l /\ exists l1 x l2, l = l1 ++ x :: l2 ++ [x].
Proof.
  intros sub s q l R A H. pose proof (reachable_good sub s R) as G. unfold client, get_one in H. cbn [run] in H. set (fuel := length (regs s) + length (colls s)) in H.
  pose proof (traced_resolve (get_instance sub fuel) (get_traced sub fuel) q s l A (g_unique _ G)) as T. destruct (resolve (get_instance sub fuel) q s) as [[o|e] s']; [discriminate|]. simpl in H. injection H as ->. destruct (T eq_refl) as (T1 & T2 & T3). split; [exact T1|]. split; [exact T2|].
  destruct T3 as [T3|(l1 & q' & r' & _ & _ & C)]; [exact T3|]. rewrite (g_incall _ G) in C. discriminate.
Qed.
Print Assumptions C49_cycle.
(** C49: maybe_resolve() gives None only if nothing is registered or its provider gave None; a missing dependency of the provider is
    an error. *)
Theorem C49_maybe : forall sub s q s', reachable sub s -> (forall q r, listed s q r -> strict (provider r)) -> client sub (maybe_one q) s = (Ok None, s') ->
  (forall r, ~ In (q, r) (regs s)) \/ exists r, In (q, r) (regs s) /\ In None (got (rid r) (log s')).
Proof.
  intros sub s q s' R A H. pose proof (reachable_good sub s R) as G. unfold client, maybe_one in H. cbn [run] in H. set (fuel := length (regs s) + length (colls s)) in H. unfold maybe_resolve, resolve in H.
  destruct (find_reg q (set_frozen s)) as [r|] eqn:E; [|left; intros r I; apply (proj1 (find_reg_none q (set_frozen s)) E r I)]. pose proof E as Fi. apply find_reg_in in E. right. exists r. split; [exact E|].
  pose proof (get_got sub fuel q r (set_frozen s)) as Gt.
  assert (NF : fst (get_instance sub fuel q r (set_frozen s)) <> Err (NotFound q)).
  { destruct fuel as [|fuel]; cbn [get_instance]; simpl objs; destruct (objs s (rid r)) as [o|] eqn:O.
    1, 3: (unfold check; destruct o as [o|]; [destruct (sub (ocls o) (fst q))|]; discriminate).
    all: simpl incall; rewrite (g_incall _ G); try discriminate.
    set (s0 := set_incall (rid r) true (set_frozen s)).
    assert (B0 : busy s0 q) by (exists r; split; [exact Fi|]; split; [unfold s0; simpl; unfold upd; rewrite Nat.eqb_refl; reflexivity|exact O]).
    pose proof (nf_run (get_instance sub fuel) (get_keeps sub fuel) (get_not_found sub fuel) (fun q r s B F => match B with ex_intro _ r' (conj B1 (conj B2 B3)) => ltac:(rewrite F in B1; injection B1 as <-; destruct fuel; cbn [Dep_Model.get_instance]; rewrite B3, B2; simpl; eauto) end) q (provider r) (A q r (or_introl E)) s0 A (g_unique _ G) B0) as X.
    destruct (run (get_instance sub fuel) (provider r) s0) as [[o|e] t]; [cbv zeta; unfold check; simpl; destruct o as [o|]; [destruct (sub (ocls o) (fst q))|]; discriminate|]. destruct e; try discriminate. simpl in *. exact X. }
  destruct (get_instance sub fuel q r (set_frozen s)) as [[[x|]|e] s1]; simpl in *; [discriminate| |].
  - assert (Y : name_eqb q q = true) by (apply name_eqb_iff; reflexivity). rewrite Y in H. injection H as <-. apply Gt. reflexivity.
  - exfalso. destruct e as [q1| | | |]; try discriminate. destruct (name_eqb q1 q) eqn:Y; [|discriminate]. apply name_eqb_iff in Y. subst q1. apply NF. reflexivity.
Qed.
Print Assumptions C49_maybe.
(** C49: a collection has the objects of its providers in the order of registration, without those that gave None. *)
Theorem C49_collection : forall sub s q os s', reachable sub s -> resolve_all (get_instance sub (length (regs s) + length (colls s))) q s = (Ok os, s') ->
  exists xs, Forall2 (fun r x => In x (got (rid r) (log s'))) (map snd (filter (fun p => name_eqb (fst p) q) (colls s))) xs /\ os = flat_map (fun x => match x with Some o => [o] | None => [] end) xs /\ Forall (fun o => sub (ocls o) (fst q) = true) os.
Proof.
  intros sub s q os s' _. unfold resolve_all. change (find_all q (set_frozen s)) with (map snd (filter (fun p => name_eqb (fst p) q) (colls s))). generalize (map snd (filter (fun p => name_eqb (fst p) q) (colls s))) as l. generalize (length (regs s) + length (colls s)) as fuel. generalize (set_frozen s) as t.
  intros t fuel l. revert t os. induction l as [|r l IH]; intros t os H; cbn [iterate] in H; [injection H as <- <-; exists []; auto|].
  pose proof (get_got sub fuel q r t) as Gt. pose proof (get_class sub fuel q r t) as Gc. destruct (get_instance sub fuel q r t) as [[x|e] t1]; [|discriminate]. destruct (iterate (get_instance sub fuel) q l t1) as [[os1|e] t2] eqn:E; [|discriminate]. injection H as <- <-.
  destruct (IH t1 os1 E) as (xs & F & -> & C). exists (x :: xs). split; [constructor; [|exact F]|split].
  - assert (Fr : frame t1 (snd (iterate (get_instance sub fuel) q l t1))).
    { clear. revert t1. induction l as [|r l IH]; intros t; [apply frame_refl|]. cbn [iterate]. pose proof (get_frame sub fuel q r t) as F. destruct (get_instance sub fuel q r t) as [[x|e] t1]; [|exact F]. specialize (IH t1). destruct (iterate _ q l t1) as [[os|e] t2]; eapply frame_trans; eassumption. }
    rewrite E in Fr. simpl in Fr. destruct (f_log _ _ Fr) as (lg & ->). rewrite got_app. apply in_or_app. left. apply Gt. reflexivity.
  - destruct x; reflexivity.
  - destruct x as [o|]; [constructor; [apply Gc; reflexivity|exact C]|exact C].
Qed.
Print Assumptions C49_collection.

(** C49: registering after the first resolve is rejected, and so is registering a name twice; both change nothing. *)
Theorem C49_frozen : forall sub s q0 k p, reachable sub s -> (p = PResolve q0 k \/ (exists k', p = PMaybe q0 k') \/ (exists k', p = PAll q0 k')) -> forall h q p' b,
  let t := fold_left (step sub) h (snd (client sub p s)) in register q p' b t = None /\ register_in_collection q p' b t = None.
Proof.
  intros sub s q0 k p R P h q p' b t. assert (F : frozen (snd (client sub p s)) = true).
  { unfold client. set (fuel := length (regs s) + length (colls s)). assert (K : forall p s, frozen s = true -> frozen (snd (run (get_instance sub fuel) p s)) = true) by (intros p1 s1; apply f_frozen, run_frame).
    assert (Rs : frozen (snd (resolve (get_instance sub fuel) q0 s)) = true).
    { unfold resolve. destruct (find_reg q0 (set_frozen s)) as [r|]; [|reflexivity]. pose proof (f_frozen _ _ (get_frame sub fuel q0 r (set_frozen s)) eq_refl) as X. destruct (get_instance sub fuel q0 r (set_frozen s)) as [[[o|]|e] s']; exact X. }
    destruct P as [->|[(k' & ->)|(k' & ->)]]; cbn [run].
    - destruct (resolve (get_instance sub fuel) q0 s) as [x s']. apply K, Rs.
    - unfold maybe_resolve. destruct (resolve (get_instance sub fuel) q0 s) as [[o|e] s']; [apply K, Rs|]. destruct e; try (apply K, Rs). destruct (name_eqb q1 q0); apply K, Rs.
    - assert (X : frozen (snd (resolve_all (get_instance sub fuel) q0 s)) = true) by (apply (f_frozen (set_frozen s)); [|reflexivity]; unfold resolve_all; apply (rel_iterate (get_instance sub fuel) frame frame_refl frame_trans frame_same (fun q r s _ => get_frame sub fuel q r s)); intros r I; apply find_all_in, I).
      destruct (resolve_all (get_instance sub fuel) q0 s) as [x s']. apply K, X. }
  assert (Ft : frozen t = true). { unfold t. clear - F. revert F. generalize (snd (client sub p s)). induction h as [|o h IH]; intros s0 F; [exact F|]. cbn [fold_left]. apply IH. destruct o as [q' p' b|q' p' b|p']; cbn [step].
    - unfold register. rewrite F. exact F.
    - unfold register_in_collection. rewrite F. exact F.
    - apply (f_frozen s0); [apply run_frame|exact F]. }
  unfold register, register_in_collection. rewrite Ft. auto.
Qed.
Print Assumptions C49_frozen.
Theorem C49_register : forall s q p b, frozen s = false ->
  ((exists r, In (q, r) (regs s)) -> register q p b s = None) /\
  ((forall r, ~ In (q, r) (regs s)) -> exists s' r, register q p b s = Some s' /\ provider r = p /\ singleton r = b /\ regs s' = regs s ++ [(q, r)] /\ colls s' = colls s) /\
  (exists s' r, register_in_collection q p b s = Some s' /\ provider r = p /\ singleton r = b /\ colls s' = colls s ++ [(q, r)] /\ regs s' = regs s).
Proof.
  intros s q p b F. unfold register, register_in_collection. rewrite F. split; [|split].
  - intros (r & I). replace (existsb _ _) with true; [reflexivity|]. symmetry. apply existsb_exists. exists (q, r). split; [exact I|apply name_eqb_iff; reflexivity].
  - intros N. destruct (existsb _ _) eqn:E; [|eexists; eexists; repeat split; reflexivity]. apply existsb_exists in E. destruct E as ([q' r] & I & E). apply name_eqb_iff in E. simpl in E. subst. destruct (N r I).
  - eexists. eexists. repeat split; reflexivity.
Qed.
Print Assumptions C49_register.
(** C49: the keys of a class are those it was registered with, in that order and, for single objects, without repetition. *)
Theorem C49_keys : forall sub s c, reachable sub s -> NoDup (iter_keys c s) /\ (forall k, In k (iter_keys c s) <-> exists r, In ((c, k), r) (regs s)) /\ (forall k, In k (iter_coll_keys c s) <-> exists r, In ((c, k), r) (colls s)).
Proof.
  intros sub s c R. pose proof (g_names _ (reachable_good sub s R)) as N.
  assert (X : forall (l : list (name * reg)) k, In k (map (fun p => snd (fst p)) (filter (fun p => Nat.eqb (fst (fst p)) c) l)) <-> exists r, In ((c, k), r) l).
  { intros l k. rewrite in_map_iff. split.
    - intros ([[c' k'] r] & E & I). apply filter_In in I. destruct I as [I E']. apply Nat.eqb_eq in E'. simpl in *. subst. eauto.
    - intros (r & I). exists ((c, k), r). split; [reflexivity|]. apply filter_In. split; [exact I|apply Nat.eqb_refl]. }
  split; [|split; apply X]. unfold iter_keys. induction (regs s) as [|[[c' k] r] l IH]; [constructor|]. cbn [map fst] in N. inversion N as [|? ? N1 N2]; subst. simpl. destruct (Nat.eqb_spec c' c) as [->|]; [|apply IH, N2]. simpl. constructor; [|apply IH, N2].
  intros I. apply X in I. destruct I as (r' & I). apply N1. apply (in_map fst _ ((c, k), r')), I.
Qed.
Print Assumptions C49_keys.
(** The keys of a collection are repeated when several objects are registered under the same one. *)
Theorem C49_coll_keys_refuted : exists sub h c, ~ NoDup (iter_coll_keys c (fold_left (step sub) h init)).
Proof. exists Nat.eqb, [OCollect (0, None) (PRet None) false; OCollect (0, None) (PRet None) false], 0. simpl. intros H. inversion H as [|? ? N _]; subst. apply N. left. reflexivity. Qed.
Print Assumptions C49_coll_keys_refuted.

Lemma pop_spec n l : match pop n l with (Some v, l') => exists a b, l = a ++ (n, v) :: b /\ l' = a ++ b /\ ~ In n (map fst a) | (None, l') => l' = l /\ ~ In n (map fst l) end.
Proof.
  induction l as [|[k v] l IH]; simpl; [auto|]. destruct (Nat.eqb_spec k n) as [->|N]; [exists [], l; auto|]. destruct (pop n l) as [[w|] l'].
  - destruct IH as (a & b & -> & -> & Ni). exists ((k, v) :: a), b. split; [reflexivity|]. split; [reflexivity|]. simpl. intros [E|I]; contradiction.
  - destruct IH as [-> Ni]. split; [reflexivity|]. intros [E|I]; contradiction.
Qed.
Lemma frame_got s s' i x : frame s s' -> In x (got i (log s)) -> In x (got i (log s')).
Proof. intros F I. destruct (f_log _ _ F) as (l & ->). rewrite got_app. apply in_or_app. left. exact I. Qed.
Lemma frame_served s s' c o : frame s s' -> served s c o -> served s' c o.
Proof. intros F (r & I & G). exists r. rewrite (f_regs _ _ F). eauto using frame_got. Qed.
Lemma frame_absent s s' c : frame s s' -> absent s c -> absent s' c.
Proof. intros F [N|(r & I & G)]; [left|right; exists r]; rewrite (f_regs _ _ F); eauto using frame_got. Qed.
Lemma frame_members s s' c l : frame s s' -> members s c l -> members s' c l.
Proof. intros F (xs & A & B). exists xs. rewrite (f_colls _ _ F). split; [|exact B]. clear B. induction A as [|r x rs xs I A IH]; constructor; [eapply frame_got; eassumption|exact IH]. Qed.
Lemma frame_suits s s' t a : frame s s' -> suits s t a -> suits s' t a.
Proof. intros F S. destruct S; constructor; eauto using frame_served, frame_absent, frame_members. Qed.
(** C49: auto-wiring gives the constructor, for each parameter, the custom argument, or what its annotation says, or, if that is not
    there, its default; all custom arguments are used. *)
Theorem C49_wire : forall sub s c ps custom o s', reachable sub s -> (forall q r, listed s q r -> strict (provider r)) -> client sub (wire_object c ps custom) s = (Ok (Some o), s') -> ocls o = c /\ wired s' ps custom (oargs o).
Proof.
  intros sub s c ps custom o s' R A0 H. unfold wire_object in H.
  enough (X : ocls o = c /\ exists args, oargs o = [] ++ args /\ wired s' ps custom args) by (destruct X as (A & args & B & C); split; [exact A|rewrite B; exact C]).
  revert H. generalize (@nil (nat * arg)) as kw. revert custom s R A0.
  assert (Sz : forall s s', frame s s' -> length (regs s') + length (colls s') = length (regs s) + length (colls s)) by (intros t t' F; rewrite (f_regs _ _ F), (f_colls _ _ F); reflexivity).
  assert (RR : forall p s, reachable sub s -> reachable sub (snd (client sub p s))) by (intros p t (h & ->); exists (h ++ [ORun p]); rewrite fold_left_app; reflexivity).
  assert (RF : forall p s, frame s (snd (client sub p s))) by (intros p t; apply run_frame).
  assert (LL : forall s s' : state, frame s s' -> (forall q r, listed s q r -> strict (provider r)) -> forall q r, listed s' q r -> strict (provider r)) by (intros t t' F A q r; unfold listed; rewrite (f_regs _ _ F), (f_colls _ _ F); apply A).
  assert (CR : forall q k s, client sub (PResolve q k) s = let '(x, t) := resolve (get_instance sub (length (regs s) + length (colls s))) q s in run (get_instance sub (length (regs s) + length (colls s))) (k x) t) by reflexivity.
  (* a request followed by the rest is a request, then the rest *)
  assert (SR : forall q k s o s', client sub (PResolve q (fun r => next_arg r k)) s = (Ok o, s') -> exists a t, client sub (get_one q) s = (Ok (Some a), t) /\ client sub (k a) t = (Ok o, s')).
  { intros q k t o' t' E. unfold client, get_one in *. cbn [run] in *. pose proof (Sz t) as Z. pose proof (RF (get_one q) t) as F. unfold client, get_one in F. cbn [run] in F. destruct (resolve _ q t) as [[a|e] t1]; [|discriminate]. simpl in *. exists a, t1. split; [reflexivity|]. rewrite (Z _ F). exact E. }
  assert (SM : forall q k s o s', client sub (PMaybe q (fun r => next_arg r k)) s = (Ok o, s') -> exists a t, client sub (maybe_one q) s = (Ok a, t) /\ client sub (k a) t = (Ok o, s')).
  { intros q k t o' t' E. unfold client, maybe_one in *. cbn [run] in *. pose proof (Sz t) as Z. pose proof (RF (maybe_one q) t) as F. unfold client, maybe_one in F. cbn [run] in F. destruct (maybe_resolve _ q t) as [[a|e] t1]; [|discriminate]. simpl in *. exists a, t1. assert (F' : frame t t1) by (destruct a; exact F). split; [destruct a; reflexivity|]. rewrite (Z _ F'). exact E. }
  assert (SA : forall q k s o s', client sub (PAll q (fun r => next_arg r k)) s = (Ok o, s') -> exists a t, resolve_all (get_instance sub (length (regs s) + length (colls s))) q s = (Ok a, t) /\ t = snd (client sub (PAll q (fun _ => PRet None)) s) /\ client sub (k a) t = (Ok o, s')).
  { intros q k t o' t' E. unfold client in *. cbn [run] in *. pose proof (Sz t) as Z. pose proof (RF (PAll q (fun _ => PRet None)) t) as F. unfold client in F. cbn [run] in F. destruct (resolve_all _ q t) as [[a|e] t1]; [|discriminate]. simpl in *. exists a, t1. split; [reflexivity|]. split; [reflexivity|]. rewrite (Z _ F). exact E. }
  induction ps as [|p ps IH]; intros custom s R A0 kw H.
  - cbn [wire] in H. destruct custom; [|discriminate]. unfold client in H. cbn [run] in H. injection H as <- _. split; [reflexivity|]. exists []. split; [rewrite app_nil_r; reflexivity|constructor].
  - cbn [wire] in H. pose proof (pop_spec (pname p) custom) as P. destruct (pop (pname p) custom) as [[v|] custom'].
    + assert (T : pannot p <> TMissing) by (intros E; rewrite E in H; discriminate). assert (H' : client sub (wire c ps custom' (kw ++ [(pname p, ACustom v)])) s = (Ok (Some o), s')) by (destruct (pannot p); try exact H; congruence).
      destruct (IH _ _ R A0 _ H') as (A & args & B & W). split; [exact A|]. destruct P as (a & b & -> & -> & Ni). exists ((pname p, ACustom v) :: args). split; [rewrite B, <- app_assoc; reflexivity|]. apply wi_custom; assumption.
    + destruct P as [-> Ni].
      assert (Put : forall a t, reachable sub t -> frame s t -> suits t (pannot p) a -> client sub (wire c ps custom (kw ++ [(pname p, a)])) t = (Ok (Some o), s') -> ocls o = c /\ exists args, oargs o = kw ++ args /\ wired s' (p :: ps) custom args).
      { intros a t Rt Ft Su H'. destruct (IH _ _ Rt (LL _ _ Ft A0) _ H') as (A & args & B & W). split; [exact A|]. exists ((pname p, a) :: args). split; [rewrite B, <- app_assoc; reflexivity|]. apply wi_arg; [exact Ni| |exact W].
        pose proof (RF (wire c ps custom (kw ++ [(pname p, a)])) t) as F. rewrite H' in F. eapply frame_suits; [exact F|exact Su]. }
      assert (Skip : forall t, reachable sub t -> frame s t -> (exists c, pannot p = TClass c /\ absent t c) \/ pannot p = TOther -> pdefault p = true -> client sub (wire c ps custom kw) t = (Ok (Some o), s') -> ocls o = c /\ exists args, oargs o = kw ++ args /\ wired s' (p :: ps) custom args).
      { intros t Rt Ft Ta D H'. destruct (IH _ _ Rt (LL _ _ Ft A0) _ H') as (A & args & B & W). split; [exact A|]. exists args. split; [exact B|]. apply wi_default; [exact Ni|exact D| |exact W].
        pose proof (RF (wire c ps custom kw) t) as F. rewrite H' in F. simpl in F. destruct Ta as [(e & -> & Ab)|E]; [left; exists e; split; [reflexivity|eapply frame_absent; eassumption]|right; exact E]. }
      assert (One : forall e a t, client sub (get_one (e, None)) s = (Ok (Some a), t) -> reachable sub t /\ frame s t /\ served t e a).
      { intros e a t E. pose proof (RR (get_one (e, None)) s R) as R1. pose proof (RF (get_one (e, None)) s) as F1. rewrite E in R1, F1. simpl in R1, F1. split; [exact R1|]. split; [exact F1|]. destruct (C49_got sub s _ a t R E) as (r & I & G & _). exists r. rewrite (f_regs _ _ F1). auto. }
      assert (May : forall e a t, client sub (maybe_one (e, None)) s = (Ok a, t) -> reachable sub t /\ frame s t /\ match a with Some a => served t e a | None => absent t e end).
      { intros e a t E. pose proof (RR (maybe_one (e, None)) s R) as R1. pose proof (RF (maybe_one (e, None)) s) as F1. rewrite E in R1, F1. simpl in R1, F1. split; [exact R1|]. split; [exact F1|]. destruct a as [a|].
        - apply One. unfold client, maybe_one, get_one in *. cbn [run] in *. unfold maybe_resolve in E. destruct (resolve _ (e, None) s) as [[x|er] s1]; [exact E|]. destruct er; try discriminate. destruct (name_eqb q (e, None)); discriminate.
        - unfold absent. rewrite (f_regs _ _ F1). exact (C49_maybe sub s _ t R A0 E). }
      assert (Alls : forall e a t, resolve_all (get_instance sub (length (regs s) + length (colls s))) (e, None) s = (Ok a, t) -> t = snd (client sub (PAll (e, None) (fun _ => PRet None)) s) -> reachable sub t /\ frame s t /\ members t e a).
      { intros e a t E Et. pose proof (RR (PAll (e, None) (fun _ => PRet None)) s R) as R1. pose proof (RF (PAll (e, None) (fun _ => PRet None)) s) as F1. rewrite <- Et in R1, F1. split; [exact R1|]. split; [exact F1|]. destruct (C49_collection sub s _ a t R E) as (xs & X & Y & _). exists xs. rewrite (f_colls _ _ F1). auto. }
      destruct (pannot p) as [|e|e|e|e|e|e|e| | |]; try discriminate.
      * destruct (pdefault p) eqn:D.
        -- apply SM in H. destruct H as (a & t & E & H). destruct (May _ _ _ E) as (R1 & F1 & S1). destruct a as [a|]; [eapply Put; [exact R1|exact F1|constructor; exact S1|exact H]|eapply Skip; [exact R1|exact F1|left; eauto|reflexivity|exact H]].
        -- apply SR in H. destruct H as (a & t & E & H). destruct (One _ _ _ E) as (R1 & F1 & S1). eapply Put; [exact R1|exact F1|constructor; exact S1|exact H].
      * apply SM in H. destruct H as (a & t & E & H). destruct (May _ _ _ E) as (R1 & F1 & S1). destruct a as [a|]; (eapply Put; [exact R1|exact F1| |exact H]); [apply su_opt|apply su_opt_none]; exact S1.
      * apply SA in H. destruct H as (a & t & E & Et & H). destruct (Alls _ _ _ E Et) as (R1 & F1 & S1). eapply Put; [exact R1|exact F1|constructor; exact S1|exact H].
      * apply SA in H. destruct H as (a & t & E & Et & H). destruct (Alls _ _ _ E Et) as (R1 & F1 & S1). eapply Put; [exact R1|exact F1|constructor; exact S1|exact H].
      * eapply Put; [exact R|apply frame_refl|constructor|exact H].
      * eapply Put; [exact R|apply frame_refl|constructor|exact H].
      * eapply Put; [exact R|apply frame_refl|constructor|exact H].
      * eapply Put; [exact R|apply frame_refl|constructor|exact H].
      * destruct (pdefault p) eqn:D; [eapply Skip; [exact R|apply frame_refl|right; reflexivity|reflexivity|exact H]|discriminate].
Qed.
Print Assumptions C49_wire.
(** Wired providers meet the conditions above. *)
Theorem C49_wire_strict : forall c ps custom, strict (wire_object c ps custom).
Proof.
  intros c ps custom. unfold wire_object. generalize (@nil (nat * arg)) as kw. revert custom. induction ps as [|p ps IH]; intros custom kw; cbn [wire]; [destruct custom; repeat constructor|].
  destruct (pop (pname p) custom) as [[v|] custom']; destruct (pannot p); try constructor; try apply IH; try (intros; reflexivity); try (intros x; cbn [next_arg]; apply IH); try (destruct (pdefault p)); try constructor; try apply IH; try (intros; reflexivity); try (intros [x|]; cbn [next_arg]; apply IH); intros x; cbn [next_arg]; apply IH.
Qed.
Print Assumptions C49_wire_strict.

(** An example: 0 is a singleton, 1 needs 0 twice and a collection of 2; 3 and 4 depend on each other; 5 needs 6, which is missing. *)
Definition h0 : list op :=
  [ORegister (0, None) (PNew 0 [] (fun o => PRet (Some o))) true;
   ORegister (1, None) (wire_object 1 [Param 0 (TClass 0) false; Param 1 (TOptional 0) false; Param 2 (TSequence 2) false; Param 3 (TClass 6) true; Param 4 TOther true] [(4, 7)]) false;
   OCollect (2, None) (PNew 2 [] (fun o => PRet (Some o))) false; OCollect (2, None) (PRet None) false; OCollect (2, None) (wire_object 2 [Param 0 (TClass 0) false] []) true].
Definition h1 : list op := h0 ++
  [ORegister (3, None) (wire_object 3 [Param 0 (TClass 4) false] []) true; ORegister (4, Some 1) (PRet None) true; ORegister (4, None) (wire_object 4 [Param 0 (TClass 3) false] []) true; ORegister (5, None) (wire_object 5 [Param 0 (TClass 6) false] []) true].
Example C49_ex : fst (client Nat.eqb (get_one (1, None)) (fold_left (step Nat.eqb) h1 init))
  = Ok (Some (Obj 3 1 [(0, AObj (Obj 0 0 [])); (1, AObj (Obj 0 0 [])); (2, AList [Obj 1 2 []; Obj 2 2 [(0, AObj (Obj 0 0 []))]]); (4, ACustom 7)])).
Proof. reflexivity. Qed.
Example C49_cycle_ex : fst (client Nat.eqb (get_one (3, None)) (fold_left (step Nat.eqb) h1 init)) = Err (Cycle [(3, None); (4, None); (3, None)]).
Proof. reflexivity. Qed.
Example C49_maybe_ex : fst (client Nat.eqb (maybe_one (5, None)) (fold_left (step Nat.eqb) h1 init)) = Err (NotFound (6, None)) /\ fst (client Nat.eqb (maybe_one (6, None)) (fold_left (step Nat.eqb) h1 init)) = Ok None /\ fst (client Nat.eqb (maybe_one (4, Some 1)) (fold_left (step Nat.eqb) h1 init)) = Ok None.
Proof. repeat split; reflexivity. Qed.
Example C49_unsatisfiable_ex : forall q r, (fun q => q = (3, None) \/ q = (4, None) \/ q = (5, None) \/ q = (6, None)) q -> In (q, r) (regs (fold_left (step Nat.eqb) h1 init)) -> strict (provider r) /\ needs (fun q => q = (3, None) \/ q = (4, None) \/ q = (5, None) \/ q = (6, None)) (provider r).
Proof.
  intros q r S I. simpl in I. repeat (destruct I as [I|I]; [injection I as <- <-; try (destruct S as [S|[S|[S|S]]]; discriminate)|]); try destruct I; (split; [apply C49_wire_strict|]); cbn; apply nd_here; auto.
Qed.
Definition h2 : list op :=
  [ORegister (0, None) (PNew 0 [] (fun o => PRet (Some o))) true; OCollect (2, None) (wire_object 2 [Param 0 (TClass 0) false] []) true;
   ORegister (1, None) (wire_object 1 [Param 0 (TClass 0) false; Param 2 (TSequence 2) false] []) false; ORun (get_one (1, None))].
Example C49_resolves_ex : well_built Nat.eqb (fold_left (step Nat.eqb) h2 init) (fun q => match fst q with 0 => 0 | _ => 2 end) (fun _ => 1).
Proof.
  split; intros q r I; simpl in I; repeat (destruct I as [I|I]; [injection I as <- <-|]); try destruct I; cbn.
  - apply dl_new. intros i. apply dl_ret. reflexivity.
  - apply dl_resolve; [split; [eexists; left; reflexivity|simpl; lia]|]. intros o _. apply dl_all; [simpl; lia|]. intros l _. apply dl_new. intros i. apply dl_ret. reflexivity.
  - apply dl_resolve; [split; [eexists; left; reflexivity|simpl; lia]|]. intros o _. apply dl_new. intros i. apply dl_ret. reflexivity.
Qed.
Example C49_frozen_ex : register (9, None) (PRet None) false (fold_left (step Nat.eqb) h2 init) = None. Proof. reflexivity. Qed.
