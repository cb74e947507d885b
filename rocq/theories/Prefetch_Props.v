(** C15: prefetching under every schedule. *)
From Coq Require Import List Bool Arith Lia.
From Verif Require Import Prefetch_Model Prefetch_Spec Prefetch_Proofs.
Import ListNotations.

Section L.
  Context {D E S R : Type}.
  Variable X : source D E S R.
  Notation trace := (list (call D R * ret D E R)).
  Definition only_next (t : trace) : Prop := Forall (fun x => fst x = Next) t.

  Lemma pulls_app s l s' : pulls X s l s' -> forall l' s'', pulls X s' l' s'' -> pulls X s (l ++ l') s''.
  Proof. induction 1 as [|s d s' l s'' P0 _ IH]; intros l' t Q; [exact Q|]. cbn [app]. econstructor; [exact P0|now apply IH]. Qed.
  Lemma pulls_snoc s l s' d s'' : pulls X s l s' -> pull X s' = (Val d, s'') -> pulls X s (l ++ [d]) s''.
  Proof. intros P0 Q. eapply pulls_app; [exact P0|]. econstructor; [exact Q|constructor]. Qed.
  Lemma pulls_prefix l : forall s l' s', pulls X s (l ++ l') s' -> exists s1, pulls X s l s1 /\ pulls X s1 l' s'.
  Proof.
    induction l as [|d l IH]; intros s l' s' H; [exists s; split; [constructor|exact H]|]. cbn [app] in H. inversion H as [|? ? s1 ? ? P0 Q]; subst. destruct (IH _ _ _ Q) as (s2 & A & B). exists s2. split; [econstructor; eassumption|exact B].
  Qed.
  Lemma dying_next_only e l t : dying e l t -> only_next t -> exists given lost j, l = given ++ lost /\ map snd t = map Got given ++ repeat (Raise e) j.
  Proof.
    induction 1 as [l|d l t H IH|l l' t H IH|t H IH|c l t C H IH|l t H IH]; intros O.
    - exists [], l, 0. split; reflexivity.
    - inversion O; subst. destruct (IH H3) as (g & lo & j & -> & E0). exists (d :: g), lo, j. split; [reflexivity|]. cbn [map snd app]. now rewrite E0.
    - destruct (IH O) as (g & lo & j & -> & E0). exists g, (lo ++ l'), j. split; [now rewrite app_assoc|exact E0].
    - inversion O; subst. destruct (IH H3) as (g & lo & j & E1 & E0). symmetry in E1. apply app_eq_nil in E1 as [-> ->]. exists [], [], (Datatypes.S j). split; [reflexivity|]. cbn [map snd app repeat] in *. now rewrite E0.
    - inversion O; subst. contradiction.
    - inversion O; subst. discriminate.
  Qed.
  Definition outcome (l : list D) (s : S) (os : list (ret D E R)) : Prop :=
    (exists given rest k s', pulls X s k s' /\ l ++ k = given ++ rest /\ os = map Got given) \/
    (exists k s' s'' j, pulls X s k s' /\ pull X s' = (Eod, s'') /\ os = map Got (l ++ k) ++ repeat End j) \/
    (exists given lost k e s' s'' j, pulls X s k s' /\ pull X s' = (Err e, s'') /\ l ++ k = given ++ lost /\ os = map Got given ++ repeat (Raise e) j).
  Lemma follows_next_only l s b t : follows X l s b t -> only_next t ->
    if b then exists given rest j, l = given ++ rest /\ map snd t = map Got given ++ repeat End j /\ (0 < j -> rest = []) else outcome l s (map snd t).
  Proof.
    induction 1 as [l s b|l s d s' t P0 H IH|l s s' t P0 H IH|l s e s' t P0 H|d l s b t H IH|s t H IH|l s b rng t H IH|f q s b t H IH|l s b t H IH|l s b f q r t H IH|l s b r t H IH|l s b t H IH]; intros O;
      try (inversion O; subst; discriminate).
    - destruct b; [exists [], l, 0; split; [reflexivity|]; split; [reflexivity|lia]|]. left. exists [], l, [], s. split; [constructor|]. split; [now rewrite app_nil_r|reflexivity].
    - destruct (IH O) as [(g & r & k & s1 & A & B & C)|[(k & s1 & s2 & j & A & B & C)|(g & lo & k & e & s1 & s2 & j & A & B & C & G)]].
      + left. exists g, r, (d :: k), s1. split; [econstructor; eassumption|]. split; [now rewrite <- B, <- app_assoc|exact C].
      + right. left. exists (d :: k), s1, s2, j. split; [econstructor; eassumption|]. split; [exact B|]. rewrite C, <- app_assoc. reflexivity.
      + right. right. exists g, lo, (d :: k), e, s1, s2, j. split; [econstructor; eassumption|]. split; [exact B|]. split; [now rewrite <- C, <- app_assoc|exact G].
    - destruct (IH O) as (g & r & j & -> & E0 & J). destruct j as [|j].
      + left. exists g, r, [], s. split; [constructor|]. split; [now rewrite app_nil_r|]. now rewrite E0, app_nil_r.
      + right. left. exists [], s, s', (Datatypes.S j). split; [constructor|]. split; [exact P0|]. rewrite (J ltac:(lia)) in *. now rewrite !app_nil_r, E0.
    - destruct (dying_next_only e l t H O) as (g & lo & j & -> & E0). right. right. exists g, lo, [], e, s, s', j. split; [constructor|]. split; [exact P0|]. split; [now rewrite app_nil_r|exact E0].
    - inversion O; subst. specialize (IH H3). destruct b.
      + destruct IH as (g & r & j & -> & E0 & J). exists (d :: g), r, j. split; [reflexivity|]. split; [cbn [map snd app]; now rewrite E0|exact J].
      + destruct IH as [(g & r & k & s1 & A & B & C)|[(k & s1 & s2 & j & A & B & C)|(g & lo & k & e & s1 & s2 & j & A & B & C & G)]].
        * left. exists (d :: g), r, k, s1. split; [exact A|]. split; [cbn [app]; now rewrite B|]. cbn [map snd]. now rewrite C.
        * right. left. exists k, s1, s2, j. split; [exact A|]. split; [exact B|]. cbn [map snd app]. now rewrite C.
        * right. right. exists (d :: g), lo, k, e, s1, s2, j. split; [exact A|]. split; [exact B|]. split; [cbn [app]; now rewrite C|]. cbn [map snd app]. now rewrite G.
    - inversion O; subst. destruct (IH H3) as (g & r & j & E1 & E0 & J). symmetry in E1. apply app_eq_nil in E1 as [-> ->]. exists [], [], (Datatypes.S j). split; [reflexivity|]. split; [cbn [map snd app repeat] in *; now rewrite E0|reflexivity].
  Qed.
  Lemma outcome_reads s os : outcome [] s os -> reads X s os.
  Proof.
    intros [(g & r & k & s1 & A & B & ->)|[(k & s1 & s2 & j & A & B & ->)|(g & lo & k & e & s1 & s2 & j & A & B & C & ->)]]; cbn [app] in *.
    - subst k. destruct (pulls_prefix _ _ _ _ A) as (s2 & P0 & _). exact (reads_some X s g s2 P0).
    - exact (reads_end X s k s1 s2 j A B).
    - subst k. exact (reads_error X s g lo e s1 s2 j A B).
  Qed.
  (** A record after calls of next *)
  Definition at_record (l : list D) (s : S) (f q : list D) (r : R) (os : list (ret D E R)) : Prop :=
    exists given k s', pulls X s k s' /\ l ++ k = given ++ q ++ f /\
      ((os = map Got given /\ r = record X s') \/ (exists s'' j, pull X s' = (Eod, s'') /\ r = record X s'' /\ os = map Got given ++ repeat End j /\ (0 < j -> q ++ f = []))).
  Lemma dying_tape (e : E) l (t : trace) : dying e l t -> forall t1 b r, only_next t1 -> t = t1 ++ [(Record_ true, Tape b r)] -> False.
  Proof.
    induction 1 as [l|d l t H IH|l l' t H IH|t H IH|c l t C H IH|l t H IH]; intros t1 b r O Et.
    - destruct t1; discriminate.
    - destruct t1 as [|x t1]; [discriminate|]. cbn [app] in Et. injection Et as _ Et. inversion O; subst. eapply IH; [eassumption|reflexivity].
    - eapply IH; eassumption.
    - destruct t1 as [|x t1]; [discriminate|]. cbn [app] in Et. injection Et as _ Et. inversion O; subst. eapply IH; [eassumption|reflexivity].
    - destruct t1 as [|x t1]; [discriminate|]. cbn [app] in Et. injection Et as <- Et. inversion O; subst. contradiction.
    - destruct t1 as [|x t1]; [discriminate|]. cbn [app] in Et. injection Et as <- Et. inversion O; subst. discriminate.
  Qed.
  Lemma follows_record l s b t : follows X l s b t -> forall t1 f q r, only_next t1 -> t = t1 ++ [(Record_ true, Tape (Some (f, q)) r)] ->
    if b then exists given j, l = given ++ q ++ f /\ map snd t1 = map Got given ++ repeat End j /\ (0 < j -> q ++ f = []) /\ r = record X s else at_record l s f q r (map snd t1).
  Proof.
    induction 1 as [l s b|l s d s' t P0 H IH|l s s' t P0 H IH|l s e s' t P0 H|d l s b t H IH|s t H IH|l s b rng t H IH|f0 q0 s b t H IH|l s b t H IH|l s b f0 q0 r0 t H IH|l s b r0 t H IH|l s b t H IH]; intros t1 f q r O Et.
    - destruct t1; discriminate.
    - destruct (IH t1 f q r O Et) as (g & k & s1 & A & B & C). exists g, (d :: k), s1. split; [econstructor; eassumption|]. split; [now rewrite <- B, <- app_assoc|exact C].
    - destruct (IH t1 f q r O Et) as (g & j & -> & E0 & J & ->). exists g, [], s. split; [constructor|]. split; [now rewrite app_nil_r|]. right. exists s', j. auto.
    - exfalso. eapply dying_tape; eassumption.
    - destruct t1 as [|x t1]; [discriminate|]. cbn [app] in Et. injection Et as <- Et. inversion O; subst. specialize (IH t1 f q r H3 eq_refl). destruct b.
      + destruct IH as (g & j & -> & E0 & J & ->). exists (d :: g), j. split; [reflexivity|]. split; [cbn [map snd app]; now rewrite E0|auto].
      + destruct IH as (g & k & s1 & A & B & C). exists (d :: g), k, s1. split; [exact A|]. split; [cbn [app]; now rewrite B|]. cbn [map snd app].
        destruct C as [[C1 C2]|(s2 & j & C1 & C2 & C3 & C4)]; [left; split; [now rewrite C1|exact C2]|right; exists s2, j; rewrite C3; auto].
    - destruct t1 as [|x t1]; [discriminate|]. cbn [app] in Et. injection Et as <- Et. inversion O; subst. destruct (IH t1 f q r H3 eq_refl) as (g & j & E1 & E0 & J & ->).
      symmetry in E1. apply app_eq_nil in E1 as [-> E1]. exists [], (Datatypes.S j). split; [now rewrite E1|]. split; [cbn [map snd app repeat] in *; now rewrite E0|]. split; [now intros _|reflexivity].
    - destruct t1 as [|x t1]; [discriminate|]. cbn [app] in Et. injection Et as <- Et. inversion O; subst. discriminate.
    - destruct t1 as [|x t1].
      + cbn [app] in Et. injection Et as <- <- <- Et. destruct b.
        * exists [], 0. split; [reflexivity|]. split; [reflexivity|]. split; [lia|reflexivity].
        * exists [], [], s. split; [constructor|]. split; [now rewrite app_nil_r|]. left. split; reflexivity.
      + cbn [app] in Et. injection Et as <- Et. inversion O; subst. discriminate.
    - destruct t1 as [|x t1]; [discriminate|]. cbn [app] in Et. injection Et as <- Et. inversion O; subst. discriminate.
    - destruct t1 as [|x t1]; [discriminate|]. cbn [app] in Et. injection Et as <- Et. inversion O; subst. discriminate.
    - destruct t1 as [|x t1]; [discriminate|]. cbn [app] in Et. injection Et as <- Et. inversion O; subst. discriminate.
    - destruct t1 as [|x t1]; [discriminate|]. cbn [app] in Et. injection Et as <- Et. inversion O; subst. discriminate.
  Qed.
  Lemma dying_done (e : E) l (t : trace) : dying e l t -> forall c t', c <> Close -> t = (c, Done) :: t' -> False.
  Proof. induction 1; intros c' t' N Et; try discriminate; [eapply IHdying; eassumption|]. injection Et as <- _. contradiction. Qed.
  Lemma follows_reload l s b t : follows X l s b t -> forall f q r t', t = (Reload (Some (f, q)) r, Done) :: t' -> exists s', follows X (q ++ f) (reload X s' r) false t'.
  Proof.
    induction 1; intros f' q' r' t' Et; try discriminate; try (eapply IHfollows; eassumption).
    - exfalso. eapply dying_done; [eassumption| |exact Et]. discriminate.
    - injection Et as -> -> -> ->. eauto.
  Qed.
  Lemma same_pulls s t k s' : same X s t -> pulls X s k s' -> exists t', pulls X t k t' /\ fst (pull X t') = fst (pull X s').
  Proof. intros H P0. apply (H k (fst (pull X s'))). eauto. Qed.
End L.

(** The consumer sees what a source in one thread would show that reads ahead now and then: for every schedule, every sequence of calls, every [n]. *)
Theorem C15_follows {D E S R} (X : source D E S R) n cs s m t : 0 < n -> run X n cs (init s) = Some (m, t) -> follows X [] s false t.
Proof. intros N. now apply follows_run. Qed.
Print Assumptions C15_follows.
(** In particular next gives the examples of the source in order, each once, then the end or its error. *)
Theorem C15_order {D E S R} (X : source D E S R) n cs s m t : 0 < n -> run X n cs (init s) = Some (m, t) -> Forall (fun x => fst x = Next) t -> reads X s (map snd t).
Proof. intros N H O. apply outcome_reads. exact (follows_next_only X [] s false t (C15_follows X n cs s m t N H) O). Qed.
Print Assumptions C15_order.
(** Without prefetching the source is called directly. *)
Theorem C15_zero {D E S R} (X : source D E S R) m : cons m = CNext -> exists m', consumer_step X 0 m =
  Some (m', [(Next, match fst (pull X (inner m)) with Val d => Got d | Eod => End | Err e => Raise e end)]) /\ inner m' = snd (pull X (inner m)).
Proof. intros C. unfold consumer_step. rewrite C. cbn [Nat.eqb]. destruct (pull X (inner m)) as [o s']. eexists. split; reflexivity. Qed.
Print Assumptions C15_zero.

(** A recorded position covers exactly the examples that were not given: whoever reloads it, with any [n'], goes on where the other one stopped. *)
Theorem C15_resume {D E S R} (X : source D E S R) n n' cs cs' s s2 m m' t f q r t' : 0 < n -> 0 < n' ->
  (forall s s', same X (reload X s' (record X s)) s) -> (forall s s', pull X s = (Eod, s') -> fst (pull X s') = Eod) ->
  run X n cs (init s) = Some (m, t ++ [(Record_ true, Tape (Some (f, q)) r)]) -> Forall (fun x => fst x = Next) t ->
  run X n' cs' (init s2) = Some (m', (Reload (Some (f, q)) r, Done) :: t') -> Forall (fun x => fst x = Next) t' ->
  reads X s (map snd t ++ map snd t').
Proof.
  intros N N' LR LE H O H' O'. pose proof (follows_record X [] s false _ (C15_follows X n cs s m _ N H) t f q r O eq_refl) as (g & k & s1 & P0 & K & A). cbn [app] in K. subst k.
  destruct (follows_reload X [] s2 false _ (C15_follows X n' cs' s2 m' _ N' H') f q r t' eq_refl) as (s3 & F). apply follows_next_only in F; [|exact O'].
  destruct A as [[-> ->]|(s4 & j & Pe & -> & -> & J)].
  - specialize (LR s1 s3). destruct F as [(g2 & rest & k & s5 & A & B & ->)|[(k & s5 & s6 & j & A & B & ->)|(g2 & lo & k & e & s5 & s6 & j & A & B & C & ->)]].
    + destruct (same_pulls X _ _ _ _ LR A) as (s7 & A' & _). rewrite <- map_app. assert (P1 : pulls X s ((g ++ g2) ++ rest) s7) by (rewrite <- app_assoc, <- B; rewrite app_assoc; exact (pulls_app X _ _ _ P0 _ _ A')).
      destruct (pulls_prefix X _ _ _ _ P1) as (s8 & P2 & _). exact (reads_some X s _ s8 P2).
    + destruct (same_pulls X _ _ _ _ LR A) as (s7 & A' & Q). rewrite B in Q. cbn [fst] in Q. destruct (pull X s7) as [o s8] eqn:P7. cbn [fst] in Q. subst o. rewrite app_assoc, <- map_app.
      apply (reads_end X s _ s7 s8); [rewrite app_assoc; exact (pulls_app X _ _ _ P0 _ _ A')|exact P7].
    + destruct (same_pulls X _ _ _ _ LR A) as (s7 & A' & Q). rewrite B in Q. cbn [fst] in Q. destruct (pull X s7) as [o s8] eqn:P7. cbn [fst] in Q. subst o. rewrite app_assoc, <- map_app.
      apply (reads_error X s _ lo e s7 s8); [rewrite <- app_assoc, <- C; rewrite app_assoc; exact (pulls_app X _ _ _ P0 _ _ A')|exact P7].
  - specialize (LR s4 s3). specialize (LE s1 s4 Pe).
    assert (Z : forall k s5, pulls X (reload X s3 (record X s4)) k s5 -> k = [] /\ fst (pull X s5) = Eod).
    { intros k s5 A. destruct (same_pulls X _ _ _ _ LR A) as (s7 & A' & Q). destruct A' as [s7|s7 d s8 l s9 P7 _]; [split; [reflexivity|congruence]|]. rewrite P7 in LE. discriminate LE. }
    assert (Re : forall g2 rest i, q ++ f = g2 ++ rest -> (0 < i -> rest = []) -> reads X s ((map Got g ++ repeat End j) ++ map Got g2 ++ repeat End i)).
    { intros g2 rest i Eq I. destruct j as [|j].
      - cbn [repeat]. rewrite app_nil_r, app_assoc, <- map_app. destruct i as [|i].
        + cbn [repeat]. rewrite app_nil_r. rewrite Eq, app_assoc in P0. destruct (pulls_prefix X _ _ _ _ P0) as (s8 & P2 & _). exact (reads_some X s _ s8 P2).
        + rewrite (I ltac:(lia)), app_nil_r in Eq. subst g2. exact (reads_end X s _ s1 s4 _ P0 Pe).
      - rewrite (J ltac:(lia)) in Eq, P0. symmetry in Eq. apply app_eq_nil in Eq as [-> ->]. cbn [map app]. rewrite app_nil_r in P0. rewrite <- app_assoc, <- repeat_app. exact (reads_end X s g s1 s4 _ P0 Pe). }
    destruct F as [(g2 & rest & k & s5 & A & B & ->)|[(k & s5 & s6 & i & A & B & ->)|(g2 & lo & k & e & s5 & s6 & i & A & B & C & ->)]].
    + destruct (Z _ _ A) as [-> _]. rewrite app_nil_r in B. specialize (Re g2 rest 0 B ltac:(lia)). cbn [repeat] in Re. now rewrite app_nil_r in Re.
    + destruct (Z _ _ A) as [-> _]. rewrite app_nil_r. exact (Re (q ++ f) [] i ltac:(now rewrite app_nil_r) ltac:(now intros _)).
    + destruct (Z _ _ A) as [-> Q]. rewrite B in Q. discriminate Q.
Qed.
Print Assumptions C15_resume.

(** A call always returns: neither thread waits for ever. While a call is in progress one of the threads can go on, and there is a bound on the
    number of steps both can take before the call returns (each waking up without a notification allows for one more). *)
Definition reached {D E S R} (X : source D E S R) n (m : st D E S R) : Prop := exists cs s t, run X n cs (init s) = Some (m, t).
Theorem C15_progress {D E S R} (X : source D E S R) n m : 0 < n -> reached X n m -> cons m <> Idle ->
  (step X n Cons m <> None \/ step X n Prod m <> None) /\
  forall cs m', run X n cs m = Some (m', []) ->
    length (filter (fun ch => match ch with Cons | Prod => true | _ => false end) cs) <= 16 * n + 31 + length (filter (fun ch => match ch with WakeCons | WakeProd => true | _ => false end) cs).
Proof.
  intros N (cs0 & s & t0 & H0) C. pose proof (inv_run X n N cs0 _ _ _ (inv_init n s) H0) as H. split; [now apply not_stuck|]. intros cs m' Hr.
  assert (NC : forall cs m m', Inv n m -> cons m <> Idle -> run X n cs m = Some (m', []) -> forallb (fun ch => negb (is_call ch)) cs = true).
  { clear - N. induction cs as [|ch cs IH]; intros m m' H C; cbn [run forallb]; [reflexivity|]. destruct (step X n ch m) as [[m1 t1]|] eqn:S0; [|discriminate].
    destruct (run X n cs m1) as [[m2 t2]|] eqn:R0; [|discriminate]. intros [= <- Et]. apply app_eq_nil in Et as [-> ->]. pose proof (inv_step X n N ch m m1 [] H S0) as H1.
    assert (C1 : is_call ch = false /\ cons m1 <> Idle).
    { destruct ch as [c| | | |]; cbn [step is_call] in *.
      - destruct (cons m); try discriminate. contradiction.
      - split; [reflexivity|]. unfold consumer_step, go, return_, raise_if_faulted in S0. destruct (cons m) as [| | | | | |c|c|c|c] eqn:Cm; try discriminate S0.
        + destruct (n =? 0); [destruct (pull X (inner m)); discriminate S0|]. destruct (is_empty (nextq m)); injection S0 as <-; discriminate.
        + destruct (negb _ || negb _); [|injection S0 as <-; discriminate]. destruct (mode_ m), (exn m); try discriminate S0; injection S0 as <-; discriminate.
        + injection S0 as <-. discriminate.
        + destruct (nextq m); discriminate S0.
        + destruct (prod m); injection S0 as <-; discriminate.
        + injection S0 as <-. discriminate.
        + destruct (prod m); try discriminate S0; injection S0 as <-; discriminate.
        + unfold perform, raise_if_faulted, return_ in S0. destruct c as [|b|b|[[? ?]|] r|]; try discriminate S0; destruct (mode_ m), (exn m); discriminate S0.
      - split; [reflexivity|]. unfold producer_step in S0. destruct (prod m); try discriminate S0.
        + destruct (is_running (mode_ m)); [destruct (pull X (inner m))|]; injection S0 as <-; exact C.
        + destruct (stop m || _); [destruct (exn m); [|destruct o]|]; injection S0 as <-; exact C.
        + injection S0 as <-. cbn. destruct (cons m); try discriminate. contradiction.
      - split; [reflexivity|]. destruct (cons m); try discriminate S0. injection S0 as <-. discriminate.
      - split; [reflexivity|]. destruct (prod m); try discriminate S0. injection S0 as <-. exact C. }
    destruct C1 as [-> C1]. cbn [negb andb]. apply (IH m1 m2); assumption. }
  pose proof (NC cs m m' H C Hr) as NoCall. pose proof (steps_bound X n N cs m m' H Hr NoCall) as B. assert (Mb : mu n m <= 16 * n + 31) by now apply mu_bound.
  assert (W : filter (fun ch : choice D R => match ch with WakeCons | WakeProd => true | _ => false end) cs = filter (@woken D R) cs) by (apply filter_ext; intros []; reflexivity).
  assert (F : length (filter (fun ch : choice D R => match ch with Cons | Prod => true | _ => false end) cs) <= length (filter (fun ch => negb (woken ch)) cs)).
  { clear. induction cs as [|[c| | | |] cs IH]; cbn [filter woken negb length] in *; lia. }
  rewrite W. lia.
Qed.
Print Assumptions C15_progress.

(** At most [n + 1] examples are in either buffer, and at most [2 n + 2] are read ahead, if the buffers that are reloaded are no longer than that. *)
Definition read_ahead {D E S R} (m : st D E S R) : nat := length (nextq m) + length (fill m) + match prod m with PHave (Some _) | PSleep (Some _) => 1 | _ => 0 end.
Theorem C15_bound {D E S R} (X : source D E S R) n cs s m t : 0 < n -> run X n cs (init s) = Some (m, t) ->
  Forall (fun ch => match ch with Call (Reload (Some (f, q)) _) => length f <= n + 1 /\ length q <= n + 1 | _ => True end) cs ->
  length (fill m) <= n + 1 /\ length (nextq m) <= n + 1 /\ read_ahead m <= 2 * n + 2.
Proof.
  intros N H F. pose proof (inv_run X n N cs _ _ _ (inv_init n s) H) as I0. assert (L : Len n m).
  { eapply (len_run X n N cs); [apply inv_init|exact F|exact I| |exact H]. constructor; cbn; try lia. }
  destruct L as [L1 L2 L3]. split; [exact L1|]. split; [exact L2|]. unfold read_ahead. destruct (prod m) as [| |[d|]|[d|]| |] eqn:P0; try lia.
  - assert (Rn : mode_ m = Running) by (apply (i_busy n m I0); rewrite P0; exact I). destruct (L3 Rn) as [?|W]; [lia|]. rewrite (i_next n m I0 W). cbn [length]. lia.
  - assert (Rn : mode_ m = Running) by (apply (i_busy n m I0); rewrite P0; exact I). destruct (L3 Rn) as [?|W]; [lia|]. rewrite (i_next n m I0 W). cbn [length]. lia.
Qed.
Print Assumptions C15_bound.

(** ** A source that lists numbers; [true]: an error in this place *)
Definition items : source nat nat (list (bool * nat)) (list (bool * nat)) :=
  Source (D := nat) (E := nat) (S := list (bool * nat)) (R := list (bool * nat)) (fun l => match l with [] => (Eod, []) | (b, x) :: l' => (if b then Err x else Val x, l') end) (fun _ _ => [(false, 9)]) (fun l => l) (fun _ r => r).
Definition ok (l : list nat) : list (bool * nat) := map (pair false) l.
Definition prods (k : nat) : list (choice nat (list (bool * nat))) := repeat Prod k.
Definition conss (k : nat) : list (choice nat (list (bool * nat))) := repeat Cons k.
(** The consumer sleeps, is woken, gets 1, lets the thread fill the buffer, records (2 is in one buffer, 3 in flight), and another one goes on. *)
Example C15_example :
  exists m m', run items 1 ([Call Next] ++ conss 2 ++ prods 3 ++ conss 3 ++ prods 4 ++ [Call (Record_ true)] ++ conss 2 ++ prods 3 ++ conss 2) (init (ok [1; 2; 3; 4])) =
    Some (m, [(Next, Got 1)] ++ [(Record_ true, Tape (Some ([2; 3], [])) (ok [4]))]) /\
  run items 2 ([Call (Reload (Some ([2; 3], [])) (ok [4]))] ++ conss 2 ++ [Call Next] ++ conss 4 ++ [Call Next] ++ conss 2 ++ [Call Next] ++ conss 2 ++ prods 3 ++ conss 3 ++ [Call Next] ++ conss 2 ++ prods 3 ++ conss 3) (init []) =
    Some (m', (Reload (Some ([2; 3], [])) (ok [4]), Done) :: map (fun r => (Next, r)) [Got 2; Got 3; Got 4; End]).
Proof. eexists. eexists. split; vm_compute; reflexivity. Qed.
Example C15_laws : (forall s s', same items (reload items s' (record items s)) s) /\ (forall s s', pull items s = (Eod, s') -> fst (pull items s') = Eod).
Proof. split; [intros s s' l o; reflexivity|]. intros [|[[] x] l] s'; cbn; intros [= <-]; reflexivity. Qed.

(** Examples that were read before an error are lost, if the thread is fast. *)
Theorem C15_error_refuted : exists cs cs' m m',
  run items 3 cs (init (ok [1; 2] ++ [(true, 0)])) = Some (m, [(Next, Raise 0)]) /\
  run items 3 cs' (init (ok [1; 2] ++ [(true, 0)])) = Some (m', [(Next, Got 1); (Next, Got 2); (Next, Raise 0)]).
Proof.
  exists ([Call Next] ++ conss 1 ++ prods 9 ++ conss 1), ([Call Next] ++ conss 1 ++ prods 6 ++ conss 3 ++ [Call Next] ++ conss 2 ++ prods 3 ++ [Call Next] ++ conss 2).
  eexists. eexists. split; vm_compute; reflexivity.
Qed.
Print Assumptions C15_error_refuted.
(** An error that the pipeline could skip (one bad example) is raised again by every later call, reset included, although the source has more examples. *)
Theorem C15_recover_refuted : exists cs m, run items 1 cs (init ([(true, 0)] ++ ok [1])) = Some (m, [(Next, Raise 0); (Next, Raise 0); (Reset true, Raise 0)]) /\ fst (pull items (inner m)) = Val 1.
Proof. exists ([Call Next] ++ conss 1 ++ prods 3 ++ conss 1 ++ [Call Next] ++ conss 2 ++ [Call (Reset true)] ++ conss 2 ++ prods 1 ++ conss 2). eexists. split; vm_compute; reflexivity. Qed.
Print Assumptions C15_recover_refuted.
(** More than [n + 1] examples are read ahead: one buffer is filled while the other one is used. *)
Theorem C15_buffer_refuted : exists cs m t, run items 2 cs (init (ok [1; 2; 3; 4; 5; 6])) = Some (m, t) /\ 2 + 1 < read_ahead m.
Proof. exists ([Call Next] ++ conss 1 ++ prods 8 ++ conss 3 ++ prods 7). eexists. eexists. split; [vm_compute; reflexivity|]. vm_compute. repeat constructor. Qed.
Print Assumptions C15_buffer_refuted.
