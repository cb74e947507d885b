(** Proofs about prefetching. *)
From Coq Require Import List Bool Arith Lia.
From Verif Require Import Prefetch_Model Prefetch_Spec.
Import ListNotations.

Section P.
  Context {D E S R : Type}.
  Variable X : source D E S R.
  Variable n : nat.
  Hypothesis n_pos : 0 < n.
  Notation st := (st D E S R).
  Implicit Type m : st.
  Notation step := (step X n).
  Notation run := (run X n).

  Definition stopping (c : @consumer D R) : Prop := match c with CStopNotify _ | CJoin _ => True | _ => False end.
  Definition waiting (c : @consumer D R) : Prop := match c with CCheck | CSleep => True | _ => False end.
  Definition popping (c : @consumer D R) : Prop := match c with CNotify | CPop => True | _ => False end.
  Definition performing (c : @consumer D R) : Prop := match c with CDo _ => True | _ => False end.
  Definition odd_call (c : @consumer D R) : Prop := match c with CDo Next | CStop Next | CStopNotify Next | CJoin Next => True | _ => False end.
  Definition alive (p : @producer D) : Prop := match p with PTop | PHave _ | PSleep _ | PNotify => True | _ => False end.
  Definition busy (p : @producer D) : Prop := match p with PHave _ | PSleep _ => True | _ => False end.
  Definition at_none (p : @producer D) : Prop := match p with PHave None | PSleep None => True | _ => False end.
  Definition asleep (p : @producer D) : Prop := match p with PSleep _ => True | _ => False end.
  Record Inv m : Prop := {
    i_stop : stop m = true <-> stopping (cons m);
    i_run : mode_ m = Running -> alive (prod m);
    i_busy : busy (prod m) -> mode_ m = Running;
    i_not : mode_ m = NotRunning -> stopping (cons m) \/ (prod m = PNone /\ ~ waiting (cons m) /\ cons m <> CNotify);
    i_join : stopping (cons m) -> prod m <> PNone;
    i_do : performing (cons m) -> prod m = PNone;
    i_op : ~ odd_call (cons m);
    i_exn : exn m <> None -> mode_ m = Faulted \/ (mode_ m = Running /\ at_none (prod m));
    i_fault : mode_ m = Faulted -> exn m <> None;
    i_next : waiting (cons m) -> nextq m = [];
    i_pop : popping (cons m) -> nextq m = [] -> mode_ m = AtEnd /\ fill m = [];
    i_sleep1 : asleep (prod m) -> stop m = true -> exists c, cons m = CStopNotify c;
    i_sleep2 : asleep (prod m) -> length (fill m) < n -> cons m = CNotify;
    i_csleep : cons m = CSleep -> mode_ m <> Running \/ fill m <> [] -> prod m = PNotify }.

  Lemma inv_init s : Inv (init s).
  Proof. constructor; cbn; try tauto; try congruence; try (split; congruence); intuition congruence. Qed.

  Ltac fin := cbn in *; intuition (try congruence; eauto).
  Lemma inv_call c m : Inv m -> cons m = Idle -> Inv (set_cons m (match c with Next => CNext | _ => CStop c end)).
  Proof. intros H C. destruct H, m as [mo s f q ex i p co]. cbn in *. subst co. destruct c; constructor; fin. Qed.
  Lemma inv_wake_cons m : Inv m -> cons m = CSleep -> Inv (set_cons m CCheck).
  Proof. intros H C. destruct H, m as [mo s f q ex i p co]. cbn in *. subst co. constructor; fin. Qed.
  Lemma inv_wake_prod m o : Inv m -> prod m = PSleep o -> Inv (set_prod m (PHave o)).
  Proof. intros H C. destruct H, m as [mo s f q ex i p co]. cbn in *. subst p. destruct o; constructor; fin. Qed.
  Lemma app_cons_nil {T} (l : list T) x : l ++ [x] <> [].
  Proof. destruct l; discriminate. Qed.
  Lemma inv_prod m m' : Inv m -> producer_step X n m = Some m' -> Inv m'.
  Proof.
    intros H. destruct H, m as [mo s f q ex i p co]. unfold producer_step. cbn [mode_ stop fill nextq exn inner prod Prefetch_Model.cons] in *. destruct p as [| |o|o| |]; try discriminate.
    - destruct mo; cbn [is_running]; try (intros [= <-]; constructor; fin; fail). destruct (pull X i) as [[d| |e] i']; intros [= <-]; constructor; fin.
    - destruct (s || (length f <? n)) eqn:B; intros HS.
      + destruct ex as [e|]; [|destruct o as [d|]]; injection HS as <-.
        * constructor; fin.
        * destruct s; constructor; fin; try (destruct (app_cons_nil f d); assumption); try (destruct co; cbn in *; intuition congruence).
        * constructor; fin; destruct co; fin.
      + injection HS as <-. apply orb_false_iff in B as [-> B]. apply Nat.ltb_ge in B. constructor; fin; try lia.
    - intros [= <-]. destruct co; constructor; fin.
  Qed.
  Lemma inv_perform c m m' t : Inv m -> cons m = CDo c -> perform X c m = Some (m', t) -> Inv m'.
  Proof.
    intros H C. destruct H, m as [mo s f q ex i p co]. cbn [mode_ stop fill nextq exn inner prod Prefetch_Model.cons] in *. subst co. unfold perform, raise_if_faulted, return_. cbn [mode_ stop fill nextq exn inner prod Prefetch_Model.cons].
    assert (s = false) by (destruct s; [|reflexivity]; exfalso; now apply i_stop0). subst s. pose proof (i_do0 I) as P0. subst p.
    destruct c as [|b|b|b r|]; [discriminate| | | |].
    - destruct mo; destruct ex; intros [= <- _]; constructor; fin.
    - destruct mo; destruct ex; intros [= <- _]; constructor; fin.
    - destruct b as [[f' q']|]; destruct mo; destruct ex; intros [= <- _]; constructor; fin.
    - intros [= <- _]; constructor; fin.
  Qed.
  Lemma n_eqb : (n =? 0) = false.
  Proof. apply Nat.eqb_neq. lia. Qed.
  Lemma inv_cons m m' t : Inv m -> consumer_step X n m = Some (m', t) -> Inv m'.
  Proof.
    intros H0. pose proof H0 as H. destruct H, m as [mo s f q ex i p co]. unfold consumer_step. cbn [mode_ stop fill nextq exn inner prod Prefetch_Model.cons] in *.
    destruct co as [| | | | | |c|c|c|c]; try discriminate; unfold raise_if_faulted, go, return_; cbn [mode_ stop fill nextq exn inner prod Prefetch_Model.cons].
    - rewrite n_eqb. destruct q as [|d q]; cbn [is_empty]; intros [= <- _]; [unfold ensure; cbn [mode_ prod]; destruct mo, p|]; constructor; fin.
    - destruct mo; cbn [is_running negb orb]; try (destruct ex as [e|]); try destruct f as [|d f]; cbn [is_empty negb]; intros [= <- _]; constructor; fin; discriminate.
    - intros [= <- _]. destruct p as [| |o|o| |]; try destruct o; constructor; fin.
    - destruct q as [|d q]; intros [= <- _]; constructor; fin.
    - destruct p; intros [= <- _]; constructor; fin.
    - intros [= <- _]. destruct p as [| |o|o| |]; try destruct o; constructor; fin.
    - destruct p; try discriminate. intros [= <- _]. constructor; fin.
    - intros Hp. eapply inv_perform; [exact H0|reflexivity|exact Hp].
  Qed.
  Lemma inv_step ch m m' t : Inv m -> step ch m = Some (m', t) -> Inv m'.
  Proof.
    intros H. destruct ch as [c| | | |]; cbn [Prefetch_Model.step].
    - destruct (cons m) eqn:C; try discriminate. intros [= <- _]. now apply inv_call.
    - now apply inv_cons.
    - destruct (producer_step X n m) as [m1|] eqn:P0; [|discriminate]. intros [= <- _]. now apply (inv_prod m).
    - destruct (cons m) eqn:C; try discriminate. intros [= <- _]. now apply inv_wake_cons.
    - destruct (prod m) eqn:C; try discriminate. intros [= <- _]. now apply inv_wake_prod.
  Qed.
  Lemma inv_run cs : forall m m' t, Inv m -> run cs m = Some (m', t) -> Inv m'.
  Proof.
    induction cs as [|ch cs IH]; intros m m' t H; cbn [Prefetch_Model.run]; [now intros [= <- _]|]. destruct (step ch m) as [[m1 t1]|] eqn:S0; [|discriminate].
    destruct (run cs m1) as [[m2 t2]|] eqn:R0; [|discriminate]. intros [= <- _]. apply (IH m1 m2 t2); [now apply (inv_step ch m m1 t1)|exact R0].
  Qed.

  (** ** What the consumer sees *)
  Notation trace := (list (call D R * ret D E R)).
  Definition sees m (t : trace) : Prop :=
    match exn m with
    | Some e => dying e (match mode_ m with Faulted => nextq m | _ => nextq m ++ fill m end) t
    | None =>
        match prod m with
        | PHave (Some d) | PSleep (Some d) => follows X ((nextq m ++ fill m) ++ [d]) (inner m) false t
        | PHave None | PSleep None => follows X (nextq m ++ fill m) (inner m) true t
        | _ => follows X (nextq m ++ fill m) (inner m) (match mode_ m with AtEnd => true | _ => false end) t
        end
    end.
  Ltac simp := cbn [mode_ stop fill nextq exn inner prod Prefetch_Model.cons set_cons set_prod] in *.
  Lemma sees_prod m m' t : Inv m -> producer_step X n m = Some m' -> sees m' t -> sees m t.
  Proof.
    intros H. destruct H, m as [mo s f q ex i p co]. unfold producer_step. simp. destruct p as [| |o|o| |]; try discriminate.
    - destruct mo; cbn [is_running]; try (intros [= <-]; exact (fun x => x)).
      destruct ex as [e|]; [destruct (i_exn0 ltac:(discriminate)) as [?|[_ []]]; discriminate|].
      destruct (pull X i) as [[d| |e] i'] eqn:P0; intros [= <-]; unfold sees; simp; intros F.
      + now apply (f_ahead X _ _ d i').
      + now apply (f_ended X _ _ i').
      + now apply (f_error X _ _ e i').
    - destruct (s || (length f <? n)) eqn:B; intros HS; [|injection HS as <-; unfold sees; simp; exact (fun x => x)].
      pose proof (i_busy0 I) as ->. destruct ex as [e|]; [|destruct o as [d|]]; injection HS as <-; unfold sees; simp.
      + apply dying_lost.
      + destruct s; now rewrite app_assoc.
      + exact (fun x => x).
    - intros [= <-]. unfold sees. simp. exact (fun x => x).
  Qed.
  Lemma sees_perform c m m' t tr : Inv m -> cons m = CDo c -> perform X c m = Some (m', t) -> sees m' tr -> sees m (t ++ tr).
  Proof.
    intros H C. destruct H, m as [mo s f q ex i p co]. simp. subst co. unfold perform, raise_if_faulted, return_. simp. pose proof (i_do0 I) as P0. subst p.
    assert (Ex : mo = Faulted /\ (exists e, ex = Some e) \/ mo <> Faulted /\ ex = None).
    { destruct ex as [e|]; [left|right]; (split; [|eauto]).
      - destruct (i_exn0 ltac:(discriminate)) as [?|[_ []]]; assumption.
      - intros ->. now apply i_fault0. }
    destruct Ex as [[-> [e ->]]|[M ->]].
    - destruct c as [|b|b|b r|]; [discriminate| | | |]; intros [= <- <-]; unfold sees; simp; intros F; cbn [app]; try (apply dying_other; [discriminate|exact F]). now apply dying_close.
    - destruct c as [|b|b|b r|]; [discriminate| | | |]; intros HS.
      + assert (HE : Some (set_cons (St NotRunning s [] [] None (reset X b i) PNone (CDo (Reset b))) Idle, [(Reset b, Done)]) = Some (m', t)) by (destruct mo; [exact HS|exact HS|exact HS|congruence]).
        injection HE as <- <-. unfold sees. simp. cbn [app]. apply f_reset.
      + assert (HE : Some (set_cons (St mo s f q None i PNone (CDo (Record_ b))) Idle, [(Record_ b, Tape (if b then Some (f, q) else None) (record X i))]) = Some (m', t)) by (destruct mo; [exact HS|exact HS|exact HS|congruence]).
        injection HE as <- <-. unfold sees. simp. cbn [app]. destruct b; [apply f_record|apply f_record_weak].
      + destruct b as [[f' q']|].
        * assert (HE : Some (set_cons (St NotRunning s f' q' None (reload X i r) PNone (CDo (Reload (Some (f', q')) r))) Idle, [(Reload (Some (f', q')) r, Done)]) = Some (m', t)) by (destruct mo; [exact HS|exact HS|exact HS|congruence]).
          injection HE as <- <-. unfold sees. simp. cbn [app]. apply f_reload.
        * assert (HE : Some (set_cons (St NotRunning s [] [] None (reload X i r) PNone (CDo (Reload None r))) Idle, [(Reload None r, Done)]) = Some (m', t)) by (destruct mo; [exact HS|exact HS|exact HS|congruence]).
          injection HE as <- <-. unfold sees. simp. cbn [app]. apply f_reload_weak.
      + injection HS as <- <-. unfold sees. simp. cbn [app]. apply f_close.
  Qed.
  Lemma sees_notify m : sees (set_prod m (notify_producer (prod m))) = sees m.
  Proof. unfold sees. destruct m as [mo s f q ex i p co]. simp. destruct p; reflexivity. Qed.
  Lemma sees_cons_ m c : sees (set_cons m c) = sees m.
  Proof. reflexivity. Qed.
  Lemma sees_cons m m' t tr : Inv m -> consumer_step X n m = Some (m', t) -> sees m' tr -> sees m (t ++ tr).
  Proof.
    intros H0. pose proof H0 as H. unfold consumer_step. destruct (cons m) as [| | | | | |c|c|c|c] eqn:C; try discriminate; unfold raise_if_faulted, go, return_.
    - rewrite n_eqb. destruct (is_empty (nextq m)) eqn:Q; intros [= <- <-]; rewrite sees_cons_; cbn [app]; [|exact (fun x => x)].
      unfold ensure. destruct H, m as [mo s f q ex i p co]. simp. destruct mo, p; try exact (fun x => x); unfold sees; simp; destruct (i_run0 eq_refl).
    - destruct H, m as [mo s f q ex i p co]. simp. subst co. pose proof (i_next0 I) as ->.
      destruct (negb (is_running mo) || negb (is_empty f)) eqn:B; [|intros [= <- <-]; exact (fun x => x)].
      destruct mo; [destruct (i_not0 eq_refl) as [[]|(_ & W & _)]; destruct W; exact I| | |].
      + destruct ex as [e|]; intros [= <- <-]; unfold sees; simp; rewrite app_nil_r; exact (fun x => x).
      + destruct ex as [e|]; intros [= <- <-]; unfold sees; simp; rewrite app_nil_r; exact (fun x => x).
      + destruct ex as [e|]; [|destruct (i_fault0 eq_refl eq_refl)]. intros [= <- <-]. unfold sees. simp. cbn [app]. apply dying_next.
    - intros [= <- <-]. rewrite sees_cons_, sees_notify. exact (fun x => x).
    - destruct H, m as [mo s f q ex i p co]. simp. subst co. destruct q as [|d q]; intros [= <- <-]; unfold sees; simp.
      + destruct (i_pop0 I eq_refl) as [-> ->]. destruct ex as [e|]; [destruct (i_exn0 ltac:(discriminate)) as [?|[? _]]; discriminate|]. destruct p as [| |o|o| |]; try apply f_end; discriminate (i_busy0 I).
      + cbn [app]. destruct ex as [e|]; [destruct mo; apply dying_got|]. destruct p as [| |[o|]|[o|]| |]; apply f_got.
    - destruct (prod m) eqn:P0; intros [= <- <-]; unfold sees; simp; rewrite P0; exact (fun x => x).
    - intros [= <- <-]. rewrite sees_cons_, sees_notify. exact (fun x => x).
    - destruct (prod m) eqn:P0; try discriminate. intros [= <- <-]; unfold sees; simp; rewrite P0; exact (fun x => x).
    - intros Hp. eapply sees_perform; [exact H0|exact C|exact Hp].
  Qed.
  Lemma sees_step ch m m' t tr : Inv m -> step ch m = Some (m', t) -> sees m' tr -> sees m (t ++ tr).
  Proof.
    intros H. destruct ch as [c| | | |]; cbn [Prefetch_Model.step].
    - destruct (cons m) eqn:C; try discriminate. intros [= <- <-]. exact (fun x => x).
    - now apply sees_cons.
    - destruct (producer_step X n m) as [m1|] eqn:P0; [|discriminate]. intros [= <- <-]. now apply sees_prod.
    - destruct (cons m) eqn:C; try discriminate. intros [= <- <-]. exact (fun x => x).
    - destruct (prod m) eqn:C; try discriminate. intros [= <- <-]. unfold sees. simp. rewrite C. exact (fun x => x).
  Qed.
  Lemma sees_nil m : sees m [].
  Proof. unfold sees. destruct (exn m); [constructor|]. destruct (prod m) as [| |[]|[]| |]; constructor. Qed.
  Lemma sees_run cs : forall m m' t, Inv m -> run cs m = Some (m', t) -> sees m t.
  Proof.
    induction cs as [|ch cs IH]; intros m m' t H; cbn [Prefetch_Model.run]; [intros [= <- <-]; apply sees_nil|]. destruct (step ch m) as [[m1 t1]|] eqn:S0; [|discriminate].
    destruct (run cs m1) as [[m2 t2]|] eqn:R0; [|discriminate]. intros [= <- <-]. apply (sees_step ch m m1 t1); [exact H|exact S0|]. apply (IH m1 m2); [now apply (inv_step ch m m1 t1)|exact R0].
  Qed.
  Theorem follows_run cs s m t : run cs (init s) = Some (m, t) -> follows X [] s false t.
  Proof. intros H. exact (sees_run cs _ _ _ (inv_init s) H). Qed.

  (** ** Progress *)
  Definition pre_swap (c : @consumer D R) : nat := match c with CNext | CCheck | CSleep => n | _ => 0 end.
  Definition pc_p (p : @producer D) : nat := match p with PNotify => 6 | PTop => 3 | PHave _ => 2 | PSleep _ => 1 | PNone | PEnd => 0 end.
  Definition pc_c (c : @consumer D R) : nat :=
    match c with Idle => 0 | CNext => 17 | CCheck => 5 | CSleep => 4 | CNotify => 3 | CPop => 1 | CStop _ => 7 | CStopNotify _ => 5 | CJoin _ => 3 | CDo _ => 1 end.
  Definition mu m : nat := 8 * (n - length (fill m) + pre_swap (cons m)) + (if is_running (mode_ m) then 8 else 0) + pc_p (prod m) + pc_c (cons m).
  Lemma mu_bound m : mu m <= 16 * n + 31.
  Proof. unfold mu. destruct (cons m); cbn [pre_swap pc_c]; destruct (prod m); cbn [pc_p]; destruct (is_running (mode_ m)); lia. Qed.
  Lemma mu_prod m m' : Inv m -> producer_step X n m = Some m' -> mu m' < mu m.
  Proof.
    intros H. destruct H, m as [mo s f q ex i p co]. unfold producer_step. simp. destruct p as [| |o|o| |]; try discriminate.
    - destruct mo; cbn [is_running]; try (intros [= <-]; unfold mu; simp; cbn [pc_p is_running]; lia). destruct (pull X i) as [[d| |e] i'] eqn:P0; intros [= <-]; unfold mu; simp; cbn [pc_p is_running]; lia.
    - pose proof (i_busy0 I) as ->. destruct (s || (length f <? n)) eqn:B; intros HS; [|injection HS as <-; unfold mu; simp; cbn [pc_p is_running]; lia].
      destruct ex as [e|]; [|destruct o as [d|]]; injection HS as <-; unfold mu; simp; cbn [pc_p is_running]; try lia. rewrite app_length. cbn [length]. destruct s; cbn [is_running]; [lia|]. cbn [orb] in B. apply Nat.ltb_lt in B. lia.
    - intros [= <-]. unfold mu. simp. destruct co; cbn [notify_consumer pre_swap pc_c pc_p]; lia.
  Qed.
  Lemma mu_cons m m' : Inv m -> consumer_step X n m = Some (m', []) -> mu m' < mu m.
  Proof.
    intros H. unfold consumer_step. destruct (cons m) as [| | | | | |c|c|c|c] eqn:C; try discriminate; unfold raise_if_faulted, go, return_.
    - rewrite n_eqb. unfold ensure. destruct H, m as [mo s f q ex i p co]. simp. subst co. destruct (is_empty q); intros [= <-]; unfold mu; [|simp; cbn [pre_swap pc_c]; lia].
      destruct mo, p; simp; cbn [pre_swap pc_c pc_p is_running]; lia.
    - destruct H, m as [mo s f q ex i p co]. simp. subst co. pose proof (i_next0 I) as ->.
      destruct (negb (is_running mo) || negb (is_empty f)) eqn:B; [|intros [= <-]; unfold mu; simp; cbn [pre_swap pc_c]; lia].
      destruct mo; [| | |destruct ex; [discriminate|]]; intros [= <-]; unfold mu; simp; cbn [pre_swap pc_c length]; lia.
    - intros [= <-]. unfold mu. simp. rewrite C. destruct (prod m); cbn [notify_producer pre_swap pc_c pc_p]; lia.
    - destruct (nextq m); discriminate.
    - destruct (prod m) eqn:P0; intros [= <-]; unfold mu; simp; rewrite C, P0; cbn [pre_swap pc_c pc_p]; lia.
    - intros [= <-]. unfold mu. simp. rewrite C. destruct (prod m); cbn [notify_producer pre_swap pc_c pc_p]; lia.
    - destruct (prod m) eqn:P0; try discriminate. intros [= <-]; unfold mu; simp; rewrite C, P0; cbn [pre_swap pc_c pc_p]; lia.
    - unfold perform, raise_if_faulted, return_. destruct c as [|b|b|[[? ?]|] r|]; try discriminate; destruct (mode_ m), (exn m); discriminate.
  Qed.
  Definition woken (ch : choice D R) : bool := match ch with WakeCons | WakeProd => true | _ => false end.
  Definition is_call (ch : choice D R) : bool := match ch with Call _ => true | _ => false end.
  Lemma steps_bound cs : forall m m', Inv m -> run cs m = Some (m', []) -> forallb (fun ch => negb (is_call ch)) cs = true ->
    length (filter (fun ch => negb (woken ch)) cs) + mu m' <= mu m + length (filter woken cs).
  Proof.
    induction cs as [|ch cs IH]; intros m m' H; cbn [Prefetch_Model.run forallb filter]; [intros [= <-]; cbn; lia|]. destruct (step ch m) as [[m1 t1]|] eqn:S0; [|discriminate].
    destruct (run cs m1) as [[m2 t2]|] eqn:R0; [|discriminate]. intros [= <- Et]. apply app_eq_nil in Et as [-> ->]. intros F. apply andb_true_iff in F as [F1 F2].
    specialize (IH m1 m2 (inv_step ch m m1 [] H S0) R0 F2). destruct ch as [c| | | |]; cbn [woken negb is_call] in *; try discriminate; cbn [Prefetch_Model.step] in S0; cbn [length].
    - pose proof (mu_cons m m1 H S0). lia.
    - destruct (producer_step X n m) as [m1'|] eqn:P0; [|discriminate]. injection S0 as <-. pose proof (mu_prod m m1' H P0). lia.
    - destruct (cons m) eqn:C; try discriminate. injection S0 as <-. assert (mu (set_cons m CCheck) = mu m + 1) by (unfold mu; simp; rewrite C; cbn [pre_swap pc_c]; lia). lia.
    - destruct (prod m) eqn:C; try discriminate. injection S0 as <-. assert (mu (set_prod m (PHave o)) = mu m + 1) by (unfold mu; simp; rewrite C; cbn [pc_p]; lia). lia.
  Qed.
  Lemma not_stuck m : Inv m -> cons m <> Idle -> step Cons m <> None \/ step Prod m <> None.
  Proof.
    intros H C. destruct H, m as [mo s f q ex i p co]. unfold Prefetch_Model.step, consumer_step, producer_step, raise_if_faulted, go, return_. simp.
    destruct co as [| | | | | |c|c|c|c]; try congruence.
    - left. rewrite n_eqb. destruct (is_empty q); discriminate.
    - left. destruct (negb _ || negb _); [destruct mo, ex; discriminate|discriminate].
    - right. destruct p as [| |o|o| |].
      + destruct mo; [destruct (i_not0 eq_refl) as [[]|(_ & W & _)]; destruct W; exact I|destruct (i_run0 eq_refl)| |]; discriminate (i_csleep0 eq_refl ltac:(left; discriminate)).
      + destruct mo; cbn [is_running]; try discriminate. destruct (pull X i). discriminate.
      + destruct (s || _); discriminate.
      + pose proof (i_busy0 I) as ->. exfalso. destruct (Nat.lt_ge_cases (length f) n) as [L|L]; [discriminate (i_sleep4 I L)|]. destruct f; cbn in L; [lia|]. discriminate (i_csleep0 eq_refl ltac:(right; discriminate)).
      + discriminate.
      + destruct mo; [destruct (i_not0 eq_refl) as [[]|(_ & W & _)]; destruct W; exact I|destruct (i_run0 eq_refl)| |]; discriminate (i_csleep0 eq_refl ltac:(left; discriminate)).
    - left. discriminate.
    - left. destruct q; discriminate.
    - left. destruct p; discriminate.
    - left. discriminate.
    - destruct p as [| |o|o| |].
      + now destruct (i_join0 I).
      + right. destruct mo; cbn [is_running]; try discriminate. destruct (pull X i). discriminate.
      + right. destruct (s || _); discriminate.
      + exfalso. assert (St : s = true) by now apply i_stop0. destruct (i_sleep3 I St) as [c' C']. discriminate C'.
      + right. discriminate.
      + left. discriminate.
    - left. unfold perform, raise_if_faulted, return_. simp. destruct c as [|b|b|[[? ?]|] r|]; [destruct (i_op0 I)| | | | |]; try destruct mo, ex; discriminate.
  Qed.

  (** ** How far it reads ahead *)
  Record Len m : Prop := {
    l_fill : length (fill m) <= n + 1;
    l_next : length (nextq m) <= n + 1;
    l_run : mode_ m = Running -> length (fill m) <= n \/ waiting (cons m) }.
  Definition fits (ch : choice D R) : Prop := match ch with Call (Reload (Some (f, q)) _) => length f <= n + 1 /\ length q <= n + 1 | _ => True end.
  Definition call_fits (c : call D R) : Prop := match c with Reload (Some (f, q)) _ => length f <= n + 1 /\ length q <= n + 1 | _ => True end.
  Definition cons_fits (c : @consumer D R) : Prop := match c with CStop c | CStopNotify c | CJoin c | CDo c => call_fits c | _ => True end.
  Lemma len_step ch m m' t : Inv m -> fits ch -> cons_fits (cons m) -> Len m -> step ch m = Some (m', t) -> Len m' /\ cons_fits (cons m').
  Proof.
    intros H F CF L. destruct H, L, m as [mo s f q ex i p co]. simp. destruct ch as [c| | | |]; cbn [Prefetch_Model.step]; simp.
    - destruct co; try discriminate. intros [= <- _]. split; [constructor; simp; auto|destruct c; simp; cbn; auto]. intros M. destruct (l_run0 M) as [?|[]]. now left.
    - unfold consumer_step, raise_if_faulted, go, return_. simp. destruct co as [| | | | | |c|c|c|c]; try discriminate.
      + rewrite n_eqb. unfold ensure. simp. destruct (is_empty q); intros [= <- _]; (split; [|exact I]); [|constructor; simp; auto].
        destruct mo, p; constructor; simp; auto; intros M; right; exact I.
      + rewrite (i_next0 I) in *. destruct (negb (is_running mo) || negb (is_empty f)) eqn:B; [|intros [= <- _]; split; [constructor; simp; auto|exact I]; intros; right; exact I].
        destruct mo; [| | |destruct ex; [|]]; intros [= <- _]; (split; [|exact I]); constructor; simp; cbn [length]; auto; intros; try discriminate; left; lia.
      + intros [= <- _]. split; [|exact I]. constructor; simp; auto.
      + destruct q as [|d q]; intros [= <- _]; (split; [|exact I]); constructor; simp; cbn [length] in *; auto; try lia; intros M; destruct (l_run0 M) as [?|[]]; now left.
      + destruct p; intros [= <- _]; (split; [|exact CF]); constructor; simp; auto; intros M; destruct (l_run0 M) as [?|[]]; now left.
      + intros [= <- _]. split; [|exact CF]. constructor; simp; auto.
      + destruct p; try discriminate. intros [= <- _]. split; [|exact CF]. constructor; simp; auto.
      + assert (M : mo <> Running) by (intros ->; rewrite (i_do0 I) in i_run0; destruct (i_run0 eq_refl)). unfold perform, raise_if_faulted, return_. simp.
        destruct c as [|b|b|[[f' q']|] r|]; [discriminate| | | | |]; try destruct mo, ex; intros [= <- _]; (split; [|exact I]); constructor; simp; cbn [length]; cbn in CF; auto; try lia; try congruence; try tauto.
    - unfold producer_step. simp. destruct p as [| |o|o| |]; try discriminate.
      + destruct mo; cbn [is_running option_map]; [intros [= <- _]; split; [constructor; simp; auto|exact CF]| |intros [= <- _]; split; [constructor; simp; auto|exact CF]|intros [= <- _]; split; [constructor; simp; auto|exact CF]].
        destruct (pull X i) as [o i']. cbn [option_map]. intros [= <- _]. split; [|exact CF]. constructor; simp; auto.
      + pose proof (i_busy0 I) as ->. destruct (s || (length f <? n)) eqn:B; cbn [option_map]; intros HS; [|injection HS as <- _; split; [constructor; simp; auto|exact CF]].
        destruct ex as [e|]; [|destruct o as [d|]]; injection HS as <- _; (split; [|exact CF]); constructor; simp; auto; try discriminate; rewrite ?app_length; cbn [length].
        * destruct s; cbn [orb] in B; [|apply Nat.ltb_lt in B; lia]. destruct (l_run0 eq_refl) as [?|W]; [lia|]. destruct co; try destruct W; destruct (proj1 i_stop0 eq_refl).
        * intros M. left. destruct s; [discriminate M|]. cbn [orb] in B. apply Nat.ltb_lt in B. lia.
      + cbn [option_map]. intros [= <- _]. split; [constructor; simp; auto; intros M; destruct (l_run0 M) as [?|W]; [now left|right]; destruct co; exact W || destruct W|destruct co; exact CF].
    - destruct co; try discriminate. intros [= <- _]. split; [constructor; simp; auto; intros; right; exact I|exact I].
    - destruct p; try discriminate. intros [= <- _]. split; [constructor; simp; auto|exact CF].
  Qed.
  Lemma len_run cs : forall m m' t, Inv m -> Forall fits cs -> cons_fits (cons m) -> Len m -> run cs m = Some (m', t) -> Len m'.
  Proof.
    induction cs as [|ch cs IH]; intros m m' t H F CF L; cbn [Prefetch_Model.run]; [now intros [= <- _]|]. destruct (step ch m) as [[m1 t1]|] eqn:S0; [|discriminate].
    destruct (run cs m1) as [[m2 t2]|] eqn:R0; [|discriminate]. intros [= <- _]. inversion F; subst. destruct (len_step ch m m1 t1) as [L1 C1]; try assumption. apply (IH m1 m2 t2); try assumption. now apply (inv_step ch m m1 t1).
  Qed.
End P.
