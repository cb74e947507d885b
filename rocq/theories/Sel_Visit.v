(** Lemmas about visiting and mapping the elements a selector addresses *)
From Coq Require Import List Bool Arith NArith Ascii Lia ZifyN ZifyNat ZifyBool Permutation.
From Verif Require Import File_Model Sel_Model Sel_Spec.
Import ListNotations.

Section Data.
  Context {A T : Type}.
  Local Notation data := (data A T).

  Definition data_ind' (P : data -> Prop) (HA : forall a, P (Atom a)) (HT : forall t, P (Tensor t)) (HL : forall l, Forall P l -> P (Items l))
    (HD : forall kv, Forall (fun e => P (snd e)) kv -> P (Dict kv)) : forall d, P d :=
    fix F d := match d with
      | Atom a => HA a
      | Tensor t => HT t
      | Items l => HL l ((fix G l := match l return Forall P l with [] => Forall_nil _ | x :: l' => Forall_cons x (F x) (G l') end) l)
      | Dict kv => HD kv ((fix G kv := match kv return Forall (fun e => P (snd e)) kv with [] => Forall_nil _ | x :: l' => Forall_cons x (F (snd x)) (G l') end) kv)
      end.

  (** ** Dictionaries *)
  Lemma str_eqb_iff x y : str_eqb x y = true <-> x = y.
  Proof. unfold str_eqb. destruct (str_eq_dec x y); split; congruence. Qed.
  Lemma lookup_some k kv (e : data) : lookup k kv = Some e -> In (k, e) kv.
  Proof.
    unfold lookup. destruct (List.find _ kv) as [[k' e']|] eqn:E; [|discriminate]. intros [= <-]. apply List.find_some in E as (I0 & E). cbn in *. apply str_eqb_iff in E as ->. exact I0.
  Qed.
  Lemma lookup_in k kv (e : data) : NoDup (map fst kv) -> In (k, e) kv -> lookup k kv = Some e.
  Proof.
    unfold lookup. induction kv as [|[k' e'] kv IH]; intros N0 I0; [contradiction|]. cbn. inversion N0 as [|? ? N1 N2]; subst. destruct I0 as [[= -> ->]|I0].
    - now rewrite (proj2 (str_eqb_iff k k) eq_refl).
    - destruct (str_eqb k' k) eqn:E; [|now apply IH]. apply str_eqb_iff in E as ->. destruct N1. apply in_map_iff. now exists (k, e).
  Qed.
  Lemma proper_child (d e : data) s : proper d -> child d s e -> proper e.
  Proof.
    intros P C. destruct s as [k|n], d; cbn in C; try contradiction; inversion P as [| |? F|? ? F]; subst; rewrite Forall_forall in F.
    - now apply (F (k, e)).
    - apply F. eapply nth_error_In; exact C.
  Qed.
  Lemma child_det (d e e' : data) s : proper d -> child d s e -> child d s e' -> e = e'.
  Proof.
    intros P C C'. destruct s as [k|n], d; cbn in *; try contradiction; [|congruence]. inversion P; subst. apply (lookup_in k) in C, C'; congruence.
  Qed.

  (** ** Unfolding the specification *)
  Lemma stands_for_self s : stands_for s s.
  Proof. destruct s as [k|n]; unfold stands_for; [reflexivity|]. destruct (N.eq_dec n wildcard); [now exists n|reflexivity]. Qed.
  Lemma all_there_nil (d : data) : all_there d [].
  Proof. intros [|s0 p0] s p' place e E; discriminate. Qed.
  Lemma all_there_cons (d : data) s p : all_there d (s :: p) <-> leads_on d s /\ forall t e, stands_for s t -> child d t e -> all_there e p.
  Proof.
    split.
    - intros H. split; [exact (H [] s p [] d eq_refl (Forall2_nil _) (at_root d))|]. intros t e St C p1 s1 p2 place x -> F A0. apply (H (s :: p1) s1 p2 (t :: place)); [reflexivity|now constructor|now apply at_child with e].
    - intros (L & H) [|s0 p1] s1 p2 place x E F A0; cbn in E; injection E as <- ->.
      + inversion F; subst. inversion A0; subst. exact L.
      + inversion F as [|? t ? place' St F']; subst. inversion A0 as [|? ? e ? ? C A']; subst. exact (H t e St C p1 s1 p2 place' x eq_refl F' A').
  Qed.
  Lemma addressed_nil (d : data) q : addressed d [] q <-> q = [].
  Proof. split; [intros (F & _); now inversion F|intros ->; split; [constructor|exists d; constructor]]. Qed.
  Lemma addressed_cons (d : data) s p q : addressed d (s :: p) q <-> exists t q' e, q = t :: q' /\ stands_for s t /\ child d t e /\ addressed e p q'.
  Proof.
    split.
    - intros (F & x & A0). inversion F as [|? t ? q' St F']; subst. inversion A0 as [|? ? e ? ? C A']; subst. exists t, q', e. repeat split; try assumption. now exists x.
    - intros (t & q' & e & -> & St & C & F & x & A0). split; [now constructor|]. exists x. now apply at_child with e.
  Qed.

  (** ** Visiting *)
  Definition vresult : Type := bool * list (list segment * list segment) * list segment.
  Fixpoint each (vis : data -> list segment -> list segment -> vresult) (place : list segment) (i j : nat) (l : list data) (resolved : list segment) : vresult :=
    match l with
    | [] => (true, [], pop i resolved)
    | e :: l' =>
        let resolved := set_back (Index (N.of_nat j)) resolved in
        match vis e (place ++ [Index (N.of_nat j)]) resolved with
        | (false, v, r) => (false, v, r)
        | (true, v, r) => match each vis place i (S j) l' r with (b, v', r') => (b, v ++ v', r') end
        end
    end.
  Lemma visit_wild path i (l : list data) place resolved :
    visit (Index wildcard :: path) i (Items l) place resolved = each (visit path 0) place i 0 l (resolved ++ [Index wildcard]).
  Proof.
    cbn [visit]. rewrite N.eqb_refl. match goal with |- ?F 0 l ?r = _ => assert (G : forall l j r0, F j l r0 = each (visit path 0) place i j l r0); [|apply G] end.
    clear. induction l as [|e l IH]; intros j r; [reflexivity|]. cbn [each]. cbv zeta. destruct (visit path 0 e _ _) as [[[|] v] r0]; [|reflexivity]. now rewrite IH.
  Qed.

  Definition vspec (ok : bool) (v : list (list segment * list segment)) (place : list segment) (d : data) (path : list segment) : Prop :=
    (ok = true <-> all_there d path) /\ (ok = true -> NoDup (map fst v) /\ forall q, In q (map fst v) <-> exists q', q = place ++ q' /\ addressed d path q').
  Lemma each_spec vis path place i (l : list data) : (forall e pl r, In e l -> vspec (fst (fst (vis e pl r))) (snd (fst (vis e pl r))) pl e path) -> forall j r,
    (fst (fst (each vis place i j l r)) = true <-> forall e, In e l -> all_there e path) /\
    (fst (fst (each vis place i j l r)) = true -> NoDup (map fst (snd (fst (each vis place i j l r)))) /\
      forall q, In q (map fst (snd (fst (each vis place i j l r)))) <-> exists k e q', nth_error l k = Some e /\ q = place ++ Index (N.of_nat (j + k)) :: q' /\ addressed e path q').
  Proof.
    induction l as [|e l IH]; intros V j r; cbn [each].
    - cbn. split; [split; [contradiction|reflexivity]|]. intros _. split; [constructor|]. intros q. split; [contradiction|]. intros ([|k] & e & q' & E & _); discriminate.
    - specialize (V e (place ++ [Index (N.of_nat j)]) (set_back (Index (N.of_nat j)) r) (or_introl eq_refl)) as Ve. assert (V' := fun e' pl r' I0 => V e' pl r' (or_intror I0)). specialize (IH V'). clear V V'. cbv zeta.
      destruct (vis e _ _) as [[ok v] r0]. cbn [fst snd] in Ve. destruct Ve as (Ve & Vq). destruct ok.
      + specialize (IH (S j) r0). destruct (each vis place i (S j) l r0) as [[b v'] r']. cbn [fst snd] in *. destruct IH as (IHb & IHq). destruct (Vq eq_refl) as (N0 & Q). split.
        * rewrite IHb. split; [intros H x [<-|I0]; [now apply Ve|now apply H]|]. intros H x I0. apply H. now right.
        * intros ->. destruct (IHq eq_refl) as (N1 & Q'). rewrite map_app. split.
          -- clear - N0 N1 Q Q'. induction (map fst v) as [|x m IHm] eqn:Em in N0, Q |- *; [exact N1|].
             assert (G : forall m, NoDup m -> (forall q, In q m -> exists q', q = (place ++ [Index (N.of_nat j)]) ++ q') -> NoDup (m ++ map fst v')).
             { clear - N1 Q'. intros m. induction m as [|x m IHm]; intros N0 H; [exact N1|]. inversion N0 as [|? ? X N0']; subst. cbn. constructor; [|apply IHm; [exact N0'|]; intros q I0; apply H; now right].
               rewrite in_app_iff. intros [I0|I0]; [contradiction|]. destruct (H x (or_introl eq_refl)) as (q' & ->). apply Q' in I0 as (k & e' & q'' & _ & E & _). rewrite <- app_assoc in E. apply app_inv_head in E. cbn in E. injection E as E _. lia. }
             apply G; [exact N0|]. intros q I0. apply Q in I0 as (q' & -> & _). now exists q'.
          -- intros q. rewrite in_app_iff, Q, Q'. split.
             ++ intros [(q' & -> & A0)|(k & e' & q' & E & -> & A0)]; [exists 0, e, q'|exists (S k), e', q']; (split; [assumption||reflexivity|]); (split; [|exact A0]).
                ** rewrite Nat.add_0_r, <- app_assoc. reflexivity.
                ** now replace (j + S k) with (S j + k) by lia.
             ++ intros ([|k] & e' & q' & E & -> & A0); cbn in E; [injection E as <-; left; exists q'|right; exists k, e', q'].
                ** rewrite Nat.add_0_r, <- app_assoc. now split.
                ** split; [exact E|]. split; [|exact A0]. now replace (j + S k) with (S j + k) by lia.
      + cbn [fst snd]. split; [|discriminate]. split; [discriminate|]. intros H. exfalso. assert (false = true) by (apply Ve, H; now left). discriminate.
  Qed.

  Lemma visit_spec path : forall i (d : data) place resolved, proper d -> vspec (fst (fst (visit path i d place resolved))) (snd (fst (visit path i d place resolved))) place d path.
  Proof.
    induction path as [|s path IH]; intros i d place resolved P.
    - cbn. split; [split; [intros _; apply all_there_nil|reflexivity]|]. intros _. split; [repeat constructor; tauto|]. intros q. cbn. split.
      + intros [<-|[]]. exists []. now rewrite app_nil_r, addressed_nil.
      + intros (q' & -> & A0). apply addressed_nil in A0 as ->. rewrite app_nil_r. now left.
    - assert (Fail : forall r, (leads_on d s -> False) -> vspec false [] place d (s :: path) /\ r = r :> list segment).
      { intros r H. split; [|reflexivity]. split; [|discriminate]. split; [discriminate|]. intros L. apply all_there_cons in L as (L & _). contradiction. }
      assert (One : forall e, child d s e -> (forall t, stands_for s t -> t = s) -> leads_on d s -> forall i r, let w := visit path i e (place ++ [s]) r in vspec (fst (fst w)) (snd (fst w)) place d (s :: path)).
      { intros e C U L i' r w. destruct (IH i' e (place ++ [s]) r (proper_child _ _ _ P C)) as (Ok & Q). fold w in Ok, Q. split.
        - rewrite Ok, all_there_cons. split; [|intros (_ & H); apply (H s); [apply stands_for_self|exact C]]. intros H. split; [exact L|]. intros t e' St C'. apply U in St as ->. now rewrite (child_det _ _ _ _ P C' C).
        - intros E. destruct (Q E) as (N0 & H). split; [exact N0|]. intros q. rewrite H. split.
          + intros (q' & -> & A0). exists (s :: q'). split; [now rewrite <- app_assoc|]. apply addressed_cons. exists s, q', e. repeat split; try assumption; [apply stands_for_self|apply A0|apply A0].
          + intros (q' & -> & A0). apply addressed_cons in A0 as (t & q'' & e' & -> & St & C' & A0). apply U in St as ->. rewrite (child_det _ _ _ _ P C' C) in A0. exists q''. split; [now rewrite <- app_assoc|exact A0]. }
      destruct s as [k|n].
      + cbn [visit]. destruct d as [a|t|l|kv]; try (apply Fail; [exact nil|cbn; tauto]). destruct (lookup k kv) as [e|] eqn:E.
        * apply lookup_some in E. apply One; [exact E|now intros t ->|now exists e].
        * apply Fail; [exact nil|]. intros (e & I0). inversion P; subst. apply lookup_in in I0; congruence.
      + destruct d as [a|t|l|kv]; try (cbn [visit]; apply Fail; [exact nil|cbn; tauto]). destruct (N.eq_dec n wildcard) as [->|W].
        * rewrite visit_wild. assert (Pl : forall e, In e l -> proper e) by (inversion P as [| |? F|]; subst; now apply Forall_forall).
          destruct (each_spec (visit path 0) path place i l (fun e pl r I0 => IH 0 e pl r (Pl e I0)) 0 (resolved ++ [Index wildcard])) as (Ok & Q). split.
          -- rewrite Ok, all_there_cons. split.
             ++ intros H. split; [now left|]. intros t e _ C. destruct t as [k|m]; cbn in C; [contradiction|]. apply H. eapply nth_error_In; exact C.
             ++ intros (_ & H) e I0. apply In_nth_error in I0 as (k & E). apply (H (Index (N.of_nat k))); [unfold stands_for; destruct (N.eq_dec wildcard wildcard); [now eexists|contradiction]|]. cbn. now rewrite Nnat.Nat2N.id.
          -- intros E. destruct (Q E) as (N0 & H). split; [exact N0|]. intros q. rewrite H. split.
             ++ intros (k & e & q' & Ek & -> & A0). exists (Index (N.of_nat k) :: q'). split; [reflexivity|]. apply addressed_cons. exists (Index (N.of_nat k)), q', e. split; [reflexivity|]. split; [unfold stands_for; destruct (N.eq_dec wildcard wildcard); [now eexists|contradiction]|]. split; [cbn; now rewrite Nnat.Nat2N.id|exact A0].
             ++ intros (q' & -> & A0). apply addressed_cons in A0 as (t & q'' & e & -> & _ & C & A0). destruct t as [k|m]; cbn in C; [contradiction|]. exists (N.to_nat m), e, q''. cbn [Nat.add]. rewrite Nnat.N2Nat.id. auto.
        * cbn [visit]. destruct (N.eqb_spec n wildcard) as [|_]; [contradiction|]. assert (U : forall t, stands_for (Index n) t -> t = Index n) by (unfold stands_for; destruct (N.eq_dec n wildcard); [contradiction|auto]).
          destruct (N.leb_spec (N.of_nat (length l)) n) as [L|L].
          -- apply Fail; [exact nil|]. cbn. intros [|]; [contradiction|lia].
          -- destruct (nth_error l (N.to_nat n)) as [e|] eqn:E; [|apply nth_error_None in E; lia]. apply One; [exact E|exact U|]. cbn. right. apply nth_error_Some. congruence.
  Qed.

  Lemma visit_path_spec (d : data) path : proper d ->
    match visit_path d path with
    | None => ~ all_there d path
    | Some v => all_there d path /\ NoDup (map fst v) /\ forall q, In q (map fst v) <-> addressed d path q
    end.
  Proof.
    intros P. unfold visit_path. destruct (visit_spec path 0 d [] [] P) as (Ok & Q). destruct (visit path 0 d [] []) as [[ok v] r]. cbn [fst snd] in *. destruct ok.
    - split; [now apply Ok|]. destruct (Q eq_refl) as (N0 & H). split; [exact N0|]. intros q. rewrite H. split; [now intros (q' & -> & A0)|]. intros A0. now exists q.
    - intros H. apply Ok in H. discriminate.
  Qed.
  Lemma visit_paths_spec (d : data) ps : proper d ->
    match visit_paths d ps with
    | None => exists path, In path ps /\ ~ all_there d path
    | Some v => (forall path, In path ps -> all_there d path) /\ (forall q, In q (map fst v) <-> exists path, In path ps /\ addressed d path q) /\ (separate d ps -> NoDup (map fst v))
    end.
  Proof.
    intros P. induction ps as [|path ps IH]; cbn [visit_paths].
    - split; [contradiction|]. split; [|constructor]. intros q. split; [contradiction|]. now intros (? & ? & _).
    - pose proof (visit_path_spec d path P) as V. destruct (visit_path d path) as [v|]; [|exists path; split; [now left|exact V]]. destruct V as (Th & N0 & Q). destruct (visit_paths d ps) as [v'|]; cbn [option_map].
      + destruct IH as (Th' & Q' & N1). split; [intros x [<-|I0]; [exact Th|now apply Th']|]. rewrite map_app. split.
        * intros q. rewrite in_app_iff, Q, Q'. split; [intros [A0|(x & I0 & A0)]; [exists path|exists x]; (split; [|exact A0]); [now left|now right]|]. intros (x & [<-|I0] & A0); [now left|]. right. now exists x.
        * intros Sp. assert (N2 := N1 (fun i j p p' q q' D E E' => Sp (S i) (S j) p p' q q' ltac:(lia) E E')).
          assert (Dj : forall q, In q (map fst v) -> In q (map fst v') -> False).
          { intros q I0 I1. apply Q in I0. apply Q' in I1 as (x & I1 & A1). apply In_nth_error in I1 as (j & E). apply (Sp 0 (S j) path x q q ltac:(lia) eq_refl E I0 A1 []). apply app_nil_r. }
          clear - N0 N2 Dj. induction (map fst v) as [|x m IHm]; [exact N2|]. inversion N0; subst. cbn. constructor; [|apply IHm; [assumption|]; intros q I0; apply Dj; now right]. rewrite in_app_iff. intros [I0|I0]; [contradiction|]. apply (Dj x); [now left|exact I0].
      + destruct IH as (x & I0 & H). exists x. split; [now right|exact H].
  Qed.

  (** ** The reported path *)
  Lemma pop_app p : forall r, pop (length p) (r ++ p) = r.
  Proof.
    induction p as [|x p IH] using rev_ind; intros r; [now rewrite app_nil_r|]. rewrite app_length, Nat.add_1_r. cbn [pop]. rewrite app_assoc, removelast_last. apply IH.
  Qed.
  Lemma visit_plain path : forall i (d : data) place resolved v r, Forall (fun s => s <> Index wildcard) path -> visit path i d place resolved = (true, v, r) ->
    v = [(place ++ path, resolved ++ path)] /\ r = pop (i + length path) (resolved ++ path).
  Proof.
    induction path as [|s path IH]; intros i d place resolved v r F E.
    - cbn in E. injection E as <- <-. rewrite !app_nil_r, Nat.add_0_r. now split.
    - apply Forall_cons_iff in F as (W & F). assert (G : forall e : data, visit path (S i) e (place ++ [s]) (resolved ++ [s]) = (true, v, r) -> v = [(place ++ s :: path, resolved ++ s :: path)] /\ r = pop (i + length (s :: path)) (resolved ++ s :: path)).
      { intros e E'. apply IH in E' as (-> & ->); [|exact F]. rewrite <- !app_assoc. cbn [app length]. split; [reflexivity|]. now replace (S i + length path) with (i + S (length path)) by lia. }
      destruct s as [k|n]; cbn [visit] in E.
      + destruct d; try discriminate. destruct (lookup k kv) as [e|]; [|discriminate]. now apply (G e).
      + destruct d; try discriminate. destruct (N.eqb_spec n wildcard) as [->|_]; [contradiction|]. destruct (N.of_nat (length l) <=? n)%N; [discriminate|]. destruct (nth_error l (N.to_nat n)) as [e|]; [|discriminate]. now apply (G e).
  Qed.
  Lemma set_back_last s x (p : list segment) : set_back s (p ++ [x]) = p ++ [s].
  Proof. unfold set_back. now rewrite removelast_last. Qed.
  Lemma visit_reports path post : forall i (d : data) place v r, Forall (fun s => s <> Index wildcard) path -> Forall (fun s => s <> Index wildcard) post ->
    visit (path ++ Index wildcard :: post) i d place place = (true, v, r) -> Forall (fun x => snd x = fst x) v.
  Proof.
    induction path as [|s path IH]; intros i d place v r F Fp E; cbn [app] in E.
    - destruct d as [|?|l|]; try discriminate. rewrite visit_wild in E. assert (G : forall j x v r, each (visit post 0) place i j l (place ++ [x]) = (true, v, r) -> Forall (fun x => snd x = fst x) v).
      { clear E v r. induction l as [|e l IHl]; intros j x v r E; cbn [each] in E; [injection E as <- _; constructor|]. cbv zeta in E. rewrite set_back_last in E.
        destruct (visit post 0 e _ _) as [[[|] v0] r0] eqn:V; [|discriminate]. apply visit_plain in V as (-> & ->); [|exact Fp]. cbn [Nat.add] in E. rewrite pop_app in E.
        destruct (each _ place i (S j) l _) as [[b v'] r'] eqn:Ea. injection E as -> <- <-. cbn. constructor; [reflexivity|]. eapply IHl; exact Ea. }
      eapply G; exact E.
    - apply Forall_cons_iff in F as (W & F). destruct s as [k|n]; cbn [visit] in E.
      + destruct d; try discriminate. destruct (lookup k kv) as [e|]; [|discriminate]. eapply IH; eassumption.
      + destruct d; try discriminate. destruct (N.eqb_spec n wildcard) as [->|_]; [contradiction|]. destruct (N.of_nat (length l) <=? n)%N; [discriminate|]. destruct (nth_error l (N.to_nat n)) as [e|]; [|discriminate]. eapply IH; eassumption.
  Qed.
End Data.
