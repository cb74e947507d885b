From Coq Require Import String Ascii List Bool Arith Lia.
From Verif Require Import Config_Model Config_Spec.
Import ListNotations.
Open Scope list_scope.

Lemma key_eqb_spec a b : reflect (a = b) (key_eqb a b).
Proof. destruct a as [s|m], b as [t|n]; simpl; try (constructor; congruence); [destruct (String.eqb_spec s t)|destruct (Nat.eqb_spec m n)]; constructor; congruence. Qed.
Lemma key_eqb_refl k : key_eqb k k = true. Proof. destruct (key_eqb_spec k k); congruence. Qed.
Lemma get_put {A} k k' (v : A) l : get k (put k' v l) = if key_eqb k k' then Some v else get k l.
Proof.
  induction l as [|[a x] l IH]; simpl; [reflexivity|]. destruct (key_eqb_spec k' a) as [E|E]; simpl.
  - subst a. destruct (key_eqb_spec k k'); reflexivity.
  - rewrite IH. destruct (key_eqb_spec k a) as [E1|E1]; [|reflexivity]. subst a. destruct (key_eqb_spec k k'); congruence.
Qed.
Lemma get_none {A} k (l : list (key * A)) : ~ In k (map fst l) <-> get k l = None.
Proof.
  induction l as [|[a x] l IH]; simpl; [tauto|]. destruct (key_eqb_spec k a) as [E|E]; [split; [intros H; exfalso; apply H; left; congruence|discriminate]|].
  rewrite <- IH. split; [tauto|]. intros H [X|X]; [congruence|tauto].
Qed.
Lemma get_in {A} k (l : list (key * A)) v : get k l = Some v -> In (k, v) l.
Proof. induction l as [|[a x] l IH]; simpl; [discriminate|]. destruct (key_eqb_spec k a) as [E|E]; [intros H; injection H as <-; left; congruence|intros H; right; auto]. Qed.
Lemma in_get {A} k (l : list (key * A)) v : NoDup (map fst l) -> In (k, v) l -> get k l = Some v.
Proof.
  induction l as [|[a x] l IH]; simpl; intros N H; [destruct H|]. inversion N as [|? ? N1 N2]; subst. destruct H as [H|H].
  - injection H as -> ->. rewrite key_eqb_refl. reflexivity.
  - destruct (key_eqb_spec k a) as [E|E]; [exfalso; apply N1; rewrite <- E; apply (in_map fst _ (k, v)), H|auto].
Qed.
Lemma get_filter k ks (l : list (key * cv)) : get k (filter (fun kv => negb (existsb (key_eqb (fst kv)) ks)) l) = if existsb (key_eqb k) ks then None else get k l.
Proof.
  induction l as [|[a x] l IH]; simpl; [destruct (existsb _ ks); reflexivity|]. destruct (key_eqb_spec k a) as [E|E].
  - subst a. destruct (existsb (key_eqb k) ks) eqn:X; simpl; [exact IH|rewrite key_eqb_refl; reflexivity].
  - destruct (existsb (key_eqb a) ks); simpl; [exact IH|]. destruct (key_eqb_spec k a); [congruence|exact IH].
Qed.
Lemma bindr_ok {A B} (r : res A) (f : A -> res B) b : bindr r f = Ok b -> exists a, r = Ok a /\ f a = Ok b.
Proof. destruct r; simpl; intros H; try discriminate. eauto. Qed.

Section Ind.
  Variable P : cv -> Prop.
  Hypothesis H1 : P CNone.
  Hypothesis H2 : forall n, P (COther n).
  Hypothesis H3 : forall s, P (CStr s).
  Hypothesis H4 : forall l, Forall P l -> P (CList l).
  Hypothesis H5 : forall l, Forall (fun kv => P (snd kv)) l -> P (CMap l).
  Fixpoint cv_ind' (v : cv) : P v :=
    match v with
    | CNone => H1 | COther n => H2 n | CStr s => H3 s
    | CList l => H4 l ((fix go l : Forall P l := match l with [] => Forall_nil _ | x :: l' => Forall_cons _ (cv_ind' x) (go l') end) l)
    | CMap l => H5 l ((fix go l : Forall (fun kv => P (snd kv)) l := match l with [] => Forall_nil _ | x :: l' => Forall_cons _ (cv_ind' (snd x)) (go l') end) l)
    end.
End Ind.

Definition mloop := fix loop (l output : list (key * cv)) : res (list (key * cv)) :=
  match l with
  | [] => Ok output
  | (k, v) :: l' =>
      if key_eqb k DEL || key_eqb k SET then loop l' output
      else match v with
           | CMap _ => bindr (merge_map (as_map (get k output)) v) (fun m => loop l' (put k (CMap m) output))
           | _ => loop l' (put k v output)
           end
  end.
Definition keep (ks : list key) (target : list (key * cv)) := filter (fun kv => negb (existsb (key_eqb (fst kv)) ks)) target.
Lemma merge_map_eq t l : merge_map t (CMap l) = bindr (del_keys l) (fun ks => bindr (mloop l (keep ks t)) (fun o => set_keys l o)).
Proof. reflexivity. Qed.

Definition special k := k = DEL \/ k = SET.
Lemma special_eqb k : (key_eqb k DEL || key_eqb k SET) = true <-> special k.
Proof. unfold special. destruct (key_eqb_spec k DEL); destruct (key_eqb_spec k SET); simpl; (split; [try discriminate; tauto|intros [X|X]; congruence]). Qed.
Lemma special_dec k : special k \/ ~ special k.
Proof. unfold special. destruct (key_eqb_spec k DEL); destruct (key_eqb_spec k SET); tauto. Qed.

Lemma mloop_get l : NoDup (map fst l) -> forall out r, mloop l out = Ok r -> forall k,
  (special k \/ get k l = None -> get k r = get k out) /\
  (~ special k -> forall v, get k l = Some v -> (forall m, v <> CMap m) -> get k r = Some v) /\
  (~ special k -> forall m, get k l = Some (CMap m) -> exists m', merge_map (as_map (get k out)) (CMap m) = Ok m' /\ get k r = Some (CMap m')).
Proof.
  induction l as [|[a x] l IH]; intros N out r H k.
  - injection H as <-. simpl. split; [reflexivity|]. split; discriminate.
  - cbn [map fst] in N. inversion N as [|? ? N1 N2]; subst. cbn [mloop] in H. destruct (key_eqb a DEL || key_eqb a SET) eqn:S.
    + apply special_eqb in S. destruct (IH N2 _ _ H k) as (A & B & C). cbn [get]. destruct (key_eqb_spec k a) as [E|E]; [|auto].
      subst a. split; [intros _; apply A; left; exact S|]. split; intros X; tauto.
    + assert (S' : ~ special a) by (rewrite <- special_eqb, S; discriminate).
      assert (G : exists y, mloop l (put a y out) = Ok r /\ ((forall m, x <> CMap m) -> y = x) /\ forall m, x = CMap m -> exists m', merge_map (as_map (get a out)) (CMap m) = Ok m' /\ y = CMap m').
      { destruct x as [| | | |m0]; try (eexists; split; [exact H|split; [reflexivity|discriminate]]).
        apply bindr_ok in H. destruct H as (m' & H1 & H). exists (CMap m'). split; [exact H|]. split; [intros X; exfalso; apply (X m0); reflexivity|]. intros m X. injection X as <-. eauto. }
      destruct G as (y & H' & Y1 & Y2). destruct (IH N2 _ _ H' k) as (A & B & C). cbn [get]. rewrite get_put in A, C. destruct (key_eqb_spec k a) as [E|E].
      * subst a. assert (X : get k r = Some y) by (apply A; right; apply get_none, N1). rewrite X. split; [intros [Z|Z]; [tauto|discriminate]|]. split.
        -- intros _ v Z V. injection Z as ->. rewrite (Y1 V). reflexivity.
        -- intros _ m Z. injection Z as ->. destruct (Y2 m eq_refl) as (m' & M & ->). eauto.
      * auto.
Qed.
Lemma del_names_in l ks : del_names l = Ok ks -> forall k, existsb (key_eqb k) ks = true <-> exists s, In (CStr s) l /\ k = KStr s.
Proof.
  revert ks. induction l as [|x l IH]; intros ks H k; simpl in H; [injection H as <-; simpl; split; [discriminate|intros (s & [] & _)]|].
  destruct x; try discriminate. apply bindr_ok in H. destruct H as (ks' & H1 & H). injection H as <-. cbn [existsb]. rewrite orb_true_iff, (IH _ H1 k).
  destruct (key_eqb_spec k (KStr s)) as [E|E]; split.
  - intros _. exists s. split; [left; reflexivity|exact E].
  - intros _. left. reflexivity.
  - intros [X|(s' & X & Y)]; [discriminate|]. exists s'. split; [right; exact X|exact Y].
  - intros (s' & [X|X] & Y); [injection X as ->; congruence|]. right. eauto.
Qed.
Lemma del_keys_in l ks : del_keys l = Ok ks -> forall k, existsb (key_eqb k) ks = true <-> listed (get DEL l) k.
Proof.
  unfold del_keys, listed. intros H k. destruct (get DEL l) as [[| | |l0|]|]; try discriminate; try (injection H as <-; simpl; split; [discriminate|intros (a & b & X & _); discriminate]).
  rewrite (del_names_in _ _ H k). split; [intros (s & A & B); eauto 6|intros (a & s & X & A & B); injection X as <-; eauto].
Qed.
Lemma set_loop_get s : NoDup (map fst s) -> forall out r, set_loop s out = Ok r -> forall k, get k r = match get k s with Some v => Some v | None => get k out end.
Proof.
  induction s as [|[a x] s IH]; intros N out r H k; [injection H as <-; reflexivity|]. cbn [map fst] in N. inversion N as [|? ? N1 N2]; subst. simpl in H. destruct a; [|discriminate].
  rewrite (IH N2 _ _ H k), get_put. cbn [get]. destruct (key_eqb_spec k (KStr s0)) as [E|E]; [|reflexivity]. subst k. apply get_none in N1. rewrite N1. reflexivity.
Qed.
Lemma wf_get l k v : wf (CMap l) -> get k l = Some v -> wf v.
Proof. intros H G. inversion H as [| | | |l' N F]; subst. rewrite Forall_forall in F. apply F. apply (in_map snd _ (k, v)), get_in, G. Qed.
Lemma wf_nodup l : wf (CMap l) -> NoDup (map fst l). Proof. intros H. inversion H; auto. Qed.
Lemma set_keys_get l out r : wf (CMap l) -> set_keys l out = Ok r -> forall k,
  (forall s v, get SET l = Some (CMap s) -> get k s = Some v -> get k r = Some v) /\ (unset l k -> get k r = get k out).
Proof.
  unfold set_keys, unset. intros Wf H k. destruct (get SET l) as [[| | | |s]|] eqn:E; try discriminate; try (injection H as <-; split; [discriminate|reflexivity]).
  rewrite (set_loop_get s (wf_nodup _ (wf_get _ _ _ Wf E)) _ _ H k). split; [intros s' v X Y; injection X as <-; rewrite Y; reflexivity|]. intros X. rewrite (X s eq_refl). reflexivity.
Qed.

(** What is under each key of the result. *)
Lemma merge_map_get t l r : wf (CMap l) -> merge_map t (CMap l) = Ok r -> forall k,
  (forall s v, get SET l = Some (CMap s) -> get k s = Some v -> get k r = Some v) /\
  (unset l k ->
    (special k \/ get k l = None -> (listed (get DEL l) k -> get k r = None) /\ (~ listed (get DEL l) k -> get k r = get k t)) /\
    (~ special k -> forall v, get k l = Some v -> (forall m, v <> CMap m) -> get k r = Some v) /\
    (~ special k -> forall m, get k l = Some (CMap m) -> exists t', merge_map t' (CMap m) = Ok (as_map (get k r)) /\ get k r = Some (CMap (as_map (get k r))) /\
        (listed (get DEL l) k -> t' = []) /\ (~ listed (get DEL l) k -> t' = as_map (get k t)))).
Proof.
  intros Wf H k. rewrite merge_map_eq in H. apply bindr_ok in H. destruct H as (ks & D & H). apply bindr_ok in H. destruct H as (o & L & H).
  destruct (set_keys_get l o r Wf H k) as (A & B). split; [exact A|]. intros U. rewrite (B U). destruct (mloop_get l (wf_nodup _ Wf) _ _ L k) as (C1 & C2 & C3).
  unfold keep in C1, C3. rewrite get_filter in C1, C3. pose proof (del_keys_in l ks D k) as I.
  split; [intros X; rewrite (C1 X); split; intros Y; destruct (existsb (key_eqb k) ks); intuition congruence|].
  split; [exact C2|]. intros S m G. destruct (C3 S m G) as (m' & M & E). rewrite E. eexists. split; [exact M|]. split; [reflexivity|].
  split; intros Y; destruct (existsb (key_eqb k) ks); intuition congruence.
Qed.

Lemma keep_nil m w : mentions (CMap m) [] w -> w = See Mapping. Proof. intros H. inversion H. reflexivity. Qed.
Lemma merge_look s p w : mentions s p w -> wf s -> forall t r, merge_map t s = Ok r -> look (CMap r) p = then_see w (look (CMap t) p).
Proof.
  induction 1 as [l|l s v k p Hs Hv|l v k p U N1 N2 G Nm|l m k p w U N1 N2 G NL M IH|l m k p w U N1 N2 G NL M IH|l k p U X L|l k p U X NL]; intros Wf t r H; [reflexivity| | | | | |];
    destruct (merge_map_get t l r Wf H k) as (A & B); unfold look; cbn [at_path].
  - rewrite (A s v Hs Hv). reflexivity.
  - destruct (B U) as (_ & B2 & _). rewrite (B2 ltac:(intros [Z|Z]; tauto) v G Nm). reflexivity.
  - destruct (B U) as (_ & _ & B3). destruct (B3 ltac:(intros [Z|Z]; tauto) m G) as (t' & E1 & E2 & _ & E3). rewrite E2. cbn [at_path].
    specialize (IH (wf_get _ _ _ Wf G) _ _ E1). unfold look in IH at 1. rewrite IH. rewrite (E3 NL). destruct (get k t) as [[| | | |mt]|] eqn:Gt; cbn [as_map]; try reflexivity;
      (destruct p as [|q p]; [rewrite (keep_nil _ _ M); reflexivity|]; destruct w; reflexivity).
  - destruct (B U) as (_ & _ & B3). destruct (B3 ltac:(intros [Z|Z]; tauto) m G) as (t' & E1 & E2 & E3 & _). rewrite E2. cbn [at_path].
    specialize (IH (wf_get _ _ _ Wf G) _ _ E1). unfold look in IH at 1. rewrite IH. rewrite (E3 NL). destruct w; [|reflexivity]. simpl.
    destruct p; [pose proof (keep_nil _ _ M); discriminate|reflexivity].
  - destruct (B U) as (B1 & _). destruct B1 as (B1 & _); [unfold special; tauto|]. rewrite (B1 L). reflexivity.
  - destruct (B U) as (B1 & _). destruct B1 as (_ & B1); [unfold special; tauto|]. rewrite (B1 NL). reflexivity.
Qed.

Lemma listed_dec o k : listed o k \/ ~ listed o k.
Proof.
  unfold listed. destruct o as [[| | |l|]|]; try (right; intros (a & b & X & _); discriminate). destruct k as [s|n]; [|right; intros (a & b & _ & _ & X); discriminate].
  destruct (existsb (fun c => match c with CStr s' => String.eqb s s' | _ => false end) l) eqn:E.
  - left. apply existsb_exists in E. destruct E as (x & I & E). destruct x; try discriminate. apply String.eqb_eq in E. subst. eauto 6.
  - right. intros (a & b & X & I & Y). injection X as <-. injection Y as <-. assert (Z : existsb (fun c => match c with CStr s' => String.eqb s s' | _ => false end) l = true); [|congruence].
    apply existsb_exists. exists (CStr s). split; [exact I|apply String.eqb_refl].
Qed.
Lemma mentions_total p : forall l, exists w, mentions (CMap l) p w.
Proof.
  induction p as [|k p IH]; intros l; [eexists; constructor|].
  destruct (match get SET l with Some (CMap s) => get k s | _ => None end) as [v|] eqn:E.
  - destruct (get SET l) as [[| | | |s]|] eqn:G; try discriminate. eexists. eapply m_set; eassumption.
  - assert (U : unset l k) by (intros s G; rewrite G in E; exact E). destruct (special_dec k) as [S|S].
    + destruct (listed_dec (get DEL l) k); eexists; [apply m_del|apply m_keep]; auto; unfold special in S; tauto.
    + assert (k <> DEL /\ k <> SET) as (N1 & N2) by (unfold special in S; tauto). destruct (get k l) as [v|] eqn:G.
      * assert (V : (exists m, v = CMap m) \/ forall m, v <> CMap m) by (destruct v; eauto; right; intros; discriminate). destruct V as [(m & ->)|V]; [|eexists; eapply m_value; eassumption].
        destruct (IH m) as (w & M). destruct (listed_dec (get DEL l) k); eexists; [eapply m_fresh; eassumption|eapply m_map; eassumption].
      * destruct (listed_dec (get DEL l) k); eexists; [apply m_del|apply m_keep]; auto.
Qed.

(** Which overrides are accepted *)
Lemma del_names_ok l : (exists ks, del_names l = Ok ks) <-> Forall (fun k => exists s, k = CStr s) l.
Proof.
  induction l as [|x l IH]; simpl; [split; [constructor|eauto]|]. split.
  - intros (ks & H). destruct x; try discriminate. apply bindr_ok in H. destruct H as (ks' & H & _). constructor; [eauto|apply IH; eauto].
  - intros H. inversion H as [|? ? (s & ->) F]; subst. apply IH in F. destruct F as (ks & ->). simpl. eauto.
Qed.
Lemma set_loop_ok s : forall out, (exists r, set_loop s out = Ok r) <-> Forall (fun kv => exists k, fst kv = KStr k) s.
Proof.
  induction s as [|[a x] s IH]; intros out; simpl; [split; [constructor|eauto]|]. split.
  - destruct a; [|intros (? & ?); discriminate]. intros H. apply IH in H. constructor; [exists s0; reflexivity|exact H].
  - intros H. inversion H as [|? ? (k & E) F]; subst. simpl in E. subst a. apply IH, F.
Qed.
Lemma mloop_ok l : Forall (fun kv => forall t, (exists r, merge_map t (snd kv) = Ok r) <-> valid (snd kv)) l ->
  forall out, (exists r, mloop l out = Ok r) <-> (forall k m, In (k, CMap m) l -> k <> DEL -> k <> SET -> valid (CMap m)).
Proof.
  induction 1 as [|[a x] l H F IH]; intros out; cbn [mloop]; [split; [intros _ k m []|eauto]|]. cbn [snd] in H. destruct (key_eqb a DEL || key_eqb a SET) eqn:S.
  - apply special_eqb in S. rewrite IH. split; intros V k m I N1 N2; [destruct I as [I|I]; [injection I as -> ->; destruct S; tauto|eauto]|apply (V k m); [right; exact I|exact N1|exact N2]].
  - assert (S' : ~ special a) by (rewrite <- special_eqb, S; discriminate).
    assert (K : a <> DEL /\ a <> SET) by (unfold special in S'; tauto).
    destruct x as [| | | |m0]; try (rewrite IH; split; intros V k m I N1 N2; [destruct I as [I|I]; [discriminate|eauto]|apply (V k m); [right; exact I|exact N1|exact N2]]).
    split.
    + intros (r & E). apply bindr_ok in E. destruct E as (m' & E1 & E2). intros k m I N1 N2. destruct I as [I|I].
      * injection I as -> ->. apply (H (as_map (get k out))). eauto.
      * pose proof (IH (put a (CMap m') out)) as [X _]. apply X with (k := k); eauto.
    + intros V. destruct (H (as_map (get a out))) as [_ X]. destruct X as (m' & ->); [apply (V a); [left; reflexivity|tauto|tauto]|]. simpl. apply IH. intros k m I. apply V. right. exact I.
Qed.
Lemma merge_map_ok s : forall t, (exists r, merge_map t s = Ok r) <-> valid s.
Proof.
  induction s as [| | |l _|l IH] using cv_ind'; intros t; try (split; [intros _; apply v_value; discriminate|simpl; eauto]).
  rewrite merge_map_eq. split.
  - intros (r & H). apply bindr_ok in H. destruct H as (ks & D & H). apply bindr_ok in H. destruct H as (o & L & H). apply v_map.
    + unfold del_keys in D. destruct (get DEL l) as [[| | |l0|]|]; try discriminate; auto. right. right. exists l0. split; [reflexivity|apply del_names_ok; eauto].
    + unfold set_keys in H. destruct (get SET l) as [[| | | |s]|]; try discriminate; auto. right. right. exists s. split; [reflexivity|eapply set_loop_ok; eauto].
    + eapply mloop_ok; eauto.
  - intros V. inversion V as [l' D S M|v N]; subst; [|exfalso; apply (N l); reflexivity].
    assert (D' : exists ks, del_keys l = Ok ks). { unfold del_keys. destruct D as [->|[->|(ks & -> & F)]]; eauto. apply del_names_ok, F. }
    destruct D' as (ks & ->). cbn [bindr]. destruct (mloop_ok l IH (keep ks t)) as [_ X]. destruct (X M) as (o & ->). cbn [bindr].
    unfold set_keys. destruct S as [->|[->|(s & -> & F)]]; eauto. apply set_loop_ok, F.
Qed.
