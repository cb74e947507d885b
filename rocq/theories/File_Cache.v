(** C18: the cache of mapped files. *)
From Coq Require Import List Bool Arith NArith Ascii Lia.
From Verif Require Import File_Model File_Spec.
Import ListNotations.

Lemma str_eqb_spec x y : reflect (x = y) (str_eqb x y).
Proof. unfold str_eqb. destruct (str_eq_dec x y); constructor; assumption. Qed.

Section C.
  Context {V : Type}.
  Notation rm := (remove str_eq_dec).
  Implicit Types (es : list (event V)) (c : cache V) (k : str).

  Definition keys (l : list (nat * (str * V))) : list str := map (fun e => fst (snd e)) l.
  Record inv es c : Prop := {
    i_ids : NoDup (map fst (entries c));
    i_tab : NoDup (map fst (table c));
    i_map : forall k i, In (k, i) (table c) <-> exists v, In (i, (k, v)) (entries c);
    i_keys : keys (entries c) = firstn (capacity c) (recent es);
    i_vals : forall i k v, In (i, (k, v)) (entries c) -> last_added k es = Some v;
    i_next : forall e, In e (entries c) -> fst e < next c;
    i_len : length (table c) = length (entries c) }.

  Lemma rm_in k l : ~ In k l -> rm k l = l.
  Proof. apply notin_remove. Qed.
  Lemma rm_nodup k l : NoDup l -> NoDup (rm k l).
  Proof.
    induction 1 as [|x l N1 N2 IH]; cbn; [constructor|]. destruct (str_eq_dec k x); [exact IH|]. constructor; [|exact IH]. intros I. apply in_remove in I. tauto.
  Qed.
  Lemma rm_app k l m : rm k (l ++ m) = rm k l ++ rm k m.
  Proof. apply remove_app. Qed.
  Lemma recent_nodup es : NoDup (recent es).
  Proof.
    induction es as [|[k v|k|k v|] es IH]; cbn [recent]; try (constructor; [apply remove_In|now apply rm_nodup]); [constructor|exact IH|constructor].
  Qed.
  Lemma nodup_firstn {T} n (l : list T) : NoDup l -> NoDup (firstn n l).
  Proof.
    intros H. rewrite <- (firstn_skipn n l) in H. induction (firstn n l) as [|x m IH]; cbn in *; [constructor|]. inversion H; subst. constructor; [|auto].
    intros I. apply H2. apply in_or_app. now left.
  Qed.
  (** Moving a key to the front *)
  Lemma front_in n k : forall l, NoDup l -> In k (firstn n l) -> firstn n (k :: rm k l) = k :: rm k (firstn n l).
  Proof.
    destruct n as [|n]; intros l N I; [destruct I|]. cbn [firstn]. f_equal. revert l N I. induction n as [|n IH]; intros [|x l] N I; cbn [firstn] in I; try (destruct I; fail).
    - destruct I as [<-|[]]. cbn [firstn remove]. destruct (str_eq_dec x x); [reflexivity|contradiction].
    - inversion N as [|? ? N1 N2]; subst. cbn [remove firstn]. destruct (str_eq_dec k x) as [->|E].
      + rewrite (rm_in x l) by exact N1. destruct l as [|y l]; [reflexivity|]. cbn [firstn]. inversion N2; subst. symmetry. 
        cbn [remove]. destruct (str_eq_dec x y) as [->|]; [destruct N1; now left|]. f_equal. apply rm_in. intros I'. apply N1. right. rewrite <- (firstn_skipn n l). apply in_or_app. now left.
      + destruct I as [<-|I]; [contradiction|]. cbn [firstn]. f_equal. now apply IH.
  Qed.
  Lemma front_new n k l : ~ In k (firstn n l) -> length (firstn n l) < n -> firstn n (k :: rm k l) = k :: firstn n l.
  Proof.
    intros N L. rewrite firstn_length in L. assert (length l < n) by lia. rewrite (firstn_all2 l) in * by lia. rewrite rm_in by exact N. apply firstn_all2. cbn. lia.
  Qed.
  Lemma firstn_rm n k : forall l, ~ In k (firstn (S n) l) -> firstn n (rm k l) = firstn n l.
  Proof.
    induction n as [|n IH]; intros l N; [reflexivity|]. destruct l as [|x l]; [reflexivity|]. cbn [firstn] in N. cbn [remove]. destruct (str_eq_dec k x) as [->|E]; [destruct N; now left|].
    cbn [firstn]. f_equal. apply IH. intros I. apply N. now right.
  Qed.
  Lemma front_full n k l : ~ In k (firstn n l) -> length (firstn n l) = n -> 0 < n -> firstn n (k :: rm k l) = k :: removelast (firstn n l).
  Proof.
    intros N L P. destruct n as [|n]; [lia|]. change (firstn (S n) (k :: rm k l)) with (k :: firstn n (rm k l)). f_equal. rewrite firstn_rm by exact N. rewrite firstn_length in L. symmetry. apply removelast_firstn. lia.
  Qed.

  (** Finding *)
  Lemma find_spec k (m : list (str * nat)) i : NoDup (map fst m) -> find k m = Some i <-> In (k, i) m.
  Proof.
    unfold find. induction m as [|[k' i'] m IH]; cbn [List.find option_map map fst]; intros N; [split; [discriminate|intros []]|]. inversion N as [|? ? N1 N2]; subst.
    destruct (str_eqb_spec k' k) as [->|E]; cbn [option_map].
    - split; [intros [= ->]; now left|]. intros [[= ->]|I]; [reflexivity|]. destruct N1. change k with (fst (k, i)). now apply in_map.
    - rewrite IH by exact N2. split; [now right|]. intros [[= -> ->]|I]; [contradiction|exact I].
  Qed.
  Lemma find_none k (m : list (str * nat)) : find k m = None <-> ~ In k (map fst m).
  Proof.
    unfold find. induction m as [|[k' i'] m IH]; cbn [List.find option_map map fst]; [tauto|]. destruct (str_eqb_spec k' k) as [->|E]; cbn [option_map]; [split; [discriminate|intros N; destruct N; now left]|]. rewrite IH. cbn [In]. tauto.
  Qed.
  Lemma node_spec i (l : list (nat * (str * V))) kv : NoDup (map fst l) -> node i l = Some kv <-> In (i, kv) l.
  Proof.
    unfold node. induction l as [|[j x] l IH]; cbn [List.find option_map map fst]; intros N; [split; [discriminate|intros []]|]. inversion N as [|? ? N1 N2]; subst.
    destruct (Nat.eqb_spec j i) as [->|E]; cbn [option_map snd].
    - split; [intros [= ->]; now left|]. intros [[= ->]|I]; [reflexivity|]. destruct N1. change i with (fst (i, kv)). now apply in_map.
    - rewrite IH by exact N2. split; [now right|]. intros [[= -> ->]|I]; [contradiction|exact I].
  Qed.
  Definition other (i : nat) (e : nat * (str * V)) : bool := negb (fst e =? i).
  Lemma other_spec i e (l : list (nat * (str * V))) : In e (filter (other i) l) <-> In e l /\ fst e <> i.
  Proof. rewrite filter_In. unfold other. destruct (Nat.eqb_spec (fst e) i); cbn; intuition congruence. Qed.
  Lemma keys_filter i k v (l : list (nat * (str * V))) : NoDup (map fst l) -> NoDup (keys l) -> In (i, (k, v)) l -> keys (filter (other i) l) = rm k (keys l).
  Proof.
    induction l as [|[j [k' v']] l IH]; intros N1 N2 I; [destruct I|]. cbn [keys map fst snd] in *. inversion N1 as [|? ? A1 A2]; subst. inversion N2 as [|? ? B1 B2]; subst.
    cbn [filter remove]. unfold other at 1. cbn [fst]. destruct I as [[= -> -> ->]|I].
    - rewrite Nat.eqb_refl. cbn [negb]. destruct (str_eq_dec k k); [|contradiction]. rewrite rm_in by exact B1.
      unfold keys. f_equal. clear -A1. induction l as [|e l IH]; [reflexivity|]. cbn [map In] in A1. cbn [filter]. unfold other at 1. destruct (Nat.eqb_spec (fst e) i); [tauto|]. cbn [negb]. f_equal. apply IH. tauto.
    - destruct (Nat.eqb_spec j i) as [->|E]; [destruct A1; change i with (fst (i, (k, v))); now apply in_map|]. cbn [negb map fst snd].
      destruct (str_eq_dec k k') as [->|Ek]; [destruct B1; change k' with ((fun e => fst (snd e)) (i, (k', v))); now apply in_map|]. cbn [keys map fst snd]. f_equal. now apply IH.
  Qed.
  Lemma filter_nodup {T U} (f : T -> U) p l : NoDup (map f l) -> NoDup (map f (filter p l)).
  Proof.
    induction l as [|x l IH]; cbn [map filter]; intros N; [constructor|]. inversion N; subst. destruct (p x); [|auto]. cbn [map]. constructor; [|auto].
    intros I. apply H1. apply in_map_iff in I as (y & <- & Y). apply in_map. now apply filter_In in Y.
  Qed.
  Lemma filter_len i kv (l : list (nat * (str * V))) : NoDup (map fst l) -> In (i, kv) l -> S (length (filter (other i) l)) = length l.
  Proof.
    induction l as [|[j x] l IH]; intros N I; [destruct I|]. cbn [map fst] in N. inversion N as [|? ? N1 N2]; subst. cbn [filter length]. unfold other at 1. cbn [fst].
    destruct (Nat.eqb_spec j i) as [->|E]; cbn [negb].
    - f_equal. clear -N1. induction l as [|e l IH]; [reflexivity|]. cbn [map In] in N1. cbn [filter]. unfold other at 1. destruct (Nat.eqb_spec (fst e) i); [tauto|]. cbn [negb length]. f_equal. apply IH. tauto.
    - destruct I as [[= -> _]|I]; [contradiction|]. cbn [length]. now rewrite IH.
  Qed.
  Lemma keys_nodup es c : inv es c -> NoDup (keys (entries c)).
  Proof. intros H. rewrite (i_keys _ _ H). apply nodup_firstn, recent_nodup. Qed.
  Lemma in_table es c k : inv es c -> In k (map fst (table c)) <-> In k (firstn (capacity c) (recent es)).
  Proof.
    intros H. rewrite <- (i_keys _ _ H). unfold keys. rewrite !in_map_iff. split.
    - intros ([k' i] & <- & I). apply (i_map _ _ H) in I as (v & I). exists (i, (k', v)). split; [reflexivity|exact I].
    - intros ([i [k' v]] & <- & I). exists (k', i). split; [reflexivity|]. apply (i_map _ _ H). eauto.
  Qed.

  Lemma inv_empty n : inv [] (empty_cache n).
  Proof.
    constructor; cbn; try (now constructor); try tauto; try reflexivity; [|now rewrite firstn_nil].
    intros k i. split; [intros []|intros (v & [])].
  Qed.
  (** The found entry and the new state *)
  Lemma found es c k i : inv es c -> find k (table c) = Some i ->
    exists v, node i (entries c) = Some (k, v) /\ last_added k es = Some v /\ In k (firstn (capacity c) (recent es)) /\
      splice i (entries c) = (i, (k, v)) :: filter (other i) (entries c).
  Proof.
    intros H F. apply (find_spec k _ _ (i_tab _ _ H)) in F. destruct (proj1 (i_map _ _ H k i) F) as (v & I). exists v.
    assert (Nd : node i (entries c) = Some (k, v)) by (apply node_spec; [exact (i_ids _ _ H)|exact I]). split; [exact Nd|].
    split; [exact (i_vals _ _ H _ _ _ I)|]. split; [apply (in_table es c k H); change k with (fst (k, i)); now apply in_map|]. unfold splice. rewrite Nd. reflexivity.
  Qed.
  Lemma inv_move es c k i v w e : inv es c -> find k (table c) = Some i -> node i (entries c) = Some (k, v) ->
    recent (e :: es) = k :: rm k (recent es) -> (forall k', last_added k' (e :: es) = if str_eq_dec k' k then Some w else last_added k' es) ->
    inv (e :: es) (Cache (capacity c) ((i, (k, w)) :: filter (other i) (entries c)) (table c) (next c)).
  Proof.
    intros H F Nd Re La. destruct (found es c k i H F) as (v' & Nd' & Lv & Ik & _). rewrite Nd in Nd'. injection Nd' as <-.
    assert (I : In (i, (k, v)) (entries c)) by (apply node_spec; [exact (i_ids _ _ H)|exact Nd]). constructor; cbn [entries table capacity next].
    - cbn [map fst]. constructor; [|apply filter_nodup, (i_ids _ _ H)]. intros X. apply in_map_iff in X as (y & E & Y). apply other_spec in Y. tauto.
    - exact (i_tab _ _ H).
    - intros k' i'. rewrite (i_map _ _ H). split.
      + intros (v' & X). destruct (Nat.eq_dec i' i) as [->|E].
        * exists w. left. assert (Y : Some (k, v) = Some (k', v')) by (rewrite <- Nd; apply node_spec; [exact (i_ids _ _ H)|exact X]). now injection Y as <- _.
        * exists v'. right. apply other_spec. split; [exact X|exact E].
      + intros (v' & [X|X]); [injection X as <- <- _; eauto|]. apply other_spec in X. exists v'. tauto.
    - rewrite Re, front_in by (try apply recent_nodup; exact Ik). cbn [keys map fst snd]. f_equal. rewrite <- (i_keys _ _ H). apply (keys_filter i k v); [exact (i_ids _ _ H)|now apply keys_nodup with es|exact I].
    - intros i' k' v' X. rewrite La. destruct X as [X|X]; [injection X as _ <- <-; destruct (str_eq_dec k k); [reflexivity|contradiction]|]. apply other_spec in X as [X E].
      destruct (str_eq_dec k' k) as [->|]; [|exact (i_vals _ _ H _ _ _ X)]. exfalso. apply E. cbn [fst].
      pose proof (keys_nodup _ _ H) as Nk. clear -Nk I X. unfold keys in Nk. induction (entries c) as [|[j [kk vv]] l IH]; [destruct I|]. cbn [map fst snd] in Nk. inversion Nk as [|? ? N1 N2]; subst.
      destruct I as [I|I], X as [X|X].
      + congruence.
      + injection I as -> -> ->. destruct N1. change k with ((fun e : nat * (str * V) => fst (snd e)) (i', (k, v'))). now apply in_map.
      + injection X as -> -> ->. destruct N1. change k with ((fun e : nat * (str * V) => fst (snd e)) (i, (k, v))). now apply in_map.
      + now apply IH.
    - intros x [<-|X]; [exact (i_next _ _ H _ I)|]. apply other_spec in X as [X _]. exact (i_next _ _ H _ X).
    - cbn [length]. rewrite (filter_len i (k, v)) by (try exact (i_ids _ _ H); exact I). exact (i_len _ _ H).
  Qed.

  Lemma inv_get es c k : inv es c ->
    match maybe_get k c with
    | (Some v, c') => In k (firstn (capacity c) (recent es)) /\ last_added k es = Some v /\ inv (Hit k v :: es) c' /\ capacity c' = capacity c
    | (None, c') => ~ In k (firstn (capacity c) (recent es)) /\ c' = c /\ inv (Miss k :: es) c'
    end.
  Proof.
    intros H. unfold maybe_get. destruct (find k (table c)) as [i|] eqn:F.
    - destruct (found es c k i H F) as (v & Nd & La & Ik & Sp). rewrite Nd. cbn [option_map snd]. split; [exact Ik|]. split; [exact La|]. split; [|reflexivity]. rewrite Sp.
      apply (inv_move es c k i v v); try assumption; [reflexivity|]. intros k'. cbn [last_added]. destruct (str_eq_dec k' k) as [->|]; [exact La|reflexivity].
    - apply find_none in F. rewrite (in_table es c k H) in F. split; [exact F|]. split; [reflexivity|]. destruct H; constructor; assumption.
  Qed.
  Lemma inv_clear es c : inv es c -> inv (Cleared :: es) (clear c).
  Proof.
    intros H. constructor; cbn; try (now constructor); try tauto; try reflexivity; [|now rewrite firstn_nil].
    intros k i. split; [intros []|intros (v & [])].
  Qed.
  Lemma last_snoc {T} (l : list T) d : l <> [] -> l = removelast l ++ [last l d].
  Proof. apply app_removelast_last. Qed.
  Lemma erase_spec k (m : list (str * nat)) x : In x (erase k m) <-> In x m /\ fst x <> k.
  Proof. unfold erase. rewrite filter_In. destruct (str_eqb_spec (fst x) k); cbn; intuition congruence. Qed.
  Lemma erase_len k (m : list (str * nat)) : NoDup (map fst m) -> In k (map fst m) -> S (length (erase k m)) = length m.
  Proof.
    induction m as [|[k' i] m IH]; intros N I; [destruct I|]. cbn [map fst] in *. inversion N as [|? ? N1 N2]; subst. unfold erase. cbn [filter fst]. destruct (str_eqb_spec k' k) as [->|E]; cbn [negb length].
    - f_equal. clear -N1. induction m as [|[k' i] m IH]; [reflexivity|]. cbn [map fst In] in N1. cbn [filter fst]. destruct (str_eqb_spec k' k); [tauto|]. cbn [negb length]. f_equal. apply IH. tauto.
    - destruct I as [->|I]; [contradiction|]. unfold erase in IH. now rewrite IH.
  Qed.
  Lemma erase_none k (m : list (str * nat)) : ~ In k (map fst m) -> erase k m = m.
  Proof.
    unfold erase. induction m as [|[k' i] m IH]; intros N; [reflexivity|]. cbn [map fst In] in N. cbn [filter fst]. destruct (str_eqb_spec k' k); [tauto|]. cbn [negb]. f_equal. apply IH. tauto.
  Qed.
  Lemma keys_removelast (l : list (nat * (str * V))) : keys (removelast l) = removelast (keys l).
  Proof. unfold keys. induction l as [|x [|y l] IH]; [reflexivity|reflexivity|]. cbn [removelast map] in *. f_equal. exact IH. Qed.

  (** A new entry in front of entries without the key *)
  Lemma inv_push es c k v ent m : inv es c -> capacity c <> 0 -> ~ In k (firstn (capacity c) (recent es)) ->
    NoDup (map fst ent) -> NoDup (map fst m) -> (forall x, In x ent -> In x (entries c)) -> (forall x, In x m -> In x (table c)) ->
    (forall k i, In (k, i) m <-> exists v, In (i, (k, v)) ent) -> length m = length ent ->
    k :: keys ent = firstn (capacity c) (k :: rm k (recent es)) ->
    inv (Added k v :: es) (Cache (capacity c) ((next c, (k, v)) :: ent) ((k, next c) :: erase k m) (S (next c))).
  Proof.
    intros H C Nk N1 N2 S1 S2 M L K. assert (Nm : ~ In k (map fst m)).
    { intros X. apply Nk. apply (in_table es c k H). apply in_map_iff in X as (y & E & Y). rewrite <- E. apply in_map. now apply S2. }
    assert (Ne : ~ In (next c) (map fst ent)).
    { intros X. apply in_map_iff in X as (y & E & Y). apply S1 in Y. apply (i_next _ _ H) in Y. lia. }
    rewrite erase_none by exact Nm. constructor; cbn [entries table capacity next recent last_added].
    - cbn [map fst]. constructor; assumption.
    - cbn [map fst]. constructor; assumption.
    - intros k' i'. cbn [In]. rewrite M. split.
      + intros [X|(w & X)]; [injection X as <- <-; eauto|eauto].
      + intros (w & [X|X]); [injection X as <- <- _; now left|right; eauto].
    - exact K.
    - intros i' k' v' [X|X].
      + injection X as _ <- <-. destruct (str_eq_dec k k); [reflexivity|contradiction].
      + destruct (str_eq_dec k k') as [<-|E]; [|apply (i_vals _ _ H i'); now apply S1]. exfalso. apply Nm. change k with (fst (k, i')). apply in_map. apply M. eauto.
    - intros x [<-|X]; [cbn; lia|]. apply S1 in X. apply (i_next _ _ H) in X. lia.
    - cbn [length]. now rewrite L.
  Qed.
  Lemma inv_add es c k v : inv es c -> inv (Added k v :: es) (add k v c) /\ capacity (add k v c) = capacity c.
  Proof.
    intros H. unfold add. destruct (Nat.eqb_spec (capacity c) 0) as [C|C].
    { split; [|reflexivity]. assert (E : entries c = []) by (pose proof (i_keys _ _ H) as K; rewrite C in K; cbn in K; now apply map_eq_nil in K).
      pose proof (i_len _ _ H) as L. rewrite E in L. destruct (table c) as [|] eqn:T; [|discriminate L].
      constructor; try rewrite E; try rewrite T; cbn; try (now constructor); try tauto; [|now rewrite C]. intros k' i'. split; [intros []|intros (w & [])]. }
    destruct (find k (table c)) as [i|] eqn:F.
    { split; [|reflexivity]. destruct (found es c k i H F) as (w & Nd & La & Ik & Sp). rewrite Sp. unfold set_value. cbn [map fst snd]. rewrite Nat.eqb_refl.
      replace (map (fun e => if fst e =? i then (i, (fst (snd e), v)) else e) (filter (other i) (entries c))) with (filter (other i) (entries c)).
      - apply (inv_move es c k i w v); try assumption; [reflexivity|]. intros k'. cbn [last_added]. destruct (str_eq_dec k k'), (str_eq_dec k' k); congruence.
      - rewrite <- (map_id (filter (other i) (entries c))) at 1. apply map_ext_in. intros x X. apply other_spec in X as [_ X]. destruct (Nat.eqb_spec (fst x) i); [contradiction|reflexivity]. }
    apply find_none in F. pose proof F as F'. rewrite (in_table es c k H) in F'.
    assert (Lf : length (firstn (capacity c) (recent es)) = length (entries c)) by (rewrite <- (i_keys _ _ H); apply map_length).
    assert (Lc : length (entries c) <= capacity c) by (rewrite <- Lf, firstn_length; lia).
    destruct (Nat.eqb_spec (length (table c)) (capacity c)) as [Fu|Fu]; rewrite (i_len _ _ H) in Fu.
    - assert (N0 : entries c <> []) by (intros E; rewrite E in Fu; cbn in Fu; lia).
      destruct (entries c) as [|x0 l0] eqn:E0; [contradiction|]. rewrite <- E0 in *. pose proof (last_snoc (entries c) x0 N0) as Ls. set (z := last (entries c) x0) in *. set (l := removelast (entries c)) in *.
      assert (Lk : last_key (entries c) = Some (fst (snd z))) by (unfold last_key; rewrite Ls at 1; now rewrite rev_app_distr). rewrite Lk. split; [|reflexivity].
      assert (Iz : In z (entries c)) by (rewrite Ls; apply in_or_app; right; now left).
      assert (Il : forall x, In x l -> In x (entries c)) by (intros x X; rewrite Ls; apply in_or_app; now left).
      pose proof (keys_nodup _ _ H) as Nk. rewrite Ls in Nk. unfold keys in Nk. rewrite map_app in Nk. cbn [map] in Nk. apply NoDup_remove in Nk as [Nk1 Nk2]. rewrite app_nil_r in Nk1, Nk2.
      pose proof (i_ids _ _ H) as Ni. rewrite Ls, map_app in Ni. cbn [map] in Ni. apply NoDup_remove in Ni as [Ni1 Ni2]. rewrite app_nil_r in Ni1, Ni2.
      assert (Tz : In (fst (snd z)) (map fst (table c))).
      { change (fst (snd z)) with (fst (fst (snd z), fst z)). apply in_map. apply (i_map _ _ H). exists (snd (snd z)). destruct z as [zi [zk zv]]. exact Iz. }
      apply (inv_push es c k v l); try assumption.
      + unfold erase. apply filter_nodup. exact (i_tab _ _ H).
      + intros x X. apply erase_spec in X. tauto.
      + intros k' i'. rewrite erase_spec, (i_map _ _ H). cbn [fst]. split.
        * intros [(w & X) E]. exists w. rewrite Ls in X. apply in_app_or in X as [X|[X|[]]]; [exact X|]. rewrite X in E. now destruct E.
        * intros (w & X). split; [exists w; now apply Il|]. intros ->. apply Nk2. apply in_map_iff. exists (i', (fst (snd z), w)). split; [reflexivity|exact X].
      + pose proof (erase_len _ _ (i_tab _ _ H) Tz) as El. rewrite (i_len _ _ H) in El. assert (X : length (entries c) = S (length l)) by (rewrite Ls at 1; rewrite app_length; cbn; lia). lia.
      + rewrite front_full by (try assumption; lia). f_equal. unfold l. rewrite keys_removelast. now rewrite (i_keys _ _ H).
    - split; [|reflexivity]. apply (inv_push es c k v (entries c) (table c)); try assumption; try exact (i_ids _ _ H); try exact (i_tab _ _ H); try exact (i_map _ _ H); try exact (i_len _ _ H); auto.
      rewrite front_new by (try assumption; lia). f_equal. exact (i_keys _ _ H).
  Qed.
  Lemma inv_step es c o : inv es c -> let (e, c') := step o c in inv (e :: es) c' /\ capacity c' = capacity c.
  Proof.
    intros H. destruct o as [k|k v|]; cbn [step].
    - pose proof (inv_get es c k H) as G. destruct (maybe_get k c) as [[v|] c']; [tauto|]. destruct G as (_ & -> & G). split; [exact G|reflexivity].
    - now apply inv_add.
    - split; [now apply inv_clear|reflexivity].
  Qed.
  Lemma inv_run ops : forall es c, inv es c -> let (es', c') := run ops es c in inv es' c' /\ capacity c' = capacity c.
  Proof.
    induction ops as [|o ops IH]; intros es c H; cbn [run]; [split; [exact H|reflexivity]|]. pose proof (inv_step es c o H) as S0. destruct (step o c) as [e c1]. destruct S0 as [S1 S2].
    specialize (IH _ _ S1). destruct (run ops (e :: es) c1) as [es' c']. destruct IH as [I1 I2]. split; [exact I1|congruence].
  Qed.
End C.

(** After any history a lookup finds the value last added under a key if, and only if, the key is among the [n] most recently used ones. *)
Theorem C18_lookup {V} n (ops : list (op V)) k : let (es, c) := run ops [] (empty_cache n) in
  fst (maybe_get k c) = (if in_dec str_eq_dec k (firstn n (recent es)) then last_added k es else None) /\
  (In k (firstn n (recent es)) -> exists v, last_added k es = Some v).
Proof.
  pose proof (inv_run ops [] (empty_cache n) (inv_empty n)) as H. destruct (run ops [] (empty_cache n)) as [es c]. destruct H as [H C]. cbn [capacity empty_cache] in C.
  pose proof (inv_get es c k H) as G. rewrite C in G. destruct (maybe_get k c) as [[v|] c']; cbn [fst].
  - destruct G as (I & L & _). split; [|eauto]. destruct (in_dec str_eq_dec k (firstn n (recent es))); [now rewrite L|contradiction].
  - destruct G as (I & _). split; [|contradiction]. destruct (in_dec str_eq_dec k (firstn n (recent es))); [contradiction|reflexivity].
Qed.
Print Assumptions C18_lookup.
(** It never holds more than its capacity; it holds all recently used entries as long as they fit. *)
Theorem C18_size {V} n (ops : list (op V)) : let (es, c) := run ops [] (empty_cache n) in size c <= n /\ size c = Nat.min n (length (recent es)).
Proof.
  pose proof (inv_run ops [] (empty_cache n) (inv_empty n)) as H. destruct (run ops [] (empty_cache n)) as [es c]. destruct H as [H C]. cbn [capacity empty_cache] in C.
  assert (E : size c = Nat.min n (length (recent es))) by (unfold size; rewrite (i_len _ _ H), <- (map_length (fun e => fst (snd e))); change (map _ (entries c)) with (keys (entries c)); rewrite (i_keys _ _ H), C; apply firstn_length).
  split; [lia|exact E].
Qed.
Print Assumptions C18_size.
(** Adding a new entry to a full cache evicts the least recently used entry and no other. *)
Theorem C18_evict {V} n (ops : list (op V)) k v : let (es, c) := run ops [] (empty_cache n) in
  0 < n -> size c = n -> fst (maybe_get k c) = None ->
  exists newer oldest, firstn n (recent es) = newer ++ [oldest] /\ fst (maybe_get oldest c) <> None /\
    forall k', fst (maybe_get k' (add k v c)) = if str_eq_dec k' k then Some v else if str_eq_dec k' oldest then None else fst (maybe_get k' c).
Proof.
  pose proof (inv_run ops [] (empty_cache n) (inv_empty n)) as H. destruct (run ops [] (empty_cache n)) as [es c]. destruct H as [H C]. cbn [capacity empty_cache] in C. intros P Sz M.
  assert (L : length (firstn n (recent es)) = n) by (rewrite <- C at 1; rewrite <- (i_keys _ _ H); unfold keys; rewrite map_length, <- (i_len _ _ H); exact Sz).
  assert (N0 : firstn n (recent es) <> []) by (intros E; rewrite E in L; cbn in L; lia).
  exists (removelast (firstn n (recent es))), (last (firstn n (recent es)) []). pose proof (last_snoc (firstn n (recent es)) [] N0) as Ls. split; [exact Ls|]. set (old := last (firstn n (recent es)) []) in *. set (newer := removelast (firstn n (recent es))) in *.
  pose proof (nodup_firstn n _ (recent_nodup es)) as Nd. rewrite Ls in Nd. apply NoDup_remove in Nd as [_ Nd]. rewrite app_nil_r in Nd.
  assert (Lk : forall (es : list (event V)) (c : cache V) k, inv es c -> fst (maybe_get k c) = if in_dec str_eq_dec k (firstn (capacity c) (recent es)) then last_added k es else None).
  { clear. intros es c k H. pose proof (inv_get es c k H) as G. destruct (maybe_get k c) as [[v|] c']; cbn [fst]; destruct (in_dec str_eq_dec k _); destruct G as (? & G); try contradiction; try reflexivity. now destruct G as [-> _]. }
  assert (Ky : forall k, In k (firstn n (recent es)) -> exists v, last_added k es = Some v).
  { intros k0 I. pose proof (inv_get es c k0 H) as G. rewrite C in G. destruct (maybe_get k0 c) as [[w|] c']; [destruct G as (_ & G & _); eauto|tauto]. }
  assert (Nk : ~ In k (firstn n (recent es))).
  { intros I. rewrite (Lk es c k H), C in M. destruct (in_dec str_eq_dec k (firstn n (recent es))); [|contradiction]. destruct (Ky k I) as (w & W). congruence. }
  split.
  - rewrite (Lk es c old H), C. assert (I : In old (firstn n (recent es))) by (rewrite Ls; apply in_or_app; right; now left). destruct (in_dec str_eq_dec old (firstn n (recent es))); [|contradiction]. destruct (Ky old I) as (w & ->). discriminate.
  - destruct (inv_add es c k v H) as [H' C']. intros k'. rewrite (Lk _ _ k' H'), C', (Lk es c k' H), C. cbn [recent last_added]. rewrite front_full by assumption. fold newer.
    destruct (str_eq_dec k' k) as [->|E].
    + destruct (in_dec str_eq_dec k (k :: newer)) as [_|X]; [|destruct X; now left]. destruct (str_eq_dec k k); [reflexivity|contradiction].
    + destruct (str_eq_dec k k'); [congruence|]. destruct (str_eq_dec k' old) as [->|E'].
      * destruct (in_dec str_eq_dec old (k :: newer)) as [[X|X]|_]; [congruence|contradiction|reflexivity].
      * destruct (in_dec str_eq_dec k' (k :: newer)) as [[X|X]|X], (in_dec str_eq_dec k' (firstn n (recent es))) as [Y|Y]; try reflexivity; try congruence.
        -- destruct Y. rewrite Ls. apply in_or_app. now left.
        -- destruct X. right. rewrite Ls in Y. apply in_app_or in Y as [Y|[Y|[]]]; [exact Y|congruence].
Qed.
Print Assumptions C18_evict.
Local Open Scope char_scope.
(** Capacity 2: a lookup makes the older entry recent, so the other one goes. *)
Example C18_example : let ops := [Add ["a"] 1; Add ["b"] 2; Get ["a"]; Add ["c"] 3; Get ["b"]] in
  let (es, c) := run ops [] (empty_cache 2) in
  recent es = [["c"]; ["a"]; ["b"]] /\ size c = 2 /\ fst (maybe_get ["a"] c) = Some 1 /\ fst (maybe_get ["b"] c) = None /\ fst (maybe_get ["a"] (add ["d"] 4 c)) = None.
Proof. vm_compute. do 4 (split; [reflexivity|]). reflexivity. Qed.
