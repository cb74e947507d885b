(** Proofs about the asset store. *)
From Coq Require Import String Ascii List Bool Arith Lia.
From Verif Require Import Config_Model Config_Spec Asset_Model Asset_Spec.
Import ListNotations.
Open Scope string_scope.
Open Scope list_scope.

(** ** Dicts *)
Lemma dget_in {A} k (v : A) d : dget k d = Some v -> In (k, v) d.
Proof. induction d as [|[k' v'] d IH]; simpl; [discriminate|]. destruct (String.eqb_spec k k') as [->|]; [intros H; injection H as ->; auto|auto]. Qed.
Lemma dget_none {A} k (d : list (string * A)) : dget k d = None <-> ~ In k (map fst d).
Proof. induction d as [|[k' v'] d IH]; simpl; [intuition|]. destruct (String.eqb_spec k k') as [->|N]; [split; [discriminate|intros H; destruct H; auto]|]. rewrite IH. intuition. Qed.
Lemma dget_nodup {A} k (v : A) d : NoDup (map fst d) -> In (k, v) d -> dget k d = Some v.
Proof.
  induction d as [|[k' v'] d IH]; simpl; [intros _ []|]. intros N. inversion N as [|? ? N1 N2]; subst. intros [E|I]; [injection E as -> ->; rewrite String.eqb_refl; reflexivity|].
  destruct (String.eqb_spec k k') as [->|]; [|auto]. destruct N1. apply (in_map fst _ (k', v)), I.
Qed.
Lemma dget_dset k k' v d : dget k (dset k' v d) = if String.eqb k k' then Some v else dget k d.
Proof.
  induction d as [|[k2 v2] d IH]; simpl; [reflexivity|]. destruct (String.eqb_spec k' k2) as [->|N]; simpl; [destruct (String.eqb k k2); reflexivity|]. rewrite IH. destruct (String.eqb_spec k k2) as [->|]; [|reflexivity]. destruct (String.eqb_spec k2 k'); [congruence|reflexivity].
Qed.
Lemma dset_keys k v d : NoDup (map fst d) -> NoDup (map fst (dset k v d)).
Proof.
  induction d as [|[k2 v2] d IH]; simpl; [constructor; [intros []|constructor]|]. intros N. inversion N as [|? ? N1 N2]; subst. destruct (String.eqb_spec k k2) as [->|E]; simpl; constructor; auto.
  intros I. apply N1. rewrite in_map_iff in I. destruct I as ([k3 v3] & E3 & I). simpl in E3. subst k3. destruct (dget k2 d) as [w|] eqn:G; [apply dget_in in G; apply (in_map fst _ (k2, w)), G|].
  exfalso. assert (X : dget k2 (dset k v d) = None) by (rewrite dget_dset, G; destruct (String.eqb_spec k2 k); [congruence|reflexivity]). apply dget_none in X. apply X, (in_map fst _ (k2, v3)), I.
Qed.
(** the last value in a list of updates; equal to the first if keys are unique *)
Lemma dget_dupdate k d e : NoDup (map fst e) -> dget k (dupdate d e) = match dget k e with Some v => Some v | None => dget k d end.
Proof.
  revert d. induction e as [|[k2 v2] e IH]; intros d N; simpl; [reflexivity|]. inversion N as [|? ? N1 N2]; subst. unfold dupdate in *. rewrite (IH _ N2). rewrite dget_dset. destruct (String.eqb_spec k k2) as [->|]; [|reflexivity].
  replace (dget k2 e) with (@None value); [reflexivity|]. symmetry. apply dget_none, N1.
Qed.

(** ** Names of a store *)
Lemma in_names_iff n p : in_names n p = true <-> In n (asset_names p).
Proof. unfold in_names. rewrite existsb_exists. split; [intros (x & I & E); apply String.eqb_eq in E; subst; exact I|intros I; exists n; rewrite String.eqb_refl; auto]. Qed.
Lemma check_names_iff ns others : check_names ns others = true <-> Forall (fun n => n <> "" /\ forall p, In p others -> ~ In n (asset_names p)) ns.
Proof.
  induction ns as [|n ns IH]; simpl; [split; auto|]. rewrite !andb_true_iff, IH, !negb_true_iff. split.
  - intros [[A B] C]. constructor; [|exact C]. split; [apply String.eqb_neq, A|]. intros p I J. apply in_names_iff in J. assert (X : existsb (in_names n) others = true) by (apply existsb_exists; eauto). congruence.
  - intros F. inversion F as [|? ? [A B] C]; subst. split; [|exact C]. split; [apply String.eqb_neq, A|]. destruct (existsb (in_names n) others) eqn:E; [|reflexivity]. apply existsb_exists in E. destruct E as (p & I & J). apply in_names_iff in J. destruct (B p I J).
Qed.
Definition names_of (ps : list provider) := flat_map asset_names ps.
Lemma add_providers_spec ps : forall s, names s = names_of (providers s) -> forall s', add_providers ps s = Some s' -> envs s' = envs s /\ providers s' = providers s ++ ps /\ names s' = names_of (providers s') /\
  (forall n, In n (names_of ps) -> n <> "") /\ forall a p b, ps = a ++ p :: b -> forall n, In n (asset_names p) -> ~ In n (names_of (providers s ++ a)).
Proof.
  induction ps as [|p0 ps IH]; intros s N s' H; simpl in H.
  - injection H as <-. rewrite app_nil_r. split; [reflexivity|]. split; [reflexivity|]. split; [exact N|]. split; [intros n []|]. intros a p b E. destruct a; discriminate E.
  - destruct (check_names (asset_names p0) (providers s)) eqn:C; [|discriminate]. apply check_names_iff in C. rewrite Forall_forall in C. apply IH in H; [|simpl; unfold names_of in *; rewrite flat_map_app, N; simpl; rewrite app_nil_r; reflexivity]. simpl in H. destruct H as (H1 & H2 & H3 & H4 & H5).
    split; [exact H1|]. split; [rewrite H2, <- app_assoc; reflexivity|]. split; [exact H3|]. split.
    + intros n I. simpl in I. apply in_app_or in I. destruct I as [I|I]; [apply (C n I)|apply H4, I].
    + intros a p' b E n I. destruct a as [|p2 a]; simpl in E; injection E as E1 E2; subst.
      * rewrite app_nil_r. intros J. unfold names_of in J. apply in_flat_map in J. destruct J as (q & Q1 & Q2). exact (proj2 (C n I) q Q1 Q2).
      * match goal with |- ~ In _ (names_of (providers s ++ ?x :: a)) => replace (providers s ++ x :: a) with ((providers s ++ [x]) ++ a) by (rewrite <- app_assoc; reflexivity) end. eapply H5; [reflexivity|exact I].
Qed.
Lemma stored_names s h : stored s h -> names s = names_of (providers s) /\ NoDup (names s).
Proof.
  intros ((ps & env & C) & U & _). unfold create in C. apply add_providers_spec in C; [|reflexivity]. simpl in C. destruct C as (_ & P & N & _ & D). split; [exact N|]. rewrite N. rewrite P in *. clear P N.
  assert (X : forall a b, ps = a ++ b -> NoDup (names_of a)).
  { intros a. induction a as [|p a IH] using rev_ind; intros b E; [constructor|]. unfold names_of. rewrite flat_map_app. simpl. rewrite app_nil_r. subst ps.
    assert (Na : NoDup (names_of a)) by (apply (IH (p :: b)); rewrite <- app_assoc; reflexivity). assert (Np : NoDup (asset_names p)) by (apply U; apply in_or_app; left; apply in_or_app; right; left; reflexivity).
    assert (Dj : forall n, In n (asset_names p) -> ~ In n (names_of a)) by (intros n; apply (D a p b); rewrite <- app_assoc; reflexivity).
    clear - Na Np Dj. unfold names_of in *. induction (flat_map asset_names a) as [|x l IH]; [exact Np|]. inversion Na; subst. simpl. constructor; [|apply IH; [assumption|intros n I J; apply (Dj n I); right; exact J]]. intros I. apply in_app_or in I. destruct I as [I|I]; [contradiction|]. apply (Dj x I). left. reflexivity. }
  apply (X ps []). rewrite app_nil_r. reflexivity.
Qed.

(** ** Pure lookups *)
Fixpoint find_entry (ps : list provider) (full : string) : option (string * nat) :=
  match ps with [] => None | p :: ps' => match dget full (entries p) with Some i => Some (source p, i) | None => find_entry ps' full end end.
Lemma find_entry_some ps full src i : find_entry ps full = Some (src, i) -> exists p, In p ps /\ In (full, i) (entries p).
Proof. induction ps as [|p ps IH]; simpl; [discriminate|]. destruct (dget full (entries p)) as [j|] eqn:E; [intros H; injection H as <- <-; exists p; split; [auto|apply dget_in, E]|intros H; destruct (IH H) as (q & A & B); eauto]. Qed.
Lemma find_entry_none ps full : find_entry ps full = None <-> ~ In full (names_of ps).
Proof.
  induction ps as [|p ps IH]; simpl; [intuition|]. rewrite in_app_iff. destruct (dget full (entries p)) as [j|] eqn:E.
  - split; [discriminate|]. intros H. destruct H. left. apply dget_in in E. apply (in_map fst _ (full, j)), E.
  - apply dget_none in E. rewrite IH. unfold asset_names. intuition.
Qed.
Lemma nodup_app {A} (l1 l2 : list A) : NoDup (l1 ++ l2) -> NoDup l1 /\ NoDup l2 /\ forall x, In x l1 -> ~ In x l2.
Proof.
  induction l1 as [|a l1 IH]; simpl; [split; [constructor|auto]|]. intros N. inversion N as [|? ? N1 N2]; subst. destruct (IH N2) as (A1 & A2 & A3). split; [constructor; [|exact A1]|split; [exact A2|]].
  - intros I. apply N1, in_or_app. auto.
  - intros x [<-|I]; [intros J; apply N1, in_or_app; auto|apply A3, I].
Qed.
Lemma find_entry_in ps full p i : NoDup (names_of ps) -> In p ps -> In (full, i) (entries p) -> exists src, find_entry ps full = Some (src, i).
Proof.
  induction ps as [|q ps IH]; [intros _ []|]. simpl. intros N. destruct (nodup_app _ _ N) as (N1 & N2 & N3). intros [->|I] J.
  - rewrite (dget_nodup full i); [eauto|exact N1|exact J].
  - destruct (dget full (entries q)) as [j|] eqn:E; [|auto]. exfalso. apply dget_in in E. apply (N3 full); [apply (in_map fst _ (full, j)), E|]. unfold names_of. apply in_flat_map. exists p. split; [exact I|apply (in_map fst _ (full, i)), J].
Qed.
Lemma has_find s h full d : stored s h -> has s h full d <-> exists src i, find_entry (providers s) full = Some (src, i) /\ d = cell h i.
Proof.
  intros St. destruct (stored_names s h St) as [N U]. rewrite N in U. split.
  - intros (p & i & A & B & ->). destruct (find_entry_in _ _ _ _ U A B) as (src & E). eauto.
  - intros (src & i & E & ->). apply find_entry_some in E. destruct E as (p & A & B). exists p, i. auto.
Qed.
Lemma absent_find s h full : stored s h -> absent s h full <-> find_entry (providers s) full = None.
Proof.
  intros St. split.
  - intros A. destruct (find_entry (providers s) full) as [[src i]|] eqn:E; [|reflexivity]. exfalso. apply (A (cell h i)). apply has_find; eauto.
  - intros E d H. apply (has_find s h full d St) in H. destruct H as (src & i & E' & _). congruence.
Qed.

(** ** Heaps *)
(** [h'] keeps the first [n] dicts of [h]. *)
Definition keeps (n : nat) (h h' : heap) : Prop := next h <= next h' /\ forall i, i < n -> cell h' i = cell h i.
Lemma keeps_refl n h : keeps n h h. Proof. split; auto. Qed.
Lemma keeps_trans n a b c : keeps n a b -> keeps n b c -> keeps n a c.
Proof. intros [A1 A2] [B1 B2]. split; [lia|]. intros i I. rewrite B2, A2; auto. Qed.
Lemma keeps_le n m h h' : m <= n -> keeps n h h' -> keeps m h h'.
Proof. intros L [A B]. split; [exact A|]. intros i I. apply B. lia. Qed.
(** the dict of an entry as retrieved *)
Definition pure_meta (s : store) (h : heap) (full : string) : option dict := match find_entry (providers s) full with Some (src, i) => Some (dset "__source__" (V (CStr src)) (cell h i)) | None => None end.
Lemma first_metadata_spec ps full : forall h, match first_metadata ps full h, find_entry ps full with
  | (Some j, h'), Some (src, i) => j = next h /\ next h' = S (next h) /\ keeps (next h) h h' /\ cell h' j = dset "__source__" (V (CStr src)) (cell h i)
  | (None, h'), None => h' = h
  | _, _ => False end.
Proof.
  induction ps as [|p ps IH]; intros h; simpl; [reflexivity|]. unfold provider_get. destruct (dget full (entries p)) as [i|]; [|apply IH]. simpl. rewrite !Nat.eqb_refl. split; [reflexivity|]. split; [reflexivity|]. split; [|reflexivity].
  split; [simpl; lia|]. intros j J. simpl. assert (E : Nat.eqb j (next h) = false) by (apply Nat.eqb_neq; lia). rewrite E. simpl. rewrite ?E. reflexivity.
Qed.
Lemma get_metadata_spec s h0 h full : stored s h0 -> keeps (next h0) h0 h -> match pure_meta s h0 full with
  | Some d => exists h', get_metadata s full h = (Ok (Some (next h)), h') /\ next h' = S (next h) /\ keeps (next h) h h' /\ cell h' (next h) = d
  | None => get_metadata s full h = (Ok None, h) end.
Proof.
  intros St K. unfold get_metadata, pure_meta. pose proof (first_metadata_spec (providers s) full h) as F. destruct (first_metadata (providers s) full h) as [[j|] h'], (find_entry (providers s) full) as [[src i]|] eqn:E; try contradiction.
  - destruct F as (-> & A & B & C). exists h'. split; [reflexivity|]. split; [exact A|]. split; [exact B|]. rewrite C. f_equal. apply K. destruct St as (_ & _ & Bd). apply find_entry_some in E. destruct E as (p & P1 & P2). eapply (proj1 (Bd p full i P1 P2)).
  - subst h'. destruct (existsb (String.eqb full) (names s)) eqn:X; [|reflexivity]. exfalso. apply existsb_exists in X. destruct X as (y & Y1 & Y2). apply String.eqb_eq in Y2. subst y. apply find_entry_none in E. apply E. destruct (stored_names s h0 St) as [N _]. rewrite <- N. exact Y1.
Qed.

(** ** Retrieval without a heap *)
Fixpoint pure_env (s : store) (h : heap) (n : string) (es : list string) : option dict := match es with [] => None | e :: es' => match pure_meta s h (full_name n e) with Some d => Some d | None => pure_env s h n es' end end.
Definition pure_dict (s : store) (h : heap) (es : list string) (n : string) : option dict :=
  match pure_meta s h (full_name n "") with None => None | Some d => Some (match pure_env s h n es with Some e => dupdate d e | None => d end) end.
Definition base_of (d : dict) : option string := match dget "base" d with Some (V (CStr b)) => Some b | _ => None end.
Fixpoint pure_retrieve (s : store) (h : heap) (fuel : nat) (n leaf : string) (es : list string) : res (option (list (string * dict))) :=
  match fuel with
  | O => Err Recursion
  | S fuel' =>
      match pure_dict s h es n with
      | None => if String.eqb n leaf then Ok None else Err (BaseMissing n leaf)
      | Some d =>
          match base_of d with
          | None => Ok (Some [(n, d)])
          | Some b => match pure_retrieve s h fuel' b leaf es with Err x => Err x | Ok None => Ok (Some [(n, d)]) | Ok (Some l) => Ok (Some ((n, d) :: l)) end
          end
      end
  end.
Lemma overlay_spec s h0 n es : stored s h0 -> forall i h, keeps (next h0) h0 h -> next h0 <= i -> i < next h -> exists h', overlay s n es i h = (Ok tt, h') /\ next h <= next h' /\ (forall j, j < next h -> j <> i -> cell h' j = cell h j) /\
  cell h' i = match pure_env s h0 n es with Some e => dupdate (cell h i) e | None => cell h i end.
Proof.
  intros St. induction es as [|e es IH]; intros i h K L B; simpl.
  - exists h. auto.
  - pose proof (get_metadata_spec s h0 h (full_name n e) St K) as G. destruct (pure_meta s h0 (full_name n e)) as [d|].
    + destruct G as (h' & -> & N & K' & C). exists (write i (dupdate (cell h' i) (cell h' (next h))) h'). split; [reflexivity|]. simpl. split; [lia|]. split.
      * intros j J E. replace (Nat.eqb j i) with false by (symmetry; apply Nat.eqb_neq; exact E). apply K'. exact J.
      * rewrite Nat.eqb_refl, C. f_equal. apply K'. exact B.
    + rewrite G. destruct (IH i h K L B) as (h' & -> & A). exists h'. auto.
Qed.
Fixpoint locs (c : card) : list nat := match c with Card _ i b => i :: match b with Some c' => locs c' | None => [] end end.
Lemma do_retrieve_spec s h0 fuel leaf es : stored s h0 -> forall n h, keeps (next h0) h0 h -> let x := do_retrieve s fuel n leaf es h in
  viewed x = pure_retrieve s h0 fuel n leaf es /\ keeps (next h) h (snd x) /\ match fst x with Ok (Some c) => forall i, In i (locs c) -> i < next (snd x) | _ => True end.
Proof.
  intros St. induction fuel as [|fuel IH]; intros n h K; cbn [do_retrieve pure_retrieve]; [split; [reflexivity|split; [apply keeps_refl|exact I]]|].
  pose proof (get_metadata_spec s h0 h (full_name n "") St K) as G. unfold pure_dict. destruct (pure_meta s h0 (full_name n "")) as [d|].
  - destruct G as (h1 & -> & N1 & K1 & C1). assert (L0 : next h0 <= next h) by apply K. assert (K01 : keeps (next h0) h0 h1) by (eapply keeps_trans; [exact K|eapply keeps_le; [|exact K1]; lia]).
    destruct (overlay_spec s h0 n es St (next h) h1 K01 L0 ltac:(lia)) as (h2 & -> & N2 & K2 & C2). rewrite C1 in C2. set (d' := match pure_env s h0 n es with Some e => dupdate d e | None => d end) in *.
    assert (K12 : keeps (next h) h h2) by (split; [lia|]; intros i I; rewrite K2 by lia; apply K1, I).
    assert (K02 : keeps (next h0) h0 h2) by (eapply keeps_trans; [exact K|eapply keeps_le; [|exact K12]; lia]).
    rewrite C2. unfold base_of.
    assert (Plain : let x := (Ok (Some (Card n (next h) None)), h2) in viewed x = Ok (Some [(n, d')]) /\ keeps (next h) h (snd x) /\ match fst x with Ok (Some c) => forall i, In i (locs c) -> i < next (snd x) | _ => True end).
    { cbv zeta. simpl. rewrite C2. split; [reflexivity|]. split; [exact K12|]. intros i [<-|[]]. lia. }
    destruct (dget "base" d') as [[c|p]|]; try exact Plain. destruct c; try exact Plain. specialize (IH s0 h2 K02). cbv zeta in IH. destruct (do_retrieve s fuel s0 leaf es h2) as [[[c|]|x] h3]; simpl in IH; destruct IH as (<- & K3 & B3).
    + simpl. split; [|split].
      * do 3 f_equal. rewrite <- C2. f_equal. apply K3. lia.
      * eapply keeps_trans; [exact K12|]. eapply keeps_le; [|exact K3]. lia.
      * intros i [<-|I]; [|apply B3, I]. destruct K3 as [K3 _]. lia.
    + simpl. split; [|split].
      * do 3 f_equal. rewrite <- C2. f_equal. apply K3. lia.
      * eapply keeps_trans; [exact K12|]. eapply keeps_le; [|exact K3]. lia.
      * intros i [<-|[]]. destruct K3 as [K3 _]. lia.
    + simpl. split; [reflexivity|]. split; [|exact I]. eapply keeps_trans; [exact K12|]. eapply keeps_le; [|exact K3]. lia.
  - rewrite G. destruct (String.eqb n leaf); simpl; (split; [reflexivity|]); (split; [apply keeps_refl|exact I]).
Qed.

(** ** The pure functions and the specification *)
Lemma pure_meta_has s h full : stored s h -> match pure_meta s h full with
  | Some d => exists d0, has s h full d0 /\ NoDup (map fst d) /\ forall k, k <> "__source__" -> dget k d = dget k d0
  | None => absent s h full end.
Proof.
  intros St. unfold pure_meta. destruct (find_entry (providers s) full) as [[src i]|] eqn:E; [|apply absent_find; assumption]. exists (cell h i). split; [apply has_find; eauto|].
  destruct St as (_ & _ & B). apply find_entry_some in E. destruct E as (p & P1 & P2). destruct (B p full i P1 P2) as [_ N]. split; [apply dset_keys, N|]. intros k K. rewrite dget_dset. destruct (String.eqb_spec k "__source__"); [contradiction|reflexivity].
Qed.
Lemma has_fun s h full d d' : stored s h -> has s h full d -> has s h full d' -> d = d'.
Proof. intros St A B. apply has_find in A; [|exact St]. apply has_find in B; [|exact St]. destruct A as (? & ? & A & ->), B as (? & ? & B & ->). congruence. Qed.
Lemma first_env_fun s h n es o o' : stored s h -> first_env s h n es o -> first_env s h n es o' -> o = o'.
Proof.
  intros St A. revert o'. induction A as [|e es d H|e es o H _ IH]; intros o' B; inversion B as [|? ? ? H'|? ? ? H' B']; subst; auto; try (f_equal; eapply has_fun; eassumption); exfalso; [eapply H'; eassumption|eapply H; eassumption].
Qed.
Lemma own_fun s h es n k v v' : stored s h -> own s h es n k v -> own s h es n k v' -> v = v'.
Proof. intros St (d & o & A & B & ->) (d' & o' & A' & B' & ->). rewrite (has_fun s h _ d d' St A A'), (first_env_fun s h n es o o' St B B'). reflexivity. Qed.
Lemma pure_env_spec s h n es : stored s h -> match pure_env s h n es with
  | Some e => exists d, first_env s h n es (Some d) /\ NoDup (map fst e) /\ forall k, k <> "__source__" -> dget k e = dget k d
  | None => first_env s h n es None end.
Proof.
  intros St. induction es as [|e es IH]; simpl; [constructor|]. pose proof (pure_meta_has s h (full_name n e) St) as P. destruct (pure_meta s h (full_name n e)) as [d|].
  - destruct P as (d0 & A & B & C). exists d0. split; [apply fe_here, A|auto].
  - destruct (pure_env s h n es) as [d|]; [destruct IH as (d0 & A & B); exists d0; split; [apply fe_next; assumption|exact B]|apply fe_next; assumption].
Qed.
Lemma pure_dict_own s h es n : stored s h -> match pure_dict s h es n with
  | Some d => forall k, k <> "__source__" -> own s h es n k (dget k d)
  | None => absent s h (full_name n "") end.
Proof.
  intros St. unfold pure_dict. pose proof (pure_meta_has s h (full_name n "") St) as P. destruct (pure_meta s h (full_name n "")) as [d|]; [|exact P]. destruct P as (d0 & A & B & C). intros k K. pose proof (pure_env_spec s h n es St) as E. destruct (pure_env s h n es) as [e|].
  - destruct E as (e0 & E1 & E2 & E3). exists d0, (Some e0). split; [exact A|]. split; [exact E1|]. rewrite dget_dupdate by exact E2. rewrite E3, C by exact K. reflexivity.
  - exists d0, None. split; [exact A|]. split; [exact E|]. apply C, K.
Qed.
Lemma base_source : "base" <> "__source__". Proof. discriminate. Qed.
Lemma own_dict s h es n k v : stored s h -> own s h es n k v -> exists d, pure_dict s h es n = Some d /\ (k <> "__source__" -> v = dget k d).
Proof.
  intros St O. pose proof (pure_dict_own s h es n St) as P. destruct (pure_dict s h es n) as [d|]; [exists d; split; [reflexivity|]; intros K; eapply own_fun; eauto|]. destruct O as (d & _ & A & _). destruct (P d A).
Qed.
Lemma has_base_iff s h es n b : stored s h -> has_base s h es n b <-> exists d, pure_dict s h es n = Some d /\ base_of d = Some b.
Proof.
  intros St. unfold has_base, base_of. split.
  - intros O. destruct (own_dict _ _ _ _ _ _ St O) as (d & D & E). exists d. split; [exact D|]. rewrite <- (E base_source). reflexivity.
  - intros (d & D & E). pose proof (pure_dict_own s h es n St) as P. rewrite D in P. specialize (P "base" base_source). destruct (dget "base" d) as [[[]|]|]; try discriminate. injection E as ->. exact P.
Qed.
Lemma has_base_fun s h es n b b' : stored s h -> has_base s h es n b -> has_base s h es n b' -> b = b'.
Proof. intros St A B. pose proof (own_fun _ _ _ _ _ _ _ St A B) as E. congruence. Qed.

(** ** Steps to bases *)
Inductive steps (s : store) (h : heap) (es : list string) : string -> list string -> string -> Prop :=
| st_nil n : steps s h es n [] n
| st_cons n b l y : has_base s h es n b -> steps s h es b l y -> steps s h es n (n :: l) y.
Definition last_one s h es y := forall b, ~ has_base s h es y b.
Section Steps.
Variables (s : store) (h : heap) (es : list string).
Hypothesis St : stored s h.
Notation steps := (steps s h es).
Notation has_base := (has_base s h es).
Lemma steps_app n l y l' z : steps n l y -> steps y l' z -> steps n (l ++ l') z.
Proof. intros A. induction A as [|n b l y H A IH]; intros B; [exact B|]. simpl. eapply st_cons; eauto. Qed.
Lemma steps_split n l1 l2 z : steps n (l1 ++ l2) z -> exists y, steps n l1 y /\ steps y l2 z.
Proof. revert n. induction l1 as [|x l1 IH]; intros n A; simpl in A; [exists n; split; [constructor|exact A]|]. inversion A as [|? b ? ? H B]; subst. destruct (IH b B) as (y & C & D). exists y. split; [eapply st_cons; eassumption|exact D]. Qed.
Lemma steps_head n x l z : steps n (x :: l) z -> x = n. Proof. intros A. inversion A; reflexivity. Qed.
Lemma steps_det n l y : steps n l y -> last_one s h es y -> forall l' y', steps n l' y' -> last_one s h es y' -> l = l' /\ y = y'.
Proof.
  intros A. induction A as [n|n b l y H A IH]; intros T l' y' B T'; inversion B as [|? b' ? ? H' B']; subst; auto; try (exfalso; eapply T; eassumption); try (exfalso; eapply T'; eassumption).
  pose proof (has_base_fun _ _ _ _ _ _ St H H') as <-. destruct (IH T _ _ B' T') as [-> ->]. auto.
Qed.
Lemma steps_nodup n l y : steps n l y -> last_one s h es y -> NoDup (l ++ [y]).
Proof.
  intros A T. induction A as [n|n b l y H A IH]; simpl; [repeat constructor; intros []|]. constructor; [|apply IH, T]. intros I. apply in_app_or in I. destruct I as [I|[<-|[]]]; [|eapply T; eassumption].
  apply in_split in I. destruct I as (l1 & l2 & ->). assert (B : steps n (n :: l1 ++ n :: l2) y) by (eapply st_cons; eassumption).
  destruct (steps_split b l1 (n :: l2) y A) as (m & _ & C). pose proof (steps_head _ _ _ _ C) as <-. destruct (steps_det _ _ _ B T _ _ C T) as [E _]. apply (f_equal (@List.length string)) in E. simpl in E. rewrite app_length in E. simpl in E. lia.
Qed.
Lemma append_inj_r a b c : (a ++ c)%string = (b ++ c)%string -> a = b.
Proof.
  intros E. assert (L : forall x y, list_ascii_of_string (x ++ y)%string = list_ascii_of_string x ++ list_ascii_of_string y) by (induction x as [|q x IH]; intros y; simpl; [reflexivity|rewrite IH; reflexivity]).
  apply (f_equal list_ascii_of_string) in E. rewrite !L in E. apply app_inv_tail in E. rewrite <- (string_of_list_ascii_of_string a), <- (string_of_list_ascii_of_string b), E. reflexivity.
Qed.
Lemma full_name_inj a b : full_name a "" = full_name b "" -> a = b. Proof. apply append_inj_r. Qed.
Lemma present_name n : ~ absent s h (full_name n "") -> In (full_name n "") (names s).
Proof.
  intros A. destruct (stored_names s h St) as [N _]. rewrite N. destruct (find_entry (providers s) (full_name n "")) as [[src i]|] eqn:E.
  - apply find_entry_some in E. destruct E as (p & P & Q). unfold names_of. apply in_flat_map. exists p. split; [exact P|]. apply (in_map fst _ (full_name n "", i)), Q.
  - destruct A. apply absent_find; assumption.
Qed.
Lemma based_present n b : has_base n b -> ~ absent s h (full_name n "").
Proof. intros (d & o & A & _) X. apply (X d A). Qed.
Lemma steps_present n l y x : steps n l y -> In x l -> ~ absent s h (full_name x "").
Proof. intros A. induction A as [|n b l y H A IH]; [intros []|]. intros [<-|I]; [eapply based_present; eassumption|apply IH, I]. Qed.
Lemma present_length l : NoDup l -> (forall x, In x l -> ~ absent s h (full_name x "")) -> List.length l <= List.length (names s).
Proof.
  intros N P. rewrite <- (map_length (fun x => full_name x "") l). apply NoDup_incl_length.
  - clear P. induction N as [|x l X N IH]; simpl; constructor; [|exact IH]. intros I. apply in_map_iff in I. destruct I as (y & E & I). apply full_name_inj in E. subst y. contradiction.
  - intros f I. apply in_map_iff in I. destruct I as (x & <- & I). apply present_name, P, I.
Qed.
Lemma dup_or (l : list string) : NoDup l \/ exists x l1 l2 l3, l = l1 ++ x :: l2 ++ x :: l3.
Proof.
  induction l as [|x l [N|(y & l1 & l2 & l3 & ->)]]; [left; constructor| |right; exists y, (x :: l1), l2, l3; reflexivity].
  destruct (in_dec string_dec x l) as [I|I]; [|left; constructor; assumption]. apply in_split in I. destruct I as (l1 & l2 & ->). right. exists x, [], l1, l2. reflexivity.
Qed.
Lemma steps_path n l y : steps n l y -> l <> [] -> path s h es n y.
Proof. intros A. induction A as [|n b l y H A IH]; intros N; [congruence|]. destruct l as [|x l]; [inversion A; subst; apply pa_one, H|eapply pa_more; [exact H|apply IH; discriminate]]. Qed.
Lemma path_steps n y : path s h es n y -> exists l, l <> [] /\ steps n l y.
Proof. intros A. induction A as [n b H|n b x H A (l & N & B)]; [exists [n]|exists (n :: l)]; (split; [discriminate|]); eapply st_cons; try eassumption. constructor. Qed.
Lemma chain_steps n l : chain s h es n l <-> exists l' y v, steps n l' y /\ l = l' ++ [y] /\ own s h es y "base" v /\ forall b, v <> Some (V (CStr b)).
Proof.
  split.
  - intros A. induction A as [n v O N|n b l H A (l' & y & v & B & -> & C)]; [exists [], n, v; split; [constructor|auto]|]. exists (n :: l'), y, v. split; [eapply st_cons; eassumption|]. split; [reflexivity|exact C].
  - intros (l' & y & v & A & -> & O & N). induction A as [n|n b l y H A IH]; simpl; [eapply ch_end; eassumption|eapply ch_base; [exact H|apply IH, O]].
Qed.
Lemma broken_steps n x : broken s h es n x <-> exists l, l <> [] /\ steps n l x /\ absent s h (full_name x "").
Proof.
  split.
  - intros A. induction A as [n b H N|n b x H A (l & L & B & C)]; [exists [n]; split; [discriminate|]; split; [eapply st_cons; [exact H|constructor]|exact N]|]. exists (n :: l). split; [discriminate|]. split; [eapply st_cons; eassumption|exact C].
  - intros (l & L & A & N). induction A as [|n b l y H A IH]; [congruence|]. destruct l; [inversion A; subst; apply br_here; assumption|]. eapply br_base; [exact H|]. apply IH; [discriminate|exact N].
Qed.
Lemma own_last y v : own s h es y "base" v -> (forall b, v <> Some (V (CStr b))) -> last_one s h es y.
Proof. intros O N b H. apply (N b). eapply own_fun; eassumption. Qed.
Lemma absent_last y : absent s h (full_name y "") -> last_one s h es y.
Proof. intros A b H. eapply based_present; eassumption. Qed.
Lemma cyclic_next n : cyclic s h es n -> exists b, has_base n b /\ cyclic s h es b.
Proof.
  intros (x & [->|P] & Q).
  - inversion Q as [n1 b1 H|n1 b1 x1 H Q' E1 E2].
    + subst. exists n. split; [exact H|]. exists n. auto.
    + exists b1. split; [exact H|]. exists n. split; [right; exact Q'|exact Q].
  - inversion P as [n1 b1 H|n1 b1 x1 H P' E1 E2].
    + subst. exists x. split; [exact H|]. exists x. auto.
    + exists b1. split; [exact H|]. exists x. auto.
Qed.
Lemma cyclic_steps n : cyclic s h es n -> forall l y, steps n l y -> ~ last_one s h es y.
Proof. intros C l y A. induction A as [n|n b l y H A IH]; intros T; destruct (cyclic_next n C) as (b' & B & C'); [eapply T; eassumption|]. rewrite (has_base_fun _ _ _ _ _ _ St H B) in *. apply (IH C'), T. Qed.

(** the pure function *)
Lemma pure_steps leaf l : forall fuel n y, steps n l y -> List.length l < fuel -> leaf = n \/ ~ absent s h (full_name leaf "") ->
  (forall v, own s h es y "base" v -> (forall b, v <> Some (V (CStr b))) -> exists r, pure_retrieve s h fuel n leaf es = Ok (Some r) /\ map fst r = l ++ [y] /\ Forall (fun nd => pure_dict s h es (fst nd) = Some (snd nd)) r) /\
  (absent s h (full_name y "") -> if String.eqb leaf y then pure_retrieve s h fuel n leaf es = Ok None /\ l = [] else pure_retrieve s h fuel n leaf es = Err (BaseMissing y leaf)).
Proof.
  induction l as [|x l IH]; intros fuel n y A L P; (destruct fuel as [|fuel]; [simpl in L; lia|]); cbn [pure_retrieve].
  - inversion A; subst. pose proof (pure_dict_own s h es y St) as D. destruct (pure_dict s h es y) as [d|] eqn:E.
    + specialize (D "base" base_source). split.
      * intros v O N. pose proof (own_fun _ _ _ _ _ _ _ St O D) as Ev. unfold base_of. rewrite <- Ev. replace (match v with Some (V (CStr b)) => Some b | _ => None end) with (@None string); [|destruct v as [[[]|]|]; try reflexivity; exfalso; eapply N; reflexivity].
        exists [(y, d)]. split; [reflexivity|]. split; [reflexivity|]. constructor; [exact E|constructor].
      * intros Ab. destruct D as (d0 & _ & D & _). destruct (Ab d0 D).
    + split; [intros v (d & _ & O & _); destruct (D d O)|]. intros _. destruct (String.eqb_spec leaf y) as [->|N]; [rewrite String.eqb_refl; auto|]. destruct (String.eqb_spec y leaf); [congruence|reflexivity].
  - inversion A as [|? b ? ? H B]; subst. destruct (proj1 (has_base_iff _ _ _ _ _ St) H) as (d & D & E). rewrite D, E. simpl in L. assert (Pl : ~ absent s h (full_name leaf "")) by (destruct P as [->|P]; [eapply based_present; exact H|exact P]).
    destruct (IH fuel b y B ltac:(lia) (or_intror Pl)) as [I1 I2]. split.
    + intros v O N. destruct (I1 v O N) as (r & -> & M & F). exists ((x, d) :: r). split; [reflexivity|]. split; [simpl; rewrite M; reflexivity|]. constructor; assumption.
    + intros Ab. specialize (I2 Ab). destruct (String.eqb_spec leaf y) as [->|N]; [destruct (Pl Ab)|]. rewrite I2. reflexivity.
Qed.
Lemma pure_cyclic leaf fuel : forall n, cyclic s h es n -> pure_retrieve s h fuel n leaf es = Err Recursion.
Proof.
  induction fuel as [|fuel IH]; intros n C; [reflexivity|]. cbn [pure_retrieve]. destruct (cyclic_next n C) as (b & H & C'). destruct (proj1 (has_base_iff _ _ _ _ _ St) H) as (d & -> & ->). rewrite (IH b C'). reflexivity.
Qed.
(** every name ends somewhere or is cyclic *)
Lemma walk fuel : forall n, (exists l y, steps n l y /\ last_one s h es y /\ List.length l < fuel) \/ (exists l y, steps n l y /\ List.length l = fuel).
Proof.
  induction fuel as [|fuel IH]; intros n; [right; exists [], n; split; [constructor|reflexivity]|].
  pose proof (pure_dict_own s h es n St) as D. destruct (pure_dict s h es n) as [d|] eqn:E.
  - destruct (base_of d) as [b|] eqn:B.
    + assert (H : has_base n b) by (apply has_base_iff; eauto). destruct (IH b) as [(l & y & S & T & L)|(l & y & S & L)]; [left|right]; exists (n :: l), y; (split; [eapply st_cons; eassumption|]); simpl; [split; [exact T|lia]|lia].
    + left. exists [], n. split; [constructor|]. split; [|simpl; lia]. intros b H. apply has_base_iff in H; [|exact St]. destruct H as (d' & D' & B'). congruence.
  - left. exists [], n. split; [constructor|]. split; [apply absent_last, D|simpl; lia].
Qed.
Lemma ends_or_cyclic n : (exists l y, steps n l y /\ last_one s h es y /\ List.length l <= List.length (names s)) \/ cyclic s h es n.
Proof.
  destruct (walk (S (List.length (names s))) n) as [(l & y & A & T & L)|(l & y & A & L)]; [left; exists l, y; split; [exact A|split; [exact T|lia]]|]. right. destruct (dup_or l) as [N|(x & l1 & l2 & l3 & ->)].
  - exfalso. pose proof (present_length l N (fun x => steps_present n l y x A)). lia.
  - destruct (steps_split _ _ _ _ A) as (m & A1 & A2). pose proof (steps_head _ _ _ _ A2) as <-. change (x :: l2 ++ x :: l3) with ((x :: l2) ++ x :: l3) in A2. destruct (steps_split _ _ _ _ A2) as (m & A3 & A4). pose proof (steps_head _ _ _ _ A4) as <-.
    exists x. split; [|apply (steps_path _ _ _ A3); discriminate]. destruct l1 as [|z l1]; [left; inversion A1; reflexivity|right; apply (steps_path _ _ _ A1); discriminate].
Qed.
Lemma last_kind y : last_one s h es y -> absent s h (full_name y "") \/ exists v, own s h es y "base" v /\ forall b, v <> Some (V (CStr b)).
Proof.
  intros T. pose proof (pure_dict_own s h es y St) as D. destruct (pure_dict s h es y) as [d|] eqn:E; [right|left; exact D]. exists (dget "base" d). split; [apply D, base_source|]. intros b B. apply (T b). unfold Asset_Spec.has_base. rewrite <- B. apply D, base_source.
Qed.
End Steps.

Lemma get_field_view h k c : get_field h k c = (fix go l := match l with [] => None | (_, d) :: l' => match dget k d with Some v => Some v | None => go l' end end) (view h c).
Proof. revert c. fix F 1. intros [n i b]. simpl. destruct (dget k (cell h i)); [reflexivity|]. destruct b as [c'|]; [apply F|reflexivity]. Qed.
Lemma shows_view s h0 es l h c : stored s h0 -> map fst (view h c) = l -> Forall (fun nd => pure_dict s h0 es (fst nd) = Some (snd nd)) (view h c) -> shows s h0 es l h c.
Proof.
  intros St M F. split; [exact M|]. intros k K. rewrite get_field_view. clear - St M F K. revert l M F. generalize (view h c). intros v. induction v as [|[n d] v IH]; intros l M F; simpl in M; subst l; [constructor|]. inversion F as [|? ? D F']; subst. simpl in D.
  pose proof (pure_dict_own s h0 es n St) as P. rewrite D in P. specialize (P k K). simpl. destruct (dget k d); [apply fo_here, P|apply fo_next; [exact P|apply IH; auto]].
Qed.
