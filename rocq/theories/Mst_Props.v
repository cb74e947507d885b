(** C67: loading a checkpoint into a model sets every tensor or says exactly what is wrong *)
From Coq Require Import List Bool Arith Lia.
From Verif Require Import Mst_Model.
Import ListNotations.

Section P.
  Context {key data : Type}.
  Variable key_eqb : key -> key -> bool.
  Hypothesis key_ok : forall a b, key_eqb a b = true <-> a = b.
  Notation tensor := (@tensor data).
  Notation ckpt := (list (key * tensor)).
  Notation memory := (@memory data).
  Notation state_dict := (@state_dict key).
  Notation load := (set_model_state key_eqb).
  Notation run := (fold_left (load_one key_eqb)).

  (** ** Specification *)
  (** The checkpoint has a tensor of this name that fits the model's *)
  Definition fits (model : state_dict) (m : memory) (k : key) (t : tensor) : Prop := exists i, In (k, i) model /\ t_shape t = t_shape (m i).
  Definition occurs (k : key) (ck : ckpt) : Prop := exists t, In (k, t) ck.
  (** Two entries of the checkpoint have this name *)
  Definition twice (k : key) (ck : ckpt) : Prop := exists pre t mid t' post, ck = pre ++ (k, t) :: mid ++ (k, t') :: post.
  (** Its first tensor of this name *)
  Definition first (k : key) (t : tensor) (ck : ckpt) : Prop := exists pre post, ck = pre ++ (k, t) :: post /\ ~ occurs k pre.

  (** ** Proofs *)
  Lemma key_dec : forall a b : key, {a = b} + {a <> b}.
  Proof. intros a b. destruct (key_eqb a b) eqn:E; [left; apply key_ok; auto|right; intros H; apply key_ok in H; congruence]. Qed.
  Lemma occurs_keys : forall k ck, occurs k ck <-> In k (map fst ck).
  Proof. intros k ck. rewrite in_map_iff. split; [intros [t I]; exists (k, t); auto|intros ((a, t) & <- & I); exists t; auto]. Qed.
  Lemma occurs_dec : forall k ck, occurs k ck \/ ~ occurs k ck.
  Proof. intros k ck. rewrite occurs_keys. destruct (in_dec key_dec k (map fst ck)); auto. Qed.
  Lemma occurs_app : forall k a b, occurs k (a ++ b) <-> occurs k a \/ occurs k b.
  Proof. intros. rewrite !occurs_keys, map_app, in_app_iff. tauto. Qed.
  Lemma occurs_one : forall k k' t, occurs k [(k', t)] <-> k = k'.
  Proof. intros. rewrite occurs_keys. cbn. split; [intros [E|[]]; auto|auto]. Qed.
  Lemma pop_none : forall k s, pop key_eqb k s = None <-> ~ exists i, In (k, i) s.
  Proof.
    intros k. induction s as [|[a i] s IH]; cbn. { split; auto. intros _ [i []]. }
    destruct (key_eqb k a) eqn:E. { apply key_ok in E. subst. split; [discriminate|]. intros H. exfalso. apply H. eauto. }
    destruct (pop key_eqb k s) as [[j r]|] eqn:P; split; try discriminate; auto.
    - intros H. exfalso. destruct (proj1 (not_iff_compat IH)) as []; [discriminate|]. intros [x I]. apply H. eauto.
    - intros _ [x [X|I]]; [inversion X; subst; rewrite (proj2 (key_ok k k)) in E; auto; discriminate|]. apply (proj1 IH); eauto.
  Qed.
  Lemma pop_some : forall k s i r, NoDup (map fst s) -> pop key_eqb k s = Some (i, r) -> In (k, i) s /\ r = filter (fun e => negb (key_eqb k (fst e))) s.
  Proof.
    intros k. induction s as [|[a j] s IH]; intros i r N H; cbn in H; [discriminate|]. inversion N as [|? ? Na Ns]; subst.
    destruct (key_eqb k a) eqn:E.
    - apply key_ok in E. subst. injection H as <- <-. split; [left; auto|]. cbn. rewrite (proj2 (key_ok a a)) by auto. cbn. clear - Na key_ok. induction s as [|[b j] s IH]; auto. cbn in *.
      destruct (key_eqb a b) eqn:E; [apply key_ok in E; subst; tauto|]. cbn. f_equal. apply IH. tauto.
    - destruct (pop key_eqb k s) as [[j' r']|] eqn:P; [|discriminate]. injection H as <- <-. destruct (IH j' r' Ns eq_refl) as [I ->]. split; [right; auto|]. cbn. rewrite E. auto.
  Qed.
  Lemma names_fun : forall (s : state_dict) k i j, NoDup (map fst s) -> In (k, i) s -> In (k, j) s -> i = j.
  Proof.
    induction s as [|[a x] s IH]; intros k i j N I J; [destruct I|]. inversion N as [|? ? Na Ns]; subst. cbn in Na.
    destruct I as [I|I], J as [J|J]; try (inversion I; inversion J; subst; auto; fail); try (inversion I; subst; exfalso; apply Na; apply in_map_iff; exists (k, j); auto; fail);
      try (inversion J; subst; exfalso; apply Na; apply in_map_iff; exists (k, i); auto; fail). eauto.
  Qed.

  Variables (model : state_dict) (m : memory).
  Hypothesis names : NoDup (map fst model).
  Let start : st := St model [] [] [] m.
  Record inv (ck : ckpt) (s : st) : Prop := {
    i_left : forall k i, In (k, i) (left s) <-> In (k, i) model /\ ~ occurs k ck;
    i_nodup : NoDup (map fst (left s));
    i_memo : forall i, In i (memo s) <-> exists k t, In (k, i) model /\ first k t ck /\ t_shape t = t_shape (m i);
    i_unexp : forall k, In k (unexpected s) <-> occurs k ck /\ (~ (exists i, In (k, i) model) \/ twice k ck);
    i_mis : forall k, In k (mismatched s) <-> exists i t, In (k, i) model /\ first k t ck /\ t_shape t <> t_shape (m i);
    i_shape : forall i, t_shape (mem s i) = t_shape (m i);
    i_same : forall i, ~ In i (memo s) -> mem s i = m i;
    i_val : forall i, In i (memo s) -> exists pre k t post, ck = pre ++ (k, t) :: post /\ ~ occurs k pre /\ In (k, i) model /\ t_shape t = t_shape (m i) /\ mem s i = t /\
      forall a k' t' b, post = a ++ (k', t') :: b -> In (k', i) model -> occurs k' (pre ++ (k, t) :: a) \/ t_shape t' <> t_shape (m i) }.
  Lemma snoc_split : forall {X} (l : list X) y a x b, l ++ [y] = a ++ x :: b -> (exists b', b = b' ++ [y] /\ l = a ++ x :: b') \/ (b = [] /\ x = y /\ l = a).
  Proof.
    intros X l y a x b E. destruct b as [|z b].
    - apply app_inj_tail in E as [-> ->]. auto.
    - left. destruct (exists_last (l := z :: b)) as (b' & w & Eb); [discriminate|]. rewrite Eb in *. rewrite app_comm_cons, app_assoc in E. apply app_inj_tail in E as [-> ->]. exists b'. auto.
  Qed.
  Lemma first_snoc : forall k t ck k' t', first k t (ck ++ [(k', t')]) <-> first k t ck \/ (~ occurs k ck /\ k = k' /\ t = t').
  Proof.
    intros. split.
    - intros (pre & post & E & N). destruct (exists_last (l := (k, t) :: post)) as (l & x & El); [discriminate|]. rewrite El, app_assoc in E. apply app_inj_tail in E as [E Ex]. destruct l as [|y l].
      + cbn in El. rewrite app_nil_r in E. assert (X : x = (k, t)) by congruence. rewrite X in Ex. inversion Ex; subst. right; auto.
      + cbn in El. injection El as <- E2. left. exists pre, l. split; auto.
    - intros [(pre & post & -> & N)|(N & -> & ->)]; [exists pre, (post ++ [(k', t')]); rewrite <- app_assoc; auto|exists ck, []; auto].
  Qed.
  Lemma twice_snoc : forall k ck k' t', twice k (ck ++ [(k', t')]) <-> twice k ck \/ (occurs k ck /\ k = k').
  Proof.
    intros. split.
    - intros (pre & t & mid & t2 & post & E). destruct (exists_last (l := (k, t2) :: post)) as (l & x & El); [discriminate|]. rewrite El in E.
      replace (pre ++ (k, t) :: mid ++ l ++ [x]) with ((pre ++ (k, t) :: mid ++ l) ++ [x]) in E by (rewrite <- app_assoc; cbn; rewrite <- app_assoc; auto).
      apply app_inj_tail in E as [E Ex]. destruct l as [|y l].
      + cbn in El. assert (X : x = (k, t2)) by congruence. rewrite X in Ex. inversion Ex; subst. right. split; auto. apply occurs_app. right. exists t. left; auto.
      + cbn in El. injection El as <- E2. left. exists pre, t, mid, t2, l. auto.
    - intros [(pre & t & mid & t2 & post & ->)|([t I] & ->)].
      + exists pre, t, mid, t2, (post ++ [(k', t')]). rewrite <- app_assoc. cbn. rewrite <- app_assoc. auto.
      + apply in_split in I as (a & b & ->). exists a, t, b, t', []. rewrite <- app_assoc. auto.
  Qed.
  Lemma first_occurs : forall k t ck, first k t ck -> occurs k ck.
  Proof. intros k t ck (pre & post & -> & _). exists t. apply in_app_iff. right. left. auto. Qed.
  Lemma first_fun : forall k t t' ck, first k t ck -> first k t' ck -> t = t'.
  Proof.
    intros k t t' ck (pre & post & -> & N) (pre' & post' & E & N'). revert pre' E N'. induction pre as [|[a x] pre IH]; intros pre' E N'.
    - destruct pre' as [|y pre']; cbn in E; [congruence|]. injection E as <- _. exfalso. apply N'. exists t. left; auto.
    - destruct pre' as [|y pre']; cbn in E; [inversion E; subst; exfalso; apply N; exists t'; left; auto|]. inversion E as [[E1 E2]]. subst y. eapply IH; eauto.
      + intros [z I]. apply N. exists z. right; auto.
      + intros [z I]. apply N'. exists z. right; auto.
  Qed.
  Lemma run_inv : forall ck, inv ck (run ck start).
  Proof.
    induction ck as [|[k t] ck IH] using rev_ind.
    { constructor; cbn; auto; try tauto.
      - intros. split; [intros; split; auto; intros [? []]|tauto].
      - intros i. split; [intros []|]. intros (k & t & _ & F & _). apply first_occurs in F as [? []].
      - intros k. split; [intros []|]. intros [[? []] _].
      - intros k. split; [intros []|]. intros (i & t & _ & F & _). apply first_occurs in F as [? []]. }
    rewrite fold_left_app. cbn [fold_left]. set (s := run ck start) in *. destruct IH as [L N M U X S Sm V]. unfold load_one. destruct (pop key_eqb k (left s)) as [[i rest]|] eqn:P.
    - destruct (pop_some _ _ _ _ N P) as [Ik ->]. apply L in Ik as [Ik Nk].
      assert (Lf : forall k0 i0, In (k0, i0) (filter (fun e => negb (key_eqb k (fst e))) (left s)) <-> In (k0, i0) model /\ ~ occurs k0 (ck ++ [(k, t)])).
      { intros k0 i0. rewrite filter_In, L, occurs_app, occurs_one. cbn [fst]. destruct (key_eqb k k0) eqn:E; [apply key_ok in E|assert (k <> k0) by (intros Y; apply key_ok in Y; congruence)]; cbn; intuition (congruence || auto). }
      assert (Nf : NoDup (map fst (filter (fun e => negb (key_eqb k (fst e))) (left s)))).
      { clear - N. induction (left s) as [|e l IH]; [constructor|]. cbn in *. inversion N as [|? ? N1 N2]; subst. destruct (negb _); auto. cbn. constructor; auto. intros I. apply N1. apply in_map_iff in I as (x & <- & I). apply filter_In in I as [I _]. apply in_map. auto. }
      assert (Un : forall k0, In k0 (unexpected s) <-> occurs k0 (ck ++ [(k, t)]) /\ (~ (exists i, In (k0, i) model) \/ twice k0 (ck ++ [(k, t)]))).
      { intros k0. rewrite U, occurs_app, occurs_one, twice_snoc. split; [tauto|]. intros [[O|O] T]; [destruct T as [T|[T|[_ T]]]; [auto|auto|subst k0; contradiction]|subst k0]. destruct T as [T|[(pre & a & mid & b & post & E)|[T _]]]; [exfalso; eauto| |contradiction].
        exfalso. apply Nk. subst ck. exists a. apply in_app_iff. right; left; auto. }
      destruct (negb (shape_eqb (t_shape t) (t_shape (mem s i)))) eqn:Sh; unfold shape_eqb in Sh; destruct (list_eq_dec _ _ _) as [Es|Es] in Sh; try discriminate Sh; rewrite S in Es; constructor; cbn [left memo unexpected mismatched mem]; auto.
      + intros j. rewrite M. split; intros (k0 & t0 & I0 & F & Sh0); exists k0, t0; (split; [auto|split; [|auto]]); rewrite first_snoc in *; auto. destruct F as [F|(_ & -> & ->)]; auto. exfalso. rewrite (names_fun _ _ _ _ names I0 Ik) in Sh0. contradiction.
      + intros k0. rewrite in_app_iff, X. split.
        * intros [(j & t0 & I0 & F & Sh0)|[<-|[]]]; [exists j, t0; rewrite first_snoc; auto 10|]. exists i, t. rewrite first_snoc. auto 10.
        * intros (j & t0 & I0 & F & Sh0). rewrite first_snoc in F. destruct F as [F|(_ & -> & ->)]; [left; exists j, t0; auto|right; left; auto].
      + intros j Hj. destruct (V j Hj) as (pre & k0 & t0 & post & E & O & I0 & Sh0 & Mm & La). exists pre, k0, t0, (post ++ [(k, t)]). split; [rewrite E, <- app_assoc; auto|]. repeat (split; auto).
        intros a k1 t1 b Ip I1. apply snoc_split in Ip as [(b' & -> & Ip)|(-> & Ip & ->)]; eauto. inversion Ip; subst k1 t1. rewrite (names_fun _ _ _ _ names I1 Ik). auto.
      + intros j. split.
        * intros [<-|H]; [exists k, t; rewrite first_snoc; auto 10|]. apply M in H as (k0 & t0 & I0 & F & Sh0). exists k0, t0. rewrite first_snoc. auto 10.
        * intros (k0 & t0 & I0 & F & Sh0). rewrite first_snoc in F. destruct F as [F|(_ & -> & ->)]; [right; apply M; exists k0, t0; auto|left; exact (names_fun _ _ _ _ names Ik I0)].
      + intros k0. rewrite X. split; intros (j & t0 & I0 & F & Sh0); exists j, t0; (split; [auto|split; [|auto]]); rewrite first_snoc in *; auto. destruct F as [F|(_ & -> & ->)]; auto. exfalso. rewrite (names_fun _ _ _ _ names I0 Ik) in Sh0. contradiction.
      + intros j. unfold put. destruct (j =? i) eqn:E; auto. apply Nat.eqb_eq in E. subst. cbn. auto.
      + intros j H. unfold put. destruct (j =? i) eqn:E; [apply Nat.eqb_eq in E; subst; exfalso; apply H; left; auto|]. apply Sm. intros Y. apply H. right; auto.
      + intros j H. unfold put. destruct (j =? i) eqn:E.
        * apply Nat.eqb_eq in E. subst j. exists ck, k, t, []. rewrite S, <- Es. repeat (split; auto); [destruct t; auto|]. intros [|? ?] ? ? ? Z; discriminate Z.
        * apply Nat.eqb_neq in E. destruct H as [H|H]; [congruence|]. destruct (V j H) as (pre & k0 & t0 & post & Ec & O & I0 & Sh0 & Mm & La). exists pre, k0, t0, (post ++ [(k, t)]). split; [rewrite Ec, <- app_assoc; auto|]. repeat (split; auto).
          intros a k1 t1 b Ip I1. apply snoc_split in Ip as [(b' & -> & Ip)|(-> & Ip & ->)]; eauto. inversion Ip; subst k1 t1. exfalso. apply E. exact (names_fun _ _ _ _ names I1 Ik).
    - assert (Y : ~ (exists i, In (k, i) model) \/ occurs k ck). { destruct (occurs_dec k ck) as [|O]; auto. left. intros [i I]. apply pop_none in P. apply P. exists i. apply L. auto. }
      constructor; cbn [left memo unexpected mismatched mem]; auto.
      + intros k0 i0. rewrite L, occurs_app, occurs_one. split; [|tauto]. intros [I0 O]. split; auto. intros [Z| ->]; auto. destruct Y as [Y|Y]; auto. apply Y. eauto.
      + intros j. rewrite M. split; intros (k0 & t0 & I0 & F & Sh0); exists k0, t0; (split; [auto|split; [|auto]]); rewrite first_snoc in *; auto. destruct F as [F|(O & -> & ->)]; auto. exfalso. destruct Y as [Y|Y]; [apply Y; eauto|auto].
      + intros k0. rewrite in_app_iff, U, occurs_app, occurs_one, twice_snoc. cbn. split.
        * intros [[O T]|[<-|[]]]; [tauto|]. split; auto. tauto.
        * intros [[O| ->] T]; [|auto]. destruct T as [T|[T|[T ->]]]; auto.
      + intros k0. rewrite X. split; intros (j & t0 & I0 & F & Sh0); exists j, t0; (split; [auto|split; [|auto]]); rewrite first_snoc in *; auto. destruct F as [F|(O & -> & ->)]; auto. exfalso. destruct Y as [Y|Y]; [apply Y; eauto|auto].
      + intros j Hj. destruct (V j Hj) as (pre & k0 & t0 & post & E & O & I0 & Sh0 & Mm & La). exists pre, k0, t0, (post ++ [(k, t)]). split; [rewrite E, <- app_assoc; auto|]. repeat (split; auto).
        intros a k1 t1 b Ip I1. apply snoc_split in Ip as [(b' & -> & Ip)|(-> & Ip & ->)]; eauto. inversion Ip; subst k1 t1. destruct Y as [Y|Y]; [exfalso; apply Y; eauto|]. left. rewrite E in Y. auto.
  Qed.
  Lemma dec_first : forall k ck, occurs k ck -> exists t, first k t ck.
  Proof.
    intros k ck. induction ck as [|[a x] ck IH] using rev_ind; intros O; [destruct O as [? []]|]. destruct (occurs_dec k ck) as [O'|O'].
    - destruct (IH O') as [t F]. exists t. apply first_snoc. auto.
    - apply occurs_app in O as [O|O]; [contradiction|]. apply occurs_one in O. subst. exists x. apply first_snoc. auto.
  Qed.
  Lemma missing_in : forall ck k, In k (missing (run ck start)) <-> exists i, In (k, i) model /\ ~ occurs k ck /\ ~ exists k' t, In (k', i) model /\ first k' t ck /\ t_shape t = t_shape (m i).
  Proof.
    intros ck k. destruct (run_inv ck) as [L N M U X S Sm V]. unfold missing. rewrite in_map_iff. split.
    - intros ((a, i) & <- & I). apply filter_In in I as [I B]. apply L in I as [I O]. exists i. cbn. split; auto. split; auto. intros Y. apply M in Y. cbn in B. rewrite (proj2 (existsb_exists _ _)) in B; [discriminate|]. exists i. split; auto. apply Nat.eqb_refl.
    - intros (i & I & O & Y). exists (k, i). split; auto. apply filter_In. split; [apply L; auto|]. cbn. destruct (existsb (Nat.eqb i) (memo (run ck start))) eqn:B; auto. exfalso. apply existsb_exists in B as (x & Ix & E). apply Nat.eqb_eq in E. subst x. apply Y. apply M. auto.
  Qed.
  Lemma load_eq : forall ck, load model m ck = finish (run ck start). Proof. reflexivity. Qed.
  Lemma finish_none : forall s : @st key data, snd (finish s) = None <-> mismatched s = [] /\ missing s = [] /\ unexpected s = [].
  Proof. intros s. unfold finish. cbn. destruct (mismatched s), (missing s), (unexpected s); split; try discriminate; try (intros (? & ? & ?); discriminate); auto. Qed.
  Lemma nil_in : forall {X} (l : list X), l = [] <-> forall x, ~ In x l.
  Proof. intros X l. destruct l; split; auto; [discriminate|]. intros H. exfalso. apply (H x). left; auto. Qed.

  (** What the exception says is exactly what is wrong. *)
  Theorem report_ok : forall ck m' r, load model m ck = (m', Some r) ->
    (forall k, In k (r_mismatched r) <-> exists i t, In (k, i) model /\ first k t ck /\ t_shape t <> t_shape (m i)) /\
    (forall k, In k (r_unexpected r) <-> occurs k ck /\ (~ (exists i, In (k, i) model) \/ twice k ck)) /\
    (forall k, In k (r_missing r) <-> exists i, In (k, i) model /\ ~ occurs k ck /\ ~ exists k' t, In (k', i) model /\ first k' t ck /\ t_shape t = t_shape (m i)).
  Proof.
    intros ck m' r E. rewrite load_eq in E. assert (R : r = Report (mismatched (run ck start)) (missing (run ck start)) (unexpected (run ck start))).
    { unfold finish in E. destruct (mismatched _), (missing _), (unexpected _); congruence. } subst r. cbn. pose proof (run_inv ck) as [L N M U X S Sm V]. split; [exact X|]. split; [exact U|]. apply missing_in.
  Qed.
  (** It returns without exception exactly if the checkpoint fits the model. *)
  Theorem success_ok : forall ck, (exists m', load model m ck = (m', None)) <->
    (forall k, ~ twice k ck) /\ (forall k t, In (k, t) ck -> fits model m k t) /\ (forall k i, In (k, i) model -> exists k', In (k', i) model /\ occurs k' ck).
  Proof.
    intros ck. rewrite load_eq. assert (A : (exists m', finish (run ck start) = (m', None)) <-> snd (finish (run ck start)) = None).
    { split; [intros [m' ->]; auto|]. intros H. exists (fst (finish (run ck start))). destruct (finish _); cbn in *; congruence. }
    rewrite A, finish_none, !nil_in. pose proof (run_inv ck) as [L N M U X S Sm V]. split.
    - intros (H1 & H2 & H3). assert (Tw : forall k, ~ twice k ck). { intros k T. apply (H3 k). apply U. split; auto. destruct T as (pre & t & mid & t' & post & ->). exists t. apply in_app_iff. right; left; auto. }
      assert (Ft : forall k t, In (k, t) ck -> exists i, In (k, i) model /\ first k t ck /\ t_shape t = t_shape (m i)).
      { intros k t I. assert (F : first k t ck). { apply in_split in I as (pre & post & ->). exists pre, post. split; auto. intros [t' I']. apply (Tw k). apply in_split in I' as (a & b & ->). exists a, t', b, t, post. rewrite <- app_assoc. auto. }
        assert (D : exists i, In (k, i) model). { destruct (in_dec key_dec k (map fst model)) as [Y|Y]; [apply in_map_iff in Y as ((a, i) & <- & Y); exists i; auto|]. exfalso. apply (H3 k), U. split; [exists t; auto|]. left. intros [i Ii]. apply Y. apply in_map_iff. exists (k, i). auto. }
        destruct D as [i Ii]. exists i. split; auto. split; auto. destruct (list_eq_dec Nat.eq_dec (t_shape t) (t_shape (m i))) as [|Ne]; auto. exfalso. apply (H1 k), X. exists i, t. auto. }
      split; auto. split; [intros k t I; destruct (Ft k t I) as (i & Ii & _ & Si); exists i; auto|].
      intros k i I. destruct (occurs_dec k ck) as [O|O]; [exists k; auto|].
      destruct (in_dec Nat.eq_dec i (memo (run ck start))) as [Im|Im]; [apply M in Im as (k' & t' & I' & F & _); exists k'; split; auto; eapply first_occurs; eauto|].
      exfalso. apply (H2 k). apply missing_in. exists i. split; auto. split; auto. rewrite <- M. auto.
    - intros (Tw & Ft & Al). split; [|split].
      + intros k I. apply X in I as (i & t & Ii & F & Ne). destruct F as (pre & post & E & _). destruct (Ft k t) as (j & Ij & Sj); [rewrite E; apply in_app_iff; right; left; auto|]. rewrite (names_fun _ _ _ _ names Ii Ij) in Ne. contradiction.
      + intros k I. apply missing_in in I as (i & Ii & O & Y). destruct (Al k i Ii) as (k' & I' & O'). destruct (dec_first k' ck O') as [t' F']. apply Y. exists k', t'. split; auto. split; auto.
        pose proof F' as (pre & post & E & _). destruct (Ft k' t') as (j & Ij & Sj); [rewrite E; apply in_app_iff; right; left; auto|]. rewrite (names_fun _ _ _ _ names I' Ij). auto.
      + intros k I. apply U in I as [[t O] [Y|Y]]; [|apply (Tw k); auto]. destruct (Ft k t O) as (i & Ii & _). apply Y. eauto.
  Qed.
  (** A parameter holds what the checkpoint has under the last of its names. *)
  Theorem values_ok : forall ck m' pre k t post i, load model m ck = (m', None) -> ck = pre ++ (k, t) :: post -> In (k, i) model -> (forall k', In (k', i) model -> ~ occurs k' post) -> m' i = t.
  Proof.
    intros ck m' pre k t post i E Ec I La. destruct (proj1 (success_ok ck) (ex_intro _ m' E)) as (Tw & Ft & _). pose proof (run_inv ck) as [L N M U X S Sm V].
    assert (Em : m' = mem (run ck start)) by (rewrite load_eq in E; unfold finish in E; congruence). rewrite Em.
    assert (F : first k t ck). { exists pre, post. split; auto. intros [t' I']. apply (Tw k). apply in_split in I' as (a & b & ->). exists a, t', b, t, post. rewrite Ec, <- app_assoc. auto. }
    assert (Im : In i (memo (run ck start))). { apply M. exists k, t. split; auto. split; auto. destruct (Ft k t) as (j & Ij & Sj); [rewrite Ec; apply in_app_iff; right; left; auto|]. rewrite (names_fun _ _ _ _ names I Ij). auto. }
    destruct (V i Im) as (pre' & k' & t' & post' & Ec' & O' & I' & S' & Ev & La'). rewrite Ev.
    assert (Cmp : forall (a : ckpt) x b c y d, a ++ x :: b = c ++ y :: d -> (a = c /\ x = y /\ b = d) \/ (exists z, b = z ++ y :: d) \/ (exists z, d = z ++ x :: b)).
    { induction a as [|h a IH]; intros x b [|g c] y d Q; cbn in Q; inversion Q; subst; auto; [right; left; exists c; auto|right; right; exists a; auto|]. destruct (IH _ _ _ _ _ H1) as [(-> & -> & ->)|[H|H]]; auto. }
    rewrite Ec in Ec'. destruct (Cmp _ _ _ _ _ _ Ec') as [(_ & Q & _)|[[z Q]|[z Q]]]; [congruence| |].
    - exfalso. apply (La k' I'). exists t'. rewrite Q. apply in_app_iff. right; left; auto.
    - exfalso. destruct (La' z k t post Q I) as [Y|Y].
      + assert (Ew : ck = (pre' ++ (k', t') :: z) ++ (k, t) :: post) by (rewrite Ec, Ec', Q, <- app_assoc; auto). apply (Tw k). destruct Y as [x Y]. apply in_split in Y as (a & b & Y). exists a, x, b, t, post. rewrite Ew, Y, <- app_assoc. auto.
      + apply Y. destruct (Ft k t) as (j & Ij & Sj); [rewrite Ec; apply in_app_iff; right; left; auto|]. rewrite (names_fun _ _ _ _ names I Ij). auto.
  Qed.
  (** Whatever happens, also if the checkpoint cannot be read to its end: a tensor is left as it was or has become, as a whole, a tensor that the checkpoint has under
      one of its names and with its shape. *)
  Theorem whole_ok : forall read i, let m' := set_model_state_stopped key_eqb model m read in
    m' i = m i \/ exists k t, In (k, i) model /\ In (k, t) read /\ t_shape t = t_shape (m i) /\ m' i = t.
  Proof.
    intros read i. cbv zeta. unfold set_model_state_stopped. fold start. pose proof (run_inv read) as [L N M U X S Sm V]. destruct (in_dec Nat.eq_dec i (memo (run read start))) as [Im|Im]; [|left; auto].
    right. destruct (V i Im) as (pre & k & t & post & -> & O & I & Sh & Ev & _). exists k, t. split; auto. split; [apply in_app_iff; right; left; auto|]. auto.
  Qed.
End P.

Theorem C67_success : forall (key data : Type) (key_eqb : key -> key -> bool), (forall a b, key_eqb a b = true <-> a = b) -> forall model (m : @memory data), NoDup (map fst model) -> forall checkpoint,
  (exists m', set_model_state key_eqb model m checkpoint = (m', None)) <->
    (forall k, ~ twice k checkpoint) /\ (forall k t, In (k, t) checkpoint -> fits model m k t) /\ (forall k i, In (k, i) model -> exists k', In (k', i) model /\ occurs k' checkpoint).
Proof. intros. apply success_ok; auto. Qed.
Print Assumptions C67_success.
Theorem C67_values : forall (key data : Type) (key_eqb : key -> key -> bool), (forall a b, key_eqb a b = true <-> a = b) -> forall model (m : @memory data), NoDup (map fst model) ->
  forall checkpoint m' before k t after i, set_model_state key_eqb model m checkpoint = (m', None) -> checkpoint = before ++ (k, t) :: after -> In (k, i) model ->
  (forall k', In (k', i) model -> ~ occurs k' after) -> m' i = t.
Proof. intros key data eqb H model m N ck m' pre k t post i. apply (values_ok eqb H model m N). Qed.
Print Assumptions C67_values.
Theorem C67_report : forall (key data : Type) (key_eqb : key -> key -> bool), (forall a b, key_eqb a b = true <-> a = b) -> forall model (m : @memory data), NoDup (map fst model) ->
  forall checkpoint m' r, set_model_state key_eqb model m checkpoint = (m', Some r) ->
    (forall k, In k (r_mismatched r) <-> exists i t, In (k, i) model /\ first k t checkpoint /\ t_shape t <> t_shape (m i)) /\
    (forall k, In k (r_unexpected r) <-> occurs k checkpoint /\ (~ (exists i, In (k, i) model) \/ twice k checkpoint)) /\
    (forall k, In k (r_missing r) <-> exists i, In (k, i) model /\ ~ occurs k checkpoint /\ ~ exists k' t, In (k', i) model /\ first k' t checkpoint /\ t_shape t = t_shape (m i)).
Proof. intros key data eqb H model m N. apply (report_ok eqb H model m N). Qed.
Print Assumptions C67_report.
Theorem C67_whole : forall (key data : Type) (key_eqb : key -> key -> bool), (forall a b, key_eqb a b = true <-> a = b) -> forall model (m : @memory data), NoDup (map fst model) ->
  (forall read i, let m' := set_model_state_stopped key_eqb model m read in m' i = m i \/ exists k t, In (k, i) model /\ In (k, t) read /\ t_shape t = t_shape (m i) /\ m' i = t) /\
  forall checkpoint, fst (set_model_state key_eqb model m checkpoint) = set_model_state_stopped key_eqb model m checkpoint.
Proof. intros key data eqb H model m N. split; [apply (whole_ok eqb H model m N)|reflexivity]. Qed.
Print Assumptions C67_whole.

(** After an exception a part of the model is overwritten. *)
Theorem C67_atomic_refuted : exists (model : @state_dict nat) (m : @memory nat) ck m' r, NoDup (map fst model) /\ set_model_state Nat.eqb model m ck = (m', Some r) /\ m' 0 <> m 0.
Proof.
  exists [(0, 0); (1, 1)], (fun _ => Tensor [1] 0), [(0, Tensor [1] 7)]. do 2 eexists. split; [repeat constructor; cbn; intuition discriminate|]. split; [vm_compute; reflexivity|]. vm_compute. discriminate.
Qed.
Print Assumptions C67_atomic_refuted.
(** Two names of one parameter with different contents in the checkpoint: nothing is reported and the first content is lost. *)
Theorem C67_shared_refuted : exists (model : @state_dict nat) (m : @memory nat) ck m' k t i, NoDup (map fst model) /\ set_model_state Nat.eqb model m ck = (m', None) /\
  In (k, i) model /\ In (k, t) ck /\ m' i <> t.
Proof.
  exists [(0, 0); (1, 0)], (fun _ => Tensor [1] 0), [(0, Tensor [1] 7); (1, Tensor [1] 8)]. eexists. exists 0, (Tensor [1] 7), 0. split; [repeat constructor; cbn; intuition discriminate|]. split; [vm_compute; reflexivity|].
  cbn. split; [auto|]. split; [auto|]. vm_compute. discriminate.
Qed.
Print Assumptions C67_shared_refuted.

(** A model with a shared parameter, loaded; and a report with all three parts *)
Example C67_nonvacuous : let model := [(0, 0); (1, 1); (2, 0)] in let m : @memory nat := fun _ => Tensor [1] 0 in NoDup (map fst model) /\
  (exists m', set_model_state Nat.eqb model m [(1, Tensor [1] 5); (2, Tensor [1] 6)] = (m', None) /\ m' 0 = Tensor [1] 6 /\ m' 1 = Tensor [1] 5) /\
  exists m', set_model_state Nat.eqb model m [(1, Tensor [2] 5); (9, Tensor [1] 6); (1, Tensor [1] 4)] = (m', Some (Report [1] [0; 2] [9; 1])).
Proof. cbv zeta. split; [repeat constructor; cbn; intuition discriminate|]. split; eexists; [split; [vm_compute; reflexivity|split; vm_compute; reflexivity]|vm_compute; reflexivity]. Qed.
