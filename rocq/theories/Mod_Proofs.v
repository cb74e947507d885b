From Coq Require Import String List Bool Arith Lia.
Import ListNotations.
From Verif Require Import Mod_Model Mod_Spec.

Fixpoint size (m : module) : nat :=
  match m with
  | Node _ cs _ _ =>
      S ((fix each cs := match cs with
                         | [] => 0
                         | (_, Some c) :: cs => size c + each cs
                         | (_, None) :: cs => each cs
                         end) cs)
  end.

Lemma size_child m n c : In (n, Some c) (children_of m) -> size c < size m.
Proof.
  destruct m as [i cs ps bs]. cbn [children_of]. cbn [size].
  induction cs as [|[n' [c'|]] cs IH]; intros I.
  - destruct I.
  - destruct I as [E|I]; [inversion E; subst; lia|specialize (IH I); lia].
  - destruct I as [E|I]; [discriminate E|exact (IH I)].
Qed.

Lemma module_ind' (P : module -> Prop) :
  (forall m, (forall n c, In (n, Some c) (children_of m) -> P c) -> P m) ->
  forall m, P m.
Proof.
  intros H m. remember (size m) as k eqn:E. assert (L : size m <= k) by lia. clear E.
  revert m L. induction k as [|k IH]; intros m L.
  - destruct m; cbn in L; lia.
  - apply H. intros n c I. apply IH. pose proof (size_child _ _ _ I). lia.
Qed.

Lemma within_size p a m : within p a m -> size a <= size m.
Proof.
  induction 1 as [|n c p a m I W IH]; [lia|].
  pose proof (size_child _ _ _ I). lia.
Qed.

Lemma within_trans p q a b m : within p b m -> within q a b -> within (p ++ q) a m.
Proof.
  intros W. revert q a. induction W as [|n c p b m I W IH]; intros q a W'; [exact W'|].
  cbn. eapply within_child; [exact I|apply IH; exact W'].
Qed.

Lemma mem_In x l : mem x l = true <-> In x l.
Proof.
  unfold mem. rewrite existsb_exists. split.
  - intros (y & I & E). apply Nat.eqb_eq in E. subst. exact I.
  - intros I. exists x. split; [exact I|apply Nat.eqb_refl].
Qed.

Lemma mem_not x l : mem x l = false <-> ~ In x l.
Proof.
  rewrite <- mem_In. destruct (mem x l); split; intros; try congruence; exfalso; auto.
Qed.

(** Walking. *)

Definition named_each (post : bool) (prefix : path) :=
  fix each (cs : list (string * option module)) (memo : list nat) :=
    match cs with
    | [] => ([], memo)
    | (n, None) :: cs' =>
        let (o, memo) := each cs' memo in ((prefix ++ [n], None) :: o, memo)
    | (n, Some c) :: cs' =>
        let (o, memo) := named_modules post (prefix ++ [n]) c memo in
        let (o', memo) := each cs' memo in (o ++ o', memo)
    end.

Lemma named_modules_eq post prefix m memo :
  named_modules post prefix m memo =
  if mem (id_of m) memo then ([], memo)
  else let (o, memo) := named_each post prefix (children_of m) (id_of m :: memo) in
       (if post then o ++ [(prefix, Some m)] else (prefix, Some m) :: o, memo).
Proof. destruct m; reflexivity. Qed.

Definition ids (o : list (path * option module)) : list nat :=
  flat_map (fun y => match snd y with Some a => [id_of a] | None => [] end) o.

Lemma ids_app a b : ids (a ++ b) = ids a ++ ids b.
Proof. apply flat_map_app. Qed.

Lemma In_ids i o : In i (ids o) <-> exists p a, In (p, Some a) o /\ id_of a = i.
Proof.
  unfold ids. rewrite in_flat_map. split.
  - intros ([p [a|]] & I & J); cbn in J; [|tauto].
    destruct J as [J|[]]. exists p, a. auto.
  - intros (p & a & I & E). exists (p, Some a). split; [exact I|]. cbn. auto.
Qed.

(** What is reached from one of the children [cs], or from [m]. *)
Definition reach (cs : list (string * option module)) (p : path) (a : module) : Prop :=
  exists n c q, In (n, Some c) cs /\ within q a c /\ p = n :: q.

Definition consistent (R : path -> module -> Prop) : Prop :=
  forall p q a b, R p a -> R q b -> id_of a = id_of b -> a = b.

Definition closed (R : path -> module -> Prop) (memo : list nat) : Prop :=
  forall p a, R p a -> In (id_of a) memo ->
  forall q b, within q b a -> In (id_of b) memo.

(** The outcome of a walk over what [R] reaches. *)
Definition walked (post : bool) (R : path -> module -> Prop)
    (none : path -> Prop) (prefix : path) (memo : list nat)
    (o : list (path * option module)) (memo' : list nat) : Prop :=
  (forall i, In i memo' <-> In i memo \/ exists p a, R p a /\ id_of a = i) /\
  (forall p a, In (p, Some a) o ->
     (exists p', p = prefix ++ p' /\ R p' a) /\ ~ In (id_of a) memo) /\
  NoDup (ids o) /\
  (forall i, In i memo' -> In i memo \/ In i (ids o)) /\
  (post = true -> forall l1 p a l2, o = l1 ++ (p, Some a) :: l2 ->
     forall n c, In (n, Some c) (children_of a) ->
     In (id_of c) memo \/ In (id_of c) (ids l1)) /\
  (forall p, In (p, None) o -> exists p', p = prefix ++ p' /\ none p') /\
  (forall p a n, In (p, Some a) o -> In (n, None) (children_of a) ->
     In (p ++ [n], None) o).

Definition none_under (m : module) (p : path) : Prop :=
  exists q a n, within q a m /\ In (n, None) (children_of a) /\ p = q ++ [n].

Definition none_each (cs : list (string * option module)) (p : path) : Prop :=
  (exists n, In (n, None) cs /\ p = [n]) \/
  (exists n c q, In (n, Some c) cs /\ none_under c q /\ p = n :: q).

Lemma split_app {T} (o o' l1 l2 : list T) x :
  o ++ o' = l1 ++ x :: l2 ->
  (exists k, o = l1 ++ x :: k) \/ (exists k, l1 = o ++ k /\ o' = k ++ x :: l2).
Proof.
  revert l1. induction o as [|y o IH]; intros l1 E.
  - right. exists l1. auto.
  - destruct l1 as [|z l1]; cbn in E; inversion E; subst.
    + left. exists o. reflexivity.
    + destruct (IH _ H1) as [(k & ->)|(k & -> & ->)].
      * left. exists k. reflexivity.
      * right. exists k. auto.
Qed.

Lemma walk_each post prefix cs :
  (forall n c, In (n, Some c) cs -> forall prefix memo,
     consistent (fun p a => within p a c) ->
     closed (fun p a => within p a c) memo ->
     let (o, memo') := named_modules post prefix c memo in
     walked post (fun p a => within p a c) (none_under c) prefix memo o memo') ->
  forall memo,
  consistent (reach cs) -> closed (reach cs) memo ->
  let (o, memo') := named_each post prefix cs memo in
  walked post (reach cs) (none_each cs) prefix memo o memo' /\
  (forall n, In (n, None) cs -> In (prefix ++ [n], None) o).
Proof.
  induction cs as [|[n [c|]] cs IH]; intros IHc memo Hc Hcl.
  - cbn. split; [|intros n []].
    split; [|split; [|split; [|split; [|split; [|split]]]]].
    + intros i. split; [tauto|]. intros [A|(p & a & (n & c & q & [] & _) & _)]. exact A.
    + intros p a [].
    + constructor.
    + tauto.
    + intros _ l1 p a l2 E. destruct l1; discriminate.
    + intros p [].
    + intros p a n [].
  - cbn [named_each]. fold (named_each post prefix).
    assert (Rc : forall q a, within q a c -> reach ((n, Some c) :: cs) (n :: q) a).
    { intros q a W. exists n, c, q. split; [left; reflexivity|auto]. }
    assert (Rs : forall q a, reach cs q a -> reach ((n, Some c) :: cs) q a).
    { intros q a (n' & c' & q' & I & W & E). exists n', c', q'. split; [right; exact I|auto]. }
    specialize (IHc n c (or_introl eq_refl) (prefix ++ [n]) memo) as H0.
    destruct (named_modules post (prefix ++ [n]) c memo) as [o memo1].
    destruct H0 as (A1 & A2 & A3 & A4 & A5 & A6 & A7).
    { intros p q a b Wa Wb. apply (Hc (n :: p) (n :: q)); auto. }
    { intros p a W. apply (Hcl (n :: p)); auto. }
    specialize (IH (fun n' c' I => IHc n' c' (or_intror I)) memo1).
    destruct (named_each post prefix cs memo1) as [o' memo2].
    destruct IH as ((B1 & B2 & B3 & B4 & B5 & B6 & B7) & B8).
    { intros p q a b Ra Rb. apply (Hc p q); auto. }
    { intros p a Ra I q b W. rewrite A1 in *. destruct I as [I|(p' & a' & W' & E)].
      - left. exact (Hcl p a (Rs _ _ Ra) I q b W).
      - right. assert (a' = a) by (apply (Hc (n :: p') p); auto). subst a'.
        exists (p' ++ q), b. split; [|reflexivity]. eapply within_trans; eauto. }
    split.
    2:{ intros n' [E|I]; [discriminate E|]. apply in_or_app. right. exact (B8 _ I). }
    split; [|split; [|split; [|split; [|split; [|split]]]]].
    + intros i. rewrite B1, A1. split.
      * intros [[I|(p & a & W & E)]|(p & a & R & E)]; [auto| |].
        -- right. exists (n :: p), a. auto.
        -- right. exists p, a. auto.
      * intros [I|(p & a & (n' & c' & q & [J|J] & W & E1) & E)]; [auto| |].
        -- inversion J; subst. left. right. exists q, a. auto.
        -- right. exists p, a. split; [exists n', c', q; auto|auto].
    + intros p a I. apply in_app_or in I. destruct I as [I|I].
      * destruct (A2 _ _ I) as ((p' & -> & W) & N). split; [|exact N].
        exists (n :: p'). rewrite <- app_assoc. split; [reflexivity|auto].
      * destruct (B2 _ _ I) as ((p' & -> & W) & N). split.
        -- exists p'. auto.
        -- intros J. apply N. rewrite A1. auto.
    + rewrite ids_app. clear - A1 A2 A3 B2 B3. 
      assert (D : forall i, In i (ids o) -> ~ In i (ids o')).
      { intros i I J. rewrite In_ids in I, J. destruct I as (p & a & I & <-).
        destruct J as (p' & a' & J & E). destruct (A2 _ _ I) as ((q & _ & W) & _).
        destruct (B2 _ _ J) as (_ & N). apply N. rewrite A1. right.
        exists q, a. auto. }
      revert D A3. generalize (ids o). intros l D A3. induction A3 as [|x l Hx A3 IH]; [exact B3|].
      cbn. constructor.
      * rewrite in_app_iff. intros [I|I]; [auto|]. exact (D x (or_introl eq_refl) I).
      * apply IH. intros i I. apply D. right. exact I.
    + intros i I. rewrite ids_app, in_app_iff. destruct (B4 _ I) as [J|J]; [|auto].
      destruct (A4 _ J); auto.
    + intros Hp l1 p a l2 E n' c' I.
      destruct (split_app _ _ _ _ _ E) as [(k & E')|(k & -> & E')].
      * exact (A5 Hp _ _ _ _ E' _ _ I).
      * rewrite ids_app, in_app_iff.
        destruct (B5 Hp _ _ _ _ E' _ _ I) as [J|J]; [|auto].
        destruct (A4 _ J); auto.
    + intros p I. apply in_app_or in I. destruct I as [I|I].
      * destruct (A6 _ I) as (p' & -> & W). exists (n :: p').
        rewrite <- app_assoc. split; [reflexivity|]. right. exists n, c, p'.
        split; [left; reflexivity|auto].
      * destruct (B6 _ I) as (p' & -> & W). exists p'. split; [reflexivity|].
        destruct W as [(n' & J & E)|(n' & c' & q & J & W & E)].
        -- left. exists n'. split; [right; exact J|exact E].
        -- right. exists n', c', q. split; [right; exact J|auto].
    + intros p a n' I J. apply in_app_or in I. apply in_or_app.
      destruct I as [I|I]; [left; eapply A7; eauto|right; eapply B7; eauto].
  - cbn [named_each]. fold (named_each post prefix).
    assert (Rs : forall q a, reach cs q a -> reach ((n, None) :: cs) q a).
    { intros q a (n' & c' & q' & I & W & E). exists n', c', q'. split; [right; exact I|auto]. }
    specialize (IH (fun n' c' I => IHc n' c' (or_intror I)) memo).
    destruct (named_each post prefix cs memo) as [o' memo2].
    destruct IH as ((B1 & B2 & B3 & B4 & B5 & B6 & B7) & B8).
    { intros p q a b Ra Rb. apply (Hc p q); auto. }
    { intros p a Ra. apply (Hcl p); auto. }
    split.
    2:{ intros n' [E|I]; [inversion E; subst; left; reflexivity|]. right. exact (B8 _ I). }
    split; [|split; [|split; [|split; [|split; [|split]]]]].
    + intros i. rewrite B1. split.
      * intros [I|(p & a & R & E)]; [auto|]. right. exists p, a. auto.
      * intros [I|(p & a & (n' & c' & q & [J|J] & W & E1) & E)]; [auto|discriminate J|].
        right. exists p, a. split; [exists n', c', q; auto|auto].
    + intros p a [I|I]; [discriminate I|].
      destruct (B2 _ _ I) as ((p' & -> & W) & N). split; [|exact N].
      exists p'. auto.
    + exact B3.
    + exact B4.
    + intros Hp l1 p a l2 E n' c' I. destruct l1 as [|y l1]; inversion E; subst.
      exact (B5 eq_refl _ _ _ _ eq_refl _ _ I).
    + intros p [I|I].
      * inversion I; subst. exists [n]. split; [reflexivity|]. left. exists n.
        split; [left; reflexivity|reflexivity].
      * destruct (B6 _ I) as (p' & -> & W). exists p'. split; [reflexivity|].
        destruct W as [(n' & J & E)|(n' & c' & q & J & W & E)].
        -- left. exists n'. split; [right; exact J|exact E].
        -- right. exists n', c', q. split; [right; exact J|auto].
    + intros p a n' [I|I] J; [discriminate I|]. right. eapply B7; eauto.
Qed.

Lemma within_reach m p a : within p a m -> (p = [] /\ a = m) \/ reach (children_of m) p a.
Proof.
  intros W. inversion W as [|n c q a' m' I W']; subst; [left; auto|].
  right. exists n, c, q. auto.
Qed.

Lemma reach_within m p a : reach (children_of m) p a -> within p a m.
Proof. intros (n & c & q & I & W & ->). eapply within_child; eauto. Qed.

Lemma not_reached m p a :
  consistent (fun p a => within p a m) -> reach (children_of m) p a -> id_of a <> id_of m.
Proof.
  intros C R E. assert (a = m) by (eapply (C p []); eauto using reach_within, within_here).
  subst a. destruct R as (n & c & q & I & W & _).
  pose proof (size_child _ _ _ I). pose proof (within_size _ _ _ W). lia.
Qed.

Lemma walk post : forall m prefix memo,
  consistent (fun p a => within p a m) -> closed (fun p a => within p a m) memo ->
  let (o, memo') := named_modules post prefix m memo in
  walked post (fun p a => within p a m) (none_under m) prefix memo o memo'.
Proof.
  induction m as [m IH] using module_ind'. intros prefix memo Hc Hcl.
  rewrite named_modules_eq. destruct (mem (id_of m) memo) eqn:Em.
  - apply mem_In in Em.
    split; [|split; [|split; [|split; [|split; [|split]]]]].
    + intros i. split; [tauto|]. intros [A|(p & a & W & <-)]; [exact A|].
      exact (Hcl [] m (within_here m) Em _ _ W).
    + intros p a [].
    + constructor.
    + tauto.
    + intros _ l1 p a l2 E. destruct l1; discriminate.
    + intros p [].
    + intros p a n [].
  - apply mem_not in Em.
    pose proof (walk_each post prefix (children_of m)
                  (fun n c I prefix memo => IH n c I prefix memo)
                  (id_of m :: memo)) as H.
    destruct (named_each post prefix (children_of m) (id_of m :: memo)) as [o memo'].
    destruct H as ((B1 & B2 & B3 & B4 & B5 & B6 & B7) & B8).
    { intros p q a b Ra Rb. apply (Hc p q); apply reach_within; assumption. }
    { intros p a R [E|I] q b W.
      - exfalso. apply (not_reached m p a Hc R). auto.
      - right. exact (Hcl p a (reach_within _ _ _ R) I q b W). }
    assert (Nm : ~ In (id_of m) (ids o)).
    { intros I. apply In_ids in I. destruct I as (p & a & I & E).
      destruct (B2 _ _ I) as (_ & N). apply N. left. auto. }
    assert (NN : forall p, none_each (children_of m) p -> none_under m p).
    { intros p [(n & I & ->)|(n & c & q & I & (q' & a & n' & W & J & ->) & ->)].
      - exists [], m, n. split; [constructor|auto].
      - exists (n :: q'), a, n'. split; [eapply within_child; eauto|auto]. }
    assert (Q1 : forall i, In i memo' <-> In i memo \/ (exists p a, within p a m /\ id_of a = i)).
    { intros i. rewrite B1. split.
      - intros [[<-|I]|(p & a & R & E)].
        + right. exists [], m. split; [constructor|reflexivity].
        + left; exact I.
        + right. exists p, a. split; [apply reach_within; exact R|exact E].
      - intros [I|(p & a & W & E)]; [left; right; exact I|].
        destruct (within_reach _ _ _ W) as [(-> & ->)|R].
        + left. left. exact E.
        + right. exists p, a. auto. }
    assert (Q2 : forall p a, In (p, Some a) o \/ (p, a) = (prefix, m) ->
       (exists p', p = prefix ++ p' /\ within p' a m) /\ ~ In (id_of a) memo).
    { intros p a [I|I].
      - destruct (B2 _ _ I) as ((p' & -> & R) & N). split.
        + exists p'. split; [reflexivity|apply reach_within; exact R].
        + intros J. apply N. right. exact J.
      - inversion I; subst. split; [|exact Em]. exists []. rewrite app_nil_r.
        split; [reflexivity|constructor]. }
    destruct post.
    + split; [|split; [|split; [|split; [|split; [|split]]]]].
      * exact Q1.
      * intros p a I. apply Q2. apply in_app_or in I. destruct I as [I|[I|[]]]; [left; exact I|].
        right. inversion I; reflexivity.
      * rewrite ids_app. cbn. apply NoDup_rev in B3. rewrite <- rev_involutive.
        apply NoDup_rev. rewrite rev_app_distr. cbn. constructor; [|exact B3].
        rewrite <- in_rev. exact Nm.
      * intros i I. rewrite ids_app, in_app_iff. destruct (B4 _ I) as [[<-|J]|J]; [|auto|auto].
        right. right. left. reflexivity.
      * intros Hp l1 p a l2 E n c I.
        destruct (split_app _ _ _ _ _ E) as [(k & E')|(k & -> & E')].
        -- destruct (B5 Hp _ _ _ _ E' _ _ I) as [[J|J]|J]; [|auto|auto].
           exfalso. assert (Ia : In (p, Some a) o) by (rewrite E'; apply in_or_app; right; left; reflexivity).
           destruct (B2 _ _ Ia) as ((p' & _ & (n' & c' & q & I' & W & ->)) & _).
           apply (not_reached m (n' :: q ++ [n]) c Hc).
           ++ exists n', c', (q ++ [n]). split; [exact I'|]. split; [|reflexivity].
              eapply within_trans; [exact W|]. eapply within_child; [exact I|constructor].
           ++ auto.
        -- destruct k as [|y k]; [|destruct k; discriminate E'].
           inversion E'; subst. rewrite app_nil_r.
           assert (J : In (id_of c) memo').
           { apply Q1. right. exists [n], c. split; [|reflexivity].
             eapply within_child; [exact I|constructor]. }
           destruct (B4 _ J) as [[K|K]|K]; [|auto|auto].
           exfalso. apply (not_reached a [n] c Hc); [|auto].
           exists n, c, []. split; [exact I|]. split; [constructor|reflexivity].
      * intros p I. apply in_app_or in I. destruct I as [I|[I|[]]]; [|discriminate I].
        destruct (B6 _ I) as (p' & -> & N). exists p'. auto.
      * intros p a n I J. apply in_or_app. left. apply in_app_or in I.
        destruct I as [I|[I|[]]]; [eapply B7; eauto|]. inversion I; subst. auto.
    + split; [|split; [|split; [|split; [|split; [|split]]]]].
      * exact Q1.
      * intros p a [I|I]; apply Q2; [right; inversion I; reflexivity|left; exact I].
      * cbn. constructor; assumption.
      * intros i I. cbn. destruct (B4 _ I) as [[<-|J]|J]; [|auto|auto].
        right. left. reflexivity.
      * discriminate.
      * intros p [I|I]; [discriminate I|].
        destruct (B6 _ I) as (p' & -> & N). exists p'. auto.
      * intros p a n [I|I] J; right; [inversion I; subst; auto|eapply B7; eauto].
Qed.

Lemma In_visit post m p a :
  In (p, a) (visit_module post m) <->
  In (p, Some a) (fst (named_modules post [] m [])).
Proof.
  unfold visit_module. rewrite in_flat_map. split.
  - intros ([q [b|]] & I & J); cbn in J; [|tauto].
    destruct J as [J|[]]. inversion J; subst. exact I.
  - intros I. exists (p, Some a). split; [exact I|left; reflexivity].
Qed.

Lemma visit_ids post m :
  map (fun y => id_of (snd y)) (visit_module post m) =
  ids (fst (named_modules post [] m [])).
Proof.
  unfold visit_module, ids. induction (fst (named_modules post [] m [])) as [|[p [a|]] l IH]; cbn.
  - reflexivity.
  - f_equal. exact IH.
  - exact IH.
Qed.

Lemma visit_spec post m :
  consistent (fun p a => within p a m) ->
  (forall p a, In (p, a) (visit_module post m) -> within p a m) /\
  NoDup (map (fun y => id_of (snd y)) (visit_module post m)) /\
  (forall p a, within p a m -> exists q, In (q, a) (visit_module post m)).
Proof.
  intros C. rewrite visit_ids.
  pose proof (walk post m [] [] C (fun p a _ I => match I with end)) as H.
  assert (V := In_visit post m).
  destruct (named_modules post [] m []) as [o memo']. cbn [fst] in *.
  destruct H as (A1 & A2 & A3 & A4 & _).
  split; [|split].
  - intros p a I. apply V in I. destruct (A2 _ _ I) as ((p' & -> & W) & _). exact W.
  - exact A3.
  - intros p a W. assert (I : In (id_of a) memo') by (apply A1; right; exists p, a; auto).
    destruct (A4 _ I) as [[]|J]. apply In_ids in J. destruct J as (q & b & J & E).
    destruct (A2 _ _ J) as ((q' & E' & W') & _). 
    assert (b = a) by (exact (C _ _ _ _ W' W E)). subst b. exists q. apply V. exact J.
Qed.
