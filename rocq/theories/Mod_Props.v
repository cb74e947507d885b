(** C77 and C78: walking, converting, moving, sharing, broadcasting and loading
    a module. *)

From Coq Require Import String List Bool Arith Lia.
Import ListNotations.
From Verif Require Import Mod_Model Mod_Spec Mod_Proofs Mod_Apply Mod_Share.

(** A module with a tied parameter, a shared child and a missing child, used in
    the examples: an encoder (1) and a decoder (2) share an embedding (3), and
    the projection (4) of the decoder is tied to the embedding. *)
Definition emb : module := Node 3 [] ["weight"%string] [].
Definition model : module :=
  Node 0
    [("encoder"%string,
       Some (Node 1 [("emb"%string, Some emb); ("norm"%string, None)] ["w"%string]
               [("freqs"%string, false)]));
     ("decoder"%string,
       Some (Node 2 [("emb"%string, Some emb);
                       ("proj"%string, Some (Node 4 [] ["weight"%string] []))]
               ["w"%string] [("mean"%string, true)]))] [] [].

(** 10 is the tied tensor. *)
Definition model_slots : slots := fun i n =>
  match i with
  | 3 => 10
  | 4 => 10
  | 1 => if (n =? "w")%string then 11 else 13
  | 2 => if (n =? "w")%string then 12 else 14
  | _ => 0
  end.

Ltac inv_within :=
  repeat match goal with
         | H : within _ _ (Node _ _ _ _) |- _ => inversion H; subst; clear H; cbn [children_of] in *
         | H : within _ _ emb |- _ => unfold emb in H; inversion H; subst; clear H; cbn [children_of] in *
         | H : In _ (_ :: _) |- _ => destruct H as [H|H]
         | H : In _ [] |- _ => destruct H
         | H : (_, _) = (_, _) |- _ => inversion H; subst; clear H
         end.

Lemma model_wf : well_formed model.
Proof.
  split.
  - intros p q a b Wa Wb E. unfold model in *.
    inv_within; cbn in E; try discriminate E; reflexivity.
  - intros p a W. unfold model in *. inv_within; cbn;
    repeat constructor; cbn; intuition discriminate.
Qed.

(** C77: visiting a module runs the visitor exactly once on the module and on
    every module below it, however many names lead to it. *)
Theorem C77_visit : forall post m, well_formed m ->
  let visited := visit_module post m in
  NoDup (map (fun y => id_of (snd y)) visited) /\
  (forall p a, In (p, a) visited -> within p a m) /\
  (forall p a, within p a m -> exists q, In (q, a) visited).
Proof.
  intros post m (C & _). destruct (visit_spec post m C) as (A & B & D). auto.
Qed.
Print Assumptions C77_visit.

Example C77_visit_example :
  map (fun y => id_of (snd y)) (visit_module true model) = [3; 1; 4; 2; 0] /\
  map (fun y => id_of (snd y)) (visit_module false model) = [0; 1; 3; 2; 4].
Proof. vm_compute. split; reflexivity. Qed.

(** C77: with [post_order], every module is visited after all the modules right
    below it (so also after all the modules below it). *)
Theorem C77_post_order : forall m before p a after, well_formed m ->
  visit_module true m = before ++ (p, a) :: after ->
  forall n c, In (n, Some c) (children_of a) ->
  In (id_of c) (map (fun y => id_of (snd y)) before).
Proof.
  intros m before p a after (C & _) E n c I.
  pose proof (walk true m [] [] C (fun p a _ I => match I with end)) as H.
  unfold visit_module in E.
  destruct (named_modules true [] m []) as [o memo'].
  destruct H as (_ & _ & _ & _ & A5 & _). cbn [fst] in E.
  assert (G : forall o b, flat_map (fun y => match snd y with Some m => [(fst y, m)] | None => [] end) o
              = b ++ (p, a) :: after ->
              exists l1 l2, o = l1 ++ (p, Some a) :: l2 /\
                ids l1 = map (fun y => id_of (snd y)) b).
  { clear. induction o as [|[q [x|]] o IH]; intros b E; cbn in E.
    - destruct b; discriminate.
    - destruct b as [|y b]; cbn in E; inversion E; subst.
      + exists [], o. auto.
      + destruct (IH b H1) as (l1 & l2 & -> & E'). exists ((q, Some x) :: l1), l2.
        split; [reflexivity|]. cbn. f_equal. exact E'.
    - destruct (IH b E) as (l1 & l2 & -> & E'). exists ((q, None) :: l1), l2. auto. }
  destruct (G o before E) as (l1 & l2 & Eo & Ei).
  destruct (A5 eq_refl _ _ _ _ Eo _ _ I) as [[]|J]. rewrite <- Ei. exact J.
Qed.
Print Assumptions C77_post_order.

(** What [fn] makes of tensor [t] when the caller passed the memo [mm]. *)
Definition converted (fn : nat -> option nat) (mm : list (nat * nat)) (t : nat)
  : option nat :=
  match lookup t mm with Some u => Some u | None => fn t end.

Lemma order_start m : well_formed m ->
  let (o, mm') := order m [] in
  NoDup (flat_map keys o) /\
  forall i n, In (i, n) (flat_map keys o) <->
    exists p a, within p a m /\ id_of a = i /\ In n (slot_names a).
Proof.
  intros (C & N). pose proof (order_spec (fun _ => None) m [] C (fun p a _ I => match I with end) (fun I => I)) as H.
  destruct (order m []) as [o mm']. destruct H as (A1 & A2 & A3 & A4). split.
  - apply NoDup_keys; [exact A3|]. intros a I. destruct (A2 _ I) as ((p & W) & _).
    pose proof (N p a W) as D. clear - D. induction (map fst (children_of a)) as [|x l IH]; [exact D|].
    inversion D; auto.
  - intros i n. rewrite In_keys. split.
    + intros (a & I & E & J). destruct (A2 _ I) as ((p & W) & _). exists p, a. auto.
    + intros (p & a & W & E & J). pose proof (A4 p a W) as I. apply A1 in I.
      destruct I as [[]|I]. apply in_map_iff in I. destruct I as (b & E' & I).
      destruct (A2 _ I) as ((q & W') & _).
      assert (b = a) by exact (C _ _ _ _ W' W E'). subst b. exists a. auto.
Qed.

(** C77: [apply_to_parameters] puts in the place of every parameter and buffer
    below the module what [fn] (or the memo) makes of it, changes no other
    module, and calls [fn] exactly once for every distinct tensor that the memo
    does not have.  It raises only if [fn] raises for one of the tensors. *)
Theorem C77_apply : forall fn m sl mm, well_formed m ->
  match apply_to_parameters fn m sl mm with
  | Some s =>
      (forall p a n, within p a m -> In n (slot_names a) ->
         converted fn mm (sl (id_of a) n) = Some (slots_of s (id_of a) n)) /\
      (forall i n,
         (forall p a, within p a m -> id_of a = i -> ~ In n (slot_names a)) ->
         slots_of s i n = sl i n) /\
      NoDup (calls s) /\
      (forall t, In t (calls s) <->
         lookup t mm = None /\ exists p n, holds m sl p n t)
  | None => exists p n t, holds m sl p n t /\ converted fn mm t = None
  end.
Proof.
  intros fn m sl mm W. pose proof (order_start m W) as H.
  unfold apply_to_parameters.
  pose proof (apply_rec_order fn m (State sl mm [] [])) as E. cbn [module_memo] in E.
  destruct (order m []) as [o mm']. destruct H as (D & K). rewrite E.
  pose proof (apply_keys_spec fn mm (flat_map keys o) D (State sl mm [] []) (Inv_start fn mm sl [])) as S.
  destruct (apply_keys fn (flat_map keys o) (State sl mm [] [])) as [s|]; cbn [option_map].
  - destruct S as ((_ & _ & S0) & S1 & S2 & S3). cbn [slots_of calls with_mm] in *.
    split; [|split; [|split]].
    + intros p a n Wa I. apply (S1 (id_of a) n). apply K. exists p, a. auto.
    + intros i n Hn. apply S2. intros I. apply K in I. destruct I as (p & a & Wa & Ea & I).
      exact (Hn p a Wa Ea I).
    + exact S0.
    + intros t. rewrite S3. split.
      * intros [[]|(L & i & n & I & Et)]. split; [exact L|]. apply K in I.
        destruct I as (p & a & Wa & <- & I). exists p, n, a. auto.
      * intros (L & p & n & a & Wa & I & Et). right. split; [exact L|].
        exists (id_of a), n. split; [|exact Et]. apply K. exists p, a. auto.
  - destruct S as (i & n & I & Er). apply K in I. destruct I as (p & a & Wa & <- & I).
    exists p, n, (sl (id_of a) n). split; [exists a; auto|exact Er].
Qed.
Print Assumptions C77_apply.

Example C77_apply_example :
  match apply_to_parameters (fun t => Some (t + 100)) model model_slots [] with
  | Some s => calls s = [10; 11; 13; 12; 14] /\ slots_of s 3 "weight"%string = 110 /\
              slots_of s 4 "weight"%string = 110
  | None => False
  end.
Proof. vm_compute. repeat split. Qed.

(** C77: ties survive.  Slots that hold the same tensor do so afterwards, and if
    [fn] makes different tensors of different tensors, no other slots become
    tied. *)
Theorem C77_ties : forall fn m sl s, well_formed m ->
  apply_to_parameters fn m sl [] = Some s ->
  forall p n t q k u p' n',
  holds m sl p n t -> holds m sl q k u ->
  holds m (slots_of s) p n p' -> holds m (slots_of s) q k n' ->
  (t = u -> p' = n') /\
  ((forall x y, fn x = fn y -> x = y) -> p' = n' -> t = u).
Proof.
  intros fn m sl s W E p n t q k u p' n' (a & Wa & Ia & Ea) (b & Wb & Ib & Eb)
    (a' & Wa' & _ & Ea') (b' & Wb' & _ & Eb').
  pose proof (C77_apply fn m sl [] W) as H. rewrite E in H. destruct H as (H & _).
  assert (Da : forall p a m, within p a m -> NoDup (map fst (children_of m) ++ slot_names m) ->
    (forall q b, within q b m -> NoDup (map fst (children_of b) ++ slot_names b)) ->
    forall a', within p a' m -> a' = a).
  { clear. induction 1 as [m|n c p a m I W IH]; intros _ D a' W'.
    - inversion W'; reflexivity.
    - inversion W' as [|? c' ? ? ? I' W'']; subst.
      assert (c' = c).
      { pose proof (D [] m (within_here m)) as N.
        assert (N' : NoDup (map fst (children_of m))).
        { clear - N. induction (map fst (children_of m)) as [|x l IHl]; [constructor|].
          inversion N as [|? ? Nx N']; subst. constructor; [|auto].
          intros J. apply Nx. apply in_or_app. left. exact J. }
        clear - I I' N'. induction (children_of m) as [|[x y] l IHl]; [destruct I|].
        cbn in N'. inversion N' as [|? ? Nx N'']; subst.
        destruct I as [E|I], I' as [E'|I'].
        - congruence.
        - inversion E; subst. exfalso. apply Nx. apply in_map_iff. eexists. split; [|exact I']. reflexivity.
        - inversion E'; subst. exfalso. apply Nx. apply in_map_iff. eexists. split; [|exact I]. reflexivity.
        - auto. }
      subst c'. apply IH; [apply (D [n]); eapply within_child; [exact I|constructor]| |exact W''].
      intros q b Wb. apply (D (n :: q)). eapply within_child; eauto. }
  destruct W as (C & N).
  assert (a' = a) by (eapply (Da p a m Wa); [exact (N [] m (within_here m))|exact N|exact Wa']).
  assert (b' = b) by (eapply (Da q b m Wb); [exact (N [] m (within_here m))|exact N|exact Wb']).
  subst a' b'. pose proof (H p a n Wa Ia) as X. pose proof (H q b k Wb Ib) as Y.
  unfold converted in X, Y. cbn in X, Y. rewrite Ea, Ea' in X. rewrite Eb, Eb' in Y.
  split.
  - intros ->. congruence.
  - intros inj ->. apply inj. congruence.
Qed.
Print Assumptions C77_ties.

(** C77: [to_device] refuses a module that has tensors on several devices
    (before it changes anything).  Otherwise everything ends on the target
    device: a tensor that is there stays, a tensor of the meta device is
    replaced by an empty one, any other by its copy; every tensor is converted
    once, so ties survive; and exactly the modules that had tensors on the meta
    device are asked, once each, to initialise themselves. *)
Theorem C77_to_device :
  forall device_of cpu meta to_fn empty_fn m device sl, well_formed m ->
  cpu <> meta ->
  match to_device device_of cpu meta to_fn empty_fn m device sl with
  | ValueError =>
      exists p a n k, within p a m /\ In n (slot_names a) /\ In k (slot_names a) /\
        device_of (sl (id_of a) n) <> device_of (sl (id_of a) k)
  | Moved s resets =>
      (forall p a n, within p a m -> In n (slot_names a) ->
         let t := sl (id_of a) n in
         slots_of s (id_of a) n =
         if device_of t =? device then t
         else if device_of t =? meta then empty_fn t else to_fn t) /\
      NoDup (calls s) /\
      (forall t, In t (calls s) <->
         device_of t <> device /\ exists p n, holds m sl p n t) /\
      NoDup resets /\
      (forall p a, within p a m ->
         (In (id_of a) resets <->
          device <> meta /\
          exists n, In n (slot_names a) /\ device_of (sl (id_of a) n) = meta))
  end.
Proof.
  intros dev cpu meta tf ef m d sl W Hcm. unfold to_device.
  destruct W as (C & N). destruct (visit_spec true m C) as (V1 & V2 & V3).
  set (ms := map snd (visit_module true m)).
  assert (Hms : forall a, In a ms <-> exists p, within p a m).
  { intros a. unfold ms. rewrite in_map_iff. split.
    - intros ([p b] & E & I). cbn in E. subst b. exists p. auto.
    - intros (p & Wa). destruct (V3 p a Wa) as (q & I). exists (q, a). auto. }
  assert (Dms : NoDup (map id_of ms)) by (unfold ms; rewrite map_map; exact V2).
  pose proof (to_move_spec dev cpu tf ef d sl ms) as T.
  destruct (to_move dev cpu ms d sl) as [l|].
  2:{ destruct T as (a & I & E). apply Hms in I. destruct I as (p & Wa).
      pose proof (infer_spec dev cpu sl a) as S. rewrite E in S.
      destruct S as (n & k & In_ & Ik & D). exists p, a, n, k. auto. }
  destruct T as (T1 & T2 & T3). specialize (T3 Dms).
  assert (Dk : NoDup (flat_map keys (map fst l))).
  { apply NoDup_keys; [rewrite map_map; exact T3|]. intros a I. apply in_map_iff in I.
    destruct I as ([b k] & E & I). cbn in E. subst b. apply T2 in I. destruct I as (I & _).
    apply Hms in I. destruct I as (p & Wa). pose proof (N p a Wa) as D. clear - D.
    induction (map fst (children_of a)) as [|x y IH]; [exact D|]. inversion D; auto. }
  assert (Ok : dev_ok dev l sl).
  { intros a k n I J. apply T2 in I. destruct I as (_ & E & _).
    pose proof (infer_spec dev cpu sl a) as S. rewrite E in S.
    destruct S as [(Z & _)|(_ & S)]; [rewrite Z in J; destruct J|auto]. }
  rewrite (move_spec dev meta tf ef l Dk (State sl [] [] []) [] Ok).
  pose proof (apply_keys_spec (fun t => Some (conv dev meta tf ef t)) [] _ Dk (State sl [] [] [])
                (Inv_start _ [] sl [])) as S.
  destruct (apply_keys _ _ _) as [s|]; cbn [option_map].
  2:{ destruct S as (i & n & _ & E). discriminate E. }
  destruct S as ((_ & _ & S0) & S1 & S2 & S3). cbn [slots_of calls] in *.
  assert (K : forall p a n, within p a m -> In n (slot_names a) ->
            (In (id_of a, n) (flat_map keys (map fst l)) <-> dev (sl (id_of a) n) <> d)).
  { intros p a n Wa In_. rewrite In_keys. split.
    - intros (b & I & E & J). apply in_map_iff in I. destruct I as ([b' k] & Eb & I).
      cbn in Eb. subst b'. pose proof (Ok b k n I J) as E1. apply T2 in I.
      destruct I as (_ & _ & Nk). rewrite <- E. congruence.
    - intros Nd. assert (I : In a ms) by (apply Hms; exists p; exact Wa).
      destruct (maybe_infer_device dev cpu a sl) as [k|] eqn:Ek; [|exfalso; exact (T1 a I Ek)].
      exists a. split; [|auto]. apply in_map_iff. exists (a, k). split; [reflexivity|].
      apply T2. split; [exact I|]. split; [exact Ek|].
      pose proof (infer_spec dev cpu sl a) as S. rewrite Ek in S.
      destruct S as [(Z & _)|(_ & S)]; [rewrite Z in In_; destruct In_|].
      rewrite <- (S n In_). exact Nd. }
  split; [|split; [exact S0|split; [|split]]].
  - intros p a n Wa In_. set (t := sl (id_of a) n). destruct (Nat.eqb_spec (dev t) d) as [E|E].
    + rewrite S2; [reflexivity|]. intros I. apply (K p a n Wa In_) in I. auto.
    + assert (I : In (id_of a, n) (flat_map keys (map fst l))) by (apply (K p a n Wa In_); exact E).
      pose proof (S1 _ _ I) as R. unfold res in R. cbn in R. injection R as R. rewrite <- R. reflexivity.
  - intros t. rewrite S3. split.
    + intros [[]|(_ & i & n & I & E)]. pose proof I as I'. apply In_keys in I'.
      destruct I' as (a & J & Ea & In_). apply in_map_iff in J. destruct J as ([b k] & Eb & J).
      cbn in Eb. subst b. apply T2 in J. destruct J as (J & _). apply Hms in J.
      destruct J as (p & Wa). subst i. split; [subst t; apply (K p a n Wa In_); exact I|].
      exists p, n, a. auto.
    + intros (Nd & p & n & a & Wa & In_ & E). right. split; [reflexivity|].
      exists (id_of a), n. split; [|exact E]. apply (K p a n Wa In_). rewrite E. exact Nd.
  - cbn [app]. clear - T3. induction l as [|[a k] l IH]; [constructor|].
    cbn in T3. inversion T3 as [|? ? Nx T3']; subst. cbn [filter snd].
    destruct (k =? meta); [|auto]. cbn. constructor; [|auto].
    intros I. apply Nx. apply in_map_iff in I. destruct I as (y & E & I). apply filter_In in I.
    apply in_map_iff. exists y. tauto.
  - intros p a Wa. cbn [app]. rewrite in_map_iff. split.
    + intros ([b k] & E & I). cbn in E. apply filter_In in I. destruct I as (I & Ek).
      cbn in Ek. apply Nat.eqb_eq in Ek. subst k. apply T2 in I. destruct I as (I & Ei & Nd).
      apply Hms in I. destruct I as (q & Wb).
      assert (b = a) by exact (C _ _ _ _ Wb Wa E). subst b.
      split; [congruence|]. pose proof (infer_spec dev cpu sl a) as S. rewrite Ei in S.
      destruct S as [(_ & Z)|(Ne & S)]; [congruence|].
      destruct (slot_names a) as [|n ns]; [congruence|]. exists n. split; [left; reflexivity|].
      apply S. left. reflexivity.
    + intros (Nd & n & In_ & E). assert (I : In a ms) by (apply Hms; exists p; exact Wa).
      destruct (maybe_infer_device dev cpu a sl) as [k|] eqn:Ek; [|exfalso; exact (T1 a I Ek)].
      pose proof (infer_spec dev cpu sl a) as S. rewrite Ek in S.
      destruct S as [(Z & _)|(_ & S)]; [rewrite Z in In_; destruct In_|].
      exists (a, k). split; [reflexivity|]. apply filter_In. rewrite (S n In_) in E. subst k.
      split; [|cbn; apply Nat.eqb_refl]. apply T2. split; [exact I|]. split; [exact Ek|]. congruence.
Qed.
Print Assumptions C77_to_device.

(** Tensors 10 and 12 are on the meta device (2), the others on the CPU (0). *)
Example C77_to_device_example :
  match to_device (fun t => if (t =? 10) || (t =? 12) || (t =? 14) then 2 else 0) 0 2
          (fun t => t + 100) (fun t => t + 200) model 1 model_slots with
  | Moved s r => r = [3; 4; 2] /\ slots_of s 3 "weight"%string = 210 /\
                 slots_of s 4 "weight"%string = 210 /\ slots_of s 1 "w"%string = 111
  | ValueError => False
  end.
Proof. vm_compute. repeat split. Qed.

(** C78: if [share_parameters] accepts two modules it does not fail later, it
    changes the slots of the target only, and every parameter and buffer of the
    target becomes the very tensor the source has under that name -- provided
    that names which are tied in the target are tied in the source. *)
Theorem C78_share : forall source target sl,
  well_formed source -> well_formed target ->
  share_parameters source target sl <> NotMemoized /\
  forall s, share_parameters source target sl = Shared s ->
  (forall i n, (forall p a, within p a target -> id_of a = i -> ~ In n (slot_names a)) ->
     slots_of s i n = sl i n) /\
  ((forall p n q k t u v,
      holds target sl p n t -> holds target sl q k t ->
      holds source sl p n u -> holds source sl q k v -> u = v) ->
   forall p a n u, within p a target -> In n (slot_names a) ->
     holds source sl p n u -> slots_of s (id_of a) n = u).
Proof.
  intros source target sl Ws Wt. unfold share_parameters.
  set (ss := named_parameters source sl ++ named_buffers source sl).
  set (ts := named_parameters target sl ++ named_buffers target sl).
  destruct (Nat.eqb_spec (length ss) (length ts)) as [L|L]; cbn [negb]; [|split; [discriminate|discriminate]].
  destruct (pair_up ss ts []) as [mm|] eqn:Ep; [|split; [discriminate|discriminate]].
  destruct (pair_up_spec ss ts [] mm L Ep) as (A & _).
  assert (Sub : forall m, well_formed m -> forall q t,
     In (q, t) (named_parameters m sl ++ named_buffers m sl) ->
     exists p n, q = p ++ [n] /\ holds m sl p n t).
  { intros m (C & _) q t I. apply in_app_or in I. destruct I as [I|I];
    destruct (named_sub _ m sl q t C I) as (p & a & n & -> & Wa & J & E);
    exists p, n; (split; [reflexivity|]); exists a; (split; [exact Wa|]); (split; [|exact E]);
    unfold slot_names; apply in_or_app; [left|right]; exact J. }
  assert (All : forall p a n, within p a target -> In n (slot_names a) ->
     exists q, In (q, sl (id_of a) n) ts).
  { intros p a n Wa I. unfold slot_names in I. apply in_app_or in I. destruct I as [I|I].
    - destruct (named_all params_of target sl p a n (proj1 Wt) Wa I) as (q & J).
      exists q. apply in_or_app. left. exact J.
    - destruct (named_all (fun m => map fst (buffers_of m)) target sl p a n (proj1 Wt) Wa I) as (q & J).
      exists q. apply in_or_app. right. exact J. }
  pose proof (C77_apply (fun _ => None) target sl mm Wt) as P.
  destruct (apply_to_parameters (fun _ => None) target sl mm) as [s|].
  - split; [discriminate|]. intros s' E. injection E as <-.
    destruct P as (P1 & P2 & _). split; [exact P2|].
    intros T p a n u Wa I Hu.
    destruct (All p a n Wa I) as (q & J).
    destruct (A _ (ex_intro _ q J)) as (q' & t & Lk & It & Is).
    destruct (Sub target Wt _ _ It) as (p1 & n1 & E1 & H1).
    destruct (Sub source Ws _ _ Is) as (p2 & n2 & E2 & H2).
    rewrite E1 in E2. apply app_inj_tail in E2. destruct E2 as (<- & <-).
    pose proof (P1 p a n Wa I) as R. unfold converted in R. rewrite Lk in R. injection R as <-.
    symmetry. apply (T p n p1 n1 (sl (id_of a) n) u t); [exists a; auto|exact H1|exact Hu|exact H2].
  - split; [|discriminate]. exfalso. destruct P as (p & n & t & (a & Wa & I & E) & R).
    destruct (All p a n Wa I) as (q & J). rewrite E in J.
    destruct (A _ (ex_intro _ q J)) as (q' & u & Lk & _).
    unfold converted in R. rewrite Lk in R. discriminate R.
Qed.
Print Assumptions C78_share.

(** A second model of the same shape, with other tensors. *)
Definition emb' : module := Node 23 [] ["weight"%string] [].
Definition model' : module :=
  Node 20
    [("encoder"%string,
       Some (Node 21 [("emb"%string, Some emb'); ("norm"%string, None)] ["w"%string]
               [("freqs"%string, false)]));
     ("decoder"%string,
       Some (Node 22 [("emb"%string, Some emb');
                       ("proj"%string, Some (Node 24 [] ["weight"%string] []))]
               ["w"%string] [("mean"%string, true)]))] [] [].

Definition two_slots : slots := fun i n =>
  if i <? 20 then model_slots i n else 50 + model_slots (i - 20) n.

Example C78_share_example :
  match share_parameters model model' two_slots with
  | Shared s => slots_of s 23 "weight"%string = 10 /\ slots_of s 24 "weight"%string = 10 /\
                slots_of s 21 "w"%string = 11 /\ slots_of s 22 "mean"%string = 14
  | _ => False
  end.
Proof. vm_compute. repeat split. Qed.

(** Finding: without that proviso the claim is false.  [share_parameters]
    compares the names that are left after tied tensors are listed once.  Here
    the source ties [c] to [a] and the target ties [c] to [b]; both are listed
    as [a], [b], so they are accepted, and afterwards [c] of the target is
    [b] of the source, not [c] of the source. *)
Theorem C78_share_refuted :
  ~ (forall source target sl s p a n u,
       well_formed source -> well_formed target ->
       share_parameters source target sl = Shared s ->
       within p a target -> In n (slot_names a) ->
       holds source sl p n u -> slots_of s (id_of a) n = u).
Proof.
  intros H.
  set (S := Node 0 [] ["a"; "b"; "c"]%string []).
  set (T := Node 1 [] ["a"; "b"; "c"]%string []).
  set (sl := fun i n => match i with
                        | 0 => if (n =? "b")%string then 11 else 10
                        | _ => if (n =? "a")%string then 20 else 21
                        end).
  assert (WS : well_formed S).
  { split; intros; repeat match goal with H : within _ _ S |- _ => inversion H; subst; clear H end;
    cbn in *; try tauto; try (repeat constructor; cbn; intuition discriminate). }
  assert (WT : well_formed T).
  { split; intros; repeat match goal with H : within _ _ T |- _ => inversion H; subst; clear H end;
    cbn in *; try tauto; try (repeat constructor; cbn; intuition discriminate). }
  specialize (H S T sl).
  destruct (share_parameters S T sl) as [| |s] eqn:E; try (vm_compute in E; discriminate E).
  specialize (H s [] T "c"%string 10 WS WT eq_refl (within_here T)).
  assert (Es : slots_of s 1 "c"%string = 11).
  { vm_compute in E. injection E as <-. reflexivity. }
  cbn [id_of T] in H. rewrite Es in H. 
  assert (11 = 10); [|discriminate]. apply H.
  - cbn. auto.
  - exists S. split; [constructor|]. split; [cbn; auto|reflexivity].
Qed.
Print Assumptions C78_share_refuted.

(** C78: [broadcast_module] sends every tensor at most once, sends only tensors
    of modules that are not skipped, and afterwards all processes have the
    parameters and the persistent buffers of the source process (and all
    buffers if asked to) -- provided that no tensor is a persistent and a
    non-persistent buffer at once.  All other tensors stay as they were. *)
Theorem C78_broadcast :
  forall V skip np size source_rank m sl (vals : nat -> nat -> V),
  source_rank < size ->
  let vals' := broadcast_module skip np size source_rank m sl vals in
  NoDup (fst (collect_tensors skip np m sl ([], []))) /\
  (forall r t, r < size ->
     saved_in skip m sl t -> np = true \/ ~ unsaved_in skip m sl t ->
     vals' r t = vals source_rank t) /\
  (forall r t, r < size -> np = true -> unsaved_in skip m sl t ->
     vals' r t = vals source_rank t) /\
  (forall r t, ~ saved_in skip m sl t -> np = false \/ ~ unsaved_in skip m sl t ->
     vals' r t = vals r t).
Proof.
  intros V skip np size sr m sl vals Hsr vals'.
  assert (Es : size = 1 -> forall r t, r < size -> vals r t = vals sr t).
  { intros -> r t Hr. assert (r = 0) by lia. assert (sr = 0) by lia. subst. reflexivity. }
  unfold vals', broadcast_module.
  rewrite collect_visits.
  destruct (take_spec (visits skip np sl m) ([], [])) as (A & B & _ & D). cbn [fst snd] in *.
  split; [apply A; [constructor|intros x []]|].
  assert (Sv : forall t, saved_in skip m sl t -> In (t, true) (visits skip np sl m)).
  { intros t (a & n & K & E & I). apply In_visits. exists a, n. split; [exact K|]. split; [exact E|].
    destruct I as [I|I]; [left; auto|]. right. exists true. split; [exact I|].
    rewrite orb_true_r. reflexivity. }
  assert (Uv : forall t, np = true -> unsaved_in skip m sl t -> In (t, true) (visits skip np sl m)).
  { intros t -> (a & n & K & E & I). apply In_visits. exists a, n. split; [exact K|]. split; [exact E|].
    right. exists false. auto. }
  assert (Fv : forall t, In (t, false) (visits skip np sl m) -> np = false /\ unsaved_in skip m sl t).
  { intros t I. apply In_visits in I. destruct I as (a & n & K & E & [(_ & F)|(b & I & F)]); [discriminate F|].
    symmetry in F. apply orb_false_elim in F. destruct F as (-> & ->).
    split; [reflexivity|]. exists a, n. auto. }
  assert (Go : forall r t, r < size -> In (t, true) (visits skip np sl m) ->
     (np = true \/ ~ unsaved_in skip m sl t) ->
     (if size =? 1 then vals
      else fun r0 t0 => if (r0 <? size) && mem t0 (fst (fold_left take (visits skip np sl m) ([], [])))
                        then vals sr t0 else vals r0 t0) r t = vals sr t).
  { intros r t Hr I O. destruct (Nat.eqb_spec size 1) as [E|E]; [apply Es; assumption|].
    destruct (Nat.ltb_spec r size); [|lia]. cbn [andb].
    assert (M : mem t (fst (fold_left take (visits skip np sl m) ([], []))) = true).
    { apply mem_In. apply D; [exact I| |intros []]. intros F. destruct (Fv t F) as (F1 & F2).
      destruct O as [O|O]; [congruence|auto]. }
    rewrite M. reflexivity. }
  split; [|split].
  - intros r t Hr S O. apply Go; auto.
  - intros r t Hr Hn U. apply Go; auto.
  - intros r t Ns O. destruct (size =? 1); [reflexivity|].
    destruct (mem t _) eqn:M; [|rewrite andb_false_r; reflexivity].
    exfalso. apply mem_In in M. destruct (B t M) as [[]|I]. apply In_visits in I.
    destruct I as (a & n & K & E & [(I & _)|(b & I & F)]).
    + apply Ns. exists a, n. auto.
    + destruct b; [apply Ns; exists a, n; auto|].
      rewrite orb_false_r in F. destruct O as [O|O]; [congruence|]. apply O. exists a, n. auto.
Qed.
Print Assumptions C78_broadcast.

Example C78_broadcast_example :
  fst (collect_tensors [] false model model_slots ([], [])) = [10; 11; 12; 14] /\
  broadcast_module [] false 2 0 model model_slots (fun r t => 100 * r + t) 1 14 = 14 /\
  broadcast_module [] false 2 0 model model_slots (fun r t => 100 * r + t) 1 13 = 113.
Proof. vm_compute. repeat split. Qed.

(** Finding: without that proviso the claim is false.  A buffer that is first
    met as a non-persistent one is put in the memo before it is passed over, so
    it is not sent although another module has it as a persistent buffer (and
    it is part of the state dict). *)
Theorem C78_broadcast_refuted :
  ~ (forall (sr size : nat) m sl (vals : nat -> nat -> nat) r t,
       sr < size -> r < size -> well_formed m -> saved_in [] m sl t ->
       broadcast_module [] false size sr m sl vals r t = vals sr t).
Proof.
  intros H.
  set (m := Node 0 [("a", Some (Node 1 [] [] [("f", false)]));
                      ("b", Some (Node 2 [] [] [("f", true)]))]%string [] []).
  specialize (H 0 2 m (fun _ _ => 7) (fun r _ => r) 1 7 ltac:(lia) ltac:(lia)).
  assert (W : well_formed m).
  { split.
    - intros p q a b Wa Wb E. unfold m in *.
      inv_within; cbn in E; try discriminate E; reflexivity.
    - intros p a Wa. unfold m in *. inv_within; cbn; repeat constructor; cbn; intuition discriminate. }
  specialize (H W). vm_compute in H. discriminate H.
  exists (Node 2 [] [] [("f"%string, true)]), "f"%string. split; [|split; [reflexivity|]].
  - econstructor 2; [intros []|right; left; reflexivity|constructor; intros []].
  - right. left. reflexivity.
Qed.
Print Assumptions C78_broadcast_refuted.

(** C78: [load_state_dict] reports only keys of the state dict that lie under a
    child set to [None]; and it reports all of them if no module has two
    names. *)
Theorem C78_unexpected_keys : forall m keys k, well_formed m ->
  (In k (unexpected_keys m keys) ->
   In k keys /\ exists p a n, within p a m /\ In (n, None) (children_of a) /\
     below (p ++ [n]) k = true) /\
  ((forall p q a, within p a m -> within q a m -> p = q) ->
   forall p a n, In k keys -> within p a m -> In (n, None) (children_of a) ->
   below (p ++ [n]) k = true -> In k (unexpected_keys m keys)).
Proof.
  intros m ks k (C & N). unfold unexpected_keys.
  pose proof (walk false m [] [] C (fun p a _ I => match I with end)) as H.
  pose proof (visit_spec false m C) as V. pose proof (In_visit false m) as Iv.
  destruct (named_modules false [] m []) as [o memo']. cbn [fst] in *.
  destruct H as (_ & A2 & _ & _ & _ & A6 & A7). destruct V as (_ & _ & V3). split.
  - intros I. apply in_flat_map in I. destruct I as ([q [b|]] & I & J); cbn in J; [destruct J|].
    apply filter_In in J. destruct J as (J & B). split; [exact J|].
    destruct (A6 _ I) as (p' & -> & (q1 & a & n & Wa & In_ & ->)). exists q1, a, n. auto.
  - intros U p a n I Wa In_ B. destruct (V3 p a Wa) as (q & J). apply Iv in J.
    destruct (A2 _ _ J) as ((q' & Eq & Wq) & _). cbn in Eq. subst q'.
    assert (q = p) by exact (U _ _ _ Wq Wa). subst q.
    apply in_flat_map. exists (p ++ [n], None). split; [exact (A7 _ _ _ J In_)|].
    cbn. apply filter_In. auto.
Qed.
Print Assumptions C78_unexpected_keys.

Example C78_unexpected_keys_example :
  unexpected_keys model [["encoder"; "norm"; "w"]; ["encoder"; "w"]]%string =
  [["encoder"; "norm"; "w"]]%string.
Proof. reflexivity. Qed.

(** Finding: a module that has two names is walked under the first one only, so
    a key under the missing child of the second name is silently ignored. *)
Theorem C78_unexpected_keys_refuted :
  ~ (forall m keys k p a n, well_formed m -> In k keys -> within p a m ->
       In (n, None) (children_of a) -> below (p ++ [n]) k = true ->
       In k (unexpected_keys m keys)).
Proof.
  intros H.
  set (c := Node 1 [("norm", None)]%string [] []).
  set (m := Node 0 [("a", Some c); ("b", Some c)]%string [] []).
  specialize (H m [["b"; "norm"; "w"]]%string ["b"; "norm"; "w"]%string ["b"]%string c "norm"%string).
  assert (W : well_formed m).
  { split.
    - intros p q a b Wa Wb E. unfold m, c in *.
      inv_within; cbn in E; try discriminate E; reflexivity.
    - intros p a Wa. unfold m, c in *. inv_within; cbn; repeat constructor; cbn; intuition discriminate. }
  assert (F : In ["b"; "norm"; "w"]%string []).
  { apply H.
    - exact W.
    - left; reflexivity.
    - eapply within_child; [right; left; reflexivity|constructor].
    - left; reflexivity.
    - reflexivity. }
  destruct F.
Qed.
Print Assumptions C78_unexpected_keys_refuted.
