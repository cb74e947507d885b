From Coq Require Import String List Bool Arith Lia FinFun.
Import ListNotations.
From Verif Require Import Mod_Model Mod_Spec Mod_Proofs.

Definition keys (m : module) : list (nat * string) :=
  map (pair (id_of m)) (slot_names m).

Definition with_mm (mm : list nat) (s : state) : state :=
  State (slots_of s) (memo s) mm (calls s).

Section Fn.
Variable fn : nat -> option nat.

Fixpoint apply_keys (ks : list (nat * string)) (s : state) : option state :=
  match ks with
  | [] => Some s
  | (i, n) :: ks' =>
      match call_fn fn (slots_of s i n) s with
      | Some (u, s') =>
          apply_keys ks'
            (State (set_slot (slots_of s') i n u) (memo s') (module_memo s')
               (calls s'))
      | None => None
      end
  end.

Lemma apply_slots_keys i ns s : apply_slots fn i ns s = apply_keys (map (pair i) ns) s.
Proof.
  revert s. induction ns as [|n ns IH]; intros s; cbn; [reflexivity|].
  destruct (call_fn fn (slots_of s i n) s) as [[u s']|]; [apply IH|reflexivity].
Qed.

Lemma apply_keys_app a b s :
  apply_keys (a ++ b) s =
  match apply_keys a s with Some s => apply_keys b s | None => None end.
Proof.
  revert s. induction a as [|[i n] a IH]; intros s; cbn; [reflexivity|].
  destruct (call_fn fn (slots_of s i n) s) as [[u s']|]; [apply IH|reflexivity].
Qed.

Lemma apply_one_keys m s : apply_one fn m s = apply_keys (keys m) s.
Proof.
  unfold apply_one, keys, slot_names. rewrite map_app, apply_keys_app.
  rewrite apply_slots_keys. destruct (apply_keys _ s); [apply apply_slots_keys|reflexivity].
Qed.

Lemma call_fn_mm t mm s :
  call_fn fn t (with_mm mm s) =
  option_map (fun p => (fst p, with_mm mm (snd p))) (call_fn fn t s).
Proof.
  unfold call_fn, with_mm. cbn. destruct (lookup t (memo s)); cbn; [reflexivity|].
  destruct (fn t); reflexivity.
Qed.

Lemma apply_keys_mm ks mm s :
  apply_keys ks (with_mm mm s) = option_map (with_mm mm) (apply_keys ks s).
Proof.
  revert s. induction ks as [|[i n] ks IH]; intros s; [reflexivity|].
  cbn [apply_keys]. rewrite call_fn_mm. cbn [with_mm slots_of].
  destruct (call_fn fn (slots_of s i n) s) as [[u s']|]; cbn [option_map]; [|reflexivity].
  cbn [fst snd]. rewrite <- IH. reflexivity.
Qed.

Lemma apply_keys_memo ks s s' : apply_keys ks s = Some s' -> module_memo s' = module_memo s.
Proof.
  intros E. pose proof (apply_keys_mm ks (module_memo s) s) as H. rewrite E in H.
  assert (W : with_mm (module_memo s) s = s) by (destruct s; reflexivity).
  rewrite W, E in H. cbn in H. injection H as ->. reflexivity.
Qed.

(** The order in which the modules are converted. *)
Fixpoint order (m : module) (mm : list nat) {struct m} : list module * list nat :=
  match m with
  | Node i cs ps bs =>
      let fix each (cs : list (string * option module)) (mm : list nat) :=
        match cs with
        | [] => ([], mm)
        | (_, None) :: cs' => each cs' mm
        | (_, Some c) :: cs' =>
            if mem (id_of c) mm then each cs' mm
            else let (o, mm) := order c mm in
                 let (o', mm) := each cs' (id_of c :: mm) in (o ++ o', mm)
        end in
      let (o, mm) := each cs mm in (o ++ [m], mm)
  end.

Definition order_each :=
  fix each (cs : list (string * option module)) (mm : list nat) :=
    match cs with
    | [] => ([], mm)
    | (_, None) :: cs' => each cs' mm
    | (_, Some c) :: cs' =>
        if mem (id_of c) mm then each cs' mm
        else let (o, mm) := order c mm in
             let (o', mm) := each cs' (id_of c :: mm) in (o ++ o', mm)
    end.

Lemma order_eq m mm :
  order m mm = let (o, mm) := order_each (children_of m) mm in (o ++ [m], mm).
Proof. destruct m; reflexivity. Qed.

Definition apply_each :=
  fix each (cs : list (string * option module)) (s : state) :=
    match cs with
    | [] => Some s
    | (_, None) :: cs' => each cs' s
    | (_, Some c) :: cs' =>
        if mem (id_of c) (module_memo s) then each cs' s
        else
          match apply_rec fn c s with
          | Some s =>
              each cs'
                (State (slots_of s) (memo s) (id_of c :: module_memo s) (calls s))
          | None => None
          end
    end.

Lemma apply_rec_eq m s :
  apply_rec fn m s =
  match apply_each (children_of m) s with Some s => apply_one fn m s | None => None end.
Proof. destruct m; reflexivity. Qed.

Lemma apply_rec_order : forall m s,
  let (o, mm') := order m (module_memo s) in
  apply_rec fn m s = option_map (with_mm mm') (apply_keys (flat_map keys o) s).
Proof.
  induction m as [m IH] using module_ind'. intros s.
  assert (E : forall cs, (forall n c, In (n, Some c) cs -> In (n, Some c) (children_of m)) ->
    forall s, let (o, mm') := order_each cs (module_memo s) in
    apply_each cs s = option_map (with_mm mm') (apply_keys (flat_map keys o) s)).
  { induction cs as [|[n [c|]] cs IHcs]; intros Hin s0.
    - cbn. destruct s0; reflexivity.
    - cbn [order_each apply_each]. fold order_each. fold apply_each.
      destruct (mem (id_of c) (module_memo s0)).
      { apply IHcs. intros n' c' I. apply Hin. right. exact I. }
      specialize (IH n c (Hin n c (or_introl eq_refl)) s0).
      destruct (order c (module_memo s0)) as [o mm1]. rewrite IH.
      assert (Hin' : forall n' c', In (n', Some c') cs -> In (n', Some c') (children_of m)).
      { intros n' c' I. apply Hin. right. exact I. }
      destruct (apply_keys (flat_map keys o) s0) as [s1|] eqn:E1.
      + cbn [option_map]. specialize (IHcs Hin' (with_mm (id_of c :: mm1) s1)).
        cbn [with_mm module_memo] in IHcs.
        destruct (order_each cs (id_of c :: mm1)) as [o' mm2].
        change (State (slots_of (with_mm mm1 s1)) (memo (with_mm mm1 s1))
                  (id_of c :: module_memo (with_mm mm1 s1)) (calls (with_mm mm1 s1)))
          with (with_mm (id_of c :: mm1) s1).
        unfold with_mm in IHcs at 1. unfold with_mm at 1. rewrite IHcs.
        rewrite flat_map_app, apply_keys_app, E1.
        change (State (slots_of s1) (memo s1) (id_of c :: mm1) (calls s1))
          with (with_mm (id_of c :: mm1) s1). rewrite apply_keys_mm.
        destruct (apply_keys (flat_map keys o') s1); reflexivity.
      + cbn [option_map]. destruct (order_each cs (id_of c :: mm1)) as [o' mm2].
        rewrite flat_map_app, apply_keys_app, E1. reflexivity.
    - cbn [order_each apply_each]. apply IHcs. intros n' c' I. apply Hin. right. exact I. }
  specialize (E (children_of m) (fun _ _ I => I) s).
  rewrite order_eq. destruct (order_each (children_of m) (module_memo s)) as [o mm'].
  rewrite apply_rec_eq, E, flat_map_app, apply_keys_app. cbn [flat_map]. rewrite app_nil_r.
  destruct (apply_keys (flat_map keys o) s) as [s1|]; cbn [option_map]; [|reflexivity].
  rewrite apply_one_keys. apply apply_keys_mm.
Qed.

Definition idl (o : list module) := map id_of o.

Definition ordered (R : path -> module -> Prop) (mm : list nat) (o : list module)
    (done : list nat) : Prop :=
  (forall i, In i done <-> In i mm \/ In i (idl o)) /\
  (forall a, In a o -> (exists p, R p a) /\ ~ In (id_of a) mm) /\
  NoDup (idl o) /\
  (forall p a, R p a -> In (id_of a) done).

Lemma NoDup_app' {T} (a b : list T) :
  NoDup a -> NoDup b -> (forall x, In x a -> ~ In x b) -> NoDup (a ++ b).
Proof.
  intros Ha Hb D. induction Ha as [|x a Hx Ha IH]; [exact Hb|].
  cbn. constructor.
  - rewrite in_app_iff. intros [I|I]; [auto|]. exact (D x (or_introl eq_refl) I).
  - apply IH. intros y I. apply D. right. exact I.
Qed.

Lemma order_spec : forall m mm,
  consistent (fun p a => within p a m) -> closed (fun p a => within p a m) mm ->
  ~ In (id_of m) mm ->
  let (o, mm') := order m mm in
  ordered (fun p a => within p a m) mm o (id_of m :: mm').
Proof.
  induction m as [m IH] using module_ind'. intros mm Hc Hcl Hn.
  assert (E : forall cs, (forall n c, In (n, Some c) cs -> In (n, Some c) (children_of m)) ->
    forall mm, closed (reach cs) mm ->
    let (o, mm') := order_each cs mm in ordered (reach cs) mm o mm').
  { clear mm Hcl Hn. induction cs as [|[n [c|]] cs IHcs]; intros Hin mm Hcl.
    - cbn. split; [|split; [|split]].
      + intros i. cbn. tauto.
      + intros a [].
      + constructor.
      + intros p a (n & c & q & [] & _).
    - assert (Hin' : forall n' c', In (n', Some c') cs -> In (n', Some c') (children_of m)).
      { intros n' c' I. apply Hin. right. exact I. }
      assert (Ic : In (n, Some c) (children_of m)) by (apply Hin; left; reflexivity).
      assert (Rs : forall q a, reach cs q a -> reach ((n, Some c) :: cs) q a).
      { intros q a (n' & c' & q' & I & W & E). exists n', c', q'. split; [right; exact I|auto]. }
      assert (Rc : forall q a, within q a c -> reach ((n, Some c) :: cs) (n :: q) a).
      { intros q a W. exists n, c, q. split; [left; reflexivity|auto]. }
      cbn [order_each]. fold order_each.
      destruct (mem (id_of c) mm) eqn:Em.
      + apply mem_In in Em. specialize (IHcs Hin' mm).
        destruct (order_each cs mm) as [o mm'].
        destruct IHcs as (B1 & B2 & B3 & B4).
        { intros p a R. apply (Hcl p); auto. }
        split; [exact B1|split; [|split; [exact B3|]]].
        * intros a I. destruct (B2 a I) as ((p & R) & N). split; [exists p; auto|exact N].
        * intros p a (n' & c' & q & [J|J] & W & E).
          -- inversion J; subst. apply B1. left.
             exact (Hcl [n'] c' (Rc [] c' (within_here c')) Em q a W).
          -- apply (B4 p a). exists n', c', q. auto.
      + apply mem_not in Em. specialize (IH n c Ic mm).
        destruct (order c mm) as [o mm1].
        destruct IH as (A1 & A2 & A3 & A4).
        { intros p q a b Wa Wb. apply (Hc (n :: p) (n :: q)); eapply within_child; eauto. }
        { intros p a W. apply (Hcl (n :: p)); auto. }
        { exact Em. }
        specialize (IHcs Hin' (id_of c :: mm1)).
        destruct (order_each cs (id_of c :: mm1)) as [o' mm2].
        destruct IHcs as (B1 & B2 & B3 & B4).
        { intros p a R I q b W. apply A1 in I. destruct I as [I|I].
          - apply A1. left. exact (Hcl p a (Rs _ _ R) I q b W).
          - unfold idl in I. apply in_map_iff in I. destruct I as (a' & E & I).
            destruct (A2 _ I) as ((p' & W') & _).
            assert (a' = a).
            { apply (Hc (n :: p') p); [eapply within_child; eauto| |exact E].
              destruct R as (n' & c' & q' & J & W'' & ->). eapply within_child; eauto. }
            subst a'. apply (A4 (p' ++ q)). eapply within_trans; eauto. }
        split; [|split; [|split]].
        * intros i. rewrite B1, A1. unfold idl. rewrite map_app, in_app_iff. tauto.
        * intros a I. apply in_app_or in I. destruct I as [I|I].
          -- destruct (A2 _ I) as ((p & W) & N). split; [exists (n :: p); auto|exact N].
          -- destruct (B2 _ I) as ((p & W) & N). split; [exists p; auto|].
             intros J. apply N. apply A1. left. exact J.
        * unfold idl. rewrite map_app. apply NoDup_app'; [exact A3|exact B3|].
          intros i I J. apply in_map_iff in J. destruct J as (a & <- & J).
          destruct (B2 _ J) as (_ & N). apply N. apply A1. right. exact I.
        * intros p a (n' & c' & q & [J|J] & W & E).
          -- inversion J; subst. apply B1. left. exact (A4 q a W).
          -- apply (B4 p a). exists n', c', q. auto.
    - cbn [order_each]. fold order_each.
      specialize (IHcs (fun n' c' I => Hin n' c' (or_intror I)) mm).
      assert (Rs : forall q a, reach cs q a -> reach ((n, None) :: cs) q a).
      { intros q a (n' & c' & q' & I & W & E). exists n', c', q'. split; [right; exact I|auto]. }
      destruct (order_each cs mm) as [o mm'].
      destruct IHcs as (B1 & B2 & B3 & B4).
      { intros p a R. apply (Hcl p); auto. }
      split; [exact B1|split; [|split; [exact B3|]]].
      + intros a I. destruct (B2 a I) as ((p & R) & N). split; [exists p; auto|exact N].
      + intros p a (n' & c' & q & [J|J] & W & E); [discriminate J|].
        apply (B4 p a). exists n', c', q. auto. }
  specialize (E (children_of m) (fun _ _ I => I) mm).
  rewrite order_eq. destruct (order_each (children_of m) mm) as [o mm'].
  destruct E as (B1 & B2 & B3 & B4).
  { intros p a R. apply (Hcl p). apply reach_within. exact R. }
  split; [|split; [|split]].
  - intros i. cbn. unfold idl. rewrite map_app, in_app_iff, B1. cbn. tauto.
  - intros a I. apply in_app_or in I. destruct I as [I|[<-|[]]].
    + destruct (B2 _ I) as ((p & R) & N). split; [exists p; apply reach_within; exact R|exact N].
    + split; [exists []; constructor|exact Hn].
  - unfold idl. rewrite map_app. apply NoDup_app'; [exact B3|repeat constructor; intros []|].
    intros i I [<-|[]]. apply in_map_iff in I. destruct I as (a & E & I).
    destruct (B2 _ I) as ((p & R) & _). exact (not_reached _ _ _ Hc R E).
  - intros p a W. destruct (within_reach _ _ _ W) as [(-> & ->)|R]; [left; reflexivity|].
    right. exact (B4 p a R).
Qed.

(** What converting a list of slots does. *)

Variable mm0 : list (nat * nat).

Definition res (t : nat) : option nat :=
  match lookup t mm0 with Some u => Some u | None => fn t end.

Definition Inv (s : state) : Prop :=
  (forall t, ~ In t (calls s) -> lookup t (memo s) = lookup t mm0) /\
  (forall t, In t (calls s) ->
     lookup t (memo s) = fn t /\ fn t <> None /\ lookup t mm0 = None) /\
  NoDup (calls s).

Lemma lookup_cons t u v l :
  lookup t ((u, v) :: l) = if u =? t then Some v else lookup t l.
Proof. unfold lookup. cbn. destruct (u =? t); reflexivity. Qed.

Lemma call_fn_spec t s : Inv s ->
  match call_fn fn t s with
  | Some (u, s') =>
      res t = Some u /\ Inv s' /\ slots_of s' = slots_of s /\
      (forall x, In x (calls s') <-> In x (calls s) \/ (x = t /\ lookup t mm0 = None))
  | None => res t = None
  end.
Proof.
  intros (I1 & I2 & I3). unfold call_fn, res.
  destruct (in_dec Nat.eq_dec t (calls s)) as [Hi|Hi].
  - destruct (I2 t Hi) as (E1 & E2 & E3). rewrite E1.
    destruct (fn t) as [u|] eqn:Ef; [|congruence]. rewrite E3.
    split; [reflexivity|]. split; [split; [exact I1|split; [exact I2|exact I3]]|].
    split; [reflexivity|]. intros x. split; [tauto|]. intros [A|(-> & _)]; assumption.
  - rewrite (I1 t Hi). destruct (lookup t mm0) as [u|] eqn:El.
    + split; [reflexivity|]. split; [split; [exact I1|split; [exact I2|exact I3]]|].
      split; [reflexivity|]. intros x. split; [tauto|]. intros [A|(_ & A)]; [exact A|discriminate A].
    + destruct (fn t) as [u|] eqn:Ef; [|reflexivity].
      split; [reflexivity|]. split; [|split; [reflexivity|]].
      * split; [|split]; cbn [memo calls].
        -- intros x Hx. rewrite lookup_cons. destruct (t =? x) eqn:Ex.
           ++ apply Nat.eqb_eq in Ex. subst. exfalso. apply Hx. apply in_or_app. right. left. reflexivity.
           ++ apply I1. intros J. apply Hx. apply in_or_app. left. exact J.
        -- intros x Hx. rewrite lookup_cons. destruct (t =? x) eqn:Ex.
           ++ apply Nat.eqb_eq in Ex. subst x. rewrite Ef. split; [reflexivity|]. split; [discriminate|exact El].
           ++ apply I2. apply in_app_or in Hx. destruct Hx as [Hx|[->|[]]]; [exact Hx|].
              rewrite Nat.eqb_refl in Ex. discriminate.
        -- apply NoDup_app'; [exact I3|repeat constructor; intros []|].
           intros x J [<-|[]]. auto.
      * intros x. cbn [calls]. rewrite in_app_iff. cbn. intuition congruence.
Qed.

Lemma set_slot_same sl i n u : set_slot sl i n u i n = u.
Proof. unfold set_slot. rewrite Nat.eqb_refl, String.eqb_refl. reflexivity. Qed.

Lemma set_slot_other sl i n u j k : (i, n) <> (j, k) -> set_slot sl i n u j k = sl j k.
Proof.
  intros N. unfold set_slot. destruct (Nat.eqb_spec j i) as [->|]; cbn; [|reflexivity].
  destruct (String.eqb_spec k n) as [->|]; [congruence|reflexivity].
Qed.

Lemma apply_keys_spec ks : NoDup ks -> forall s, Inv s ->
  match apply_keys ks s with
  | Some s' =>
      Inv s' /\
      (forall i n, In (i, n) ks -> res (slots_of s i n) = Some (slots_of s' i n)) /\
      (forall i n, ~ In (i, n) ks -> slots_of s' i n = slots_of s i n) /\
      (forall t, In t (calls s') <->
         In t (calls s) \/
         (lookup t mm0 = None /\ exists i n, In (i, n) ks /\ slots_of s i n = t))
  | None => exists i n, In (i, n) ks /\ res (slots_of s i n) = None
  end.
Proof.
  induction 1 as [|[i n] ks Hn Hd IH]; intros s HI.
  - cbn. split; [exact HI|]. split; [tauto|]. split; [reflexivity|].
    intros t. split; [tauto|]. intros [A|(_ & i & n & [] & _)]. exact A.
  - cbn [apply_keys]. pose proof (call_fn_spec (slots_of s i n) s HI) as C.
    destruct (call_fn fn (slots_of s i n) s) as [[u s1]|].
    2:{ exists i, n. split; [left; reflexivity|exact C]. }
    destruct C as (C1 & C2 & C3 & C4).
    set (s2 := State (set_slot (slots_of s1) i n u) (memo s1) (module_memo s1) (calls s1)).
    assert (O : forall j k, In (j, k) ks -> slots_of s2 j k = slots_of s j k).
    { intros j k I. unfold s2. cbn [slots_of]. rewrite C3. apply set_slot_other.
      intros E. inversion E; subst. auto. }
    specialize (IH s2 C2). destruct (apply_keys ks s2) as [s'|].
    + destruct IH as (J1 & J2 & J3 & J4). split; [exact J1|]. split; [|split].
      * intros j k [E|I].
        -- inversion E; subst j k. rewrite (J3 i n Hn). unfold s2. cbn [slots_of].
           rewrite set_slot_same. exact C1.
        -- rewrite <- (O j k I). exact (J2 j k I).
      * intros j k N. rewrite J3 by (intros I; apply N; right; exact I).
        unfold s2. cbn [slots_of]. rewrite C3. apply set_slot_other.
        intros E. apply N. left. exact E.
      * intros t. rewrite J4. unfold s2 at 1. cbn [calls]. rewrite C4. split.
        -- intros [[A|(-> & A)]|(A & j & k & I & E)].
           ++ auto.
           ++ right. split; [exact A|]. exists i, n. split; [left; reflexivity|reflexivity].
           ++ right. split; [exact A|]. exists j, k. split; [right; exact I|].
              rewrite <- (O j k I). exact E.
        -- intros [A|(A & j & k & [E|I] & E')].
           ++ auto.
           ++ inversion E; subst. left. right. auto.
           ++ right. split; [exact A|]. exists j, k. split; [exact I|]. rewrite (O j k I). exact E'.
    + destruct IH as (j & k & I & E). exists j, k. split; [right; exact I|].
      rewrite <- (O j k I). exact E.
Qed.

Lemma Inv_start sl mm : Inv (State sl mm0 mm []).
Proof. split; [reflexivity|split; [intros t []|constructor]]. Qed.

End Fn.

Lemma In_keys i n o :
  In (i, n) (flat_map keys o) <-> exists a, In a o /\ id_of a = i /\ In n (slot_names a).
Proof.
  rewrite in_flat_map. split.
  - intros (a & I & J). unfold keys in J. apply in_map_iff in J.
    destruct J as (k & E & J). inversion E; subst. exists a. auto.
  - intros (a & I & <- & J). exists a. split; [exact I|]. apply in_map. exact J.
Qed.

Lemma NoDup_keys o :
  NoDup (map id_of o) -> (forall a, In a o -> NoDup (slot_names a)) ->
  NoDup (flat_map keys o).
Proof.
  induction o as [|a o IH]; intros D H; [constructor|].
  cbn in *. inversion D as [|x l N D']; subst. apply NoDup_app'.
  - unfold keys. apply FinFun.Injective_map_NoDup; [intros x y E; congruence|].
    apply H. left. reflexivity.
  - apply IH; [exact D'|]. intros b I. apply H. right. exact I.
  - intros [i n] I J. apply N. apply in_map_iff in I. destruct I as (k & E & I).
    inversion E; subst. apply In_keys in J. destruct J as (b & J & E' & _).
    rewrite <- E'. apply in_map. exact J.
Qed.
