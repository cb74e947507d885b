From Coq Require Import String List Bool Arith Lia.
Import ListNotations.
From Verif Require Import Mod_Model Mod_Spec Mod_Proofs Mod_Apply.

(** Moving. *)

Lemma apply_keys_ext fn fn' ks : NoDup ks -> forall s,
  (forall i n, In (i, n) ks -> fn (slots_of s i n) = fn' (slots_of s i n)) ->
  apply_keys fn ks s = apply_keys fn' ks s.
Proof.
  induction 1 as [|[i n] ks Hn Hd IH]; intros s H; [reflexivity|].
  cbn [apply_keys].
  assert (E : call_fn fn (slots_of s i n) s = call_fn fn' (slots_of s i n) s).
  { unfold call_fn. rewrite (H i n (or_introl eq_refl)). reflexivity. }
  rewrite E. destruct (call_fn fn' (slots_of s i n) s) as [[u s']|] eqn:Ec; [|reflexivity].
  apply IH. cbn [slots_of]. intros j k I.
  assert (Es : slots_of s' = slots_of s).
  { unfold call_fn in Ec. destruct (lookup (slots_of s i n) (memo s)); [inversion Ec; reflexivity|].
    destruct (fn' (slots_of s i n)); inversion Ec; reflexivity. }
  rewrite Es, set_slot_other; [apply H; right; exact I|].
  intros E'. inversion E'; subst. auto.
Qed.

Section Device.
Variable device_of : nat -> nat.
Variables cpu meta : nat.
Variables to_fn empty_fn : nat -> nat.
Variable m0 : module.
Variable d : nat.
Variable sl : slots.

Definition conv (t : nat) : nat := if device_of t =? meta then empty_fn t else to_fn t.

Lemma infer_spec m :
  match maybe_infer_device device_of cpu m sl with
  | Some k =>
      (slot_names m = [] /\ k = cpu) \/
      (slot_names m <> [] /\ forall n, In n (slot_names m) -> device_of (sl (id_of m) n) = k)
  | None => exists n k, In n (slot_names m) /\ In k (slot_names m) /\
      device_of (sl (id_of m) n) <> device_of (sl (id_of m) k)
  end.
Proof.
  unfold maybe_infer_device. destruct (slot_names m) as [|n ns]; cbn [map]; [auto|].
  destruct (forallb _ _) eqn:E.
  - right. split; [discriminate|]. rewrite forallb_forall in E.
    intros k [<-|I]; [reflexivity|].
    specialize (E (device_of (sl (id_of m) k)) (in_map _ _ _ I)). apply Nat.eqb_eq in E. auto.
  - assert (F : exists k, In k ns /\ device_of (sl (id_of m) n) <> device_of (sl (id_of m) k)).
    { revert E. generalize (device_of (sl (id_of m) n)). intros x. induction ns as [|k ns IH]; [discriminate|].
      cbn. destruct (Nat.eqb_spec x (device_of (sl (id_of m) k))) as [Ex|Ex]; cbn.
      - intros E. destruct (IH E) as (k' & I & N). exists k'. auto.
      - intros _. exists k. auto. }
    destruct F as (k & I & N). exists n, k. split; [left; reflexivity|]. split; [right; exact I|exact N].
Qed.

Lemma to_move_spec ms :
  match to_move device_of cpu ms d sl with
  | None => exists m, In m ms /\ maybe_infer_device device_of cpu m sl = None
  | Some l =>
      (forall m, In m ms -> maybe_infer_device device_of cpu m sl <> None) /\
      (forall m k, In (m, k) l <->
         In m ms /\ maybe_infer_device device_of cpu m sl = Some k /\ k <> d) /\
      (NoDup (map id_of ms) -> NoDup (map (fun y => id_of (fst y)) l))
  end.
Proof.
  induction ms as [|m ms IH]; cbn [to_move].
  - split; [intros m []|]. split; [intros m k; cbn; tauto|intros; constructor].
  - destruct (maybe_infer_device device_of cpu m sl) as [k|] eqn:Ek.
    2:{ exists m. split; [left; reflexivity|exact Ek]. }
    destruct (to_move device_of cpu ms d sl) as [l|].
    2:{ destruct IH as (m' & I & E). exists m'. split; [right; exact I|exact E]. }
    destruct IH as (A & B & C). split; [|split].
    + intros m' [<-|I]; [congruence|auto].
    + intros m' k'. destruct (Nat.eqb_spec k d) as [->|N].
      * rewrite B. split; [intros (I & E & N); split; [right; exact I|auto]|].
        intros ([<-|I] & E & N); [congruence|auto].
      * cbn. rewrite B. split.
        -- intros [E|(I & E & N')]; [inversion E; subst; auto|auto].
        -- intros ([<-|I] & E & N'); [left; congruence|auto].
    + intros D. cbn in D. inversion D as [|x y Nx D']; subst.
      destruct (k =? d); [auto|]. cbn. constructor; [|auto].
      intros I. apply Nx. apply in_map_iff in I. destruct I as ([m' k'] & E & I).
      apply B in I. apply in_map_iff. exists m'. cbn in E. tauto.
Qed.

Definition dev_ok (l : list (module * nat)) (sl : slots) : Prop :=
  forall m k n, In (m, k) l -> In n (slot_names m) -> device_of (sl (id_of m) n) = k.

Lemma move_spec l : NoDup (flat_map keys (map fst l)) -> forall s r,
  dev_ok l (slots_of s) ->
  move meta to_fn empty_fn l s r =
  option_map (fun s' => (s', r ++ map (fun y => id_of (fst y)) (filter (fun y => snd y =? meta) l)))
    (apply_keys (fun t => Some (conv t)) (flat_map keys (map fst l)) s).
Proof.
  induction l as [|[m k] l IH]; intros D s r H.
  - cbn. rewrite app_nil_r. reflexivity.
  - cbn [map fst flat_map] in *. rewrite apply_keys_app.
    assert (Dm : NoDup (keys m)).
    { clear - D. induction (keys m) as [|x ks IHk]; [constructor|].
      cbn in D. inversion D as [|? ? Nx D']; subst. constructor; [|auto].
      intros I. apply Nx. apply in_or_app. left. exact I. }
    assert (Dl : NoDup (flat_map keys (map fst l))).
    { clear - D. induction (keys m) as [|x ks IHk]; [exact D|].
      cbn in D. inversion D; auto. }
    assert (Dx : forall x, In x (flat_map keys (map fst l)) -> ~ In x (keys m)).
    { clear - D. intros x I J. induction (keys m) as [|y ks IHk]; [exact J|].
      cbn in D. inversion D as [|? ? Ny D']; subst.
      destruct J as [->|J]; [apply Ny; apply in_or_app; right; exact I|auto]. }
    assert (Es : forall s', apply_keys (fun t => Some (conv t)) (keys m) s = Some s' ->
              dev_ok l (slots_of s')).
    { intros s' E m' k' n' I J.
      assert (U : forall ks s s', apply_keys (fun t => Some (conv t)) ks s = Some s' ->
                forall i n, ~ In (i, n) ks -> slots_of s' i n = slots_of s i n).
      { clear. induction ks as [|[j q] ks IH]; intros s s' E i n N; [inversion E; reflexivity|].
        cbn [apply_keys] in E.
        destruct (call_fn (fun t => Some (conv t)) (slots_of s j q) s) as [[u s1]|] eqn:Ec; [|discriminate].
        rewrite (IH _ _ E) by (intros I; apply N; right; exact I). cbn [slots_of].
        rewrite set_slot_other by (intros E'; apply N; left; exact E').
        unfold call_fn in Ec. destruct (lookup (slots_of s j q) (memo s)); inversion Ec; reflexivity. }
      rewrite (U _ _ _ E).
      - apply (H m' k' n'); [right; exact I|exact J].
      - apply Dx. apply In_keys. exists m'. split; [|auto].
        apply in_map_iff. exists (m', k'). auto. }
    cbn [move filter snd]. rewrite !apply_one_keys.
    assert (Ev : forall i n, In (i, n) (keys m) -> device_of (slots_of s i n) = k).
    { intros i n I. unfold keys in I. apply in_map_iff in I. destruct I as (n' & E & I).
      injection E as <- <-. apply (H m k n'); [left; reflexivity|exact I]. }
    destruct (k =? meta) eqn:Ek; cbn [negb].
    + assert (Ea : apply_keys (fun t => Some (empty_fn t)) (keys m) s =
                   apply_keys (fun t => Some (conv t)) (keys m) s).
      { apply apply_keys_ext; [exact Dm|]. intros i n I. unfold conv. rewrite (Ev i n I), Ek. reflexivity. }
      rewrite Ea. destruct (apply_keys _ (keys m) s) as [s'|] eqn:E'; [|reflexivity].
      rewrite (IH Dl s' _ (Es s' eq_refl)). cbn [map fst].
      destruct (apply_keys _ _ s') as [s''|]; cbn [option_map]; [|reflexivity].
      rewrite <- app_assoc. reflexivity.
    + assert (Ea : apply_keys (fun t => Some (to_fn t)) (keys m) s =
                   apply_keys (fun t => Some (conv t)) (keys m) s).
      { apply apply_keys_ext; [exact Dm|]. intros i n I. unfold conv. rewrite (Ev i n I), Ek. reflexivity. }
      rewrite Ea. destruct (apply_keys _ (keys m) s) as [s'|] eqn:E'; [|reflexivity].
      rewrite (IH Dl s' _ (Es s' eq_refl)). reflexivity.
Qed.

End Device.

(** Sharing. *)

Lemma dedup_sub l seen p t : In (p, t) (dedup l seen) -> In (p, t) l.
Proof.
  revert seen. induction l as [|[q u] l IH]; intros seen I; [exact I|].
  cbn in I. destruct (mem u seen); [right; eauto|].
  destruct I as [E|I]; [left; exact E|right; eauto].
Qed.

Lemma dedup_all l seen p t : In (p, t) l -> In t seen \/ exists q, In (q, t) (dedup l seen).
Proof.
  revert seen. induction l as [|[q u] l IH]; intros seen I; [destruct I|].
  cbn [dedup]. destruct (mem u seen) eqn:E.
  - apply mem_In in E. destruct I as [I|I]; [inversion I; subst; auto|eauto].
  - destruct I as [I|I].
    + inversion I; subst. right. exists p. left. reflexivity.
    + destruct (IH (u :: seen) I) as [[->|J]|(q' & J)]; [|auto|].
      * right. exists q. left. reflexivity.
      * right. exists q'. right. exact J.
Qed.

Lemma named_sub names m sl q t : consistent (fun p a => within p a m) ->
  In (q, t) (named names m sl) ->
  exists p a n, q = p ++ [n] /\ within p a m /\ In n (names a) /\ sl (id_of a) n = t.
Proof.
  intros C I. apply dedup_sub in I. apply in_flat_map in I.
  destruct I as ([p a] & I & J). apply in_map_iff in J. destruct J as (n & E & J).
  cbn [fst snd] in *. inversion E; subst. exists p, a, n.
  split; [reflexivity|]. split; [|auto]. exact (proj1 (visit_spec false m C) p a I).
Qed.

Lemma named_all names m sl p a n : consistent (fun p a => within p a m) ->
  within p a m -> In n (names a) -> exists q, In (q, sl (id_of a) n) (named names m sl).
Proof.
  intros C W I. destruct (proj2 (proj2 (visit_spec false m C)) p a W) as (q & J).
  destruct (dedup_all (flat_map (fun y => map (fun n => (fst y ++ [n], sl (id_of (snd y)) n))
                          (names (snd y))) (visit_module false m)) [] (q ++ [n]) (sl (id_of a) n))
    as [[]|(q' & K)].
  - apply in_flat_map. exists (q, a). split; [exact J|]. apply in_map_iff. exists n. auto.
  - exists q'. exact K.
Qed.

Lemma path_eqb_eq p q : path_eqb p q = true <-> p = q.
Proof. unfold path_eqb. destruct (list_eq_dec string_dec p q); split; congruence. Qed.

Lemma pair_up_spec ss : forall ts memo mm, length ss = length ts ->
  pair_up ss ts memo = Some mm ->
  (forall u, (exists q, In (q, u) ts) ->
     exists q t, lookup u mm = Some t /\ In (q, u) ts /\ In (q, t) ss) /\
  (forall u, (forall q, ~ In (q, u) ts) -> lookup u mm = lookup u memo).
Proof.
  induction ss as [|[p s] ss IH]; intros [|[q t] ts] memo mm L E; try discriminate L.
  - cbn in E. inversion E; subst. split; [intros u (q & [])|auto].
  - cbn in E. destruct (path_eqb p q) eqn:Ep; [|discriminate E]. cbn in E.
    apply path_eqb_eq in Ep. subst q. cbn in L.
    destruct (IH ts ((t, s) :: memo) mm ltac:(lia) E) as (A & B). split.
    + intros u (q & I).
      destruct (in_dec Nat.eq_dec u (map snd ts)) as [J|J].
      * apply in_map_iff in J. destruct J as ([q' u'] & Eu & J). cbn in Eu. subst u'.
        destruct (A u (ex_intro _ q' J)) as (q2 & t2 & L2 & I2 & I3).
        exists q2, t2. split; [exact L2|]. split; right; assumption.
      * assert (N : forall q, ~ In (q, u) ts).
        { intros q' K. apply J. apply in_map_iff. exists (q', u). auto. }
        destruct I as [I|I]; [|exfalso; exact (N q I)]. inversion I; subst.
        exists q, s. rewrite (B u N), lookup_cons, Nat.eqb_refl.
        split; [reflexivity|]. split; left; reflexivity.
    + intros u N. rewrite B by (intros q I; exact (N q (or_intror I))).
      rewrite lookup_cons. destruct (Nat.eqb_spec t u) as [->|]; [|reflexivity].
      exfalso. exact (N p (or_introl eq_refl)).
Qed.

(** Broadcasting. *)

Section Broadcast.
Variable skip : list nat.
Variable np : bool.
Variable sl : slots.

(** The tensors looked at, in order, and whether they are to be broadcast. *)
Definition looks (m : module) : list (nat * bool) :=
  map (fun n => (sl (id_of m) n, true)) (params_of m) ++
  map (fun n => (sl (id_of m) (fst n), np || snd n)) (buffers_of m).

Fixpoint visits (m : module) : list (nat * bool) :=
  match m with
  | Node i cs ps bs =>
      if mem i skip then []
      else
        (fix each cs := match cs with
                        | [] => []
                        | (_, None) :: cs' => each cs'
                        | (_, Some c) :: cs' => visits c ++ each cs'
                        end) cs ++ looks (Node i cs ps bs)
  end.

Definition visits_each :=
  fix each (cs : list (string * option module)) :=
    match cs with
    | [] => []
    | (_, None) :: cs' => each cs'
    | (_, Some c) :: cs' => visits c ++ each cs'
    end.

Lemma visits_eq m :
  visits m = if mem (id_of m) skip then [] else visits_each (children_of m) ++ looks m.
Proof. destruct m; reflexivity. Qed.

Definition collect_each :=
  fix each (cs : list (string * option module)) s :=
    match cs with
    | [] => s
    | (_, None) :: cs' => each cs' s
    | (_, Some c) :: cs' => each cs' (collect_tensors skip np c sl s)
    end.

Lemma collect_eq m s :
  collect_tensors skip np m sl s =
  if mem (id_of m) skip then s
  else collect_buffers np (id_of m) (buffers_of m) sl
         (collect_params (id_of m) (params_of m) sl (collect_each (children_of m) s)).
Proof. destruct m; reflexivity. Qed.

Definition take (s : list nat * list nat) (v : nat * bool) : list nat * list nat :=
  if mem (fst v) (snd s) then s
  else (if snd v then fst s ++ [fst v] else fst s, fst v :: snd s).

Lemma collect_params_take i ns s :
  collect_params i ns sl s = fold_left take (map (fun n => (sl i n, true)) ns) s.
Proof.
  revert s. induction ns as [|n ns IH]; intros s; [reflexivity|].
  cbn [collect_params map fold_left]. unfold take at 2. cbn [fst snd].
  destruct (mem (sl i n) (snd s)); apply IH.
Qed.

Lemma collect_buffers_take i ns s :
  collect_buffers np i ns sl s =
  fold_left take (map (fun n => (sl i (fst n), np || snd n)) ns) s.
Proof.
  revert s. induction ns as [|[n b] ns IH]; intros s; [reflexivity|].
  cbn [collect_buffers map fold_left]. unfold take at 2. cbn [fst snd].
  destruct (mem (sl i n) (snd s)); [apply IH|].
  destruct np, b; cbn [negb andb orb]; apply IH.
Qed.

Lemma collect_visits : forall m s, collect_tensors skip np m sl s = fold_left take (visits m) s.
Proof.
  induction m as [m IH] using module_ind'. intros s.
  rewrite collect_eq, visits_eq. destruct (mem (id_of m) skip); [reflexivity|].
  rewrite fold_left_app. unfold looks. rewrite fold_left_app.
  rewrite collect_buffers_take, collect_params_take. do 2 f_equal.
  revert s. assert (H : forall n c, In (n, Some c) (children_of m) ->
    forall s, collect_tensors skip np c sl s = fold_left take (visits c) s) by exact IH.
  clear IH. revert H. generalize (children_of m) as cs.
  induction cs as [|[n [c|]] cs IHcs]; intros H s; [reflexivity| |].
  - cbn [collect_each visits_each]. fold collect_each. fold visits_each.
    rewrite fold_left_app, <- (H n c (or_introl eq_refl)). apply IHcs.
    intros n' c' I. apply (H n' c'). right. exact I.
  - cbn [collect_each visits_each]. apply IHcs. intros n' c' I. apply (H n' c'). right. exact I.
Qed.

Lemma In_visits : forall m t w, In (t, w) (visits m) <->
  exists a n, kept skip a m /\ sl (id_of a) n = t /\
    ((In n (params_of a) /\ w = true) \/ exists b, In (n, b) (buffers_of a) /\ w = np || b).
Proof.
  assert (L : forall a t w, In (t, w) (looks a) <-> exists n, sl (id_of a) n = t /\
    ((In n (params_of a) /\ w = true) \/ exists b, In (n, b) (buffers_of a) /\ w = np || b)).
  { intros a t w. unfold looks. rewrite in_app_iff, !in_map_iff. split.
    - intros [(n & E & I)|([n b] & E & I)]; inversion E; subst; exists n;
        (split; [reflexivity|]); [left; auto|right; exists b; auto].
    - intros (n & <- & [(I & ->)|(b & I & ->)]); [left; exists n; auto|right; exists (n, b); auto]. }
  induction m as [m IH] using module_ind'. intros t w. rewrite visits_eq.
  destruct (mem (id_of m) skip) eqn:Em.
  - apply mem_In in Em. split; [intros []|].
    intros (a & n & K & _). inversion K; subst; tauto.
  - apply mem_not in Em. rewrite in_app_iff, L.
    assert (E : In (t, w) (visits_each (children_of m)) <->
                exists n c, In (n, Some c) (children_of m) /\ In (t, w) (visits c)).
    { generalize (children_of m). induction l as [|[n [c|]] l IHl]; cbn [visits_each].
      - split; [intros []|intros (n & c & [] & _)].
      - rewrite in_app_iff, IHl. split.
        + intros [I|(n' & c' & I & J)]; [exists n, c; split; [left; reflexivity|exact I]|].
          exists n', c'. split; [right; exact I|exact J].
        + intros (n' & c' & [I|I] & J); [inversion I; subst; left; exact J|right; exists n', c'; auto].
      - rewrite IHl. split; intros (n' & c' & I & J).
        + exists n', c'. split; [right; exact I|exact J].
        + destruct I as [I|I]; [discriminate I|]. exists n', c'. auto. }
    rewrite E. split.
    + intros [(n & c & I & J)|(n & A & B)].
      * apply (IH n c I) in J. destruct J as (a & n' & K & A & B).
        exists a, n'. split; [econstructor 2; eauto|auto].
      * exists m, n. split; [constructor; exact Em|auto].
    + intros (a & n & K & A & B). inversion K as [m' N|n' c a' m' N I K']; subst.
      * right. exists n. auto.
      * left. exists n', c. split; [exact I|]. apply (IH n' c I). exists a, n. auto.
Qed.

Lemma take_spec v : forall s,
  (NoDup (fst s) -> incl (fst s) (snd s) ->
     NoDup (fst (fold_left take v s)) /\ incl (fst (fold_left take v s)) (snd (fold_left take v s))) /\
  (forall t, In t (fst (fold_left take v s)) -> In t (fst s) \/ In (t, true) v) /\
  (forall t, In t (fst s) -> In t (fst (fold_left take v s))) /\
  (forall t, In (t, true) v -> ~ In (t, false) v -> ~ In t (snd s) ->
     In t (fst (fold_left take v s))).
Proof.
  induction v as [|[t w] v IH]; intros s.
  - cbn. split; [auto|]. split; [auto|]. split; [auto|]. intros t [].
  - cbn [fold_left]. destruct (IH (take s (t, w))) as (A & B & C & D).
    unfold take in A, B, C, D at 1. cbn [fst snd] in *.
    destruct (mem t (snd s)) eqn:Em.
    + assert (Et : take s (t, w) = s) by (unfold take; cbn [fst snd]; rewrite Em; reflexivity).
      rewrite Et in *. split; [exact A|]. split; [intros u I; destruct (B u I); auto; right; right; assumption|].
      split; [exact C|]. intros u [E|I] N1 N2.
      * inversion E; subst. apply mem_In in Em. tauto.
      * apply D; [exact I| |exact N2]. intros J. apply N1. right. exact J.
    + apply mem_not in Em.
      assert (Et : take s (t, w) = (if w then fst s ++ [t] else fst s, t :: snd s)).
      { unfold take. cbn [fst snd]. apply mem_not in Em. rewrite Em. reflexivity. }
      rewrite Et in *. cbn [fst snd] in *. split; [|split; [|split]].
      * intros N I. apply A.
        -- destruct w; [|exact N]. apply NoDup_app'; [exact N|repeat constructor; intros []|].
           intros x J [<-|[]]. exact (Em (I _ J)).
        -- intros x J. destruct w; [|right; exact (I _ J)].
           apply in_app_or in J. destruct J as [J|[<-|[]]]; [right; exact (I _ J)|left; reflexivity].
      * intros u J. destruct (B u J) as [K|K]; [|right; right; exact K].
        destruct w; [|left; exact K]. apply in_app_or in K. destruct K as [K|[<-|[]]]; [left; exact K|].
        right. left. reflexivity.
      * intros u J. apply C. destruct w; [apply in_or_app; left|]; exact J.
      * intros u [E|J] N1 N2.
        -- inversion E; subst. apply C. apply in_or_app. right. left. reflexivity.
        -- destruct (Nat.eq_dec u t) as [->|Nu].
           ++ destruct w; [apply C; apply in_or_app; right; left; reflexivity|].
              exfalso. apply N1. left. reflexivity.
           ++ apply D; [exact J|intros K; apply N1; right; exact K|].
              intros [E|K]; [congruence|exact (N2 K)].
Qed.

End Broadcast.
