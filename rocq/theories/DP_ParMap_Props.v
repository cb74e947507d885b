From Coq Require Import List Arith Lia.
Import ListNotations.
From Verif Require Import DP_Base DP_Sources_Model DP_ParMap_Model.

Section P.
  Variable f : data -> fres data.
  Inductive ok : slot -> data -> Prop := ok_todo d : ok (Todo d) d | ok_done d : ok (outcome f d) d.
  Lemma works_ok l s : works f (map Todo l) s -> Forall2 ok s l.
  Proof.
    intros W. remember (map Todo l) as s0 eqn:E. induction W as [s|s t u W IH H]; subst.
    - induction l; cbn; constructor; auto. constructor.
    - specialize (IH eq_refl). destruct H. apply Forall2_app_inv_l in IH as (l1 & l2 & F1 & F2 & ->). inversion F2 as [|? y ? l' Hd Ft]; subst.
      apply Forall2_app; [exact F1|]. constructor; [|exact Ft]. inversion Hd as [d0 E|d0 E]; subst; [constructor|].
      exfalso. unfold outcome in E. destruct (f y); discriminate.
  Qed.
  Lemma apply_total l : (forall d, In d l -> forall e, f d <> FThrow e) -> map_apply f l = (map (fun d => content (outcome f d)) l, None).
  Proof.
    induction l as [|d l IH]; intros H; cbn; [reflexivity|]. rewrite IH by (intros; apply H; right; assumption). unfold outcome.
    destruct (f d) eqn:E; [reflexivity|reflexivity|]. exfalso. exact (H d (or_introl eq_refl) _ E).
  Qed.
  Lemma all_done s l : Forall2 ok s l -> (forall x, In x s -> is_todo x = false) -> map content s = map (fun d => content (outcome f d)) l.
  Proof.
    induction 1 as [|x d s l H F IH]; intros N; cbn; [reflexivity|]. rewrite IH by (intros; apply N; right; assumption). f_equal.
    destruct H; [|reflexivity]. specialize (N _ (or_introl eq_refl)). discriminate.
  Qed.
  Lemma threw_in s l d e : Forall2 ok s l -> In (Threw d e) s -> In d l /\ f d = FThrow e.
  Proof.
    induction 1 as [|x d0 s l H F IH]; intros I0; [destruct I0|]. destruct I0 as [->|I0]; [|destruct (IH I0); split; [right|]; assumption].
    inversion H as [|d1 E]; subst. unfold outcome in E. destruct (f d0) eqn:E0; inversion E; subst. split; [left; reflexivity|assumption].
  Qed.
  Lemma apply_error l e : (exists b, map_apply f l = (b, Some e)) -> exists d, In d l /\ f d = FThrow e.
  Proof.
    induction l as [|d l IH]; intros (b & E); cbn in E; [discriminate|]. destruct (f d) eqn:F.
    - destruct (map_apply f l) as [b' e'] eqn:M. injection E as <- ->. destruct IH as (d' & I0 & F'); [eauto|]. exists d'. split; [right|]; assumption.
    - destruct (map_apply f l) as [b' e'] eqn:M. injection E as <- ->. destruct IH as (d' & I0 & F'); [eauto|]. exists d'. split; [right|]; assumption.
    - injection E as <- <-. exists d. split; [left; reflexivity|assumption].
  Qed.
  Definition todos (s : slots) : nat := length (filter is_todo s).
  Lemma work_less s t : work f s t -> todos t < todos s.
  Proof.
    destruct 1 as [a d b]. unfold todos. rewrite !filter_app, !app_length. cbn. assert (is_todo (outcome f d) = false) as -> by (unfold outcome; destruct (f d); reflexivity). cbn. lia.
  Qed.
End P.

(** * C16: in whatever order the workers finish, the buffer is what mapping one after the other gives, *)
Theorem C16_any_order : forall f l r, (forall d, In d l -> forall e, f d <> FThrow e) -> parallel f l r -> r = map_apply f l.
Proof.
  intros f l r N (s & W & R). pose proof (works_ok f l s W) as F. rewrite apply_total by exact N. destruct R as [s T _|s d e I0].
  - rewrite (all_done f s l F T). reflexivity.
  - destruct (threw_in f s l d e F I0) as (I1 & E). exfalso. exact (N d I1 e E).
Qed.
Print Assumptions C16_any_order.

(** the pipeline yields the same examples and leaves the same state after every call, whatever the order is each time, *)
Theorem C16_same_pipeline : forall f sched npar I m n b pos s,
  (forall d e, f d <> FThrow e) -> (forall k l, parallel f l (sched k l)) ->
  par_loop sched npar I m n b pos s = map_par_loop f npar I m n b pos s.
Proof.
  intros f sched npar I m n b pos s N P. revert b pos s. induction n as [|n IH]; intros b pos s; [reflexivity|]. cbn [par_loop map_par_loop].
  destruct (map_pick b pos) as [[[d b'] q]|]; [reflexivity|]. destruct (map_read I m npar s) as [[[l [e|]] s']|]; [reflexivity| |reflexivity].
  rewrite (C16_any_order f l _ (fun d _ => N d) (P (S n) l)). destruct l as [|d l]; [reflexivity|]. destruct (map_apply f (d :: l)) as [b' [e|]]; [reflexivity|apply IH].
Qed.
Print Assumptions C16_same_pipeline.

(** an error is reported if and only if the function raises for an example of the buffer, and it is the error of one of those, *)
Theorem C16_errors : forall f l b o, parallel f l (b, o) ->
  (forall e, o = Some e -> exists d, In d l /\ f d = FThrow e) /\ (o = None -> forall d e, In d l -> f d <> FThrow e) /\
  (* and each slot then has the example as it was or the result for it *)
  Forall2 (fun x d => x = Some d \/ f d = FNone /\ x = None \/ exists d', f d = FVal d' /\ x = Some d') b l.
Proof.
  intros f l b o (s & W & R). pose proof (works_ok f l s W) as F. inversion R as [s0 T NT|s0 d e I0]; subst.
  - split; [discriminate|]. split.
    + intros _ d e I0 E. clear R W. revert T NT. induction F as [|x d0 s l H F IH]; intros T NT; [destruct I0|].
      destruct H as [d0|d0]; [specialize (T _ (or_introl eq_refl)); discriminate|].
      destruct I0 as [->|I0].
      * apply (NT d e). left. unfold outcome. rewrite E. reflexivity.
      * eapply (IH I0); [intros x I1; apply T; right; exact I1|intros d1 e1 I1; apply (NT d1 e1); right; exact I1].
    + clear R W T NT. induction F as [|x d s l H F IH]; cbn; constructor; [|exact IH]. destruct H as [d|d]; [left; reflexivity|]. unfold outcome. destruct (f d) eqn:E; cbn; eauto.
  - split; [intros e0 E; injection E as <-; destruct (threw_in f s l d e F I0); eauto|]. split; [discriminate|].
    clear R W I0. induction F as [|x d0 s l H F IH]; cbn; constructor; [|exact IH]. destruct H as [d1|d1]; [left; reflexivity|]. unfold outcome. destruct (f d1) eqn:E; cbn; eauto.
Qed.
Print Assumptions C16_errors.

(** and there is always a way on: the work ends after as many steps as there are examples, and nothing but a complete buffer or an error stops it. *)
Theorem C16_ends : forall f l s, works f (map Todo l) s ->
  ((exists t, work f s t) \/ exists r, returns s r) /\ (forall t, work f s t -> todos t < todos s).
Proof.
  intros f l s W. split; [|intros t; apply work_less]. destruct (existsb is_todo s) eqn:E.
  - left. apply existsb_exists in E as (x & I0 & T). apply in_split in I0 as (a & b & ->). destruct x as [d| |]; try discriminate. eexists. constructor.
  - right. destruct (existsb (fun x => match x with Threw _ _ => true | _ => false end) s) eqn:X.
    + apply existsb_exists in X as (x & I0 & T). destruct x as [| |d e]; try discriminate. eexists. exact (returns_error s d e I0).
    + eexists. apply returns_all.
      * intros x I0. destruct (is_todo x) eqn:T; [|reflexivity]. assert (existsb is_todo s = true) by (apply existsb_exists; eauto). congruence.
      * intros d e I0. assert (existsb (fun x => match x with Threw _ _ => true | _ => false end) s = true) by (apply existsb_exists; eauto). congruence.
Qed.
Print Assumptions C16_ends.

(** Three examples; the last is finished first. *)
Example C16_order_example : let f d := match d with DInt z => FVal (DInt (2 * z)) | _ => FNone end in
  parallel f [DInt 1; DInt 2; DInt 3] ([Some (DInt 2); Some (DInt 4); Some (DInt 6)], None) /\ forall d e, f d <> FThrow e.
Proof.
  intros f. split; [|intros []; discriminate]. exists [Mapped (Some (DInt 2)); Mapped (Some (DInt 4)); Mapped (Some (DInt 6))]. split.
  - eapply works_step; [eapply works_step; [eapply works_step; [apply works_refl|]|]|].
    + apply (work_slot f [Todo (DInt 1); Todo (DInt 2)] (DInt 3) []).
    + apply (work_slot f [] (DInt 1) [Todo (DInt 2); Mapped (Some (DInt 6))]).
    + apply (work_slot f [Mapped (Some (DInt 2))] (DInt 2) [Mapped (Some (DInt 6))]).
  - apply (returns_all [Mapped (Some (DInt 2)); Mapped (Some (DInt 4)); Mapped (Some (DInt 6))]).
    + intros x [<-|[<-|[<-|[]]]]; reflexivity.
    + intros d e [H|[H|[H|[]]]]; discriminate.
Qed.
