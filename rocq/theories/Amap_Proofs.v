From Coq Require Import List Bool Arith Lia Permutation.
Import ListNotations.
From Verif Require Import Amap_Model Amap_Spec.

Section P.
  Context {A B : Type}.
  Variable src : nat -> option A.
  Variable f : A -> option B.
  Variable n : nat.
  Notation state := (state A B).
  Notation step := (step src f n).
  Notation reach := (reach src f n).

  Definition running (l : list (task A)) : list A := flat_map (fun t => match t with Run x => [x] | _ => [] end) l.
  Definition inflight (l : list (task A)) : nat := length (flat_map (fun t => match t with Notify => [] | _ => [tt] end) l).
  Definition decrs (l : list (task A)) : nat := length (flat_map (fun t => match t with Decr => [tt] | _ => [] end) l).
  Lemma running_app a b : running (a ++ b) = running a ++ running b. Proof. apply flat_map_app. Qed.
  Lemma inflight_app a b : inflight (a ++ b) = inflight a + inflight b. Proof. unfold inflight. rewrite flat_map_app, app_length. reflexivity. Qed.
  Lemma decrs_app a b : decrs (a ++ b) = decrs a + decrs b. Proof. unfold decrs. rewrite flat_map_app, app_length. reflexivity. Qed.
  Lemma inflight_cons t b : inflight (t :: b) = match t with Notify => 0 | _ => 1 end + inflight b. Proof. destruct t; reflexivity. Qed.
  Lemma decrs_cons t b : decrs (t :: b) = match t with Decr => 1 | _ => 0 end + decrs b. Proof. destruct t; reflexivity. Qed.
  Lemma running_cons t b : running (t :: b) = match t with Run x => [x] | _ => [] end ++ running b. Proof. destruct t; reflexivity. Qed.
  Lemma inflight_split l : inflight l = length (running l) + decrs l.
  Proof. induction l as [|t l IH]; [reflexivity|]. rewrite inflight_cons, decrs_cons, running_cons, app_length, IH. destruct t; cbn; lia. Qed.

  Lemma items_S p q x : p <= q -> src q = Some x -> items src p (S q) = items src p q ++ [x].
  Proof.
    intros L E. unfold items. rewrite Nat.sub_succ_l by lia. rewrite seq_S, flat_map_app. replace (p + (q - p)) with q by lia. cbn. rewrite E. reflexivity.
  Qed.
  Lemma items_self p : items src p p = []. Proof. unfold items. rewrite Nat.sub_diag. reflexivity. Qed.
  Lemma items_app p q r : p <= q -> q <= r -> items src p r = items src p q ++ items src q r.
  Proof. intros L1 L2. unfold items. rewrite <- flat_map_app. replace (r - p) with ((q - p) + (r - q)) by lia. rewrite seq_app. do 3 f_equal. lia. Qed.

  Local Arguments items : simpl never.
  Local Arguments inflight : simpl never.
  Local Arguments running : simpl never.
  Local Arguments decrs : simpl never.
  Local Arguments delivered : simpl never.
  (** The invariant of every schedule *)
  Record inv (p0 : nat) (q0 : list B) (tr : list (event B)) (s : state) : Prop := {
    i_pos : p0 <= pos s;
    i_all : forall i, p0 <= i < pos s -> src i <> None;
    i_bag : exists done, map Some (out s ++ queue s) = map Some q0 ++ map f done /\ Permutation (done ++ running (tasks s) ++ failed s) (items src p0 (pos s));
    i_failed : forall x, In x (failed s) -> f x = None;
    i_flight : flight s = inflight (tasks s);
    i_finished : finished s = true -> src (pos s) = None;
    i_exc : exc s = true <-> failed s <> [];
    i_test2 : at_ s = Test2 -> finished s = true /\ flight s = 0;
    i_bound : flight s <= n;
    i_fill : forall i, at_ s = Fill i -> flight s <= i /\ i <= n;
    i_out : out s = delivered tr }.

  Lemma inv_start p q : inv p q [] (start p q).
  Proof.
    constructor; cbn; try lia; try (intros; discriminate); try (intros; contradiction); try reflexivity; try tauto.
    - exists []. rewrite items_self, app_nil_r. split; [reflexivity|constructor].
    - split; [discriminate|congruence].
  Qed.

  Lemma delivered_app (a b : list (event B)) : delivered (a ++ b) = delivered a ++ delivered b. Proof. apply flat_map_app. Qed.

  Lemma inv_go p q tr s c :
    inv p q tr s -> (c = Test2 -> finished s = true /\ flight s = 0) -> (forall i, c = Fill i -> flight s <= i /\ i <= n) -> inv p q tr (go s c).
  Proof. intros I H1 H2. destruct I. constructor; cbn; auto. Qed.

  Lemma inv_ext p q tr tr' s : inv p q tr s -> delivered tr = delivered tr' -> inv p q tr' s.
  Proof. intros I E. destruct I. constructor; auto. congruence. Qed.

  Lemma inv_step p q tr s o s' : inv p q tr s -> step s o s' -> inv p q (tr ++ match o with Some e => [e] | None => [] end) s'.
  Proof.
    intros I H. destruct H; try rewrite app_nil_r.
    - apply inv_go; [exact I|congruence|]. intros i E. injection E as <-. destruct I. lia.
    - destruct I as [ip ia (done & E1 & E2) iff ifl ifi ie i2 ib ii io]. destruct (ii _ H). constructor; cbn.
      + lia.
      + intros j L. destruct (Nat.eq_dec j (pos s)) as [->|N]; [congruence|apply ia; lia].
      + exists done. split; [exact E1|]. rewrite (items_S _ _ _ ip H1), running_app, running_cons. transitivity ((done ++ running (tasks s) ++ failed s) ++ [x]).
        * rewrite <- !app_assoc. do 2 apply Permutation_app_head. cbn. apply Permutation_cons_append.
        * apply Permutation_app_tail, E2.
      + exact iff.
      + rewrite inflight_app, inflight_cons, ifl. unfold inflight at 3. cbn. lia.
      + intros F. specialize (ifi F). congruence.
      + exact ie.
      + discriminate.
      + lia.
      + intros j E. injection E as <-. lia.
      + exact io.
    - destruct I. constructor; cbn; auto; try discriminate.
    - apply inv_go; [exact I|discriminate|discriminate].
    - apply inv_go; [exact I|discriminate|discriminate].
    - apply inv_go; [exact I|auto|discriminate].
    - apply inv_go; [exact I|discriminate|discriminate].
    - apply inv_go; [|discriminate|discriminate]. eapply inv_ext; [exact I|]. rewrite delivered_app. cbn. rewrite app_nil_r. reflexivity.
    - apply inv_go; [|discriminate|discriminate]. eapply inv_ext; [exact I|]. rewrite delivered_app. cbn. rewrite app_nil_r. reflexivity.
    - destruct I as [ip ia (done & E1 & E2) iff ifl ifi ie i2 ib ii io]. constructor; cbn; auto; try discriminate.
      + exists done. split; [|exact E2]. rewrite <- app_assoc. cbn. rewrite H1 in E1. exact E1.
      + rewrite delivered_app, io. reflexivity.
    - apply inv_go; [exact I|discriminate|discriminate].
    - apply inv_go; [exact I|discriminate|discriminate].
    - apply inv_go; [|discriminate|discriminate]. eapply inv_ext; [exact I|]. rewrite delivered_app. cbn. rewrite app_nil_r. reflexivity.
    - apply inv_go; [|discriminate|discriminate]. eapply inv_ext; [exact I|]. rewrite delivered_app. cbn. rewrite app_nil_r. reflexivity.
    - apply inv_go; [exact I|discriminate|discriminate].
    - apply inv_go; [exact I|discriminate|discriminate].
    - destruct I as [ip ia (done & E1 & E2) iff ifl ifi ie i2 ib ii io]. constructor; cbn; auto.
      + exists (done ++ [x]). split.
        * rewrite app_assoc, map_app, E1, map_app. cbn. rewrite H0, <- app_assoc. reflexivity.
        * rewrite <- E2, H. rewrite !running_app, !running_cons. cbn. rewrite <- !app_assoc. apply Permutation_app_head. cbn.
          apply Permutation_middle.
      + rewrite ifl, H, !inflight_app, !inflight_cons. reflexivity.
    - destruct I as [ip ia (done & E1 & E2) iff ifl ifi ie i2 ib ii io]. constructor; cbn; auto.
      + exists done. split; [exact E1|]. rewrite <- E2, H. rewrite !running_app, !running_cons. cbn. apply Permutation_app_head. rewrite <- !app_assoc. apply Permutation_app_head. cbn.
        rewrite app_assoc. symmetry. apply Permutation_cons_append.
      + intros z I0. apply in_app_or in I0 as [I0|[<-|[]]]; auto.
      + rewrite ifl, H, !inflight_app, !inflight_cons. reflexivity.
      + split; [|reflexivity]. intros _ E. destruct (failed s); discriminate.
    - assert (Ei : inflight (tasks s) = S (inflight (a ++ Notify :: b))) by (rewrite H, !inflight_app, !inflight_cons; lia).
      destruct I as [ip ia (done & E1 & E2) iff ifl ifi ie i2 ib ii io]. constructor; cbn; auto; try lia.
      + exists done. split; [exact E1|]. rewrite <- E2, H. rewrite !running_app, !running_cons. cbn. apply Permutation_refl.
      + intros E. destruct (i2 E). split; [auto|lia].
      + intros i E. destruct (ii i E). lia.
    - assert (W2 : woken (at_ s) = Test2 -> at_ s = Test2) by (destruct (at_ s); cbn; congruence).
      assert (W3 : forall i, woken (at_ s) = Fill i -> at_ s = Fill i) by (intros i; destruct (at_ s); cbn; congruence).
      destruct I as [ip ia (done & E1 & E2) iff ifl ifi ie i2 ib ii io]. constructor; cbn; auto.
      + exists done. split; [exact E1|]. rewrite <- E2, H. rewrite !running_app, !running_cons. cbn. apply Permutation_refl.
      + rewrite ifl, H, !inflight_app, !inflight_cons. reflexivity.
  Qed.

  Lemma inv_spurious p q tr s s' : inv p q tr s -> spurious s s' -> inv p q tr s'.
  Proof. intros I H. destruct H; apply inv_go; (exact I || discriminate). Qed.

  Lemma inv_reach p q tr s : reach (start p q) tr s -> inv p q tr s.
  Proof.
    intros R. remember (start p q) as s0. induction R as [|tr s o s' R IH H|tr s s' R IH H]; subst.
    - apply inv_start.
    - eapply inv_step; eauto.
    - eapply inv_spurious; eauto.
  Qed.
End P.
