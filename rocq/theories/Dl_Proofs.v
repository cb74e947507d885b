From Coq Require Import List Bool Arith Lia.
Import ListNotations.
From Verif Require Import Dl_Model Dl_Spec.

Section P.
  Context {name byte : Type}.
  Variable name_dec : forall a b : name, {a = b} + {a <> b}.
  Variable file : name.
  Variable good : list byte.
  Variable archive : name -> list byte -> option (option (@dir name byte)).
  Hypothesis archive_names : forall l, archive file good = Some (Some l) -> NoDup (map fst l).
  Notation dir := (@dir name byte).
  Notation put := (put name_dec).
  Notation without := (without name_dec).
  Notation step := (step name_dec file good archive).
  Notation reach := (reach name_dec file good archive).
  Notation expected := (expected file good archive).
  Notation complete := (complete file good archive).

  Lemma in_without n (d : dir) e : In e (without n d) <-> In e d /\ fst e <> n.
  Proof. unfold without. rewrite filter_In. destruct (name_dec (fst e) n); split; intros (H1 & H2); split; auto; congruence. Qed.
  Lemma in_put n c (d : dir) e : In e (put n c d) <-> e = (n, c) \/ In e d /\ fst e <> n.
  Proof. unfold put. cbn. rewrite in_without. split; intros [H|H]; auto. Qed.
  Lemma nodup_without n (d : dir) : NoDup (map fst d) -> NoDup (map fst (without n d)).
  Proof.
    induction d as [|e d IH]; cbn; intros N; [constructor|]. inversion N as [|? ? N1 N2]; subst. destruct (name_dec (fst e) n); [auto|]. cbn. constructor; [|auto].
    intros I0. apply in_map_iff in I0 as (e' & E & I1). apply in_without in I1 as (I1 & _). apply N1. rewrite <- E. apply in_map. exact I1.
  Qed.
  Lemma nodup_put n c (d : dir) : NoDup (map fst d) -> NoDup (map fst (put n c d)).
  Proof.
    intros N. cbn. constructor; [|apply nodup_without, N]. intros I0. apply in_map_iff in I0 as (e' & E & I1). apply in_without in I1 as (_ & X). exact (X E).
  Qed.
  Lemma nodup_expected : NoDup (map fst expected).
  Proof. unfold Dl_Spec.expected. destruct (archive file good) as [[l|]|] eqn:E; [exact (archive_names l eq_refl)| |]; repeat constructor; intros []. Qed.
  Lemma nodup_inj (d : dir) n c c' : NoDup (map fst d) -> In (n, c) d -> In (n, c') d -> c = c'.
  Proof.
    induction d as [|e d IH]; intros N I1 I2; [destruct I1|]. inversion N as [|? ? N1 N2]; subst. destruct I1 as [->|I1], I2 as [E|I2].
    - congruence.
    - exfalso. apply N1. apply (in_map fst) in I2. exact I2.
    - subst e. exfalso. apply N1. apply (in_map fst) in I1. exact I1.
    - eauto.
  Qed.

  (** An asset of which a part has been extracted *)
  Definition part (d : dir) : Prop := NoDup (map fst d) /\ forall n c, In (n, c) d -> exists c', In (n, c') expected /\ (c = c' \/ c = []).
  Lemma part_nil : part []. Proof. split; [constructor|]. intros n c []. Qed.
  Lemma part_put n c c' d : part d -> In (n, c') expected -> c = c' \/ c = [] -> part (put n c d).
  Proof.
    intros (N & P) I0 H. split; [apply nodup_put, N|]. intros m b I1. apply in_put in I1 as [E|(I1 & _)]; [|auto]. injection E as -> ->. eauto.
  Qed.
  Lemma part_all d : part d -> (forall e, In e expected -> In e d) -> complete d.
  Proof.
    intros (N & P) A. split; [exact N|]. intros [n c]. split; [|apply A]. intros I0. destruct (P n c I0) as (c' & I1 & _).
    rewrite (nodup_inj d n c c' N I0 (A _ I1)). exact I1.
  Qed.

  Definition only_file (d : dir) : Prop := forall e, In e d -> fst e = file.
  Definition ok_tmp (T : option dir) : Prop := match T with Some d => only_file d /\ NoDup (map fst d) | None => True end.
  Definition ok_download (D : option dir) : Prop := D = None \/ D = Some [] \/ D = Some [(file, good)].
  Definition settled (A D : option dir) : Prop :=
    match D with
    | Some (_ :: _) => match A with Some d => part d | None => True end
    | _ => match A with Some d => d = [] \/ complete d | None => True end
    end.
  Definition inv (s : @state name byte) : Prop :=
    let '(FS A D T, p) := s in
    ok_download D /\
    match p with
    | Idle | Check | Retrieve true => settled A D /\ ok_tmp T
    | CleanA => ok_tmp T
    | CleanD | CleanT => A = None /\ ok_tmp T
    | MkTmp => A = None /\ D = None /\ ok_tmp T
    | Open => A = None /\ D = None /\ ok_tmp T /\ T <> None
    | Write t k => A = None /\ D = None /\ t <> file /\ exists d, T = Some d /\ NoDup (map fst d) /\ In (t, firstn k good) d /\ forall e, In e d -> fst e = t \/ fst e = file
    | Full t => A = None /\ D = None /\ t <> file /\ exists d, T = Some d /\ NoDup (map fst d) /\ In (t, good) d /\ forall e, In e d -> fst e = t \/ fst e = file
    | Named => A = None /\ D = None /\ T = Some [(file, good)]
    | Undo => A = None /\ D = None
    | Ensure => settled A D /\ ok_tmp T /\ (A <> None \/ D <> None)
    | Pick => settled A D /\ ok_tmp T /\ A <> None
    | Extract e l => e = file /\ D = Some [(file, good)] /\ ok_tmp T /\
        exists d full fin, A = Some d /\ part d /\ archive file good = Some (Some full) /\ full = fin ++ l /\ forall x, In x fin -> In x d
    | RmD => D = Some [] /\ ok_tmp T /\ exists d, A = Some d /\ complete d
    | Retrieve false => settled A D /\ ok_tmp T /\ (D = None \/ D = Some [])
    end.

  Lemma ok_tmp_del a e b : ok_tmp (Some (a ++ e :: b)) -> ok_tmp (Some (a ++ b)).
  Proof.
    intros (O & N). split.
    - intros x I0. apply O. apply in_or_app. apply in_app_or in I0 as [I0|I0]; [left|right; right]; exact I0.
    - rewrite map_app in *. apply NoDup_remove_1 in N. exact N.
  Qed.
  Lemma ok_download_del a e b : ok_download (Some (a ++ e :: b)) -> ok_download (Some (a ++ b)).
  Proof.
    intros [H|[H|H]]; [discriminate|destruct a; discriminate|]. injection H as H. destruct a as [|x a]; cbn in *.
    - injection H as -> ->. right; left; reflexivity.
    - injection H as -> H. destruct a; discriminate.
  Qed.
  Lemma settled_none_none : settled None None. Proof. exact I. Qed.
  Lemma only_one (d : dir) t : NoDup (map fst d) -> (forall e, In e d -> fst e = t) -> d = [] \/ exists c, d = [(t, c)].
  Proof.
    intros N O. destruct d as [|[n c] d]; [auto|]. right. exists c. pose proof (O _ (or_introl eq_refl)) as E. cbn in E. subst n.
    destruct d as [|[m b] d]; [reflexivity|]. exfalso. inversion N as [|? ? N1 N2]; subst. apply N1. pose proof (O _ (or_intror (or_introl eq_refl))) as E. cbn in E. left. exact E.
  Qed.

  Lemma inv_step s o s' : inv s -> step s o s' -> (forall l, o = Some l -> no_leftover l) -> inv s'.
  Proof.
    intros J H Sf. destruct H; try (destruct x as [A D T]); cbn in J |- *.
    - exact J.
    - destruct J as (J1 & _ & J3). auto.
    - exact J.
    - exact J.
    - destruct J as (J1 & J2). auto.
    - destruct J as (J1 & J2). split; [eapply ok_download_del; exact J1|exact J2].
    - destruct J as (J1 & J2 & J3). split; [left; reflexivity|auto].
    - destruct J as (J1 & J2 & J3). split; [exact J1|]. split; [exact J2|]. eapply ok_tmp_del; exact J3.
    - destruct J as (J1 & -> & J3). split; [exact J1|]. split; [|exact I]. destruct J1 as [-> | [-> | ->]]; exact I.
    - destruct J as (J1 & J2 & J3). auto.
    - destruct J as (J1 & J2 & J3). auto.
    - destruct J as (J1 & -> & -> & J3). split; [exact J1|]. split; [reflexivity|]. split; [reflexivity|]. split; [|discriminate].
      destruct T; [exact J3|]. split; [intros e []|constructor].
    - destruct J as (J1 & -> & -> & J3). auto.
    - destruct J as (J1 & -> & -> & (O & N) & _). split; [exact J1|]. split; [reflexivity|]. split; [reflexivity|]. split; [exact H0|]. exists (put t [] T).
      split; [reflexivity|]. split; [apply nodup_put, N|]. split; [cbn; left; reflexivity|]. intros e I0. apply in_put in I0 as [->|(I0 & _)]; [left; reflexivity|right; auto].
    - destruct J as (J1 & -> & -> & J4 & d & E & N & I0 & O). injection E as <-. split; [exact J1|]. split; [reflexivity|]. split; [reflexivity|]. split; [exact J4|].
      exists (put t (firstn k' good) T). split; [reflexivity|]. split; [apply nodup_put, N|]. split; [apply in_put; left; reflexivity|].
      intros e I1. apply in_put in I1 as [->|(I1 & _)]; [left; reflexivity|auto].
    - destruct J as (J1 & -> & -> & _). auto.
    - destruct J as (J1 & -> & -> & J4 & d & E & N & I0 & O). subst k. rewrite firstn_all in I0. split; [exact J1|]. split; [reflexivity|]. split; [reflexivity|]. split; [exact J4|]. exists d. auto.
    - destruct J as (J1 & -> & -> & J4 & d & E & N & I0 & O). injection E as <-. split; [exact J1|]. split; [reflexivity|]. split; [reflexivity|].
      assert (c = good) as -> by (eapply nodup_inj; eauto). f_equal. unfold put. f_equal.
      destruct (without file (without t T)) as [|x l] eqn:E; [reflexivity|]. assert (I1 : In x (without file (without t T))) by (rewrite E; left; reflexivity).
      apply in_without in I1 as (I1 & X1). apply in_without in I1 as (I1 & X2). destruct (O x I1); contradiction.
    - destruct J as (J1 & -> & -> & ->). split; [right; right; reflexivity|]. split; [exact I|]. split; [exact I|]. right; discriminate.
    - exact J.
    - destruct J as (J1 & -> & ->). split; [exact J1|]. split; [exact I|exact I].
    - exfalso. exact (Sf _ eq_refl).
    - destruct J as (J1 & J2 & J3 & J4). split; [exact J1|]. split; [exact J2|]. split; [exact J3|left; reflexivity].
    - destruct J as (J1 & J2 & J3 & J4). split; [exact J1|]. split; [|split; [exact J3|discriminate]]. destruct A as [A|]; [exact J2|]. destruct D; cbn; [left; reflexivity|apply part_nil].
    - destruct J as (J1 & J2 & J3 & J4). auto.
    - destruct J as (J1 & J2 & J3 & J4). destruct J1 as [J1|[J1|J1]]; try discriminate; injection J1 as ->; [destruct H|]. destruct H as [E|[]]. injection E as <- <-.
      assert (W : without file [(file, good)] = []) by (cbn; destruct (name_dec file file); congruence). rewrite W. split; [right; left; reflexivity|]. split; [reflexivity|]. split; [exact J3|].
      exists (put file good A). split; [reflexivity|]. cbn in J2. assert (Ex : expected = [(file, good)]) by (unfold Dl_Spec.expected; rewrite H0; reflexivity).
      apply part_all; [eapply part_put; [exact J2|rewrite Ex; left; reflexivity|auto]|]. rewrite Ex. intros e [<-|[]]. apply in_put. left; reflexivity.
    - destruct J as (J1 & J2 & J3 & J4). auto.
    - destruct J as (J1 & J2 & J3 & J4). destruct J1 as [J1|[J1|J1]]; try discriminate; injection J1 as ->; [destruct H|]. destruct H as [E|[]]. injection E as <- <-.
      split; [right; right; reflexivity|]. split; [reflexivity|]. split; [reflexivity|]. split; [exact J3|]. cbn in J2.
      destruct A as [A|]; [|congruence]. exists A, l, []. split; [reflexivity|]. split; [exact J2|]. split; [exact H0|]. split; [reflexivity|]. intros x [].
    - destruct J as (J1 & -> & -> & J4 & d & full & fin & E & P & Ea & Ef & F). injection E as <-. split; [exact J1|]. split; [reflexivity|]. split; [reflexivity|]. split; [exact J4|].
      assert (Im : In (m, c) expected) by (unfold Dl_Spec.expected; rewrite Ea, Ef; apply in_or_app; right; left; reflexivity).
      exists (put m [] A), full, fin. split; [reflexivity|]. split; [eapply part_put; [exact P|exact Im|auto]|]. split; [exact Ea|]. split; [exact Ef|].
      intros x I0. apply in_put. right. split; [auto|]. pose proof (archive_names full Ea) as N. rewrite Ef, map_app in N. cbn in N. apply NoDup_remove_2 in N. intros E. apply N. apply in_or_app. left. rewrite <- E. apply in_map. exact I0.
    - destruct J as (J1 & -> & -> & J4 & d & full & fin & E & P & Ea & Ef & F). injection E as <-. split; [exact J1|]. split; [reflexivity|]. split; [reflexivity|]. split; [exact J4|].
      assert (Im : In (m, c) expected) by (unfold Dl_Spec.expected; rewrite Ea, Ef; apply in_or_app; right; left; reflexivity).
      exists (put m c A), full, (fin ++ [(m, c)]). split; [reflexivity|]. split; [eapply part_put; [exact P|exact Im|auto]|]. split; [exact Ea|]. split; [rewrite <- app_assoc; exact Ef|].
      intros x I0. apply in_put. apply in_app_or in I0 as [I0|[<-|[]]]; [|left; reflexivity]. right. split; [auto|].
      pose proof (archive_names full Ea) as N. rewrite Ef, map_app in N. cbn in N. apply NoDup_remove_2 in N. intros E. apply N. apply in_or_app. left. rewrite <- E. apply in_map. exact I0.
    - destruct J as (J1 & -> & -> & J4 & d & full & fin & E & P & Ea & Ef & F). subst A. split; [exact J1|]. split; [exact P|exact J4].
    - destruct J as (J1 & -> & E0 & J4 & d & full & fin & E & P & Ea & Ef & F). injection E0 as ->. subst A.
      assert (W : without file [(file, good)] = []) by (cbn; destruct (name_dec file file); congruence). rewrite W. split; [right; left; reflexivity|]. split; [reflexivity|]. split; [exact J4|].
      exists d. split; [reflexivity|]. apply part_all; [exact P|]. unfold Dl_Spec.expected. rewrite Ea, Ef, app_nil_r. exact F.
    - destruct J as (J1 & E & _). destruct a; discriminate.
    - destruct J as (J1 & _ & J3 & d & -> & C). split; [left; reflexivity|]. split; [right; exact C|]. split; [exact J3|left; reflexivity].
    - destruct J as (J1 & J2). split; [exact J1|]. destruct b; [|destruct J2 as (J2 & J3 & _)]; auto.
    - destruct J as (J1 & J2). split; [exact J1|]. destruct b; [|destruct J2 as (J2 & J3 & _)]; auto.
    - destruct J as (J1 & J2). split; [exact J1|]. destruct b; [|destruct J2 as (J2 & J3 & _)]; auto.
    - specialize (Sf _ eq_refl). destruct J as (J1 & J2). split; [exact J1|]. destruct p; cbn in Sf; try contradiction; try tauto.
      + destruct J2 as (-> & J3). split; [|exact J3]. destruct D as [[|? ?]|]; exact I.
      + destruct J2 as (-> & J3). split; [|exact J3]. destruct D as [[|? ?]|]; exact I.
      + destruct J2 as (-> & -> & J3). split; [exact I|exact J3].
      + destruct J2 as (-> & -> & J3 & _). split; [exact I|exact J3].
      + destruct J2 as (-> & -> & ->). split; [exact I|]. split; [intros e [<-|[]]; reflexivity|]. repeat constructor. intros [].
      + destruct J2 as (-> & -> & J4 & d & full & fin & -> & P & _). split; [exact P|exact J4].
      + destruct J2 as (-> & J4 & d & -> & C). split; [right; exact C|exact J4].
      + destruct local_only; tauto.
  Qed.

  Lemma inv_empty : inv empty. Proof. cbn. repeat split. left; reflexivity. Qed.
  Lemma inv_reach s0 tr s : inv s0 -> reach s0 tr s -> Forall no_leftover tr -> inv s.
  Proof.
    intros J R. induction R as [|tr s o s' R IH H]; intros F; [exact J|]. apply Forall_app in F as (F1 & F2). eapply inv_step; [exact (IH F1)|exact H|].
    intros l ->. inversion F2; assumption.
  Qed.

  (** Calls without local_only *)
  Lemma returned_complete s d s' : inv s -> step s (Some (Returned false d)) s' -> complete d.
  Proof.
    intros J H. inversion H; subst. cbn in J. destruct J as (J1 & J2 & J3 & [-> | ->]); cbn in J2; destruct J2 as [J2|J2]; try discriminate; exact J2.
  Qed.
  Lemma returned_in s0 tr s d : inv s0 -> reach s0 tr s -> Forall no_leftover tr -> In (Returned false d) tr -> complete d.
  Proof.
    intros J R. induction R as [|tr s o s' R IH H]; intros F I0; [destruct I0|]. apply Forall_app in F as (F1 & F2). apply in_app_or in I0 as [I0|I0]; [auto|].
    destruct o as [l|]; [|destruct I0]. destruct I0 as [->|[]]. eapply returned_complete; [eapply inv_reach; eauto|exact H].
  Qed.

  (** Calls with local_only, when no extraction was interrupted *)
  Definition inv2 (s : @state name byte) : Prop :=
    let '(FS A D T, p) := s in match p with Extract _ _ | CleanA => True | _ => match D with Some (_ :: _) => A = None \/ A = Some [] | _ => True end end.
  Lemma inv2_step s o s' : inv s -> inv2 s -> step s o s' -> (forall l, o = Some l -> no_interrupted l /\ no_leftover l) -> inv2 s'.
  Proof.
    intros J K H Sf. destruct H; try (destruct x as [A D T]); cbn in J, K |- *; auto.
    all: try (destruct (proj2 (Sf _ eq_refl)); fail). all: try (destruct (proj1 (Sf _ eq_refl)); fail).
    - destruct D as [[|? ?]|]; auto.
    - destruct J as (J1 & -> & J3). destruct (a ++ b); auto.
    - destruct J as (J1 & -> & -> & _). destruct T; [|exact I]. destruct d; auto.
    - destruct D as [|? ?]; auto. destruct K as [-> | ->]; cbn; auto.
    - destruct J as (J1 & J2 & J3 & J4). destruct J1 as [J1|[J1|J1]]; try discriminate; injection J1 as ->; [destruct H|]. destruct H as [E|[]]. injection E as <- <-.
      cbn. destruct (name_dec file file); [exact I|congruence].
    - destruct J as (J1 & -> & E0 & _). injection E0 as ->. cbn. destruct (name_dec file file); [exact I|congruence].
    - destruct J as (J1 & E & _). destruct a; discriminate.
    - destruct (Sf _ eq_refl) as (S1 & S2). destruct p; cbn in S1, S2; try contradiction; exact K.
  Qed.
  Lemma inv2_reach tr s : reach empty tr s -> Forall no_leftover tr -> Forall no_interrupted tr -> inv2 s.
  Proof.
    intros R. induction R as [|tr s o s' R IH H]; intros F G; [exact I|]. apply Forall_app in F as (F1 & F2). apply Forall_app in G as (G1 & G2).
    eapply inv2_step; [exact (inv_reach _ _ _ inv_empty R F1)|exact (IH F1 G1)|exact H|]. intros l ->. inversion F2; inversion G2; auto.
  Qed.
  Lemma local_complete s b d s' : inv s -> inv2 s -> step s (Some (Returned b d)) s' -> complete d.
  Proof.
    intros J K H. destruct b; [|eapply returned_complete; eauto]. inversion H; subst. cbn in J, K. destruct J as (J1 & J2 & J3).
    destruct D as [[|x D]|]; [|destruct K; discriminate|]; cbn in J2; destruct J2 as [J2|J2]; try discriminate; exact J2.
  Qed.

  (** force *)
  Definition inv3 (s : @state name byte) : Prop :=
    let '(FS A D T, p) := s in p = CleanA \/ p = CleanD /\ A = None \/ p = CleanT /\ A = None /\ D = None \/ inv s.
  Lemma inv3_step s o s' : inv3 s -> step s o s' -> (forall l, o = Some l -> no_crash l) -> inv3 s'.
  Proof.
    destruct s as [[A D T] p]. intros [->|[(-> & ->)|[(-> & -> & ->)|J]]] H Sf.
    - inversion H; subst; cbn; first [destruct (Sf _ eq_refl); fail|auto 7].
    - inversion H; subst; cbn; first [destruct (Sf _ eq_refl); fail|auto 7].
    - inversion H; subst; cbn [inv3]; try (destruct (Sf _ eq_refl); fail); [auto 7|]. right; right; right. cbn. repeat split. left; reflexivity.
    - destruct s' as [[A' D' T'] p']. right; right; right. eapply inv_step; [exact J|exact H|]. intros l ->. specialize (Sf l eq_refl). destruct l; cbn in *; auto; contradiction.
  Qed.
  Lemma force_complete x tr s d : reach (x, CleanA) tr s -> Forall no_crash tr -> In (Returned false d) tr -> complete d.
  Proof.
    assert (G : forall tr s, reach (x, CleanA) tr s -> Forall no_crash tr -> inv3 s).
    { clear tr s. intros tr s R. induction R as [|tr s o s' R IH H]; intros F; [destruct x; left; reflexivity|]. apply Forall_app in F as (F1 & F2).
      eapply inv3_step; [exact (IH F1)|exact H|]. intros l ->. inversion F2; assumption. }
    intros R. induction R as [|tr s o s' R IH H]; intros F I0; [destruct I0|]. apply Forall_app in F as (F1 & F2). apply in_app_or in I0 as [I0|I0]; [auto|].
    destruct o as [l|]; [|destruct I0]. destruct I0 as [->|[]]. pose proof (G _ _ R F1) as J. destruct s as [[A D T] p].
    destruct J as [->|[(-> & ->)|[(-> & -> & ->)|J]]]; try (inversion H; fail). eapply returned_complete; eauto.
  Qed.

  (** Requests *)
  Definition inv4 (s : @state name byte) : Prop :=
    let '(FS A D T, p) := s in match p with MkTmp | Open | Write _ _ | Full _ | Named | Undo => A = None /\ D = None | _ => True end.
  Lemma inv4_reach tr s : reach empty tr s -> inv4 s.
  Proof.
    intros R. induction R as [|tr s o s' R IH H]; [exact I|]. destruct H; try (destruct x as [A D T]); cbn in *; auto.
  Qed.
End P.
