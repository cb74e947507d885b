From Coq Require Import List Bool Arith Lia.
From Verif Require Import Reader_Model Reader_Spec.
Import ListNotations.

Section Proofs.
  Variable P : pipe.
  Variable c : config.
  Notation rank := (rank P).
  Definition aligned (e : bool) (w : list rank) : Prop := Forall (fun r => eod r = e) w.

  Lemma fetch_upcoming : never_fails P -> forall n s, exists bs s', fetch P n s = (Some bs, s') /\ upcoming P n s bs s'.
  Proof.
    intros HN. induction n as [|n IH]; intros s; simpl; [exists [], s; split; [reflexivity|constructor]|].
    pose proof (HN s) as HF. destruct (pnext P s) as [[b| |] s1] eqn:E; simpl in HF; [|exists [], s1; split; [reflexivity|constructor; assumption]|congruence].
    destruct (IH s1) as (bs & s2 & -> & HU). exists (b :: bs), s2. split; [reflexivity|]. econstructor; eauto.
  Qed.
  Lemma upcoming_length n s bs s' : upcoming P n s bs s' -> length bs <= n.
  Proof. induction 1; simpl; lia. Qed.
  Lemma upcoming_fun n : forall s b1 s1 b2 s2, upcoming P n s b1 s1 -> upcoming P n s b2 s2 -> b1 = b2 /\ s1 = s2.
  Proof.
    induction n as [|n IH]; intros s b1 s1 b2 s2 H1 H2.
    - inversion H1; inversion H2; subst; auto.
    - inversion H1 as [|? ? ? E1|? ? b t1 bs t2 E1 U1]; inversion H2 as [|? ? ? E2|? ? b' t1' bs' t2' E2 U2]; subst; rewrite E1 in E2; try discriminate; injection E2 as; subst; auto.
      destruct (IH _ _ _ _ _ U1 U2) as [-> ->]. auto.
  Qed.
  Lemma drop_contribution bs : drop P c bs = contribution c bs.
  Proof. unfold drop, contribution. destruct (drop_remainder c), (length bs =? num_accumulate c); reflexivity. Qed.
  Lemma read_one : never_fails P -> forall r, eod r = false -> exists x, local_read P c r = LRead P (fst x) (snd x) /\ reads P c r x.
  Proof.
    intros HN r HE. unfold local_read. rewrite HE. destruct (fetch_upcoming HN (num_accumulate c) (ps r)) as (bs & s & -> & HU).
    exists (drop P c bs, s). split; [reflexivity|]. exists bs. rewrite <- drop_contribution. auto.
  Qed.
  Lemma read_all : never_fails P -> forall w, aligned false w -> exists l, all_read P (map (local_read P c) w) = Some l /\ Forall2 (reads P c) w l.
  Proof.
    intros HN. induction 1 as [|r w HE HW IH]; [exists []; split; [reflexivity|constructor]|]. destruct IH as (l & EL & HF).
    destruct (read_one HN r HE) as (x & EX & HX). exists (x :: l). simpl. rewrite EX, EL. destruct x. split; [reflexivity|constructor; assumption].
  Qed.
  Lemma aligned_stop w h : aligned true w -> map (alone P c h) w = map (fun r => (r, Stop)) w.
  Proof. intros H. apply map_ext_in. intros r Hr. unfold aligned in H. rewrite Forall_forall in H. unfold alone, local_read. rewrite (H r Hr). reflexivity. Qed.
  Lemma next_stop w : aligned true w -> next_all P c w = map (fun r => (r, Stop)) w.
  Proof.
    intros H. unfold next_all. destruct (sync c && negb (length w <=? 1)) eqn:E; [|apply aligned_stop; assumption].
    destruct w as [|r w]; [rewrite andb_comm in E; discriminate|]. assert (H2 : eod r = true) by (inversion H; assumption).
    assert (E2 : all_read P (map (local_read P c) (r :: w)) = None) by (simpl; unfold local_read at 1; rewrite H2; reflexivity). rewrite E2. apply aligned_stop. assumption.
  Qed.

  (** *** Minimum and sum *)
  Lemma fold_min l : forall x, (fold_left Nat.min l x <= x /\ forall y, In y l -> fold_left Nat.min l x <= y) /\ (fold_left Nat.min l x = x \/ In (fold_left Nat.min l x) l).
  Proof.
    induction l as [|n l IH]; intros x; simpl; [split; [split; [lia|intros ? []]|auto]|]. destruct (IH (Nat.min x n)) as ((H1 & H2) & H3). split; [split; [lia|]|].
    - intros y [->|Hy]; [lia|auto].
    - destruct H3 as [H3|H3]; [|auto]. rewrite H3. destruct (Nat.min_spec x n) as [[? ->]|[? ->]]; auto.
  Qed.
  Lemma list_min_spec l : l <> [] -> In (list_min l) l /\ forall y, In y l -> list_min l <= y.
  Proof.
    destruct l as [|x l]; [congruence|]. intros _. unfold list_min. destruct (fold_min l x) as ((H1 & H2) & H3). split; [destruct H3; simpl; auto|].
    intros y [->|Hy]; [assumption|auto].
  Qed.
  Lemma fold_add l : forall x, fold_left Nat.add l x = x + fold_right Nat.add 0 l.
  Proof. induction l; intros; simpl; [lia|]. rewrite IHl. lia. Qed.
  Lemma list_sum_zero l : list_sum l = 0 <-> Forall (fun n => n = 0) l.
  Proof. unfold list_sum. rewrite fold_add. simpl. induction l as [|n l IH]; simpl; [split; auto|]. split; [intros; constructor; [lia|apply IH; lia]|intros H; inversion H; subst; apply IH in H3; lia]. Qed.

  Lemma step_length w o : good_op (length w) o -> length (fst (step P c w o)) = length w.
  Proof.
    destruct o as [| |l]; simpl; intros H; [|apply map_length|rewrite map_length, combine_length, H; lia].
    rewrite map_length. unfold next_all. destruct (sync c && _); [|apply map_length]. destruct (all_read P (map (local_read P c) w)) as [l|] eqn:E; [|apply map_length].
    assert (length l = length w). { clear - E. revert l E. induction w as [|r w IH]; intros l E; simpl in E; [injection E as <-; reflexivity|]. destruct (local_read P c r); try discriminate. destruct (all_read P (map (local_read P c) w)); [|discriminate]. injection E as <-. simpl. f_equal. apply IH. reflexivity. }
    destruct (until_last c); rewrite map_length; assumption.
  Qed.

  (** *** One call, all ranks together *)
  Lemma alone_finish w l : Forall2 (reads P c) w l -> aligned false w -> never_fails P -> length w <= 1 ->
    map (alone P c false) w = map (fun x => finish P (length (fst x)) (fst x) (snd x)) l.
  Proof.
    intros HF HA HN HL. destruct HF as [|r x w l HX HF]; [reflexivity|]. destruct HF; [|simpl in HL; lia]. inversion HA; subst. simpl. f_equal. unfold alone.
    unfold local_read. rewrite H1. destruct HX as (bs & HU & HE). destruct (fetch_upcoming HN (num_accumulate c) (ps r)) as (bs' & s' & -> & HU').
    assert (bs' = bs /\ s' = snd x) as [-> ->].
    { exact (upcoming_fun _ _ _ _ _ _ HU' HU). }
    rewrite drop_contribution, <- HE. reflexivity.
  Qed.

  Lemma next_first w : never_fails P -> sync c = true -> until_last c = false -> aligned false w -> exists l, Forall2 (reads P c) w l /\
    let n := list_min (map (fun x => length (fst x)) l) in
    (n = 0 /\ next_all P c w = map (fun x => (Rank (snd x) true, Stop)) l) \/
    (0 < n /\ next_all P c w = map (fun x => (Rank (snd x) false, Ret (firstn n (fst x)))) l).
  Proof.
    intros HN HS HU HA. destruct (read_all HN w HA) as (l & EL & HF). exists l. split; [assumption|]. cbv zeta.
    assert (E : next_all P c w = map (fun x => finish P (list_min (map (fun x => length (fst x)) l)) (firstn (list_min (map (fun x => length (fst x)) l)) (fst x)) (snd x)) l).
    { unfold next_all. rewrite HS. cbn [andb]. destruct (length w <=? 1) eqn:E1; cbn [negb].
      - apply Nat.leb_le in E1. rewrite (alone_finish w l) by assumption. destruct HF as [|r x w l HX HF]; [reflexivity|]. destruct HF; [|simpl in E1; lia]. simpl. rewrite firstn_all. reflexivity.
      - rewrite EL, HU. apply map_ext. intros x. f_equal. destruct (_ =? length (fst x)) eqn:E2; [|reflexivity]. apply Nat.eqb_eq in E2. rewrite E2, firstn_all. reflexivity. }
    rewrite E. unfold finish. destruct (list_min (map (fun x => length (fst x)) l)) as [|n]; [left|right; split; [lia|]]; simpl; auto.
  Qed.

  Lemma next_last w : never_fails P -> sync c = true -> until_last c = true -> aligned false w -> exists l, Forall2 (reads P c) w l /\
    ((Forall (fun x => fst x = []) l /\ next_all P c w = map (fun x => (Rank (snd x) true, Stop)) l) \/
     (Exists (fun x => fst x <> []) l /\ next_all P c w = map (fun x => (Rank (snd x) false, Ret (fst x))) l)).
  Proof.
    intros HN HS HU HA. destruct (read_all HN w HA) as (l & EL & HF). exists l. split; [assumption|].
    assert (E : next_all P c w = map (fun x => finish P (list_sum (map (fun x => length (fst x)) l)) (fst x) (snd x)) l).
    { unfold next_all. rewrite HS. cbn [andb]. destruct (length w <=? 1) eqn:E1; cbn [negb].
      - apply Nat.leb_le in E1. rewrite (alone_finish w l) by assumption. destruct HF as [|r x w l HX HF]; [reflexivity|]. destruct HF; [|simpl in E1; lia]. reflexivity.
      - rewrite EL, HU. reflexivity. }
    rewrite E. unfold finish. destruct (Nat.eq_dec (list_sum (map (fun x => length (fst x)) l)) 0) as [Z|Z].
    - left. rewrite Z. split; [|reflexivity]. apply list_sum_zero in Z. rewrite Forall_map in Z. eapply Forall_impl; [|exact Z]. simpl. intros x Hx. destruct (fst x); [reflexivity|discriminate].
    - right. apply Nat.eqb_neq in Z. rewrite Z. split; [|reflexivity]. apply Nat.eqb_neq in Z. destruct (Exists_dec (fun x : list (B P) * PS P => fst x <> []) l) as [H|H].
      + intros x. destruct (fst x); [right; congruence|left; discriminate].
      + assumption.
      + exfalso. apply Z. apply list_sum_zero. rewrite Forall_map. apply Forall_forall. intros x Hx. destruct (fst x) eqn:EX; [reflexivity|]. exfalso. apply H. apply Exists_exists. exists x. split; [assumption|congruence].
  Qed.

  (** *** Histories *)
  Lemma step_aligned w o e : never_fails P -> sync c = true -> good_op (length w) o -> aligned e w -> exists e', aligned e' (fst (step P c w o)) /\
    (o = Next -> e = true -> e' = true /\ snd (step P c w o) = map (fun _ => Stop) w).
  Proof.
    intros HN HS HG HA. destruct o as [| |l]; simpl.
    - destruct e.
      + exists true. rewrite (next_stop w HA), !map_map. cbn [fst snd]. rewrite map_id. auto.
      + destruct (until_last c) eqn:HU.
        * destruct (next_last w HN HS HU HA) as (l & HF & [[_ E]|[_ E]]); rewrite E, map_map; simpl; [exists true|exists false]; (split; [apply Forall_forall; intros r Hr; apply in_map_iff in Hr; destruct Hr as (x & <- & _); reflexivity|discriminate]).
        * destruct (next_first w HN HS HU HA) as (l & HF & [[_ E]|[_ E]]); rewrite E, map_map; simpl; [exists true|exists false]; (split; [apply Forall_forall; intros r Hr; apply in_map_iff in Hr; destruct Hr as (x & <- & _); reflexivity|discriminate]).
    - exists false. split; [|discriminate]. apply Forall_forall; intros r Hr; apply in_map_iff in Hr; destruct Hr as (x & <- & _); reflexivity.
    - exists false. split; [|discriminate]. apply Forall_forall; intros r Hr; apply in_map_iff in Hr; destruct Hr as (x & <- & _); reflexivity.
  Qed.
  Lemma run_aligned os : forall w e, never_fails P -> sync c = true -> Forall (good_op (length w)) os -> aligned e w ->
    exists e', aligned e' (fst (run P c w os)) /\ length (fst (run P c w os)) = length w.
  Proof.
    induction os as [|o os IH]; intros w e HN HS HG HA; simpl; [exists e; auto|]. inversion HG as [|? ? HG1 HG2]; subst.
    destruct (step_aligned w o e HN HS HG1 HA) as (e' & HA' & _). pose proof (step_length w o HG1) as HL.
    destruct (step P c w o) as [w1 x]. simpl in *. destruct (run P c w1 os) as [w2 xs] eqn:ER. simpl. specialize (IH w1 e' HN HS). rewrite HL, ER in IH. exact (IH HG2 HA').
  Qed.
  Lemma init_aligned l : aligned false (init P l).
  Proof. apply Forall_forall. intros r Hr. apply in_map_iff in Hr. destruct Hr as (x & <- & _). reflexivity. Qed.
End Proofs.

Section Proofs2.
  Variable P : pipe.
  Variable c : config.

  Lemma reach_cases ss os : never_fails P -> sync c = true -> Forall (good_op (length ss)) os -> let w := fst (run P c (init P ss) os) in
    length w = length ss /\ (Forall (fun r => eod r = true) w \/ Forall (fun r => eod r = false) w).
  Proof.
    intros HN HS HG. destruct (run_aligned P c os (init P ss) false HN HS) as (e & HA & HL).
    - unfold init. rewrite map_length. exact HG.
    - apply init_aligned.
    - unfold init in HL at 2. rewrite map_length in HL. split; [exact HL|]. destruct e; [left|right]; exact HA.
  Qed.
  Lemma stays w : Forall (fun r => eod r = true) w -> forall k x, In x (snd (run P c w (repeat Next k))) -> snd x = map (fun _ => Stop) w.
  Proof.
    intros HA. induction k as [|k IH]; intros x Hx; [destruct Hx|].
    assert (E : run P c w (repeat Next (S k)) = (fst (run P c w (repeat Next k)), (Next, map (fun _ => Stop) w) :: snd (run P c w (repeat Next k)))).
    { cbn [repeat run step]. rewrite (next_stop P c w HA), !map_map. cbn [fst snd]. rewrite map_id. destruct (run P c w (repeat Next k)). reflexivity. }
    rewrite E in Hx. simpl in Hx. destruct Hx as [<-|Hx]; [reflexivity|auto].
  Qed.
  Lemma first_agree ss os : never_fails P -> sync c = true -> until_last c = false -> Forall (good_op (length ss)) os ->
    let w := fst (run P c (init P ss) os) in let os := map snd (next_all P c w) in
    (Forall (fun o => o = Stop) os /\ Forall (fun r => eod r = true) (map fst (next_all P c w))) \/
    (exists n, 0 < n <= num_accumulate c /\ Forall (fun o => exists bs, o = Ret bs /\ length bs = n) os).
  Proof.
    intros HN HS HU HG. destruct (reach_cases ss os HN HS HG) as (_ & [HA|HA]).
    - left. cbv zeta. rewrite (next_stop P c _ HA), !map_map. cbn [fst snd]. rewrite map_id. split; [|exact HA]. apply Forall_forall. intros o Ho. apply in_map_iff in Ho. destruct Ho as (? & <- & _). reflexivity.
    - cbv zeta. destruct (next_first P c _ HN HS HU HA) as (l & HF & [[Hn E]|[Hn E]]); rewrite E, map_map; cbn [fst snd].
      + left. rewrite map_map. split; apply Forall_forall; intros o Ho; apply in_map_iff in Ho; destruct Ho as (? & <- & _); reflexivity.
      + right. set (n := list_min (map (fun x => length (fst x)) l)) in *.
        assert (NE : map (fun x => length (fst x)) l <> []) by (intros E0; unfold n in Hn; rewrite E0 in Hn; simpl in Hn; lia).
        destruct (list_min_spec _ NE) as [HI HM]. fold n in HI, HM. exists n. split.
        * split; [assumption|]. apply in_map_iff in HI. destruct HI as (x & <- & Hx).
          assert (HR : exists r, reads P c r x). { clear - HF Hx. induction HF as [|r y w l HR HF IH]; [destruct Hx|]. destruct Hx as [->|Hx]; [exists r; exact HR|exact (IH Hx)]. }
          destruct HR as (r & bs & HU' & EX). rewrite EX. unfold contribution. apply upcoming_length in HU'. destruct (drop_remainder c); [destruct (length bs =? num_accumulate c)|]; simpl; lia.
        * apply Forall_forall. intros o Ho. apply in_map_iff in Ho. destruct Ho as (x & <- & Hx). eexists. split; [reflexivity|]. rewrite firstn_length.
          assert (n <= length (fst x)) by (apply HM; apply in_map_iff; exists x; auto). lia.
  Qed.
  Lemma last_agree ss os : never_fails P -> sync c = true -> until_last c = true -> Forall (good_op (length ss)) os ->
    let w := fst (run P c (init P ss) os) in let os := map snd (next_all P c w) in
    (Forall (fun o => o = Stop) os /\ Forall (fun r => eod r = true) (map fst (next_all P c w))) \/
    (Forall (fun o => exists bs, o = Ret bs) os /\ Exists (fun o => exists bs, o = Ret bs /\ bs <> []) os).
  Proof.
    intros HN HS HU HG. destruct (reach_cases ss os HN HS HG) as (_ & [HA|HA]).
    - left. cbv zeta. rewrite (next_stop P c _ HA), !map_map. cbn [fst snd]. rewrite map_id. split; [|exact HA]. apply Forall_forall. intros o Ho. apply in_map_iff in Ho. destruct Ho as (? & <- & _). reflexivity.
    - cbv zeta. destruct (next_last P c _ HN HS HU HA) as (l & HF & [[Hn E]|[Hn E]]); rewrite E, map_map; cbn [fst snd].
      + left. rewrite map_map. split; apply Forall_forall; intros o Ho; apply in_map_iff in Ho; destruct Ho as (? & <- & _); reflexivity.
      + right. split.
        * apply Forall_forall; intros o Ho; apply in_map_iff in Ho; destruct Ho as (x & <- & _). eexists; reflexivity.
        * apply Exists_exists in Hn. destruct Hn as (x & Hx & Hne). apply Exists_exists. exists (Ret (fst x)). split; [apply in_map_iff; exists x; auto|]. eexists. split; [reflexivity|assumption].
  Qed.
End Proofs2.
