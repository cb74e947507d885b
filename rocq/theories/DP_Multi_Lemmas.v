(** Lemmas about vectors of pipelines. *)

From Verif Require Import DP_Base DP_Spec DP_Laws DP_Sources_Model DP_Bucketing_Model DP_Sources_Proofs.
From Coq Require Import Lia.

Lemma upd_length {A} (l : list A) i x : length (upd l i x) = length l.
Proof. revert i; induction l as [|y l IH]; intros [|i]; simpl; auto. Qed.

Lemma nth_error_upd_eq {A} (l : list A) i x : i < length l -> nth_error (upd l i x) i = Some x.
Proof. revert i; induction l as [|y l IH]; intros [|i] H; simpl in *; try lia; auto. apply IH; lia. Qed.

Lemma nth_error_upd_ne {A} (l : list A) i j x : i <> j -> nth_error (upd l i x) j = nth_error l j.
Proof.
  revert i j; induction l as [|y l IH]; intros [|i] [|j] H; simpl in *; auto; try lia.
Qed.

Lemma upd_same {A} (l : list A) i x : nth_error l i = Some x -> upd l i x = l.
Proof. revert i; induction l as [|y l IH]; intros [|i] H; simpl in *; try discriminate; [congruence|]. f_equal; auto. Qed.

(** ** Fuel *)
Lemma hnext_mono ps : Forall mono ps -> forall i n m s r, n <= m ->
  hnext ps i n s = Some r -> hnext ps i m s = Some r.
Proof.
  intros HF. induction HF as [|X ps HM HF IH]; intros i n m s r Hn H; [exact H|]. destruct s as [a b].
  destruct i as [|i]; simpl in *.
  - destruct (next X n a) as [[o s']|] eqn:E; [|discriminate].
    rewrite (HM _ _ _ _ Hn E). assumption.
  - destruct (hnext ps i n b) as [[o s']|] eqn:E; [|discriminate].
    rewrite (IH _ _ _ _ _ Hn E). assumption.
Qed.

(** ** Contents *)
Fixpoint hholds (ps : list source) : hst ps -> list (list data) -> Prop :=
  match ps return hst ps -> list (list data) -> Prop with
  | [] => fun _ ls => ls = []
  | X :: r => fun s ls => match ls with
                          | [] => False
                          | l :: ls' => holds X (fst s) l /\ hholds r (snd s) ls'
                          end
  end.

Lemma hholds_length ps s ls : hholds ps s ls -> length ls = length ps.
Proof.
  revert s ls. induction ps as [|X ps IH]; intros s ls H; simpl in *; [subst; reflexivity|].
  destruct ls as [|l ls]; [contradiction|]. destruct H as [_ H]. simpl. f_equal. eauto.
Qed.

Lemma hnext_step ps : Forall mono ps -> forall i s ls l, hholds ps s ls -> nth_error ls i = Some l ->
  match l with
  | [] => exists n s', hnext ps i n s = Some (Eod, s') /\ hholds ps s' ls
  | x :: l' => exists n s', hnext ps i n s = Some (Val x, s') /\ hholds ps s' (upd ls i l')
  end.
Proof.
  intros HF. induction HF as [|X ps HM HF IH]; intros i s ls l HH Hi; simpl in HH.
  - subst ls. destruct i; discriminate.
  - destruct s as [a b]. destruct ls as [|l0 ls]; [contradiction|]. destruct HH as [H0 HH]. destruct i as [|i]; simpl in Hi.
    + inv Hi. pose proof (holds_step X HM _ _ H0) as HP. simpl in *.
      destruct l as [|x l']; destruct HP as (n & s' & Hn & Hs'); exists n, (s', b); simpl; rewrite Hn; auto.
    + specialize (IH i b ls l HH Hi). simpl in *.
      destruct l as [|x l']; destruct IH as (n & s' & Hn & Hs'); exists n, (a, s'); simpl; rewrite Hn; auto.
Qed.

(** ** Bisimilarity *)
Fixpoint hequiv (ps : list source) : hst ps -> hst ps -> Prop :=
  match ps return hst ps -> hst ps -> Prop with
  | [] => fun _ _ => True
  | X :: r => fun a b => equiv X (fst a) (fst b) /\ hequiv r (snd a) (snd b)
  end.

Lemma hequiv_refl ps s : hequiv ps s s.
Proof. induction ps; simpl; auto using equiv_refl. Qed.

Lemma hequiv_next ps i n a b : hequiv ps a b -> res_rel (hequiv ps) (hnext ps i n a) (hnext ps i n b).
Proof.
  revert i a b. induction ps as [|X ps IH]; intros i a b H; [simpl; auto|].
  destruct a as [a a'], b as [b b'], H as [H1 H2]. simpl in H1, H2.
  destruct i as [|i]; simpl.
  - estep X a b n H1; simpl; auto.
  - specialize (IH i _ _ H2).
    destruct (hnext ps i n a') as [[? ?]|], (hnext ps i n b') as [[? ?]|]; simpl in *; intuition.
Qed.

Lemma hequiv_reset ps g a b : hequiv ps a b -> hequiv ps (hreset ps g a) (hreset ps g b).
Proof.
  revert a b. induction ps as [|X ps IH]; intros a b H; [simpl; auto|].
  destruct a as [a a'], b as [b b'], H as [H1 H2]. simpl in *. auto using equiv_reset.
Qed.

Lemma hequiv_reset1 ps i g a b : hequiv ps a b -> hequiv ps (hreset1 ps i g a) (hreset1 ps i g b).
Proof.
  revert i a b. induction ps as [|X ps IH]; intros i a b H; [simpl; auto|].
  destruct a as [a a'], b as [b b'], H as [H1 H2]. simpl in *. destruct i; simpl; auto using equiv_reset.
Qed.

Lemma hequiv_fins ps a b : hequiv ps a b -> hfins ps a = hfins ps b.
Proof.
  revert a b. induction ps as [|X ps IH]; intros a b H; [simpl; auto|].
  destruct a as [a a'], b as [b b'], H as [H1 H2]. simpl in *.
  rewrite (equiv_fin _ _ _ H1), (IH _ _ H2). reflexivity.
Qed.

Lemma hequiv_fin ps i a b : hequiv ps a b -> hfin ps i a = hfin ps i b.
Proof.
  revert i a b. induction ps as [|X ps IH]; intros i a b H; [simpl; auto|].
  destruct a as [a a'], b as [b b'], H as [H1 H2]. simpl in *.
  destruct i; [apply (equiv_fin _ _ _ H1)|auto].
Qed.

(** ** Invariants of vectors *)
Fixpoint hpred (ps : list source) : Type :=
  match ps with [] => unit | X :: r => ((St X -> Prop) * hpred r)%type end.

Fixpoint hall (ps : list source) : hpred ps -> hst ps -> Prop :=
  match ps return hpred ps -> hst ps -> Prop with
  | [] => fun _ _ => True
  | X :: r => fun P s => fst P (fst s) /\ hall r (snd P) (snd s)
  end.

Fixpoint hresumable (clean : bool) (ps : list source) : hpred ps -> hpred ps -> Prop :=
  match ps return hpred ps -> hpred ps -> Prop with
  | [] => fun _ _ => True
  | X :: r => fun I T => resumable clean X (fst I) (fst T) /\ hresumable clean r (snd I) (snd T)
  end.

Fixpoint hrestarts (g : bool) (ps : list source) : hpred ps -> Prop :=
  match ps return hpred ps -> Prop with
  | [] => fun _ => True
  | X :: r => fun I => restarts X (fst I) g /\ hrestarts g r (snd I)
  end.

Section HR.
  Variable clean : bool.

  Lemma hall_init ps Is Ts : hresumable clean ps Is Ts -> hall ps Is (hinit ps) /\ hall ps Ts (hinit ps).
  Proof.
    induction ps as [|X ps IH]; intros H; simpl in *; auto. destruct H as [H1 H2].
    destruct (IH _ _ H2). destruct H1. auto.
  Qed.

  Lemma hall_next ps Is Ts : hresumable clean ps Is Ts -> forall i n s o s', hall ps Is s -> i < length ps ->
    hnext ps i n s = Some (o, s') -> okstep clean (hall ps Is s') o.
  Proof.
    induction ps as [|X ps IH]; intros H i n s o s' Hs Hi Hn; [simpl in Hi; lia|].
    destruct s as [a b], Is as [P Is], Ts as [Q Ts], H as [H1 H2], Hs as [Hs1 Hs2]. simpl in *. destruct i as [|i].
    - destruct (next X n a) as [[o1 s1]|] eqn:E; inv Hn.
      eapply okstep_impl; [exact (rs_next _ _ _ _ H1 _ _ _ _ Hs1 E)|]. simpl. auto.
    - destruct (hnext ps i n b) as [[o1 s1]|] eqn:E; inv Hn.
      eapply okstep_impl; [exact (IH _ _ H2 _ _ _ _ _ Hs2 (proj2 (Nat.succ_lt_mono i (length ps)) Hi) E)|]. simpl. auto.
  Qed.

  Lemma hall_reset ps Is Ts g s : hresumable clean ps Is Ts -> hall ps Is s -> hall ps Is (hreset ps g s).
  Proof.
    induction ps as [|X ps IH]; intros H Hs; [simpl; auto|].
    destruct s as [a b], Is as [P Is], Ts as [Q Ts], H as [H1 H2], Hs as [Hs1 Hs2]. simpl in *.
    split; [apply (rs_reset _ _ _ _ H1); auto|eauto].
  Qed.

  Lemma hall_reset1 ps Is Ts i g s : hresumable clean ps Is Ts -> hall ps Is s -> hall ps Is (hreset1 ps i g s).
  Proof.
    revert i. induction ps as [|X ps IH]; intros i H Hs; [simpl; auto|].
    destruct s as [a b], Is as [P Is], Ts as [Q Ts], H as [H1 H2], Hs as [Hs1 Hs2]. simpl in *.
    destruct i; simpl; (split; [|eauto]); auto. apply (rs_reset _ _ _ _ H1); auto.
  Qed.

  Lemma hall_resume ps Is Ts s s0 : hresumable clean ps Is Ts -> hall ps Is s -> hall ps Ts s0 ->
    exists t, hrecord ps true s = Some t /\ forall rest, exists s1,
      hreload ps true s0 (t ++ rest) = Some (s1, rest) /\ hequiv ps s s1 /\ hall ps Is s1.
  Proof.
    induction ps as [|X ps IH]; intros H Hs Ht.
    - exists []. split; auto. intros rest. exists s0. simpl. auto.
    - destruct s as [a b], s0 as [a0 b0], Is as [P Is], Ts as [Q Ts], H as [H1 H2], Hs as [Hs1 Hs2], Ht as [Ht1 Ht2].
      simpl in *.
      destruct (rs_resume _ _ _ _ H1 _ _ Hs1 Ht1) as (t & Hr & Hl). rewrite Hr.
      destruct (IH _ _ _ _ H2 Hs2 Ht2) as (t' & Hr' & Hl'). rewrite Hr'.
      eexists. split; [reflexivity|]. intros rest. rewrite <- app_assoc.
      destruct (Hl (t' ++ rest)) as (s1 & E1 & He & Hi). rewrite E1.
      destruct (Hl' rest) as (s2 & E2 & He' & Hi'). rewrite E2.
      exists (s1, s2). simpl. auto.
  Qed.

  Lemma hrestart ps Is g s : hrestarts g ps Is -> hall ps Is s -> hequiv ps (hreset ps g s) (hinit ps).
  Proof.
    induction ps as [|X ps IH]; intros H Hs; [simpl; auto|].
    destruct s as [a b], Is as [P Is], H as [H1 H2], Hs as [Hs1 Hs2]. simpl in *.
    split; [apply H1; assumption|eauto].
  Qed.
End HR.

(** ** concat *)
Section ConcatP.
  Variable ps : list source.

  Lemma concat_loop_mono : Forall mono ps -> forall k n m i s r, n <= m ->
    concat_loop ps n k i s = Some r -> concat_loop ps m k i s = Some r.
  Proof.
    intros HM k. induction k as [|k IH]; intros n m i s r Hn H; simpl in *; auto.
    destruct (hnext ps i n s) as [[o s']|] eqn:E; [|discriminate].
    rewrite (hnext_mono _ HM _ _ _ _ _ Hn E). destruct o; eauto.
  Qed.

  Lemma concat_mono : Forall mono ps -> mono (src_concat ps).
  Proof. intros HM n m s r Hn. simpl. apply concat_loop_mono; assumption. Qed.

  Lemma concat_firstn_nil {A} (ls : list (list A)) i l :
    (forall j, j < i -> nth_error ls j = Some []) -> nth_error ls i = Some l ->
    concat ls = l ++ concat (skipn (S i) ls).
  Proof.
    revert i. induction ls as [|a ls IH]; intros i Hp Hi; [destruct i; discriminate|].
    destruct i as [|i]; simpl in *; [congruence|].
    assert (a = []) by (specialize (Hp 0 ltac:(lia)); simpl in Hp; congruence). subst a. simpl.
    rewrite (IH i); auto. intros j Hj. apply (Hp (S j)). lia.
  Qed.

  Lemma concat_loop_run : Forall mono ps -> forall k i s ls, hholds ps s ls -> k + i = length ps ->
    (forall j, j < i -> nth_error ls j = Some []) ->
    match concat ls with
    | [] => exists n s', concat_loop ps n k i s = Some (Eod, s') /\ hholds ps s' ls
    | x :: l' => exists n s' ls', concat_loop ps n k i s = Some (Val x, s') /\ hholds ps s' ls' /\ concat ls' = l'
    end.
  Proof.
    intros HM k. induction k as [|k IH]; intros i s ls HH Hk Hp.
    - assert (HE : concat ls = []).
      { assert (HA : forall l, In l ls -> l = []).
        { intros l Hin. apply In_nth_error in Hin. destruct Hin as [j Hj].
          assert (j < length ls) by (apply nth_error_Some; congruence).
          rewrite (hholds_length _ _ _ HH) in H. rewrite (Hp j ltac:(lia)) in Hj. congruence. }
        clear -HA. induction ls as [|a ls IH]; simpl; auto.
        rewrite (HA a) by (left; auto). simpl. apply IH. intros; apply HA; right; auto. }
      rewrite HE. exists 0, s. simpl. auto.
    - assert (Hi : i < length ls) by (rewrite (hholds_length _ _ _ HH); lia).
      destruct (nth_error ls i) as [l|] eqn:El; [|apply nth_error_None in El; lia].
      pose proof (hnext_step ps HM i s ls l HH El) as HN.
      destruct l as [|x l].
      + destruct HN as (n & s' & Hn & Hs').
        specialize (IH (S i) s' ls Hs' ltac:(lia)).
        assert (Hp' : forall j, j < S i -> nth_error ls j = Some []).
        { intros j Hj. destruct (Nat.eq_dec j i) as [->|]; auto. apply Hp; lia. }
        specialize (IH Hp'). destruct (concat ls) as [|x l'].
        * destruct IH as (n1 & s1 & H1 & H2). exists (n + n1), s1. split; auto. simpl.
          rewrite (hnext_mono _ HM _ n (n + n1) _ _ ltac:(lia) Hn). eapply concat_loop_mono; [assumption| |eassumption]; lia.
        * destruct IH as (n1 & s1 & ls' & H1 & H2). exists (n + n1), s1, ls'. split; auto. simpl.
          rewrite (hnext_mono _ HM _ n (n + n1) _ _ ltac:(lia) Hn). eapply concat_loop_mono; [assumption| |eassumption]; lia.
      + destruct HN as (n & s' & Hn & Hs').
        rewrite (concat_firstn_nil ls i _ Hp El). simpl.
        exists n, s', (upd ls i l). split; [rewrite Hn; reflexivity|]. split; auto.
        rewrite (concat_firstn_nil (upd ls i l) i l).
        * f_equal. clear. revert i. induction ls as [|a ls IH]; intros [|i]; simpl; auto. apply IH.
        * intros j Hj. rewrite nth_error_upd_ne by lia. auto.
        * apply nth_error_upd_eq. assumption.
  Qed.

  Lemma concat_holds s ls : Forall mono ps -> hholds ps s ls -> holds (src_concat ps) s (concat ls).
  Proof.
    intros HM HH.
    apply (progress_holds (src_concat ps) (fun (s : hst ps) l => exists ls, hholds ps s ls /\ l = concat ls));
      [apply concat_mono; assumption| |eauto].
    clear s ls HH. intros s l (ls & HH & ->).
    pose proof (concat_loop_run HM (length ps) 0 s ls HH ltac:(lia) ltac:(intros; lia)) as H. simpl.
    destruct (concat ls) as [|x l'] eqn:E.
    - destruct H as (n & s' & H1 & H2). exists n, s'. split; auto. exists ls. auto.
    - destruct H as (n & s' & ls' & H1 & H2 & H3). exists n, s'. split; auto. exists ls'. auto.
  Qed.

  Lemma concat_cong a b : hequiv ps a b -> equiv (src_concat ps) a b.
  Proof.
    intros H. exists (hequiv ps). split; [|assumption]. clear a b H. intros a b H. split; [|split]; simpl.
    - intros n. 
      assert (G : forall k i a b, hequiv ps a b -> res_rel (hequiv ps) (concat_loop ps n k i a) (concat_loop ps n k i b));
        [|apply G; assumption]. clear a b H.
      intros k. induction k as [|k IH]; intros i a b H; simpl; auto.
      pose proof (hequiv_next ps i n a b H) as HN.
      destruct (hnext ps i n a) as [[o a']|], (hnext ps i n b) as [[o' b']|]; simpl in *; try contradiction; auto.
      destruct HN as [<- HN]. destruct o; simpl; auto.
    - intros g. apply hequiv_reset; assumption.
    - reflexivity.
  Qed.

  Lemma concat_resumable clean Is Ts : hresumable clean ps Is Ts ->
    resumable clean (src_concat ps) (hall ps Is) (hall ps Ts).
  Proof.
    intros H. constructor; simpl.
    - apply (hall_init clean ps Is Ts H).
    - apply (hall_init clean ps Is Ts H).
    - intros n s o s' Hs Hn.
      assert (G : forall k i s, hall ps Is s -> k + i = length ps -> concat_loop ps n k i s = Some (o, s') ->
         okstep clean (hall ps Is s') o).
      { intros k. induction k as [|k IH]; intros i s1 Hs1 Hk HX; simpl in HX; [inv HX; simpl; auto|].
        destruct (hnext ps i n s1) as [[o1 s2]|] eqn:E; [|discriminate].
        pose proof (hall_next clean ps Is Ts H i n s1 o1 s2 Hs1 ltac:(lia) E) as HN.
        destruct o1; [inv HX; auto|eapply IH; [| |eassumption]; [exact HN|lia]|inv HX; auto]. }
      eapply G; [eassumption| |eassumption]. lia.
    - intros g s Hs. eapply hall_reset; eassumption.
    - intros s s0 Hs Ht. destruct (hall_resume clean ps Is Ts s s0 H Hs Ht) as (t & Hr & Hl).
      exists t. split; auto. intros rest. destruct (Hl rest) as (s1 & E & He & Hi). exists s1. auto using concat_cong.
  Qed.

  Lemma concat_restarts Is g : hrestarts g ps Is -> restarts (src_concat ps) (hall ps Is) g.
  Proof. intros H s Hs. apply concat_cong. simpl. eapply hrestart; eassumption. Qed.
End ConcatP.

(** ** Families *)
Section FamilyP.
  Variable F : data -> source.

  Lemma family_mono : (forall d, mono (F d)) -> mono (src_family F).
  Proof.
    intros HM n m x r Hn H. simpl in *.
    destruct (next (F (projT1 x)) n (projT2 x)) as [[o s']|] eqn:E; [|discriminate].
    rewrite (HM _ _ _ _ _ Hn E). assumption.
  Qed.

  Lemma family_holds d s l : (forall d, mono (F d)) -> holds (F d) s l -> holds (src_family F) (existT _ d s) l.
  Proof.
    intros HM H. apply (progress_holds (src_family F) (fun x l => holds (F (projT1 x)) (projT2 x) l));
      [apply family_mono; assumption| |assumption].
    clear d s l H. intros [d s] l H. simpl in *.
    pose proof (holds_step (F d) (HM d) _ _ H) as HP.
    destruct l as [|x l]; destruct HP as (n & s' & Hn & Hs'); exists n, (existT _ d s'); rewrite Hn; auto.
  Qed.

  Lemma family_cong d a b : equiv (F d) a b -> equiv (src_family F) (existT _ d a) (existT _ d b).
  Proof.
    intros H. exists (fun x y => exists d a b, x = existT _ d a /\ y = existT _ d b /\ equiv (F d) a b).
    split; [|exists d, a, b; auto]. clear d a b H.
    intros x y (d & a & b & -> & -> & H). split; [|split]; simpl.
    - intros n. estep (F d) a b n H; simpl; auto. split; auto. exists d, s, s0. auto.
    - intros g. exists d. eexists _, _. split; [reflexivity|]. split; [reflexivity|]. apply equiv_reset; assumption.
    - apply equiv_fin; assumption.
  Qed.
End FamilyP.

(** ** yield_from *)
Section YieldFromP.
  Variable F : data -> source.
  Variable I : source.

  (** The callback builds the pipeline [F d]. *)
  Definition fam_sub (d : data) : fres (St (src_family F)) := FVal (existT _ d (init (F d))).

  Notation Y := (src_family F).
  Notation yf := (src_yield_from Y fam_sub I).

  Lemma yf_loop_mono : mono I -> (forall d, mono (F d)) -> forall n n' m m' x r, n <= n' -> m <= m' ->
    yf_loop Y fam_sub I m n x = Some r -> yf_loop Y fam_sub I m' n' x = Some r.
  Proof.
    intros HM HF n. induction n as [|n IH]; intros n' m m' x r Hn Hm H; [discriminate|].
    destruct n' as [|n']; [lia|]. destruct x as [[cur y] s]. cbn [yf_loop] in *.
    assert (HS : forall r, yf_sub_next Y m y = Some r -> yf_sub_next Y m' y = Some r).
    { intros r' H'. unfold yf_sub_next in *. destruct y as [y|]; auto.
      destruct (next Y m y) as [[o y']|] eqn:E; [|discriminate].
      rewrite (family_mono F HF _ _ _ _ Hm E). assumption. }
    destruct (yf_sub_next Y m y) as [[o y']|]; [|discriminate]. rewrite (HS _ eq_refl).
    destruct o as [d| |e]; auto.
    destruct (next I m s) as [[o s']|] eqn:E; [|discriminate].
    rewrite (HM _ _ _ _ Hm E). destruct o as [d| |e]; auto.
    destruct (fam_sub d) as [y0| |e]; auto. destruct (fin_eqb (finitude_type Y y0) Finite); auto. eapply IH; [| |eassumption]; lia.
  Qed.

  Lemma yf_mono : mono I -> (forall d, mono (F d)) -> mono yf.
  Proof. intros HM HF n m x r Hn. apply yf_loop_mono; assumption. Qed.

  Definition yf_rep (x : yf_st Y I) (l : list data) : Prop :=
    let '(_, y, s) := x in
    exists ly L rs,
      match y with None => ly = [] | Some y => holds Y y ly end /\ holds I s L /\
      Forall2 (fun d r => holds (F d) (init (F d)) r) L rs /\ l = ly ++ concat rs.

  Lemma yf_loop_run : mono I -> (forall d, mono (F d)) ->
    (forall d, finitude_type (F d) (init (F d)) = Finite) ->
    forall L rs cur y s ly,
      match y with None => ly = [] | Some y => holds Y y ly end -> holds I s L ->
      Forall2 (fun d r => holds (F d) (init (F d)) r) L rs ->
      match ly ++ concat rs with
      | [] => exists n x', yf_loop Y fam_sub I n n (cur, y, s) = Some (Eod, x') /\ yf_rep x' []
      | d :: l' => exists n x', yf_loop Y fam_sub I n n (cur, y, s) = Some (Val d, x') /\ yf_rep x' l'
      end.
  Proof.
    intros HM HF Hfin L. induction L as [|d L IH]; intros rs cur y s ly Hy Hs H2.
    - inv H2. simpl. rewrite app_nil_r. destruct ly as [|x ly].
      + assert (HYS : exists n y', yf_sub_next Y n y = Some (Eod, y')).
        { destruct y as [y|]; [|exists 0, None; reflexivity].
          destruct (holds_step Y (family_mono F HF) _ _ Hy) as (n & y' & Hn & _). exists n, (Some y').
          unfold yf_sub_next. rewrite Hn. reflexivity. }
        destruct HYS as (n1 & y' & HY).
        destruct (holds_step I HM _ _ Hs) as (n2 & s' & Hn2 & Hs').
        exists (S (n1 + n2)), (None, None, s'). split; [|exists [], [], []; auto].
        cbn [yf_loop].
        assert (HY' : yf_sub_next Y (S (n1 + n2)) y = Some (Eod, y')).
        { unfold yf_sub_next in *. destruct y as [y|]; auto.
          destruct (next Y n1 y) as [[o y1]|] eqn:E; [|discriminate].
          rewrite (family_mono F HF n1 (S (n1 + n2)) _ _ ltac:(lia) E). assumption. }
        rewrite HY'. rewrite (HM n2 (S (n1 + n2)) _ _ ltac:(lia) Hn2). reflexivity.
      + destruct y as [y|]; [|discriminate].
        destruct (holds_step Y (family_mono F HF) _ _ Hy) as (n & y' & Hn & Hy').
        exists (S n), (cur, Some y', s). split.
        * cbn [yf_loop]. unfold yf_sub_next. rewrite (family_mono F HF n (S n) _ _ ltac:(lia) Hn). reflexivity.
        * exists ly, [], []. rewrite app_nil_r. auto.
    - destruct ly as [|x ly].
      + inversion H2 as [|? r ? rs' Hr H2']; subst. simpl.
        assert (HYS : exists n y', yf_sub_next Y n y = Some (Eod, y')).
        { destruct y as [y|]; [|exists 0, None; reflexivity].
          destruct (holds_step Y (family_mono F HF) _ _ Hy) as (n & y' & Hn & _). exists n, (Some y').
          unfold yf_sub_next. rewrite Hn. reflexivity. }
        destruct HYS as (n1 & y' & HY).
        destruct (holds_step I HM _ _ Hs) as (n2 & s' & Hn2 & Hs').
        assert (Hy0 : holds Y (existT _ d (init (F d))) r) by (apply family_holds; assumption).
        specialize (IH rs' (Some d) (Some (existT _ d (init (F d)))) s' r Hy0 Hs' H2').
        assert (HST : forall n r', yf_loop Y fam_sub I n n (Some d, Some (existT _ d (init (F d))), s') = Some r' ->
           yf_loop Y fam_sub I (S (n1 + n2 + n)) (S (n1 + n2 + n)) (cur, y, s) = Some r').
        { intros n r' Hr'. cbn [yf_loop].
          assert (HY' : yf_sub_next Y (S (n1 + n2 + n)) y = Some (Eod, y')).
          { unfold yf_sub_next in *. destruct y as [y|]; auto.
            destruct (next Y n1 y) as [[o y1]|] eqn:E; [|discriminate].
            rewrite (family_mono F HF n1 (S (n1 + n2 + n)) _ _ ltac:(lia) E). assumption. }
          rewrite HY'. rewrite (HM n2 (S (n1 + n2 + n)) _ _ ltac:(lia) Hn2).
          unfold fam_sub at 1. cbv iota. simpl finitude_type. rewrite Hfin. simpl.
          eapply yf_loop_mono; [assumption|assumption| | |eassumption]; lia. }
        destruct (r ++ concat rs') as [|x l'].
        * destruct IH as (n & x' & HA & HB). exists (S (n1 + n2 + n)), x'. auto.
        * destruct IH as (n & x' & HA & HB). exists (S (n1 + n2 + n)), x'. auto.
      + destruct y as [y|]; [|discriminate]. simpl.
        destruct (holds_step Y (family_mono F HF) _ _ Hy) as (n & y' & Hn & Hy').
        exists (S n), (cur, Some y', s). split.
        * cbn [yf_loop]. unfold yf_sub_next. rewrite (family_mono F HF n (S n) _ _ ltac:(lia) Hn). reflexivity.
        * exists ly, (d :: L), rs. auto.
  Qed.

  Lemma yf_holds s L rs : mono I -> (forall d, mono (F d)) ->
    (forall d, finitude_type (F d) (init (F d)) = Finite) -> holds I s L ->
    Forall2 (fun d r => holds (F d) (init (F d)) r) L rs ->
    holds yf (None, None, s) (concat rs).
  Proof.
    intros HM HF Hfin Hs H2. apply (progress_holds yf yf_rep); [apply yf_mono; assumption| |].
    - clear s L rs Hs H2. intros [[cur y] s] l (ly & L & rs & Hy & Hs & H2 & ->).
      exact (yf_loop_run HM HF Hfin L rs cur y s ly Hy Hs H2).
    - exists [], L, rs. auto.
  Qed.

  (** *** Positions *)
  Definition yf_R (x y : yf_st Y I) : Prop :=
    let '(cur, a, s) := x in let '(cur', b, s') := y in
    equiv I s s' /\ match a, b with
                    | None, None => True
                    | Some a, Some b => equiv Y a b
                    | _, _ => False
                    end.

  Lemma yf_loop_equiv m n x y : yf_R x y ->
    res_rel yf_R (yf_loop Y fam_sub I m n x) (yf_loop Y fam_sub I m n y).
  Proof.
    revert x y. induction n as [|n IH]; intros [[cur a] s] [[cur' b] s'] [H1 H2]; [simpl; auto|].
    cbn [yf_loop].
    assert (HS : match yf_sub_next Y m a, yf_sub_next Y m b with
       | None, None => True
       | Some (o, a'), Some (o', b') => o = o' /\ match a', b' with
                    | None, None => True
                    | Some a, Some b => equiv Y a b
                    | _, _ => False end
       | _, _ => False end).
    { unfold yf_sub_next. destruct a as [a|], b as [b|]; try contradiction; auto.
      estep (src_family F) a b m H2; auto. }
    destruct (yf_sub_next Y m a) as [[o a']|], (yf_sub_next Y m b) as [[o' b']|]; try contradiction; [|simpl; auto].
    destruct HS as [<- HS]. destruct o as [d| |e]; try (simpl; auto; fail).
    estep I s s' m H1; [|simpl; auto].
    destruct o as [d| |e]; try (simpl; auto; fail).
    destruct (fam_sub d) as [y0| |e]; try (simpl; auto; fail).
    destruct (fin_eqb (finitude_type Y y0) Finite); [|simpl; auto]. apply IH. split; auto. apply equiv_refl.
  Qed.

  Lemma yf_R_bisim : bisim yf yf_R.
  Proof.
    intros [[cur a] s] [[cur' b] s'] [H1 H2]. split; [|split]; simpl.
    - intros n. apply yf_loop_equiv. split; auto.
    - intros g. split; auto. apply equiv_reset; assumption.
    - apply equiv_fin; assumption.
  Qed.

  Variable clean : bool.
  Variables Inv Tgt : St I -> Prop.
  Variables IY TY : forall d, St (F d) -> Prop.
  Hypothesis HR : resumable clean I Inv Tgt.
  Hypothesis HRY : forall d, resumable clean (F d) (IY d) (TY d).
  Hypothesis Hfin : forall d, finitude_type (F d) (init (F d)) = Finite.

  Definition yf_inv (x : yf_st Y I) : Prop :=
    let '(cur, y, s) := x in
    Inv s /\ match cur, y with
             | None, None => True
             | Some d, Some y => exists a, y = existT _ d a /\ IY d a
             | _, _ => False
             end.

  Definition yf_tgt (x : yf_st Y I) : Prop := Tgt (snd x).

  Lemma yf_loop_inv m n x o x' : yf_inv x -> yf_loop Y fam_sub I m n x = Some (o, x') -> okstep clean (yf_inv x') o.
  Proof.
    revert x. induction n as [|n IH]; intros [[cur y] s] [Hs Hy] H; [discriminate|]. cbn [yf_loop] in H.
    destruct (yf_sub_next Y m y) as [[o1 y']|] eqn:E; [|discriminate].
    assert (Hy' : okstep clean match cur, y' with
             | None, None => True
             | Some d, Some y => exists a, y = existT _ d a /\ IY d a
             | _, _ => False
             end o1).
    { unfold yf_sub_next in E. destruct cur as [d|], y as [y|]; try contradiction.
      - destruct Hy as (a & -> & Ha). simpl in E.
        destruct (next (F d) m a) as [[o2 a']|] eqn:E2; [|discriminate]. inv E.
        eapply okstep_impl; [exact (rs_next _ _ _ _ (HRY d) _ _ _ _ Ha E2)|]. intros. exists a'. auto.
      - inv E. simpl; auto. }
    destruct o1 as [d| |e].
    - inv H. split; auto.
    - destruct (next I m s) as [[o2 s']|] eqn:E2; [|discriminate].
      pose proof (rs_next _ _ _ _ HR _ _ _ _ Hs E2) as Hs'.
      destruct o2 as [d| |e].
      + unfold fam_sub in H at 1. cbv iota in H. simpl finitude_type in H. rewrite Hfin in H. simpl in H.
        eapply IH; [|eassumption]. split; auto. exists (init (F d)). split; auto. apply (rs_init _ _ _ _ (HRY d)).
      + inv H. split; auto.
      + inv H. eapply okstep_impl; [exact Hs'|]. intros. split; auto.
    - inv H. eapply okstep_impl; [exact Hy'|]. intros. split; auto.
  Qed.

  Lemma yf_resumable : resumable clean yf yf_inv yf_tgt.
  Proof.
    pose proof HR as [H1 H2 H3 H4 H5]. constructor.
    - split; auto.
    - exact H2.
    - intros n x o x'. apply yf_loop_inv.
    - intros g [[cur y] s] [Hs _]. split; auto.
    - intros [[cur y] s] [[cur0 y0] s0] [Hs Hy] Ht. unfold yf_tgt in Ht. simpl in Ht.
      destruct (H5 _ _ Hs Ht) as (t & Hr & Hl). cbn [record_pos src_yield_from].
      destruct cur as [d|], y as [y|]; try contradiction.
      + destruct Hy as (a & -> & Ha).
        destruct (rs_resume _ _ _ _ (HRY d) _ _ Ha (rs_tinit _ _ _ _ (HRY d))) as (ty & Hry & Hly).
        change (record_pos Y true (existT _ d a)) with (record_pos (F d) true a). rewrite Hry, Hr.
        eexists. split; [reflexivity|]. intros rest. cbn [reload_pos src_yield_from].
        rewrite <- !app_assoc, (rd_wr_opt wr_data rd_data rd_wr_data).
        assert (EF : fam_sub d = FVal (existT (fun d0 : data => St (F d0)) d (init (F d)))) by reflexivity.
        rewrite EF. cbn [reload_pos src_family projT1 projT2].
        destruct (Hly (t ++ rest)) as (a1 & Ea & Hea & Hia). rewrite Ea.
        destruct (Hl rest) as (s1 & Es & Hes & His). rewrite Es.
        exists (Some d, Some (existT _ d a1), s1). split; [reflexivity|]. split.
        * exists yf_R. split; [apply yf_R_bisim|]. split; auto. apply family_cong; assumption.
        * split; auto. exists a1; auto.
      + rewrite Hr. eexists. split; [reflexivity|]. intros rest. cbn [reload_pos src_yield_from].
        rewrite <- !app_assoc, (rd_wr_opt wr_data rd_data rd_wr_data).
        destruct (Hl rest) as (s1 & Es & Hes & His). rewrite Es.
        exists (None, None, s1). split; [reflexivity|]. split.
        * exists yf_R. split; [apply yf_R_bisim|]. split; auto.
        * split; auto.
  Qed.

  Lemma yf_restarts g : restarts I Inv g -> restarts yf yf_inv g.
  Proof.
    intros H [[cur y] s] [Hs _]. exists yf_R. split; [apply yf_R_bisim|]. split; auto.
  Qed.
End YieldFromP.
