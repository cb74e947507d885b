From Coq Require Import ZArith List Bool Arith Lia ZifyBool.
From Verif Require Import StepProc_Model StepProc_Spec.
Import ListNotations.
Local Open Scope Z_scope.

Section Assign.
  Variable R : Type.
  Lemma set_nth_length i (v : R) l : length (set_nth R i v l) = length l.
  Proof. revert i. induction l as [|x l IH]; intros [|i]; simpl; auto. Qed.
  Lemma set_nth_nth i (v : R) l k d : (k < length l)%nat -> nth k (set_nth R i v l) d = if Nat.eqb i k then v else nth k l d.
  Proof. revert i k. induction l as [|x l IH]; intros [|i] [|k] H; simpl in *; try lia; auto. apply IH. lia. Qed.
  Lemma index_ok n i : 0 <= i < Z.of_nat n -> index n i = Some (Z.to_nat i).
  Proof. intros H. unfold index. destruct ((0 <=? i) && (i <? Z.of_nat n)) eqn:E; [reflexivity|lia]. Qed.
  Lemma overwritten_ext (B B' : Z -> Prop) (ban : R) p q : (forall v, B v <-> B' v) -> overwritten B ban p q -> overwritten B' ban p q.
  Proof. intros HE [HL H]. split; [assumption|]. intros v d Hv. destruct (H v d Hv) as [H1 H2]. rewrite HE in H1, H2. auto. Qed.
  Lemma assign_all_ok (ban : R) is : forall p, tokens (length p) is -> exists q, assign_all R ban p is = Some q /\ overwritten (fun v => In v is) ban p q.
  Proof.
    unfold assign_all. induction is as [|i is IH]; intros p HT.
    - exists p. split; [reflexivity|]. split; [reflexivity|]. intros v d Hv. split; [intros []|reflexivity].
    - inversion HT as [|? ? Hi HT']; subst. simpl. rewrite index_ok by assumption.
      destruct (IH (set_nth R (Z.to_nat i) ban p)) as (q & HQ & HL & HV); [unfold tokens; rewrite set_nth_length; exact HT'|].
      exists q. split; [exact HQ|]. rewrite set_nth_length in HL, HV. split; [assumption|]. intros v d Hv. destruct (HV v d Hv) as [H1 H2]. rewrite set_nth_nth in H2 by assumption.
      split.
      + intros [->|Hin]; [|auto]. destruct (in_dec Z.eq_dec (Z.of_nat v) is) as [Hin|Hin]; [auto|]. rewrite H2 by assumption. rewrite Nat2Z.id, Nat.eqb_refl. reflexivity.
      + intros Hn. rewrite H2 by (intros Hin; apply Hn; right; assumption). destruct (Nat.eqb (Z.to_nat i) v) eqn:E; [|reflexivity]. exfalso. apply Hn. left. lia.
  Qed.
  Lemma fold_filter {A} (f : A -> bool) (g : A -> Z) (ban : R) l : forall p,
    fold_left (fun p i => if f i then assign R ban p (g i) else p) l p = fold_left (assign R ban) (map g (filter f l)) p.
  Proof. induction l as [|x l IH]; intros p; simpl; [reflexivity|]. rewrite IH. destruct (f x); reflexivity. Qed.
End Assign.

(** *** Suffixes *)
Lemma suffix_snoc {A} (s row : list A) v d : s <> [] -> suffix s (row ++ [v]) <-> suffix (removelast s) row /\ last s d = v.
Proof.
  intros HN. destruct (exists_last HN) as (s' & x & ->). rewrite removelast_last, last_last. split.
  - intros (a & H). rewrite app_assoc in H. apply app_inj_tail in H. destruct H as [-> ->]. split; [exists a; reflexivity|reflexivity].
  - intros [(a & ->) ->]. exists a. rewrite app_assoc. reflexivity.
Qed.
Lemma app_same_length {A} (a b c d : list A) : a ++ b = c ++ d -> length b = length d -> a = c /\ b = d.
Proof.
  intros H HL. assert (HA : length a = length c) by (apply (f_equal (@length A)) in H; rewrite !app_length in H; lia).
  revert c H HA. induction a as [|x a IH]; intros [|y c] H HA; simpl in *; try discriminate; [auto|]. injection H as -> H. destruct (IH c H ltac:(lia)) as [-> ->]. auto.
Qed.
Lemma last_n_length {A} n (l : list A) : (n <= length l)%nat -> length (last_n n l) = n.
Proof. intros. unfold last_n. rewrite skipn_length. lia. Qed.
Lemma last_n_suffix {A} n (l : list A) : suffix (last_n n l) l.
Proof. exists (firstn (length l - n) l). unfold last_n. symmetry. apply firstn_skipn. Qed.
Lemma suffix_last_n {A} (s l : list A) : suffix s l -> last_n (length s) l = s.
Proof. intros (a & ->). unfold last_n. rewrite app_length. replace (length a + length s - length s)%nat with (length a) by lia. rewrite skipn_app, skipn_all, Nat.sub_diag. reflexivity. Qed.
Lemma suffix_le {A} (s l : list A) : suffix s l -> (length s <= length l)%nat.
Proof. intros (a & ->). rewrite app_length. lia. Qed.
Lemma suffix_app_iff {A} (s a l : list A) : (length s <= length l)%nat -> suffix s (a ++ l) <-> suffix s l.
Proof.
  intros HL. split.
  - intros (b & H). exists (firstn (length l - length s) l). rewrite <- (firstn_skipn (length l - length s) l) in H at 1.
    rewrite app_assoc in H. apply app_same_length in H; [|rewrite skipn_length; lia]. destruct H as [_ H]. rewrite <- H at 2. symmetry. apply firstn_skipn.
  - intros (b & ->). exists (a ++ b). rewrite app_assoc. reflexivity.
Qed.

(** *** Matching *)
Lemma combine_app {A B} (a1 a2 : list A) (b1 b2 : list B) : length a1 = length b1 -> combine (a1 ++ a2) (b1 ++ b2) = combine a1 b1 ++ combine a2 b2.
Proof. revert b1. induction a1 as [|x a1 IH]; intros [|y b1] H; simpl in *; try discriminate; [reflexivity|]. rewrite IH by lia. reflexivity. Qed.
Lemma diff_zero a : forall b, length a = length b -> negb (existsb (fun x => negb (x =? 0)) (map (fun xy => fst xy - snd xy) (combine a b))) = true <-> a = b.
Proof.
  induction a as [|x a IH]; intros [|y b] H; simpl in *; try discriminate; [tauto|]. specialize (IH b ltac:(lia)).
  destruct (x - y =? 0) eqn:E; simpl.
  - rewrite IH. split; [intros ->; f_equal; lia|intros H'; injection H'; auto].
  - split; [discriminate|]. intros H'. injection H' as -> _. lia.
Qed.
Lemma mask_none d : mask_fill (repeat false (length d)) d = d.
Proof. induction d as [|x d IH]; [reflexivity|]. cbn [length repeat mask_fill combine map fst snd]. f_equal. exact IH. Qed.
Lemma mask_all d k : mask_fill (repeat true k) d = repeat 0 (Nat.min (length d) k).
Proof. revert k. induction d as [|x d IH]; intros [|k]; try reflexivity. cbn [repeat mask_fill combine map fst snd length Nat.min]. f_equal. apply IH. Qed.
Lemma mask_app m1 m2 d1 d2 : length d1 = length m1 -> mask_fill (m1 ++ m2) (d1 ++ d2) = mask_fill m1 d1 ++ mask_fill m2 d2.
Proof. intros H. unfold mask_fill. rewrite combine_app by assumption. apply map_app. Qed.
Lemma exists_zero k : existsb (fun x => negb (x =? 0)) (repeat 0 k) = false.
Proof. induction k; simpl; auto. Qed.
Lemma removelast_app' {A} (a b : list A) : b <> [] -> removelast (a ++ b) = a ++ removelast b.
Proof. intros. apply removelast_app. assumption. Qed.
Lemma removelast_repeat {A} (x : A) k : removelast (repeat x k) = repeat x (k - 1).
Proof.
  destruct k; [reflexivity|]. rewrite <- Nat.add_1_r at 1. rewrite repeat_app. simpl. rewrite removelast_last. f_equal. lia.
Qed.
Lemma map_false (s : list Z) : map (fun _ => false) s = repeat false (length s).
Proof. induction s; simpl; f_equal; auto. Qed.
Lemma removelast_len {A} (l : list A) : length (removelast l) = (length l - 1)%nat.
Proof. rewrite removelast_firstn_len, firstn_length. lia. Qed.

Lemma fit_length n row : length (fit n row) = n.
Proof.
  unfold fit. destruct (length row <? n)%nat eqn:E; [unfold left_pad; rewrite app_length, repeat_length; lia|apply last_n_length; lia].
Qed.
Lemma fit_suffix n row s : Forall (fun t => 0 <= t) s -> (length s <= n)%nat -> suffix s (fit n row) <-> suffix s row.
Proof.
  intros HS HL. unfold fit. destruct (length row <? n)%nat eqn:E.
  - unfold left_pad. split.
    + intros H. destruct (le_gt_dec (length s) (length row)) as [HR|HR]; [exact (proj1 (suffix_app_iff _ _ _ HR) H)|]. exfalso.
      destruct H as (a & H). 
      assert (HI : nth (length a) (repeat (-1) (n - length row) ++ row) 0 = nth 0 s 0) by (rewrite H, app_nth2, Nat.sub_diag by lia; reflexivity).
      assert (HA : (length a < n - length row)%nat). { apply (f_equal (@length Z)) in H. rewrite !app_length, repeat_length in H. lia. }
      rewrite app_nth1 in HI by (rewrite repeat_length; assumption).
      assert (HR' : nth (length a) (repeat (-1) (n - length row)) 0 = -1). { clear - HA. revert HA. generalize (n - length row)%nat as k. generalize (length a) as j. intros j k. revert j. induction k; intros [|j] H; simpl; try lia. apply IHk. lia. }
      rewrite HR' in HI. destruct s as [|x s]; [simpl in HR; lia|]. inversion HS; subst. simpl in HI. lia.
    + intros (a & ->). exists (repeat (-1) (n - length (a ++ s)) ++ a). rewrite app_assoc. reflexivity.
  - destruct (last_n_suffix n row) as (a & Ha). split; intros H.
    + rewrite Ha. destruct H as (b & H). exists (a ++ b). rewrite H, app_assoc. reflexivity.
    + rewrite Ha in H. refine (proj1 (suffix_app_iff _ _ _ _) H). rewrite last_n_length by lia. assumption.
Qed.

Lemma prefix_matches_lemma m row s : s <> [] -> (length s <= m)%nat -> (2 <= m)%nat -> Forall (fun t => 0 <= t) s ->
  prefix_matches (fit (m - 1) row) (left_pad m 0 s) (Some (left_pad m true (map (fun _ => false) s))) = true <-> suffix (removelast s) row.
Proof.
  intros HN HL Hm HS. unfold prefix_matches, left_pad. rewrite map_false, repeat_length.
  assert (Hk : (1 <= length s)%nat) by (destruct s; [congruence|simpl; lia]).
  rewrite (removelast_app' (repeat 0 _) s HN). rewrite (removelast_app' (repeat true _)) by (destruct s; [congruence|discriminate]). rewrite removelast_repeat.
  set (F := fit (m - 1) row). assert (FL : length F = (m - 1)%nat) by apply fit_length.
  rewrite <- (firstn_skipn (m - length s) F). set (F1 := firstn (m - length s) F). set (F2 := skipn (m - length s) F).
  assert (L1 : length F1 = (m - length s)%nat) by (unfold F1; rewrite firstn_length; lia).
  assert (L2 : length F2 = (length s - 1)%nat) by (unfold F2; rewrite skipn_length; lia).
  rewrite combine_app by (rewrite repeat_length; assumption). rewrite map_app.
  rewrite mask_app by (rewrite map_length, combine_length, !repeat_length; lia).
  rewrite mask_all, existsb_app, exists_zero. simpl orb.
  replace (length s - 1)%nat with (length (map (fun xy => fst xy - snd xy) (combine F2 (removelast s)))) at 1.
  2: { rewrite map_length, combine_length, removelast_len, L2. lia. }
  rewrite mask_none, diff_zero by (rewrite removelast_len; assumption).
  assert (HR : Forall (fun t => 0 <= t) (removelast s)). { apply Forall_forall. intros x Hx. rewrite Forall_forall in HS. apply HS. destruct (exists_last HN) as (s' & y & ->). rewrite removelast_last in Hx. apply in_or_app. auto. }
  rewrite <- (fit_suffix (m - 1) row (removelast s)) by (assumption || rewrite removelast_len; lia). fold F.
  split.
  - intros <-. exists F1. symmetry. apply firstn_skipn.
  - intros H. apply suffix_last_n in H. rewrite <- H. unfold last_n, F2. rewrite removelast_len. f_equal. lia.
Qed.
Lemma prefix_matches_plain m row s : length s = m -> (2 <= m)%nat -> Forall (fun t => 0 <= t) s ->
  prefix_matches (fit (m - 1) row) s None = true <-> suffix (removelast s) row.
Proof.
  intros HL Hm HS. assert (HN : s <> []) by (destruct s; [simpl in HL; lia|discriminate]). unfold prefix_matches.
  rewrite diff_zero by (rewrite fit_length, removelast_len; lia).
  assert (HR : Forall (fun t => 0 <= t) (removelast s)). { apply Forall_forall. intros x Hx. rewrite Forall_forall in HS. apply HS. destruct (exists_last HN) as (s' & y & ->). rewrite removelast_last in Hx. apply in_or_app. auto. }
  rewrite <- (fit_suffix (m - 1) row (removelast s)) by (assumption || rewrite removelast_len; lia).
  split; [intros <-; exists []; reflexivity|]. intros H. apply suffix_last_n in H. rewrite <- H. unfold last_n. rewrite removelast_len, fit_length. replace (m - 1 - (length s - 1))%nat with 0%nat by lia. reflexivity.
Qed.

(** *** Lengths *)
Lemma max_len_acc l : forall m, (m <= fold_left (fun m s => Nat.max (length s) m) l m /\ forall s : list Z, In s l -> length s <= fold_left (fun m s => Nat.max (length s) m) l m)%nat.
Proof. induction l as [|x l IH]; intros m; simpl; [split; [lia|intros ? []]|]. destruct (IH (Nat.max (length x) m)) as [H1 H2]. split; [lia|]. intros s [->|Hs]; [lia|auto]. Qed.
Lemma max_len_ge l s : In s l -> (length s <= max_len l)%nat.
Proof. apply (max_len_acc l 0). Qed.
Lemma min_len_acc l : forall m, (fold_left (fun m s => Nat.min (length s) m) l m <= m /\ forall s : list Z, In s l -> fold_left (fun m s => Nat.min (length s) m) l m <= length s)%nat.
Proof. induction l as [|x l IH]; intros m; simpl; [split; [lia|intros ? []]|]. destruct (IH (Nat.min (length x) m)) as [H1 H2]. split; [lia|]. intros s [->|Hs]; [lia|auto]. Qed.
Lemma min_len_le l s : In s l -> (min_len l <= length s)%nat.
Proof. destruct l as [|x l]; [intros []|]. unfold min_len. destruct (min_len_acc l (length x)) as [H1 H2]. intros [->|Hs]; auto. Qed.
Lemma find_empty_none l : forall idx, find_empty idx l = None <-> Forall (fun s => s <> []) l.
Proof. induction l as [|[|x s] l IH]; intros idx; simpl; [split; auto|split; [discriminate|intros H; inversion H; congruence]|]. rewrite IH. split; [constructor; [discriminate|assumption]|intros H; inversion H; assumption]. Qed.
Lemma left_pad_length {A} m (x : A) l : (length l <= m)%nat -> length (left_pad m x l) = m.
Proof. intros. unfold left_pad. rewrite app_length, repeat_length. lia. Qed.
Lemma hd_map_pad m l : l <> [] -> (forall s : list Z, In s l -> (length s <= m)%nat) -> length (hd [] (map (left_pad m 0) l)) = m.
Proof. destruct l as [|s l]; [congruence|]. intros _ H. simpl. apply left_pad_length. apply H. left. reflexivity. Qed.
Lemma last_left_pad m s : s <> [] -> last (left_pad m 0 s) 0 = last s 0.
Proof. intros HN. destruct (exists_last HN) as (s' & x & ->). unfold left_pad. rewrite app_assoc, !last_last. reflexivity. Qed.

Section Banned.
  Variable R : Type.
  Lemma banned_row_lemma l ban row (p : list R) : l <> [] -> Forall (fun s => s <> []) l -> Forall (tokens (length p)) l -> exists b q, banned_ctor l = Enabled b /\
    banned_row R b ban row p = Some q /\ overwritten (completes_banned l row) ban p q.
  Proof.
    intros HN HE HT. unfold banned_ctor. destruct l as [|s0 l0] eqn:EL; [congruence|]. rewrite <- EL in *. clear EL s0 l0.
    rewrite (proj2 (find_empty_none l 0) HE).
    assert (HE' : forall s, In s l -> s <> []) by (apply Forall_forall; exact HE).
    assert (HT' : forall s, In s l -> Forall (fun t => 0 <= t) s /\ (s <> [] -> 0 <= last s 0 < Z.of_nat (length p))).
    { intros s Hs. rewrite Forall_forall in HT. specialize (HT s Hs). split; [eapply Forall_impl; [|exact HT]; simpl; intros; lia|]. intros Hn. destruct (exists_last Hn) as (s' & x & ->). rewrite last_last. apply Forall_app in HT. destruct HT as [_ HT]. inversion HT; assumption. }
    (* collect the forbidden tokens *)
    assert (G : forall toks, (forall v, In v toks <-> exists s, In s l /\ suffix (removelast s) row /\ last s 0 = v) -> exists q, assign_all R ban p toks = Some q /\ overwritten (completes_banned l row) ban p q).
    { intros toks HK. destruct (assign_all_ok R ban toks p) as (q & HQ & HO).
      - apply Forall_forall. intros v Hv. apply HK in Hv. destruct Hv as (s & Hs & _ & <-). apply HT'; auto.
      - exists q. split; [assumption|]. eapply overwritten_ext; [|exact HO]. intros v. rewrite HK. unfold completes_banned. split; intros (s & Hs & H); exists s; (split; [assumption|]); [apply (suffix_snoc s row v 0); auto|apply (suffix_snoc s row v 0) in H; auto]. }
    destruct (Nat.eqb (max_len l) (min_len l)) eqn:EM.
    - exists (Banned l None).
      assert (ML : forall s, In s l -> length s = max_len l) by (intros s Hs; pose proof (max_len_ge l s Hs); pose proof (min_len_le l s Hs); lia).
      assert (MH : length (hd [] l) = max_len l) by (destruct l; [congruence|]; simpl; apply ML; left; reflexivity).
      unfold banned_row. cbn [seqs_of mask_of]. rewrite MH.
      destruct (Nat.eqb (max_len l - 1) 0) eqn:E0.
      + destruct (G (map (fun s => hd 0 s) l)) as (q & HQ & HO); [|exists q; auto].
        intros v. rewrite in_map_iff. split.
        * intros (s & <- & Hs). exists s. split; [assumption|]. pose proof (ML s Hs). pose proof (HE' s Hs). destruct s as [|x [|y s]]; [congruence| |simpl in *; lia]. split; [exists row; simpl; rewrite app_nil_r; reflexivity|reflexivity].
        * intros (s & Hs & _ & <-). exists s. split; [|assumption]. pose proof (ML s Hs). pose proof (HE' s Hs). destruct s as [|x [|y s]]; [congruence|reflexivity|simpl in *; lia].
      + unfold matching. cbn [seqs_of mask_of]. destruct (G (map (fun s => last s 0) (filter (fun s => prefix_matches (fit (max_len l - 1) row) s None) l))) as (q & HQ & HO); [|exists q; auto].
        intros v. rewrite in_map_iff. split.
        * intros (s & <- & Hs). apply filter_In in Hs. destruct Hs as [Hs HP]. exists s. split; [assumption|]. split; [|reflexivity]. apply (prefix_matches_plain (max_len l)) in HP; [assumption|auto|lia|apply HT'; assumption].
        * intros (s & Hs & HP & <-). exists s. split; [reflexivity|]. apply filter_In. split; [assumption|]. apply (prefix_matches_plain (max_len l)); [auto|lia|apply HT'; assumption|assumption].
    - exists (Banned (map (left_pad (max_len l) 0) l) (Some (map (fun s => left_pad (max_len l) true (map (fun _ => false) s)) l))).
      unfold banned_row. cbn [seqs_of mask_of]. rewrite hd_map_pad by (auto using max_len_ge).
      assert (M2 : (2 <= max_len l)%nat).
      { destruct l as [|s l']; [congruence|]. pose proof (HE' s (or_introl eq_refl)). pose proof (max_len_ge (s :: l') s (or_introl eq_refl)). 
        assert (1 <= min_len (s :: l'))%nat.
        { unfold min_len. assert (HG : forall m, (1 <= m)%nat -> (forall s, In s l' -> s <> []) -> (1 <= fold_left (fun m s => Nat.min (length s) m) l' m)%nat).
          { clear. induction l' as [|x l' IH]; intros m Hm H; simpl; [assumption|]. apply IH; [|intros; apply H; right; assumption]. pose proof (H x (or_introl eq_refl)). destruct x; [congruence|]. cbn [length]. lia. }
          apply HG; [destruct s; [congruence|simpl; lia]|intros; apply HE'; right; assumption]. }
        pose proof (min_len_le (s :: l') s (or_introl eq_refl)). lia. }
      destruct (Nat.eqb (max_len l - 1) 0) eqn:E0; [lia|].
      unfold matching. cbn [seqs_of mask_of].
      assert (EC : forall (f : list Z -> list Z) (g : list Z -> list bool), combine (map f l) (map g l) = map (fun s => (f s, g s)) l) by (intros f g; clear; induction l; simpl; f_equal; auto).
      rewrite EC. match goal with |- context [assign_all R ban p ?t] => destruct (G t) as (q & HQ & HO); [|exists q; auto] end.
      intros v. rewrite in_map_iff. split.
      + intros (sm & <- & Hs). apply filter_In in Hs. destruct Hs as [Hs HP]. apply in_map_iff in Hs. destruct Hs as (s & <- & Hs). cbn [fst snd] in HP |- *.
        exists s. split; [assumption|]. split; [|symmetry; apply last_left_pad; auto]. apply (prefix_matches_lemma (max_len l)) in HP; auto using max_len_ge. apply HT'; assumption.
      + intros (s & Hs & HP & <-). eexists. split; [|apply filter_In; split; [apply in_map_iff; exists s; split; [reflexivity|assumption]|]]; cbn [fst snd]; [apply last_left_pad; auto|].
        apply (prefix_matches_lemma (max_len l)); auto using max_len_ge. apply HT'; assumption.
  Qed.
End Banned.

(** *** n-grams *)
Lemma list_eqb_iff a b : length a = length b -> list_eqb a b = true <-> a = b.
Proof.
  intros H. rewrite <- (diff_zero a b H). unfold list_eqb. enough (existsb (fun xy : Z * Z => negb (fst xy - snd xy =? 0)) (combine a b) = existsb (fun x => negb (x =? 0)) (map (fun xy => fst xy - snd xy) (combine a b))) as -> by tauto.
  clear. induction (combine a b) as [|x l IH]; simpl; [reflexivity|]. rewrite IH. reflexivity.
Qed.
Lemma firstn_snoc {A} n (l : list A) d : (n < length l)%nat -> firstn (S n) l = firstn n l ++ [nth n l d].
Proof. revert l. induction n; intros [|x l] H; simpl in *; try lia; [reflexivity|]. f_equal. apply IHn. lia. Qed.
Lemma nth_skipn' {A} i j (l : list A) d : nth j (skipn i l) d = nth (i + j) l d.
Proof. revert l. induction i; intros l; [reflexivity|]. destruct l; simpl; [destruct j; reflexivity|]. apply IHi. Qed.

Lemma ngram_iff n row v : (2 <= n)%nat -> (n <= length row)%nat ->
  repeats_ngram n row v <-> exists i, (i < length row + 1 - n)%nat /\ firstn (n - 1) (skipn i row) = last_n (n - 1) row /\ nth (i + n - 1) row 0 = v.
Proof.
  intros Hn HL. split.
  - intros (g & a & c & Hg & HR & HS). exists (length a). assert (HN : g <> []) by (destruct g; [simpl in Hg; lia|discriminate]).
    apply (suffix_snoc g row v 0 HN) in HS. destruct HS as [HS <-].
    assert (EL : length row = (length a + n + length c)%nat) by (rewrite HR, !app_length; lia).
    split; [lia|]. apply suffix_last_n in HS. rewrite removelast_len, Hg in HS. rewrite HS.
    assert (ES : skipn (length a) row = g ++ c) by (rewrite HR, skipn_app, skipn_all, Nat.sub_diag; reflexivity).
    split.
    + rewrite ES. rewrite firstn_app. replace (n - 1 - length g)%nat with 0%nat by lia. simpl. rewrite app_nil_r. rewrite removelast_firstn_len. f_equal. lia.
    + replace (length a + n - 1)%nat with (length a + (n - 1))%nat by lia. rewrite <- nth_skipn', ES, app_nth1 by lia.
      destruct (exists_last HN) as (g' & x & ->). rewrite last_last. rewrite app_length in Hg. simpl in Hg. rewrite app_nth2 by lia. replace (n - 1 - length g')%nat with 0%nat by lia. reflexivity.
  - intros (i & Hi & HP & <-). exists (firstn n (skipn i row)), (firstn i row), (skipn n (skipn i row)).
    assert (EN : length (skipn i row) = (length row - i)%nat) by apply skipn_length.
    split; [rewrite firstn_length; lia|]. split; [rewrite firstn_skipn, firstn_skipn; reflexivity|].
    replace n with (S (n - 1)) at 1 by lia. rewrite (firstn_snoc (n - 1) (skipn i row) 0) by lia. rewrite nth_skipn'. replace (i + (n - 1))%nat with (i + n - 1)%nat by lia.
    rewrite HP. destruct (last_n_suffix (n - 1) row) as (b & Hb). exists b. rewrite app_assoc, <- Hb. reflexivity.
Qed.

Section NGram.
  Variable R : Type.
  Lemma ngram_row_lemma n ban row (p : list R) : ngram_ctor n = true -> tokens (length p) row -> exists q, ngram_row R n ban row p = Some q /\ overwritten (repeats_ngram n row) ban p q.
  Proof.
    intros HC HT. unfold ngram_ctor in HC. unfold ngram_row. destruct (length row + 1 <=? n)%nat eqn:E.
    - exists p. split; [reflexivity|]. split; [reflexivity|]. intros v d Hv. split; [|reflexivity]. intros (g & a & c & Hg & HR & _). apply (f_equal (@length Z)) in HR. rewrite !app_length in HR. lia.
    - destruct (Nat.eqb n 1) eqn:E1.
      + assert (n = 1%nat) as -> by lia. destruct (assign_all_ok R ban row p HT) as (q & HQ & HO). exists q. split; [assumption|]. eapply overwritten_ext; [|exact HO].
        intros v. split.
        * intros Hv. apply in_split in Hv. destruct Hv as (a & c & ->). exists [v], a, c. split; [reflexivity|]. split; [reflexivity|]. eexists. reflexivity.
        * intros (g & a & c & Hg & HR & HS). destruct g as [|x [|? ?]]; try discriminate. destruct HS as (b & HS). apply app_inj_tail in HS. destruct HS as [_ <-]. rewrite HR. apply in_or_app. right. left. reflexivity.
      + cbv zeta. rewrite (fold_filter R (fun i => list_eqb (firstn (n - 1) (skipn i row)) (last_n (n - 1) row)) (fun i => nth (i + n - 1) row 0)).
        match goal with |- context [map ?g ?l] => set (toks := map g l) end.
        assert (HK : forall v, In v toks <-> repeats_ngram n row v).
        { intros v. unfold toks. rewrite in_map_iff, ngram_iff by lia. split.
          - intros (i & <- & Hi). apply filter_In in Hi. destruct Hi as [Hi HE]. apply in_seq in Hi. exists i. split; [lia|]. split; [|reflexivity]. apply list_eqb_iff; [|assumption].
            rewrite last_n_length by lia. rewrite firstn_length, skipn_length. lia.
          - intros (i & Hi & HE & <-). exists i. split; [reflexivity|]. apply filter_In. split; [apply in_seq; lia|]. apply list_eqb_iff; [|assumption].
            rewrite last_n_length by lia. rewrite firstn_length, skipn_length. lia. }
        destruct (assign_all_ok R ban toks p) as (q & HQ & HO).
        * apply Forall_forall. intros v Hv. apply HK in Hv. destruct Hv as (g & a & c & Hg & HR & HS). unfold tokens in HT. rewrite Forall_forall in HT. apply HT.
          assert (HN : g <> []) by (destruct g; [simpl in Hg; lia|discriminate]). apply (suffix_snoc g row v 0 HN) in HS. destruct HS as [_ <-]. rewrite HR. apply in_or_app. right. apply in_or_app. left.
          destruct (exists_last HN) as (g' & x & ->). rewrite last_last. apply in_or_app. right. left. reflexivity.
        * exists q. split; [exact HQ|]. eapply overwritten_ext; [|exact HO]. exact HK.
  Qed.
End NGram.

(** *** All rows *)
Section Rows.
  Variable R : Type.
  Lemma rows_lemma (f : list Z -> list R -> option (list R)) (G : list Z -> list R -> Prop) (Q : list Z -> list R -> list R -> Prop) seqs : forall probs, length seqs = length probs ->
    (forall s p, G s p -> exists q, f s p = Some q /\ Q s p q) -> Forall (fun sp => G (fst sp) (snd sp)) (combine seqs probs) ->
    exists qs, sequence (map (fun sp : list Z * list R => f (fst sp) (snd sp)) (combine seqs probs)) = Some qs /\ length qs = length probs /\
      forall k, (k < length probs)%nat -> Q (nth k seqs []) (nth k probs []) (nth k qs []).
  Proof.
    induction seqs as [|s seqs IH]; intros [|p probs] HL HF HG; simpl in HL; try discriminate.
    - exists []. split; [reflexivity|]. split; [reflexivity|]. intros k Hk. simpl in Hk. lia.
    - simpl in HG. inversion HG; subst. destruct (IH probs ltac:(lia) HF ltac:(assumption)) as (qs & EQ & EL & HQ). destruct (HF s p) as (q & Eq & Hq); [assumption|].
      exists (q :: qs). cbn [combine map sequence fst snd]. rewrite Eq, EQ. split; [reflexivity|]. split; [simpl; lia|]. intros [|k] Hk; simpl in *; [assumption|]. apply HQ. lia.
  Qed.
End Rows.

(** *** Growing *)
Lemma app_snoc_cases {A} (a b c s : list A) v : s ++ [v] = a ++ b ++ c -> (c = [] /\ s ++ [v] = a ++ b) \/ (exists c', c = c' ++ [v] /\ s = a ++ b ++ c').
Proof.
  intros H. destruct c as [|x c'] using rev_ind; [left; rewrite app_nil_r in H; auto|right].
  rewrite !app_assoc in H. apply app_inj_tail in H. destruct H as [-> ->]. exists c'. rewrite app_assoc. auto.
Qed.
Lemma grown_banned bs prompt s : grown (completes_banned bs) prompt s -> forall a b c, In b bs -> s = a ++ b ++ c -> (length (a ++ b) <= length prompt)%nat.
Proof.
  induction 1 as [|s v HG IH HN]; intros a b c Hb HE; [rewrite HE, app_assoc, (app_length (a ++ b)); lia|].
  destruct (app_snoc_cases _ _ _ _ _ HE) as [[-> HE']|(c' & -> & HE')]; [|eapply IH; eassumption].
  exfalso. apply HN. exists b. split; [assumption|]. exists a. exact HE'.
Qed.
Lemma grown_ngram n prompt s : grown (repeats_ngram n) prompt s -> forall g a1 c1 a2 c2, length g = n -> s = a1 ++ g ++ c1 -> s = a2 ++ g ++ c2 -> (length a1 < length a2)%nat ->
  (length (a2 ++ g) <= length prompt)%nat.
Proof.
  induction 1 as [|s v HG IH HN]; intros g a1 c1 a2 c2 Hg H1 H2 HL; [rewrite H2, app_assoc, (app_length (a2 ++ g)); lia|].
  destruct (app_snoc_cases _ _ _ _ _ H1) as [[-> H1']|(c1' & -> & H1')].
  - exfalso. rewrite H1' in H2. apply (f_equal (@length Z)) in H2. rewrite !app_length in H2. lia.
  - destruct (app_snoc_cases _ _ _ _ _ H2) as [[-> H2']|(c2' & -> & H2')]; [|exact (IH g a1 c1' a2 c2' Hg H1' H2' HL)].
    exfalso. apply HN. exists g, a1, c1'. split; [assumption|]. split; [assumption|]. exists a2. assumption.
Qed.
