(** Proofs about bucket_by_length. *)

From Coq Require Import Lia Permutation.
From Verif Require Import DP_Base DP_Spec DP_Sources_Model DP_Bucketing_Model DP_Laws DP_Sources_Proofs DP_Sources_Proofs2
  DP_Multi_Lemmas DP_Shuffle_Proofs.

(** ** Lists of buckets *)
Lemma nth_upd_eq {A} (l : list A) i x d : i < length l -> nth i (upd l i x) d = x.
Proof. revert i. induction l as [|a l IH]; intros [|i] H; simpl in *; try lia; auto. apply IH. lia. Qed.

Lemma nth_upd_ne {A} (l : list A) i j x d : i <> j -> nth j (upd l i x) d = nth j l d.
Proof. revert i j. induction l as [|a l IH]; intros [|i] [|j] H; simpl in *; try lia; auto. Qed.

Lemma concat_upd_perm {A} (l : list (list A)) i x : i < length l ->
  Permutation (nth i l [] ++ concat (upd l i x)) (x ++ concat l).
Proof.
  revert i. induction l as [|a l IH]; intros [|i] H; simpl in *; try lia.
  - rewrite !app_assoc. apply Permutation_app_tail. apply Permutation_app_comm.
  - specialize (IH i ltac:(lia)).
    rewrite app_assoc, (Permutation_app_comm (nth i l []) a), <- app_assoc, IH.
    rewrite !app_assoc. apply Permutation_app_tail. apply Permutation_app_comm.
Qed.

Lemma concat_nil_nth {A} (l : list (list A)) : (forall k, nth k l [] = []) -> concat l = [].
Proof.
  induction l as [|a l IH]; intros H; simpl; auto. rewrite (H 0 : a = []). simpl. apply IH. intros k. apply (H (S k)).
Qed.

Lemma take_back_spec rem o b rem' o' b' : take_back rem o b = (rem', o', b') ->
  exists t, o = o' ++ rev t /\ b' = b ++ t /\ rem = rem' + length t /\ (rem' = 0 \/ o' = []).
Proof.
  revert o b. induction rem as [|rem IH]; intros o b H; simpl in H.
  - inv H. exists []. simpl. rewrite !app_nil_r. auto.
  - destruct (rev o) as [|d r] eqn:E.
    + inv H. apply (f_equal (@rev _)) in E. rewrite rev_involutive in E. simpl in E. subst o'.
      exists []. simpl. rewrite app_nil_r. repeat split; auto; lia.
    + destruct (IH _ _ H) as (t & H1 & H2 & H3 & H4). exists (d :: t).
      apply (f_equal (@rev _)) in E. rewrite rev_involutive in E. simpl in E.
      split; [rewrite E, H1; simpl; rewrite app_assoc; reflexivity|].
      split; [rewrite H2, <- app_assoc; reflexivity|]. simpl. split; [lia|assumption].
Qed.

Lemma bbl_fill_spec j : forall rem bs b bs' b', j <= length bs -> bbl_fill j rem bs b = (bs', b') ->
  length bs' = length bs /\
  (forall k, exists t, nth k bs [] = nth k bs' [] ++ t) /\
  (forall k, j <= k -> nth k bs' [] = nth k bs []) /\
  Permutation (concat bs ++ b) (concat bs' ++ b') /\
  (exists t, b' = b ++ t /\ length t <= rem /\ (length t = rem \/ forall k, k < j -> nth k bs' [] = []) /\
     forall d, In d t -> exists k, k < j /\ In d (nth k bs [])).
Proof.
  induction j as [|j IH]; intros rem bs b bs' b' Hj H; simpl in H.
  - inv H. split; [reflexivity|]. split; [intros k; exists []; rewrite app_nil_r; reflexivity|].
    split; [reflexivity|]. split; [reflexivity|]. exists []. rewrite app_nil_r. split; [reflexivity|].
    split; [simpl; lia|]. split; [right; intros; lia|]. intros d [].
  - destruct (take_back rem (nth j bs []) b) as [[rem' o'] b1] eqn:E.
    destruct (take_back_spec _ _ _ _ _ _ E) as (t & H1 & H2 & H3 & H4).
    assert (HP : Permutation (concat bs ++ b) (concat (upd bs j o') ++ b1)).
    { subst b1. pose proof (concat_upd_perm bs j o' ltac:(lia)) as HX. rewrite H1 in HX.
      rewrite <- app_assoc in HX. apply Permutation_app_inv_l in HX. rewrite <- HX.
      rewrite (Permutation_app_comm (rev t)), <- app_assoc. apply Permutation_app_head.
      rewrite <- (Permutation_rev t). apply Permutation_app_comm. }
    assert (Hin : forall d, In d t -> exists k, k < S j /\ In d (nth k bs [])).
    { intros d Hd. exists j. split; [lia|]. rewrite H1. apply in_or_app. right. apply -> in_rev. assumption. }
    assert (Hpre : forall k, exists t0, nth k bs [] = nth k (upd bs j o') [] ++ t0).
    { intros k. destruct (Nat.eq_dec j k) as [<-|Hne].
      - rewrite nth_upd_eq by lia. eauto.
      - rewrite nth_upd_ne by assumption. exists []. rewrite app_nil_r. reflexivity. }
    destruct rem' as [|rem'].
    + inv H. rewrite upd_length. split; [reflexivity|]. split; [assumption|].
      split; [intros k Hk; apply nth_upd_ne; lia|]. split; [assumption|].
      exists t. split; [reflexivity|]. split; [lia|]. split; [left; lia|assumption].
    + destruct H4 as [H4|H4]; [lia|]. subst o'.
      destruct (IH (S rem') (upd bs j []) b1 bs' b' ltac:(rewrite upd_length; lia) H) as (I1 & I2 & I3 & I4 & t2 & I5 & I6 & I7 & I8).
      rewrite upd_length in I1. split; [assumption|]. split.
      { intros k. destruct (Hpre k) as [t0 E0]. destruct (I2 k) as [t1 E1]. rewrite E0, E1, <- app_assoc. eauto. }
      split.
      { intros k Hk. rewrite I3 by lia. apply nth_upd_ne. lia. }
      split; [rewrite HP; assumption|].
      exists (t ++ t2). split; [rewrite I5, H2, app_assoc; reflexivity|]. rewrite app_length. split; [lia|]. split.
      * destruct I7 as [I7|I7]; [left; lia|]. right. intros k Hk. destruct (Nat.eq_dec k j) as [->|Hne].
        -- rewrite I3 by lia. apply nth_upd_eq. lia.
        -- apply I7. lia.
      * intros d Hd. apply in_app_or in Hd. destruct Hd as [Hd|Hd]; [auto|].
        destruct (I8 d Hd) as (k & Hk & Hd'). exists k. split; [lia|]. rewrite nth_upd_ne in Hd' by lia. assumption.
Qed.

Section BBLP.
  Variable sizes : list (nat * nat).
  Variable len : data -> fres nat.
  Variable min_len : nat.
  Variables skip_below skip_above drop : bool.
  Variable I : source.
  Notation bbl := (src_bucket_by_length sizes len min_len skip_below skip_above drop I).
  Notation loop := (bbl_loop sizes len min_len skip_below skip_above drop I).

  Lemma bbl_loop_mono : mono I -> forall n n' m m' x r, n <= n' -> m <= m' -> loop m n x = Some r -> loop m' n' x = Some r.
  Proof.
    intros HM n. induction n as [|n IH]; intros n' m m' x r Hn Hm H; [discriminate|].
    destruct n' as [|n']; [lia|]. destruct x as [bs s]. cbn [bbl_loop] in *.
    destruct (next I m s) as [[o s']|] eqn:E; [|discriminate]. rewrite (HM _ _ _ _ Hm E).
    destruct o as [d| |e]; auto. destruct (len d) as [l| |]; auto.
    destruct (l <? min_len); [destruct skip_below; auto; eapply IH; [| |eassumption]; lia|].
    destruct (max_len sizes <? l); [destruct skip_above; auto; eapply IH; [| |eassumption]; lia|].
    destruct (bbl_put sizes bs l d) as [bs' [b|]]; auto. eapply IH; [| |eassumption]; lia.
  Qed.

  Lemma bbl_mono : mono I -> mono bbl.
  Proof. intros HM n m x r Hn. apply bbl_loop_mono; assumption. Qed.

  (** *** Contents *)
  Variable lenof : data -> nat.
  Hypothesis Hne : sizes <> [].
  Hypothesis Hsorted : forall i j a b, i < j -> nth_error sizes i = Some a -> nth_error sizes j = Some b -> snd a <= snd b.

  Notation cls d := (class_of sizes (lenof d)).
  Notation num i := (fst (nth i sizes (0, 0))).
  Notation keep := (fun d => (min_len <=? lenof d) && (cls d <? length sizes)).

  (** Bucket [i] holds examples of class [i], fewer than its size. *)
  Definition bs_ok (bs : list (list data)) : Prop :=
    length bs = length sizes /\
    forall i, i < length sizes -> length (nth i bs []) < Nat.max 1 (num i) /\ forall d, In d (nth i bs []) -> cls d = i.

  Lemma nth_error_nth_sizes i : i < length sizes -> nth_error sizes i = Some (nth i sizes (0, 0)).
  Proof. intros H. apply nth_error_nth'. assumption. Qed.

  Lemma class_of_le szs l i : class_of szs l = i -> i < length szs -> l <= snd (nth i szs (0, 0)).
  Proof.
    revert i. induction szs as [|[n mx] szs IH]; intros i H Hi; simpl in *; [lia|].
    destruct (Nat.leb_spec l mx); subst i; simpl; auto. apply IH; auto. lia.
  Qed.

  Lemma class_of_max szs l : class_of szs l < length szs <->
    exists i n mx, nth_error szs i = Some (n, mx) /\ l <= mx.
  Proof.
    induction szs as [|[n mx] szs IH]; simpl.
    - split; [lia|]. intros (i & n & mx & H & _). destruct i; discriminate.
    - destruct (Nat.leb_spec l mx).
      + split; [|lia]. intros _. exists 0, n, mx. auto.
      + split.
        * intros HX. destruct (proj1 IH ltac:(lia)) as (i & n' & mx' & H1 & H2). exists (S i), n', mx'. auto.
        * intros ([|i] & n' & mx' & H1 & H2); simpl in H1; [inv H1; lia|].
          assert (class_of szs l < length szs) by (apply IH; eauto). lia.
  Qed.

  Lemma max_len_class l : (max_len sizes <? l) = negb (class_of sizes l <? length sizes).
  Proof.
    assert (HX : exists szs n mx, sizes = szs ++ [(n, mx)]).
    { destruct (exists_last Hne) as (szs & [n mx] & E). eauto. }
    destruct HX as (szs & n & mx & E).
    assert (HMx : max_len sizes = mx) by (unfold max_len; rewrite E, rev_app_distr; reflexivity).
    rewrite HMx.
    assert (HL : nth_error sizes (length szs) = Some (n, mx)).
    { rewrite E, nth_error_app2 by lia. rewrite Nat.sub_diag. reflexivity. }
    destruct (Nat.ltb_spec mx l) as [H|H]; destruct (Nat.ltb_spec (class_of sizes l) (length sizes)) as [H'|H']; try reflexivity.
    - apply class_of_max in H'. destruct H' as (i & n' & mx' & Hi & Hl).
      assert (Hi' : i < length sizes) by (apply nth_error_Some; congruence).
      assert (HLn : length sizes = S (length szs)) by (rewrite E, app_length; simpl; lia).
      destruct (Nat.eq_dec i (length szs)) as [->|Hne'].
      + rewrite HL in Hi. inv Hi. lia.
      + pose proof (Hsorted i (length szs) _ _ ltac:(lia) Hi HL). simpl in *. lia.
    - assert (class_of sizes l < length sizes) by (apply class_of_max; eauto). lia.
  Qed.

  Lemma bbl_put_spec szs bs l d : length bs = length szs -> class_of szs l < length szs ->
    bbl_put szs bs l d =
    let i := class_of szs l in
    let b := nth i bs [] ++ [d] in
    if fst (nth i szs (0, 0)) <=? length b then (upd bs i [], Some b) else (upd bs i b, None).
  Proof.
    revert bs. induction szs as [|[n mx] szs IH]; intros bs HL Hc; [simpl in Hc; lia|].
    destruct bs as [|b bs]; [discriminate|]. simpl in HL, Hc. cbn [bbl_put class_of].
    destruct (Nat.leb_spec l mx) as [H|H]; [reflexivity|]. cbn [nth upd].
    rewrite (IH bs) by lia. cbv zeta. destruct (fst _ <=? _); reflexivity.
  Qed.

  (** The outputs as a function of the buckets and the examples still to be read. *)
  Fixpoint drain (k : nat) (bs : list (list data)) : list (list data) :=
    match k with
    | O => []
    | S k' => match bbl_rest sizes drop (length bs) bs with
              | (Val (DList b), bs') => b :: drain k' bs'
              | _ => []
              end
    end.

  Fixpoint bbl_run (bs : list (list data)) (L : list data) : list (list data) :=
    match L with
    | [] => drain (length (concat bs)) bs
    | d :: r => if keep d then
                  match bbl_put sizes bs (lenof d) d with
                  | (bs', Some b) => b :: bbl_run bs' r
                  | (bs', None) => bbl_run bs' r
                  end
                else bbl_run bs r
    end.

  (** One remainder bucket. *)
  Lemma bbl_rest_spec bs : bs_ok bs -> forall i, i <= length bs -> (forall k, i <= k -> nth k bs [] = []) ->
    (concat bs = [] /\ bbl_rest sizes drop i bs = (Eod, bs)) \/
    (exists j b bs', j < length sizes /\ 1 <= length b <= num j /\ (forall d, In d b -> lenof d <= snd (nth j sizes (0, 0))) /\
       bs_ok bs' /\ Permutation (concat bs) (b ++ concat bs') /\ (length b = num j \/ concat bs' = []) /\
       bbl_rest sizes drop i bs = (if drop && negb (length b =? num j) then Eod else Val (DList b), bs')).
  Proof.
    intros [HLn Hok] i. induction i as [|i IH]; intros Hi Hz.
    - left. split; [|reflexivity]. apply concat_nil_nth. intros k. apply Hz. lia.
    - cbn [bbl_rest]. destruct (nth i bs []) as [|d0 b0] eqn:Eb.
      + apply IH; [lia|]. intros k Hk. destruct (Nat.eq_dec k i) as [->|]; [assumption|]. apply Hz. lia.
      + right. set (b := d0 :: b0) in *.
        destruct (Hok i ltac:(lia)) as [Hlen Hcls]. rewrite Eb in Hlen, Hcls.
        assert (Hlb0 : 1 <= length b) by (unfold b; cbn [length]; lia).
        assert (Hlb : 1 <= length b < num i) by lia. clearbody b.
        assert (Hbd : forall k d, k <= i -> In d (nth k bs []) -> lenof d <= snd (nth i sizes (0, 0))).
        { intros k d Hk Hd. destruct (Hok k ltac:(lia)) as [_ Hc]. specialize (Hc d Hd).
          pose proof (class_of_le sizes (lenof d) k Hc ltac:(lia)) as HX.
          destruct (Nat.eq_dec k i) as [->|]; [assumption|].
          pose proof (Hsorted k i _ _ ltac:(lia) (nth_error_nth_sizes k ltac:(lia)) (nth_error_nth_sizes i ltac:(lia))). lia. }
        destruct (if i =? 0 then (bs, b) else bbl_fill i (num i - length b) bs b) as [bs1 b1] eqn:Ef.
        assert (HF : length bs1 = length bs /\
           (forall k, exists t, nth k bs [] = nth k bs1 [] ++ t) /\
           (forall k, i <= k -> nth k bs1 [] = nth k bs []) /\
           Permutation (concat bs ++ b) (concat bs1 ++ b1) /\
           (exists t, b1 = b ++ t /\ length t <= num i - length b /\
              (length t = num i - length b \/ forall k, k < i -> nth k bs1 [] = []) /\
              forall d, In d t -> exists k, k < i /\ In d (nth k bs []))).
        { destruct (Nat.eqb_spec i 0) as [->|].
          - inv Ef. split; [reflexivity|]. split; [intros k; exists []; rewrite app_nil_r; reflexivity|].
            split; [reflexivity|]. split; [reflexivity|]. exists []. rewrite app_nil_r.
            split; [reflexivity|]. split; [simpl; lia|]. split; [right; intros; lia|]. intros d [].
          - apply bbl_fill_spec; [lia|assumption]. }
        destruct HF as (F1 & F2 & F3 & F4 & t & F5 & F6 & F7 & F8).
        exists i, b1, (upd bs1 i []).
        assert (Hb1 : length b1 = length b + length t) by (rewrite F5, app_length; reflexivity).
        split; [lia|]. split; [lia|]. split.
        { intros d Hd. rewrite F5 in Hd. apply in_app_or in Hd. destruct Hd as [Hd|Hd].
          - apply (Hbd i); [lia|]. rewrite Eb. assumption.
          - destruct (F8 d Hd) as (k & Hk & Hd'). apply (Hbd k); [lia|assumption]. }
        split.
        { split; [rewrite upd_length; lia|]. intros k Hk. destruct (Nat.eq_dec i k) as [<-|Hki].
          - rewrite nth_upd_eq by lia. cbn [length]. split; [lia|]. intros d [].
          - rewrite nth_upd_ne by assumption. destruct (F2 k) as [tk Ek]. destruct (Hok k Hk) as [H1 H2].
            rewrite Ek in H1, H2. rewrite app_length in H1. split; [lia|]. intros d Hd. apply H2. apply in_or_app; auto. }
        split.
        { pose proof (concat_upd_perm bs1 i [] ltac:(lia)) as HX. simpl in HX. rewrite F3, Eb in HX by lia.
          apply (Permutation_app_inv_r b). rewrite F4, <- HX.
          rewrite <- (app_assoc b1). rewrite (Permutation_app_comm (b ++ concat (upd bs1 i [])) b1).
          apply Permutation_app_head. apply Permutation_app_comm. }
        split.
        { destruct F7 as [F7|F7]; [left; lia|]. right. apply concat_nil_nth. intros k.
          destruct (Nat.eq_dec i k) as [<-|Hki]; [apply nth_upd_eq; lia|]. rewrite nth_upd_ne by assumption.
          destruct (Nat.lt_ge_cases k i); [apply F7; assumption|]. rewrite F3 by lia. apply Hz. lia. }
        cbv zeta. destruct (drop && negb (length b1 =? num i)); reflexivity.
  Qed.

  Lemma bbl_rest_top bs : bs_ok bs ->
    (concat bs = [] /\ bbl_rest sizes drop (length bs) bs = (Eod, bs)) \/
    (exists j b bs', j < length sizes /\ 1 <= length b <= num j /\ (forall d, In d b -> lenof d <= snd (nth j sizes (0, 0))) /\
       bs_ok bs' /\ Permutation (concat bs) (b ++ concat bs') /\ (length b = num j \/ concat bs' = []) /\
       bbl_rest sizes drop (length bs) bs = (if drop && negb (length b =? num j) then Eod else Val (DList b), bs')).
  Proof. intros H. apply bbl_rest_spec; [assumption|lia|]. intros k Hk. apply nth_overflow. assumption. Qed.

  Lemma drain_step bs : bs_ok bs ->
    match drain (length (concat bs)) bs with
    | [] => exists bs', bbl_rest sizes drop (length bs) bs = (Eod, bs') /\ bs_ok bs' /\ drain (length (concat bs')) bs' = []
    | b :: l => exists bs', bbl_rest sizes drop (length bs) bs = (Val (DList b), bs') /\ bs_ok bs' /\ drain (length (concat bs')) bs' = l
    end.
  Proof.
    intros Hok.
    assert (Hgen : forall k bs, bs_ok bs -> length (concat bs) <= k -> drain k bs = drain (length (concat bs)) bs).
    { intros k. induction k as [k IH] using lt_wf_ind. intros bs1 Hok1 Hk.
      destruct (bbl_rest_top bs1 Hok1) as [[HE HR]|(j & b & bs' & H1 & H2 & H3 & H4 & H5 & H6 & H7)].
      - rewrite HE. simpl. destruct k; [reflexivity|]. simpl. rewrite HR. reflexivity.
      - pose proof (Permutation_length H5) as HL. rewrite app_length in HL.
        remember (length (concat bs1)) as c eqn:Ec. destruct c as [|c]; [lia|]. destruct k as [|k]; [lia|].
        cbn [drain]. rewrite H7. destruct (drop && negb (length b =? num j)); [reflexivity|]. f_equal.
        rewrite (IH k), (IH c); auto; lia. }
    destruct (bbl_rest_top bs Hok) as [[HE HR]|(j & b & bs' & H1 & H2 & H3 & H4 & H5 & H6 & H7)].
    - rewrite HE. simpl. exists bs. rewrite HE. auto.
    - pose proof (Permutation_length H5) as HL. rewrite app_length in HL.
      remember (length (concat bs)) as c eqn:Ec. destruct c as [|c]; [lia|]. cbn [drain]. rewrite H7.
      destruct (drop && negb (length b =? num j)) eqn:Ed.
      + exists bs'. split; [reflexivity|]. split; [assumption|].
        destruct H6 as [H6|H6]; [rewrite H6, Nat.eqb_refl in Ed; destruct drop; discriminate|]. rewrite H6. reflexivity.
      + exists bs'. split; [reflexivity|]. split; [assumption|]. rewrite (Hgen c); auto. lia.
  Qed.

  Lemma bbl_put_ok bs d : bs_ok bs -> cls d < length sizes ->
    exists bs', bs_ok bs' /\ 
      (bbl_put sizes bs (lenof d) d = (bs', None) /\ bs' = upd bs (cls d) (nth (cls d) bs [] ++ [d])
       \/ exists b, bbl_put sizes bs (lenof d) d = (bs', Some b) /\ b = nth (cls d) bs [] ++ [d] /\
           length b = Nat.max 1 (num (cls d)) /\ bs' = upd bs (cls d) []).
  Proof.
    intros [HLn Hok] Hc. rewrite bbl_put_spec by assumption. cbv zeta. set (i := cls d) in *.
    destruct (Hok i Hc) as [H1 H2].
    destruct (Nat.leb_spec (num i) (length (nth i bs [] ++ [d]))) as [H|H]; rewrite app_length in H; cbn [length] in H.
    - exists (upd bs i []). split.
      + split; [rewrite upd_length; assumption|]. intros k Hk. destruct (Nat.eq_dec i k) as [<-|Hki].
        * rewrite nth_upd_eq by lia. cbn [length]. split; [lia|]. intros x [].
        * rewrite nth_upd_ne by assumption. apply Hok. assumption.
      + right. exists (nth i bs [] ++ [d]). split; [reflexivity|]. split; [reflexivity|].
        rewrite app_length. cbn [length]. split; [lia|reflexivity].
    - exists (upd bs i (nth i bs [] ++ [d])). split; [|left; auto].
      split; [rewrite upd_length; assumption|]. intros k Hk. destruct (Nat.eq_dec i k) as [<-|Hki].
      * rewrite nth_upd_eq by lia. rewrite app_length. cbn [length]. split; [lia|].
        intros x Hx. apply in_app_or in Hx. destruct Hx as [Hx|[<-|[]]]; [auto|reflexivity].
      * rewrite nth_upd_ne by assumption. apply Hok. assumption.
  Qed.

  Definition readable (L : list data) : Prop :=
    forall d, In d L -> len d = FVal (lenof d) /\ (lenof d < min_len -> skip_below = true) /\
      (cls d >= length sizes -> skip_above = true).

  Lemma bbl_loop_run : mono I -> forall L bs s, bs_ok bs -> holds I s L -> readable L ->
    exists n bs' s' L', bs_ok bs' /\ holds I s' L' /\ readable L' /\
      match bbl_run bs L with
      | [] => loop n n (bs, s) = Some (Eod, (bs', s')) /\ bbl_run bs' L' = []
      | b :: l => loop n n (bs, s) = Some (Val (DList b), (bs', s')) /\ bbl_run bs' L' = l
      end.
  Proof.
    intros HM L. induction L as [|d L IH]; intros bs s Hok Hh HL.
    - destruct (holds_step I HM _ _ Hh) as (n & s' & Hn & Hs').
      pose proof (drain_step bs Hok) as HD. cbn [bbl_run].
      destruct (drain (length (concat bs)) bs) as [|b l]; destruct HD as (bs' & H1 & H2 & H3);
        exists (S n), bs', s', []; (split; [assumption|]); (split; [assumption|]); (split; [assumption|]); (split; [|assumption]);
        cbn [bbl_loop]; rewrite (HM n (S n) _ _ ltac:(lia) Hn), H1; reflexivity.
    - destruct (holds_step I HM _ _ Hh) as (n & s' & Hn & Hs').
      destruct (HL d (or_introl eq_refl)) as (Hd1 & Hd2 & Hd3).
      assert (HL' : readable L) by (intros x Hx; apply HL; right; assumption).
      assert (Hrec : forall bs1 n1 r, loop n1 n1 (bs1, s') = Some r ->
         (forall m, S (n + n1) <= m -> next I m s = Some (Val d, s')) /\
         loop (S (n + n1)) (n + n1) (bs1, s') = Some r).
      { intros bs1 n1 r Hr. split; [intros m Hm; eapply HM; [|exact Hn]; lia|].
        eapply bbl_loop_mono; [assumption| | |exact Hr]; lia. }
      cbn [bbl_run].
      destruct (Nat.leb_spec min_len (lenof d)) as [Hmin|Hmin]; cbn [andb].
      + destruct (Nat.ltb_spec (cls d) (length sizes)) as [Hc|Hc].
        * destruct (bbl_put_ok bs d Hok Hc) as (bs1 & Hok1 & [(Hp & _)|(b & Hp & _)]); rewrite Hp.
          -- destruct (IH bs1 s' Hok1 Hs' HL') as (n1 & bs' & s2 & L' & A1 & A2 & A3 & A4).
             exists (S (n + n1)), bs', s2, L'. split; [assumption|]. split; [assumption|]. split; [assumption|].
             assert (G : forall r, loop n1 n1 (bs1, s') = Some r -> loop (S (n + n1)) (S (n + n1)) (bs, s) = Some r).
             { intros r Hr. destruct (Hrec bs1 n1 r Hr) as [E1 E2]. cbn [bbl_loop]. rewrite (E1 (S (n + n1)) ltac:(lia)), Hd1.
               destruct (Nat.ltb_spec (lenof d) min_len); [lia|]. rewrite max_len_class.
               destruct (Nat.ltb_spec (cls d) (length sizes)); [|lia]. cbn [negb]. rewrite Hp. exact E2. }
             destruct (bbl_run bs1 L) as [|b l]; destruct A4 as [A4 A5]; split; auto.
          -- exists (S n), bs1, s', L. split; [assumption|]. split; [assumption|]. split; [assumption|]. split; [|reflexivity].
             cbn [bbl_loop]. rewrite (HM n (S n) _ _ ltac:(lia) Hn), Hd1.
             destruct (Nat.ltb_spec (lenof d) min_len); [lia|]. rewrite max_len_class.
             destruct (Nat.ltb_spec (cls d) (length sizes)); [|lia]. cbn [negb]. rewrite Hp. reflexivity.
        * destruct (IH bs s' Hok Hs' HL') as (n1 & bs' & s2 & L' & A1 & A2 & A3 & A4).
          exists (S (n + n1)), bs', s2, L'. split; [assumption|]. split; [assumption|]. split; [assumption|].
          assert (G : forall r, loop n1 n1 (bs, s') = Some r -> loop (S (n + n1)) (S (n + n1)) (bs, s) = Some r).
          { intros r Hr. destruct (Hrec bs n1 r Hr) as [E1 E2]. cbn [bbl_loop]. rewrite (E1 (S (n + n1)) ltac:(lia)), Hd1.
            destruct (Nat.ltb_spec (lenof d) min_len); [lia|]. rewrite max_len_class.
            destruct (Nat.ltb_spec (cls d) (length sizes)); [lia|]. cbn [negb]. specialize (Hd3 Hc). destruct skip_above; [exact E2|discriminate]. }
          destruct (bbl_run bs L) as [|b l]; destruct A4 as [A4 A5]; split; auto.
      + destruct (IH bs s' Hok Hs' HL') as (n1 & bs' & s2 & L' & A1 & A2 & A3 & A4).
        exists (S (n + n1)), bs', s2, L'. split; [assumption|]. split; [assumption|]. split; [assumption|].
        assert (G : forall r, loop n1 n1 (bs, s') = Some r -> loop (S (n + n1)) (S (n + n1)) (bs, s) = Some r).
        { intros r Hr. destruct (Hrec bs n1 r Hr) as [E1 E2]. cbn [bbl_loop]. rewrite (E1 (S (n + n1)) ltac:(lia)), Hd1.
          destruct (Nat.ltb_spec (lenof d) min_len); [|lia]. specialize (Hd2 Hmin). destruct skip_below; [exact E2|discriminate]. }
        destruct (bbl_run bs L) as [|b l]; destruct A4 as [A4 A5]; split; auto.
  Qed.

  Lemma bbl_holds_run bs s L : mono I -> bs_ok bs -> holds I s L -> readable L ->
    holds bbl (bs, s) (map DList (bbl_run bs L)).
  Proof.
    intros HM Hok Hh HL.
    apply (progress_holds bbl (fun (x : bbl_st I) l => exists L, bs_ok (fst x) /\ holds I (snd x) L /\ readable L /\
       l = map DList (bbl_run (fst x) L))); [apply bbl_mono; assumption| |exists L; auto].
    clear bs s L Hok Hh HL. intros [bs s] l (L & Hok & Hh & HL & ->). simpl in *.
    destruct (bbl_loop_run HM L bs s Hok Hh HL) as (n & bs' & s' & L' & A1 & A2 & A3 & A4).
    destruct (bbl_run bs L) as [|b l]; destruct A4 as [A4 A5]; exists n, (bs', s'); (split; [assumption|]);
      exists L'; (split; [assumption|]); (split; [assumption|]); (split; [assumption|]); simpl; rewrite A5; reflexivity.
  Qed.

  (** *** The outputs satisfy the specification *)
  Definition tail_of (bs : list (list data)) (i : nat) := nth i bs [].

  Lemma drain_spec bs : bs_ok bs -> exists dropped,
    Permutation (concat bs) (concat (drain (length (concat bs)) bs) ++ dropped) /\
    (forall hd b tl, drain (length (concat bs)) bs = hd ++ b :: tl -> exists n mx, In (n, mx) sizes /\ 1 <= length b <= n /\
       (forall d, In d b -> lenof d <= mx) /\ (drop = true \/ tl <> [] -> length b = n)) /\
    (dropped = [] \/ drop = true /\ exists n mx, In (n, mx) sizes /\ length dropped < n /\
       forall d, In d dropped -> lenof d <= mx).
  Proof.
    remember (length (concat bs)) as c eqn:Ec. revert bs Ec. induction c as [c IH] using lt_wf_ind. intros bs Ec Hok.
    destruct (bbl_rest_top bs Hok) as [[HE HR]|(j & b & bs' & H1 & H2 & H3 & H4 & H5 & H6 & H7)].
    - rewrite HE in *. simpl in Ec. subst c. simpl. exists []. split; [constructor|]. split; [|auto].
      intros hd b tl H. destruct hd; discriminate.
    - pose proof (Permutation_length H5) as HL. rewrite app_length in HL.
      pose proof (drain_step bs Hok) as HD. rewrite <- Ec in HD.
      assert (Hin : In (nth j sizes (0, 0)) sizes) by (apply nth_In; assumption).
      destruct (nth j sizes (0, 0)) as [n mx] eqn:En. simpl fst in *. simpl snd in *.
      destruct (drain c bs) as [|b1 l] eqn:Ed.
      + destruct HD as (bs1 & D1 & D2 & D3). rewrite H7 in D1.
        destruct (drop && negb (length b =? n)) eqn:Edr; [|discriminate]. inv D1.
        apply andb_prop in Edr. destruct Edr as [Edr Eb]. apply negb_true_iff, Nat.eqb_neq in Eb.
        destruct H6 as [H6|H6]; [contradiction|]. rewrite H6, app_nil_r in H5.
        exists b. split; [simpl; assumption|]. split; [intros hd ? tl H; destruct hd; discriminate|].
        right. split; [assumption|]. exists n, mx. split; [assumption|]. split; [lia|assumption].
      + destruct HD as (bs1 & D1 & D2 & D3). rewrite H7 in D1.
        destruct (drop && negb (length b =? n)) eqn:Edr; [discriminate|]. inv D1.
        destruct (IH (length (concat bs1)) ltac:(lia) bs1 eq_refl D2) as (dr & I1 & I2 & I3).
        exists dr. split; [simpl; rewrite H5, <- app_assoc; apply Permutation_app_head; exact I1|]. split; [|assumption].
        intros hd b tl H. destruct hd as [|b2 hd]; [|inv H; eapply I2; eassumption].
        inv H. exists n, mx. split; [assumption|]. split; [assumption|]. split; [assumption|].
        intros [Hdr|Htl].
        * rewrite Hdr in Edr. simpl in Edr. apply negb_false_iff, Nat.eqb_eq in Edr. assumption.
        * destruct H6 as [H6|H6]; [assumption|]. rewrite H6 in Htl. simpl in Htl. contradiction.
  Qed.

  Lemma concat_filter_nil (P : data -> bool) (l : list (list data)) :
    (forall b, In b l -> forallb P b = false) -> filter (forallb P) l = [].
  Proof.
    induction l as [|b l IH]; intros H; simpl; auto. rewrite (H b (or_introl eq_refl)). apply IH. intros; apply H; right; auto.
  Qed.

  Lemma bbl_run_spec L : forall bs, bs_ok bs -> exists full rest dropped,
    bbl_run bs L = full ++ rest /\
    (forall b, In b full -> exists i n mx, nth_error sizes i = Some (n, mx) /\ length b = Nat.max 1 n /\
       forall d, In d b -> cls d = i) /\
    (forall i n mx, nth_error sizes i = Some (n, mx) -> exists tail, length tail < Nat.max 1 n /\
       nth i bs [] ++ filter (fun d => cls d =? i) (filter keep L) =
       concat (filter (forallb (fun d => cls d =? i)) full) ++ tail) /\
    Permutation (concat bs ++ filter keep L) (concat full ++ concat rest ++ dropped) /\
    (forall hd b tl, rest = hd ++ b :: tl -> exists n mx, In (n, mx) sizes /\ 1 <= length b <= n /\
       (forall d, In d b -> lenof d <= mx) /\ (drop = true \/ tl <> [] -> length b = n)) /\
    (dropped = [] \/ drop = true /\ exists n mx, In (n, mx) sizes /\ length dropped < n /\
       forall d, In d dropped -> lenof d <= mx).
  Proof.
    induction L as [|d L IH]; intros bs Hok.
    - destruct (drain_spec bs Hok) as (dr & D1 & D2 & D3). exists [], (drain (length (concat bs)) bs), dr. cbn [bbl_run].
      split; [reflexivity|]. split; [intros b []|]. split; [|split; [|split; assumption]].
      + intros i n mx Hi. exists (nth i bs []). simpl. rewrite app_nil_r. split; [|reflexivity].
        assert (Hi' : i < length sizes) by (apply nth_error_Some; congruence).
        destruct (proj2 Hok i Hi') as [H1 _]. rewrite (nth_error_nth _ _ (0, 0) Hi) in H1. assumption.
      + simpl. rewrite app_nil_r. assumption.
    - cbn [bbl_run filter]. destruct (keep d) eqn:Ek; [|apply IH; assumption].
      assert (Hc : cls d < length sizes).
      { apply andb_prop in Ek. destruct Ek as [_ Ek]. apply Nat.ltb_lt in Ek. assumption. }
      destruct (bbl_put_ok bs d Hok Hc) as (bs' & Hok' & [(Hp & Hbs')|(b & Hp & Hb & Hlb & Hbs')]); rewrite Hp.
      + destruct (IH bs' Hok') as (full & rest & dr & A1 & A2 & A3 & A4 & A5 & A6).
        exists full, rest, dr. split; [assumption|]. split; [assumption|]. split; [|split; [|split; assumption]].
        * intros i n mx Hi. destruct (A3 i n mx Hi) as (tail & T1 & T2). exists tail. split; [assumption|]. rewrite <- T2.
          cbn [filter]. destruct (Nat.eqb_spec (cls d) i) as [Hci|Hci].
          -- subst bs'. rewrite Hci. rewrite nth_upd_eq by (rewrite (proj1 Hok); lia). rewrite <- app_assoc. reflexivity.
          -- subst bs'. rewrite nth_upd_ne by assumption. reflexivity.
        * rewrite <- A4. subst bs'.
          pose proof (concat_upd_perm bs (cls d) (nth (cls d) bs [] ++ [d]) ltac:(rewrite (proj1 Hok); lia)) as HX.
          rewrite <- app_assoc in HX. apply Permutation_app_inv_l in HX. rewrite HX. simpl.
          symmetry. apply Permutation_middle.
      + destruct (IH bs' Hok') as (full & rest & dr & A1 & A2 & A3 & A4 & A5 & A6).
        exists (b :: full), rest, dr. split; [simpl; congruence|]. 
        assert (Hbc : forall x, In x b -> cls x = cls d).
        { intros x Hx. rewrite Hb in Hx. apply in_app_or in Hx. destruct Hx as [Hx|[<-|[]]]; [|reflexivity].
          apply (proj2 (proj2 Hok (cls d) Hc)). assumption. }
        split.
        { intros b1 [<-|Hb1]; [|auto]. exists (cls d). pose proof (nth_error_nth_sizes (cls d) Hc) as HN.
          destruct (nth (cls d) sizes (0, 0)) as [n mx]. exists n, mx. auto. }
        split; [|split; [|split; assumption]].
        * intros i n mx Hi. destruct (A3 i n mx Hi) as (tail & T1 & T2). exists tail. split; [assumption|].
          cbn [filter]. destruct (Nat.eqb_spec (cls d) i) as [Hci|Hci].
          -- assert (HFb : forallb (fun d0 => cls d0 =? i) b = true).
             { apply forallb_forall. intros x Hx. rewrite (Hbc x Hx). apply Nat.eqb_eq. assumption. }
             rewrite HFb. cbn [concat]. rewrite <- app_assoc, <- T2. subst bs'. rewrite Hci.
             rewrite nth_upd_eq by (rewrite (proj1 Hok); lia). rewrite Hb, Hci, <- app_assoc. reflexivity.
          -- assert (HFb : forallb (fun d0 => cls d0 =? i) b = false).
             { rewrite Hb, forallb_app. simpl. destruct (Nat.eqb_spec (cls d) i); [contradiction|]. apply andb_false_r. }
             rewrite HFb, <- T2. subst bs'. rewrite nth_upd_ne by assumption. reflexivity.
        * cbn [concat]. rewrite <- !app_assoc, <- A4. subst bs'.
          pose proof (concat_upd_perm bs (cls d) [] ltac:(rewrite (proj1 Hok); lia)) as HX. simpl in HX.
          rewrite <- HX, Hb, <- !app_assoc. apply Permutation_app_head. simpl. 
          symmetry. apply Permutation_middle.
  Qed.

  Lemma nth_map_nil (l : list (nat * nat)) i : nth i (map (fun _ => @nil data) l) [] = [].
  Proof. revert i. induction l; intros [|i]; simpl; auto. Qed.

  Lemma bs_ok_init : bs_ok (map (fun _ => []) sizes).
  Proof.
    split; [apply map_length|]. intros i Hi. rewrite nth_map_nil. cbn [length]. split; [lia|]. intros d [].
  Qed.

  Lemma bbl_holds s L : mono I -> holds I s L -> readable L ->
    exists bs, bbl_spec sizes lenof min_len drop L bs /\ holds bbl (map (fun _ => []) sizes, s) (map DList bs).
  Proof.
    intros HM Hh HL. exists (bbl_run (map (fun _ => []) sizes) L). split; [|apply bbl_holds_run; auto using bs_ok_init].
    destruct (bbl_run_spec L _ bs_ok_init) as (full & rest & dr & A1 & A2 & A3 & A4 & A5 & A6).
    exists full, rest, dr. split; [assumption|]. split; [assumption|]. split; [|split; [|split; assumption]].
    - intros i n mx Hi. destruct (A3 i n mx Hi) as (tail & T1 & T2). exists tail. split; [assumption|].
      rewrite nth_map_nil in T2. exact T2.
    - assert (HE : concat (map (fun _ : nat * nat => @nil data) sizes) = []).
      { apply concat_nil_nth. intros k. apply nth_map_nil. }
      rewrite HE in A4. exact A4.
  Qed.
End BBLP.

(** *** Positions *)
Section BBLPos.
  Variable sizes : list (nat * nat).
  Variable len : data -> fres nat.
  Variable min_len : nat.
  Variables skip_below skip_above drop : bool.
  Variable I : source.
  Notation bbl := (src_bucket_by_length sizes len min_len skip_below skip_above drop I).
  Notation loop := (bbl_loop sizes len min_len skip_below skip_above drop I).

  Definition bbl_R (x y : bbl_st I) : Prop := fst x = fst y /\ equiv I (snd x) (snd y).

  Lemma bbl_R_bisim : bisim bbl bbl_R.
  Proof.
    intros [bs s] [bs' s'] [H1 H2]. simpl in H1, H2. subst bs'. split; [|split].
    - intros n. cbn [next src_bucket_by_length]. generalize n at 1 3 as m. intros m. revert bs s s' H2.
      induction n as [|n IH]; intros bs s s' H2; [simpl; auto|]. cbn [bbl_loop].
      estep I s s' m H2; [|simpl; auto]. destruct o as [d| |e].
      + destruct (len d) as [l| |]; [|simpl; repeat split; auto|simpl; repeat split; auto].
        destruct (l <? min_len); [destruct skip_below; [apply IH; assumption|simpl; repeat split; auto]|].
        destruct (max_len sizes <? l); [destruct skip_above; [apply IH; assumption|simpl; repeat split; auto]|].
        destruct (bbl_put sizes bs l d) as [bs' [b|]]; [simpl; repeat split; auto|apply IH; assumption].
      + destruct (bbl_rest sizes drop (length bs) bs) as [o bs']. simpl; repeat split; auto.
      + simpl; repeat split; auto.
    - intros g. split; simpl; [reflexivity|]. apply equiv_reset. assumption.
    - exact (equiv_fin _ _ _ H2).
  Qed.

  Variable clean : bool.
  Variables Inv Tgt : St I -> Prop.
  Hypothesis HR : resumable clean I Inv Tgt.
  Hypothesis Hlen : forall d, match len d with
    | FVal l => (l < min_len -> skip_below = false -> clean = false) /\
                (max_len sizes < l -> skip_above = false -> clean = false)
    | FNone => False
    | FThrow e => okerr clean (Err e)
    end.

  Definition bbl_inv (x : bbl_st I) : Prop := Inv (snd x) /\ length (fst x) = length sizes.
  Definition bbl_tgt (x : bbl_st I) : Prop := Tgt (snd x).

  Lemma bbl_put_length szs bs l d : length (fst (bbl_put szs bs l d)) = length bs.
  Proof.
    revert bs. induction szs as [|[n mx] szs IH]; intros bs; [reflexivity|]. destruct bs as [|b bs]; [reflexivity|].
    cbn [bbl_put]. destruct (l <=? mx); [destruct (n <=? _); reflexivity|].
    specialize (IH bs). destruct (bbl_put szs bs l d); simpl in *; congruence.
  Qed.

  Lemma bbl_fill_length j : forall rem bs b, length (fst (bbl_fill j rem bs b)) = length bs.
  Proof.
    induction j as [|j IH]; intros rem bs b; simpl; auto. destruct (take_back rem (nth j bs []) b) as [[rem' o'] b1].
    destruct rem'; [simpl; apply upd_length|]. rewrite IH. apply upd_length.
  Qed.

  Lemma bbl_rest_length i : forall bs, length (snd (bbl_rest sizes drop i bs)) = length bs.
  Proof.
    induction i as [|i IH]; intros bs; simpl; auto. destruct (nth i bs []) as [|d b]; auto.
    destruct (if i =? 0 then (bs, d :: b) else bbl_fill i (fst (nth i sizes (0, 0)) - length (d :: b)) bs (d :: b)) as [bs1 b1] eqn:E.
    assert (HL : length bs1 = length bs).
    { destruct (i =? 0); [inv E; reflexivity|]. rewrite <- (bbl_fill_length i (fst (nth i sizes (0, 0)) - length (d :: b)) bs (d :: b)), E. reflexivity. }
    simpl in *. rewrite E. destruct (drop && _); simpl; rewrite upd_length; assumption.
  Qed.

  Lemma bbl_rest_okerr i : forall bs, okerr clean (fst (bbl_rest sizes drop i bs)).
  Proof.
    induction i as [|i IH]; intros bs; cbn [bbl_rest]; [exact Logic.I|]. destruct (nth i bs []) as [|d b]; auto.
    destruct (if i =? 0 then _ else _) as [bs1 b1]. destruct (drop && _); exact Logic.I.
  Qed.

  Lemma bbl_loop_inv m n x o x' : bbl_inv x -> loop m n x = Some (o, x') -> okstep clean (bbl_inv x') o.
  Proof.
    revert x. induction n as [|n IH]; intros [bs s] [HI HL] H; [discriminate|]. cbn [bbl_loop] in H. simpl in HI, HL.
    destruct (next I m s) as [[o1 s']|] eqn:E; [|discriminate].
    pose proof (rs_next _ _ _ _ HR _ _ _ _ HI E) as HI'.
    destruct o1 as [d| |e].
    - specialize (Hlen d). destruct (len d) as [l| |e]; [destruct Hlen as [Hb Ha]|contradiction|inv H; apply okstep_intro; [split; assumption|assumption]].
      destruct (Nat.ltb_spec l min_len) as [H1|H1].
      + destruct skip_below; [eapply IH; [|eassumption]; split; assumption|]. inv H. split; [split; assumption|]. auto.
      + destruct (Nat.ltb_spec (max_len sizes) l) as [H2|H2].
        * destruct skip_above; [eapply IH; [|eassumption]; split; assumption|]. inv H. split; [split; assumption|]. auto.
        * pose proof (bbl_put_length sizes bs l d) as HP. destruct (bbl_put sizes bs l d) as [bs' [b|]]; simpl in HP.
          -- inv H. split; simpl; [exact HI'|congruence].
          -- eapply IH; [|eassumption]. split; simpl; [exact HI'|congruence].
    - pose proof (bbl_rest_length (length bs) bs) as HP. pose proof (bbl_rest_okerr (length bs) bs) as HE.
      destruct (bbl_rest sizes drop (length bs) bs) as [o1 bs']. simpl in *. inv H. apply okstep_intro; [split; simpl; [exact HI'|congruence]|assumption].
    - inv H. eapply okstep_impl; [exact HI'|]. intros. split; assumption.
  Qed.

  Lemma bbl_resumable : resumable clean bbl bbl_inv bbl_tgt.
  Proof.
    pose proof HR as [R1 R2 R3 R4 R5]. constructor.
    - split; [exact R1|apply map_length].
    - exact R2.
    - intros n x o x'. apply bbl_loop_inv.
    - intros g [bs s] [HI HL]. split; simpl in *; [auto|]. rewrite map_length. assumption.
    - intros [bs s] [bs0 s0] [HI HL] Ht. simpl in HI, HL. unfold bbl_tgt in Ht. simpl in Ht.
      destruct (R5 _ _ HI Ht) as (t & Hr & Hl). simpl. rewrite Hr. eexists. split; [reflexivity|]. intros rest.
      rewrite <- app_assoc, (rd_wr_vec wr_list rd_list rd_wr_list).
      destruct (Hl rest) as (s1 & E1 & He & Hi). rewrite E1. exists (bs, s1). split; [reflexivity|]. split.
      + exists bbl_R. split; [apply bbl_R_bisim|split; [reflexivity|assumption]].
      + split; assumption.
  Qed.

  Lemma bbl_restarts g : restarts I Inv g -> restarts bbl bbl_inv g.
  Proof.
    intros HG [bs s] [HI HL]. exists bbl_R. split; [apply bbl_R_bisim|]. simpl in *. split; simpl; [|apply HG; assumption].
    clear -HL. revert bs HL. induction sizes as [|a l IH]; intros [|b bs] HL; simpl in *; try discriminate; auto.
    f_equal. apply IH. lia.
  Qed.
End BBLPos.
