(** Proofs about round_robin, and the description of child pipelines that round_robin and sample share. *)

From Coq Require Import Lia.
From Verif Require Import DP_Base DP_Spec DP_Sources_Model DP_Bucketing_Model DP_Multi_Model DP_Laws DP_Sources_Proofs
  DP_Sources_Proofs2 DP_Multi_Lemmas DP_BBL_Proofs DP_Zip_Proofs.

(** ** A child pipeline, seen as the sequence of the examples that are fetched from it *)

(** [k_item e]: the [e]-th fetched example, [None] if there is none. [k_len]: the fetch that finds the end of the first epoch (or
    marks the pipeline as done) is number [k_len]. *)
Record kid := Kid { k_item : nat -> option data; k_len : nat }.

(** [Rep e s]: in state [s], [e] examples have been fetched. *)
Definition klaw (ar : bool) (X : source) (k : kid) (Rep : nat -> St X -> Prop) : Prop :=
  (forall e s, Rep e s -> exists n o s1, next X n s = Some (o, s1) /\
    match o with
    | Val d => k_item k e = Some d /\ Rep (S e) s1 /\
        (if fin_eqb (finitude_type X s1) PseudoInfinite then k_len k <= e else e < k_len k \/ k_len k < e)
    | Eod => k_len k <= e /\
        if ar then exists n2 o2 s2, next X n2 (reset X false s1) = Some (o2, s2) /\ Rep (S e) s2 /\
                     match o2 with Val d => k_item k e = Some d | Eod => k_item k e = None | Err _ => False end
        else k_item k e = None /\ Rep (S e) s1
    | Err _ => False
    end) /\
  (forall e s, Rep (S e) s -> k_item k e = None -> Rep (S (S e)) s /\ k_item k (S e) = None /\ k_len k <= e).

Definition kholds (ar : bool) (X : source) (k : kid) (e : nat) (s : St X) : Prop := exists Rep, klaw ar X k Rep /\ Rep e s.

Fixpoint hkids (ar : bool) (ps : list source) : hst ps -> list kid -> list nat -> Prop :=
  match ps return hst ps -> list kid -> list nat -> Prop with
  | [] => fun _ ks es => ks = [] /\ es = []
  | X :: r => fun s ks es => match ks, es with
                          | k :: ks', e :: es' => kholds ar X k e (fst s) /\ hkids ar r (snd s) ks' es'
                          | _, _ => False
                          end
  end.

Lemma hkids_length ar ps s ks es : hkids ar ps s ks es -> length ks = length ps /\ length es = length ps.
Proof.
  revert s ks es. induction ps as [|X ps IH]; intros s ks es H; simpl in *; [destruct H; subst; auto|].
  destruct ks as [|k ks], es as [|e es]; try contradiction. destruct H as [_ H]. destruct (IH _ _ _ H). simpl. auto.
Qed.

Lemma hkids_none ar ps : forall s ks es i k e, hkids ar ps s ks es -> nth_error ks i = Some k -> nth_error es i = Some (S e) ->
  k_item k e = None -> hkids ar ps s ks (upd es i (S (S e))) /\ k_item k (S e) = None /\ k_len k <= e.
Proof.
  induction ps as [|X ps IH]; intros s ks es i k e H Hk He Hn; simpl in H.
  - destruct H; subst. destruct i; discriminate.
  - destruct ks as [|k0 ks], es as [|e0 es]; try contradiction. destruct H as [H0 H]. destruct i as [|i]; simpl in Hk, He.
    + inv Hk. inv He. destruct H0 as (Rep & HL & HR). destruct (proj2 HL _ _ HR Hn) as (A & B & C). split; [|auto].
      simpl. split; [exists Rep; auto|assumption].
    + destruct (IH _ _ _ _ _ _ H Hk He Hn) as (A & B). split; [|assumption]. simpl. auto.
Qed.

Lemma hkids_fetch ar ps : forall s ks es i k e, hkids ar ps s ks es -> nth_error ks i = Some k -> nth_error es i = Some e ->
  exists n o s1, hnext ps i n s = Some (o, s1) /\
    match o with
    | Val d => k_item k e = Some d /\ hkids ar ps s1 ks (upd es i (S e)) /\
        (if fin_eqb (hfin ps i s1) PseudoInfinite then k_len k <= e else e < k_len k \/ k_len k < e)
    | Eod => k_len k <= e /\
        if ar then exists n2 o2 s2, hnext ps i n2 (hreset1 ps i false s1) = Some (o2, s2) /\ hkids ar ps s2 ks (upd es i (S e)) /\
                     match o2 with Val d => k_item k e = Some d | Eod => k_item k e = None | Err _ => False end
        else k_item k e = None /\ hkids ar ps s1 ks (upd es i (S e))
    | Err _ => False
    end.
Proof.
  induction ps as [|X ps IH]; intros s ks es i k e H Hk He; simpl in H.
  - destruct H; subst. destruct i; discriminate.
  - destruct ks as [|k0 ks], es as [|e0 es]; try contradiction. destruct H as [H0 H].
    destruct s as [a b]. cbn [fst snd] in *. destruct i as [|i]; simpl in Hk, He.
    + inv Hk. inv He. destruct H0 as (Rep & HL & HR). destruct (proj1 HL _ _ HR) as (n & o & s1 & Hn & Ho).
      exists n, o, (s1, b). simpl. rewrite Hn. split; [reflexivity|]. destruct o as [d| |err]; [| |assumption].
      * destruct Ho as (A & B & C). split; [assumption|]. split; [|assumption]. split; [exists Rep; auto|assumption].
      * destruct Ho as (A & B). split; [assumption|]. destruct ar.
        -- destruct B as (n2 & o2 & s2 & B1 & B2 & B3). exists n2, o2, (s2, b). rewrite B1. split; [reflexivity|].
           split; [|assumption]. split; [exists Rep; auto|assumption].
        -- destruct B as (B1 & B2). split; [assumption|]. split; [exists Rep; auto|assumption].
    + destruct (IH b ks es i k e H Hk He) as (n & o & s1 & Hn & Ho).
      exists n, o, (a, s1). simpl. rewrite Hn. split; [reflexivity|]. destruct o as [d| |err]; [| |assumption].
      * destruct Ho as (A & B & C). auto.
      * destruct Ho as (A & B). split; [assumption|]. destruct ar.
        -- destruct B as (n2 & o2 & s2 & B1 & B2 & B3). exists n2, o2, (a, s2). rewrite B1. auto.
        -- destruct B as (B1 & B2). auto.
Qed.

(** ** Vectors given by a function *)
Definition tab {A} (n : nat) (g : nat -> A) : list A := map g (seq 0 n).

Lemma tab_length {A} n (g : nat -> A) : length (tab n g) = n.
Proof. unfold tab. rewrite map_length, seq_length. reflexivity. Qed.

Lemma tab_nth_error {A} n (g : nat -> A) i : i < n -> nth_error (tab n g) i = Some (g i).
Proof.
  intros H. unfold tab. rewrite nth_error_map, (nth_error_nth' (seq 0 n) 0) by (rewrite seq_length; assumption).
  rewrite seq_nth by assumption. reflexivity.
Qed.

Lemma tab_nth {A} n (g : nat -> A) i d : i < n -> nth i (tab n g) d = g i.
Proof. intros H. apply nth_error_nth. apply tab_nth_error. assumption. Qed.

Lemma nth_error_ext {A} (a b : list A) : length a = length b -> (forall i, i < length a -> nth_error a i = nth_error b i) -> a = b.
Proof.
  revert b. induction a as [|x a IH]; intros [|y b] HL H; simpl in HL; try discriminate; [reflexivity|].
  pose proof (H 0 ltac:(simpl; lia)) as H0. simpl in H0. inv H0. f_equal. apply IH; [lia|].
  intros i Hi. apply (H (S i)). simpl. lia.
Qed.

Lemma tab_ext {A} n (g h : nat -> A) : (forall i, i < n -> g i = h i) -> tab n g = tab n h.
Proof. intros H. apply map_ext_in. intros i Hi. apply in_seq in Hi. apply H. lia. Qed.

Lemma tab_upd {A} n (g : nat -> A) i x : i < n -> upd (tab n g) i x = tab n (fun j => if j =? i then x else g j).
Proof.
  intros Hi. apply nth_error_ext; [rewrite upd_length, !tab_length; reflexivity|].
  rewrite upd_length, tab_length. intros j Hj. rewrite (tab_nth_error n (fun j => if j =? i then x else g j)) by assumption.
  destruct (Nat.eqb_spec j i) as [->|H].
  - apply nth_error_upd_eq. rewrite tab_length. assumption.
  - rewrite nth_error_upd_ne by auto. apply tab_nth_error. assumption.
Qed.

Lemma repeat_tab {A} n (x : A) : repeat x n = tab n (fun _ => x).
Proof. unfold tab. generalize 0. induction n as [|n IH]; intros k; [reflexivity|]. simpl. f_equal. apply IH. Qed.

Section RRP.
  Variable ps : list source.
  Variables stop ar : bool.
  Notation rr := (src_round_robin ps stop ar).
  Hypothesis HM : Forall mono ps.

  Lemma rr_fetch_mono n m i done s r : n <= m -> rr_fetch ps ar n i done s = Some r -> rr_fetch ps ar m i done s = Some r.
  Proof.
    intros Hn. unfold rr_fetch. destruct (hnext ps i n s) as [[o s1]|] eqn:E; [|discriminate].
    rewrite (hnext_mono ps HM _ _ _ _ _ Hn E). destruct o; auto. destruct ar; auto.
    destruct (hnext ps i n (hreset1 ps i false s1)) as [[o2 s2]|] eqn:E2; [|discriminate].
    rewrite (hnext_mono ps HM _ _ _ _ _ Hn E2). auto.
  Qed.

  Lemma rr_gather_mono n m : n <= m -> forall k i b done s r,
    rr_gather ps ar n k i b done s = Some r -> rr_gather ps ar m k i b done s = Some r.
  Proof.
    intros Hn k. induction k as [|k IH]; intros i b done s r H; [exact H|]. cbn [rr_gather] in *.
    destruct (rr_fetch ps ar n i done s) as [[[[o|e] d] s']|] eqn:E; try discriminate;
      rewrite (rr_fetch_mono _ _ _ _ _ _ Hn E); auto.
  Qed.

  Lemma rr_scan_mono n m : n <= m -> forall k idx b done s r,
    rr_scan ps ar n k idx b done s = Some r -> rr_scan ps ar m k idx b done s = Some r.
  Proof.
    intros Hn k. induction k as [|k IH]; intros idx b done s r H; [exact H|]. cbn [rr_scan] in *.
    destruct (nth idx b None); [|auto].
    destruct (rr_fetch ps ar n idx done s) as [[[[o|e] d1] s']|] eqn:E; try discriminate;
      rewrite (rr_fetch_mono _ _ _ _ _ _ Hn E); auto.
  Qed.

  Lemma rr_mono : mono rr.
  Proof.
    intros n m x r Hn H. cbn [next src_round_robin] in *. unfold rr_next in *.
    destruct ((length ps =? 0) || rr_eod x); auto. destruct ((rr_idx x =? 0) && rr_all_done stop (rr_done x)); auto.
    assert (G : forall b done s, match rr_scan ps ar n (length b - rr_idx x) (rr_idx x) b done s with
        | None => None
        | Some (r, (idx, b', done', s')) =>
          match r with
          | inr e => Some (Err e, RrSt b' idx done' false s')
          | inl o =>
            let idx' := if idx =? length b' then 0 else idx in
            Some (match o with Some d => Val d | None => Eod end, RrSt b' idx' done' false s')
          end
        end = Some r -> match rr_scan ps ar m (length b - rr_idx x) (rr_idx x) b done s with
        | None => None
        | Some (r, (idx, b', done', s')) =>
          match r with
          | inr e => Some (Err e, RrSt b' idx done' false s')
          | inl o =>
            let idx' := if idx =? length b' then 0 else idx in
            Some (match o with Some d => Val d | None => Eod end, RrSt b' idx' done' false s')
          end
        end = Some r).
    { intros b done s HX. destruct (rr_scan ps ar n (length b - rr_idx x) (rr_idx x) b done s) as [y|] eqn:E; [|discriminate].
      rewrite (rr_scan_mono n m Hn _ _ _ _ _ _ E). assumption. }
    destruct (rr_buf x) as [|b0 b]; [|apply G; assumption].
    destruct (rr_gather ps ar n (length ps) 0 [] (rr_done x) (rr_ps x)) as [[[[b [e|]] dn] s]|] eqn:E; try discriminate;
      rewrite (rr_gather_mono n m Hn _ _ _ _ _ _ E); [assumption|apply G; assumption].
  Qed.

  (** *** One fetch *)
  Lemma rr_fetch_run s ks es done i k e : hkids ar ps s ks es -> nth_error ks i = Some k -> nth_error es i = Some e ->
    nth_error done i = Some (k_len k <? e) ->
    exists n s1, rr_fetch ps ar n i done s = Some (inl (k_item k e), upd done i (k_len k <=? e), s1) /\
      hkids ar ps s1 ks (upd es i (S e)).
  Proof.
    intros HK Hk He Hd. destruct (hkids_fetch _ _ _ _ _ _ _ _ HK Hk He) as (n & o & s1 & Hn & Ho).
    assert (HS : k_len k < e \/ e < k_len k -> upd done i (k_len k <=? e) = done).
    { intros Hx. apply upd_same. rewrite Hd. f_equal. destruct (Nat.ltb_spec (k_len k) e), (Nat.leb_spec (k_len k) e); auto; lia. }
    destruct o as [d| |err]; [| |contradiction].
    - destruct Ho as (A & B & C). exists n, s1. split; [|assumption]. unfold rr_fetch. rewrite Hn, A.
      destruct (fin_eqb (hfin ps i s1) PseudoInfinite).
      + rewrite (proj2 (Nat.leb_le _ _) C). reflexivity.
      + rewrite HS by lia. reflexivity.
    - destruct Ho as (A & B). rewrite (proj2 (Nat.leb_le _ _) A).
      unfold rr_fetch. destruct ar.
      + destruct B as (n2 & o2 & s2 & B1 & B2 & B3). exists (n + n2), s2. split; [|assumption].
        rewrite (hnext_mono ps HM i n (n + n2) _ _ ltac:(lia) Hn), (hnext_mono ps HM i n2 (n + n2) _ _ ltac:(lia) B1).
        destruct o2; [rewrite B3; reflexivity|rewrite B3; reflexivity|contradiction].
      + exists n, s1. rewrite Hn. destruct B as (B1 & B2). rewrite B1. auto.
  Qed.

  (** *** Rounds *)
  Variable ks : list kid.
  Notation N := (length ps).
  Notation kd := (fun i => nth i ks (Kid (fun _ => None) 0)).

  (** The number of fetches from pipeline [i] in round [r], before position [idx]. *)
  Definition cnt (r idx i : nat) : nat := if i <? idx then S r else r.

  Definition at_ (r idx : nat) (b : list (option data)) (done : list bool) (s : hst ps) : Prop :=
    b = tab N (fun i => k_item (kd i) (cnt r idx i)) /\
    done = tab N (fun i => k_len (kd i) <=? cnt r idx i) /\
    hkids ar ps s ks (tab N (fun i => S (cnt r idx i))).

  Lemma kd_error i : length ks = N -> i < N -> nth_error ks i = Some (kd i).
  Proof. intros HL Hi. apply nth_error_nth'. lia. Qed.

  Lemma at_wrap r b done s : at_ r N b done s -> at_ (S r) 0 b done s.
  Proof.
    intros (A & B & C). unfold at_. erewrite tab_ext, (tab_ext _ (fun i => k_len (kd i) <=? cnt (S r) 0 i)), (tab_ext _ (fun i => S (cnt (S r) 0 i)));
      [split; [exact A|split; [exact B|exact C]]| | |]; intros i Hi; unfold cnt;
      rewrite (proj2 (Nat.ltb_lt i N) Hi); reflexivity.
  Qed.

  (** The outputs of round [r] from position [idx] on. *)
  Definition vals (r idx : nat) : list data :=
    flat_map (fun i => match k_item (kd i) r with Some d => [d] | None => [] end) (seq idx (N - idx)).

  Definition blank (r : nat) : list out := match k_item (kd (N - 1)) r with None => [Eod] | Some _ => [] end.

  Definition round (r idx : nat) : list out := map Val (vals r idx) ++ blank r.

  Lemma vals_S r idx : idx < N ->
    vals r idx = match k_item (kd idx) r with Some d => [d] | None => [] end ++ vals r (S idx).
  Proof.
    intros H. unfold vals. replace (N - idx) with (S (N - S idx)) by lia. reflexivity.
  Qed.

  Lemma cnt_S r idx i : cnt r (S idx) i = if i =? idx then S r else cnt r idx i.
  Proof.
    unfold cnt. destruct (Nat.ltb_spec i (S idx)), (Nat.eqb_spec i idx), (Nat.ltb_spec i idx); try reflexivity; lia.
  Qed.

  Lemma rr_scan_run : length ks = N -> forall k r idx b done s, at_ r idx b done s -> k + idx = N ->
    exists n s' b' done' idx',
      (match vals r idx with
       | d :: l => rr_scan ps ar n k idx b done s = Some (inl (Some d), (idx', b', done', s')) /\ idx < idx' /\
                   at_ r idx' b' done' s' /\ vals r idx' = l /\ idx' <= N /\ (idx' = N -> blank r = [])
       | [] => rr_scan ps ar n k idx b done s = Some (inl None, (N, b', done', s')) /\ at_ r N b' done' s' /\
               (idx < N -> blank r = [Eod])
       end).
  Proof.
    intros HL k. induction k as [|k IH]; intros r idx b done s HA Hk.
    - assert (idx = N) by lia. subst idx. exists 0, s, b, done, 0. unfold vals. rewrite Nat.sub_diag. cbn [seq flat_map].
      split; [reflexivity|]. split; [assumption|lia].
    - assert (Hi : idx < N) by lia. pose proof HA as (Hb & Hd & HK). rewrite (vals_S r idx Hi).
      assert (Hnth : nth idx b None = k_item (kd idx) r).
      { rewrite Hb, tab_nth by assumption. unfold cnt. rewrite Nat.ltb_irrefl. reflexivity. }
      pose proof (kd_error idx HL Hi) as Hkd.
      destruct (k_item (kd idx) r) as [d|] eqn:Ed.
      + assert (He : nth_error (tab N (fun i => S (cnt r idx i))) idx = Some (S r)).
        { rewrite tab_nth_error by assumption. unfold cnt. rewrite Nat.ltb_irrefl. reflexivity. }
        destruct (rr_fetch_run s ks _ done idx (kd idx) (S r) HK Hkd He) as (n & s1 & Hn & HK1).
        { rewrite Hd, tab_nth_error by assumption. unfold cnt. rewrite Nat.ltb_irrefl. reflexivity. }
        exists n, s1, (upd b idx (k_item (kd idx) (S r))), (upd done idx (k_len (kd idx) <=? S r)), (S idx).
        cbn [app]. cbn [rr_scan]. rewrite Hnth, Hn. split; [reflexivity|]. split; [lia|]. split; [|split; [reflexivity|split; [lia|]]].
        * split; [|split].
          -- rewrite Hb, tab_upd by assumption. apply tab_ext. intros i Hi'. rewrite cnt_S.
             destruct (Nat.eqb_spec i idx) as [->|]; reflexivity.
          -- rewrite Hd, tab_upd by assumption. apply tab_ext. intros i Hi'. rewrite cnt_S.
             destruct (Nat.eqb_spec i idx) as [->|]; reflexivity.
          -- rewrite tab_upd in HK1 by assumption. erewrite tab_ext; [exact HK1|]. intros i Hi'. simpl. rewrite cnt_S.
             destruct (Nat.eqb_spec i idx) as [->|]; reflexivity.
        * intros E. unfold blank. replace (N - 1) with idx by lia. rewrite Ed. reflexivity.
      + cbn [app]. assert (He : nth_error (tab N (fun i => S (cnt r idx i))) idx = Some (S r)).
        { rewrite tab_nth_error by assumption. unfold cnt. rewrite Nat.ltb_irrefl. reflexivity. }
        destruct (hkids_none _ _ _ _ _ _ _ _ HK Hkd He Ed) as (HK1 & En & Hlen).
        assert (HA1 : at_ r (S idx) b done s).
        { split; [|split].
          - rewrite Hb. apply tab_ext. intros i Hi'. rewrite cnt_S. destruct (Nat.eqb_spec i idx) as [->|]; [|reflexivity].
            rewrite En. unfold cnt. rewrite Nat.ltb_irrefl. assumption.
          - rewrite Hd. apply tab_ext. intros i Hi'. rewrite cnt_S. destruct (Nat.eqb_spec i idx) as [->|]; [|reflexivity].
            unfold cnt. rewrite Nat.ltb_irrefl. rewrite !(proj2 (Nat.leb_le _ _)) by lia. reflexivity.
          - rewrite tab_upd in HK1 by assumption. erewrite tab_ext; [exact HK1|]. intros i Hi'. simpl. rewrite cnt_S.
            destruct (Nat.eqb_spec i idx) as [->|]; reflexivity. }
        destruct (IH r (S idx) b done s HA1 ltac:(lia)) as (n & s' & b' & done' & idx' & HX).
        exists n, s', b', done', idx'. cbn [rr_scan]. rewrite Hnth.
        destruct (vals r (S idx)) as [|d l].
        * destruct HX as (A & B & C). split; [assumption|]. split; [assumption|]. intros _.
          destruct (Nat.eq_dec (S idx) N) as [E|E]; [|apply C; lia]. unfold blank. replace (N - 1) with idx by lia.
          rewrite Ed. reflexivity.
        * destruct HX as (A & B & C). split; [assumption|]. split; [lia|]. assumption.
  Qed.

  Lemma rr_gather_run : length ks = N -> forall k i s, k + i = N ->
    hkids ar ps s ks (tab N (fun j => if j <? i then 1 else 0)) ->
    exists n s',
      rr_gather ps ar n k i (map (fun j => k_item (kd j) 0) (seq 0 i))
        (tab N (fun j => if j <? i then k_len (kd j) <=? 0 else false)) s =
      Some (map (fun j => k_item (kd j) 0) (seq 0 N), None, tab N (fun j => k_len (kd j) <=? 0), s') /\
      hkids ar ps s' ks (tab N (fun _ => 1)).
  Proof.
    intros HL k. induction k as [|k IH]; intros i s Hk HK.
    - assert (i = N) by lia. subst i. exists 0, s. cbn [rr_gather].
      rewrite (tab_ext N _ (fun j => k_len (kd j) <=? 0)).
      2:{ intros j Hj. rewrite (proj2 (Nat.ltb_lt j N) Hj). reflexivity. }
      split; [reflexivity|]. erewrite tab_ext; [exact HK|]. intros j Hj. simpl. rewrite (proj2 (Nat.ltb_lt j N) Hj). reflexivity.
    - assert (Hi : i < N) by lia. pose proof (kd_error i HL Hi) as Hkd.
      set (done := tab N (fun j => if j <? i then k_len (kd j) <=? 0 else false)).
      destruct (rr_fetch_run s ks _ done i (kd i) 0 HK Hkd) as (n & s1 & Hn & HK1).
      { rewrite tab_nth_error by assumption. rewrite Nat.ltb_irrefl. reflexivity. }
      { unfold done. rewrite tab_nth_error by assumption. rewrite Nat.ltb_irrefl. reflexivity. }
      destruct (IH (S i) s1 ltac:(lia)) as (n2 & s2 & H2 & HK2).
      { rewrite tab_upd in HK1 by assumption. erewrite tab_ext; [exact HK1|]. intros j Hj. simpl.
        destruct (Nat.eqb_spec j i), (Nat.ltb_spec j (S i)), (Nat.ltb_spec j i); subst; try reflexivity; lia. }
      exists (n + n2), s2. split; [|assumption]. cbn [rr_gather].
      rewrite (rr_fetch_mono n (n + n2) _ _ _ _ ltac:(lia) Hn).
      rewrite <- (rr_gather_mono n2 (n + n2) ltac:(lia) _ _ _ _ _ _ H2). f_equal.
      + rewrite seq_S, map_app. reflexivity.
      + unfold done. rewrite tab_upd by assumption. apply tab_ext. intros j Hj.
        destruct (Nat.eqb_spec j i), (Nat.ltb_spec j (S i)), (Nat.ltb_spec j i); subst; try reflexivity; lia.
  Qed.
  Definition live (r idx : nat) (x : rr_st ps) : Prop :=
    rr_eod x = false /\ rr_idx x = idx /\ at_ r idx (rr_buf x) (rr_done x) (rr_ps x).

  Definition body (n idx : nat) (b : list (option data)) (done : list bool) (s : hst ps) : option (out * rr_st ps) :=
    match rr_scan ps ar n (length b - idx) idx b done s with
    | None => None
    | Some (r, (idx, b', done', s')) =>
      match r with
      | inr e => Some (Err e, RrSt b' idx done' false s')
      | inl o =>
        let idx' := if idx =? length b' then 0 else idx in
        Some (match o with Some d => Val d | None => Eod end, RrSt b' idx' done' false s')
      end
    end.

  Lemma body_run r idx b done s : length ks = N -> idx < N -> at_ r idx b done s ->
    exists n o x', body n idx b done s = Some (o, x') /\
      ((exists idx', idx < idx' < N /\ round r idx = o :: round r idx' /\ live r idx' x') \/
       (round r idx = [o] /\ live (S r) 0 x')).
  Proof.
    intros HL Hi HA. assert (Hb : length b = N) by (destruct HA as (-> & _); apply tab_length).
    destruct (rr_scan_run HL (N - idx) r idx b done s HA ltac:(lia)) as (n & s' & b' & done' & idx' & HX).
    unfold body. rewrite Hb. unfold round. destruct (vals r idx) as [|d l].
    - destruct HX as (A & B & C). exists n, Eod. eexists. rewrite A.
      assert (Hb' : length b' = N) by (destruct B as (-> & _); apply tab_length). rewrite Hb', Nat.eqb_refl.
      split; [reflexivity|]. right. rewrite (C Hi). split; [reflexivity|]. split; [reflexivity|]. split; [reflexivity|].
      apply at_wrap. assumption.
    - destruct HX as (A & B & C & D & E & F). exists n, (Val d). eexists. rewrite A.
      assert (Hb' : length b' = N) by (destruct C as (-> & _); apply tab_length). rewrite Hb'.
      split; [reflexivity|]. destruct (Nat.eqb_spec idx' N) as [->|Hne].
      + right. rewrite (F eq_refl). unfold vals in D. rewrite Nat.sub_diag in D. cbn [seq flat_map] in D. subst l.
        split; [reflexivity|]. split; [reflexivity|]. split; [reflexivity|]. apply at_wrap. assumption.
      + left. exists idx'. split; [lia|]. rewrite <- D. split; [reflexivity|]. split; [reflexivity|]. split; [reflexivity|]. assumption.
  Qed.

  Lemma live_next n x r idx : 0 < N -> live r idx x -> (idx =? 0) && rr_all_done stop (rr_done x) = false ->
    next rr n x = body n idx (rr_buf x) (rr_done x) (rr_ps x).
  Proof.
    intros HN (A & B & C) HD. cbn [next src_round_robin]. unfold rr_next.
    rewrite A, B, HD. destruct (Nat.eqb_spec (length ps) 0) as [E|_]; [lia|]. cbn [orb].
    destruct (rr_buf x) as [|o b] eqn:Eb; [|reflexivity].
    destruct C as (C & _). apply (f_equal (@length _)) in C. rewrite tab_length in C. simpl in C. lia.
  Qed.

  Lemma live_round x r : length ks = N -> forall j idx, N - idx <= j -> idx < N -> live r idx x ->
    (idx =? 0) && rr_all_done stop (rr_done x) = false ->
    exists x', yields rr x (round r idx) x' /\ live (S r) 0 x'.
  Proof.
    intros HL j. revert x. induction j as [|j IH]; intros x idx Hj Hi Hx HD; [lia|].
    pose proof Hx as (_ & _ & HA).
    destruct (body_run r idx _ _ _ HL Hi HA) as (n & o & x1 & Hb & [(idx' & Hi' & Hr & Hx1)|(Hr & Hx1)]).
    - destruct (IH x1 idx' ltac:(lia) ltac:(lia) Hx1) as (x2 & Hy & Hx2).
      { destruct (Nat.eqb_spec idx' 0); [lia|reflexivity]. }
      exists x2. split; [|assumption]. rewrite Hr. econstructor; [|exact Hy].
      rewrite (live_next n x r idx ltac:(lia) Hx HD). exact Hb.
    - exists x1. split; [|assumption]. rewrite Hr. econstructor; [|constructor].
      rewrite (live_next n x r idx ltac:(lia) Hx HD). exact Hb.
  Qed.

  (** The pipelines that are done after [r] rounds. *)
  Definition over (r : nat) : bool := rr_all_done stop (tab N (fun i => k_len (kd i) <=? r)).

  Lemma live_over r x : live r 0 x -> rr_all_done stop (rr_done x) = over r.
  Proof.
    intros (_ & _ & (_ & -> & _)). unfold over. f_equal.
  Qed.

  Lemma live_end r x k : 0 < N -> live r 0 x -> over r = true -> exists x', yields rr x (repeat Eod k) x'.
  Proof.
    intros HN Hx HO. destruct k as [|k]; [exists x; constructor|].
    set (x1 := RrSt (rr_buf x) (rr_idx x) (rr_done x) true (rr_ps x)).
    exists x1. cbn [repeat]. apply yields_cons with (n := 0) (s1 := x1).
    - cbn [next src_round_robin]. unfold rr_next. destruct Hx as (A & B & C).
      rewrite A, B. destruct (Nat.eqb_spec (length ps) 0) as [E|_]; [lia|]. cbn [orb].
      rewrite (live_over r x); [|split; [assumption|split; assumption]]. rewrite HO. subst x1. rewrite B. reflexivity.
    - induction k as [|k IH]; [constructor|]. cbn [repeat]. apply yields_cons with (n := 0) (s1 := x1); [|assumption].
      cbn [next src_round_robin]. unfold rr_next. cbn [rr_eod x1]. rewrite orb_true_r. reflexivity.
  Qed.

  Lemma live_rounds j : length ks = N -> 0 < N -> forall r x, live r 0 x ->
    (forall r', r <= r' < r + j -> over r' = false) ->
    exists x', yields rr x (flat_map (fun r => round r 0) (seq r j)) x' /\ live (r + j) 0 x'.
  Proof.
    intros HL HN. induction j as [|j IH]; intros r x Hx HO.
    - exists x. rewrite Nat.add_0_r. split; [constructor|assumption].
    - destruct (live_round x r HL N 0 ltac:(lia) HN Hx) as (x1 & Hy & Hx1).
      { rewrite (live_over r x Hx), HO by lia. reflexivity. }
      destruct (IH (S r) x1 Hx1) as (x2 & Hy2 & Hx2); [intros; apply HO; lia|].
      exists x2. replace (r + S j) with (S r + j) by lia. split; [|assumption]. cbn [seq flat_map].
      eapply yields_app; eassumption.
  Qed.

  (** A round_robin that was created or reset. *)
  Definition rr_start (x : rr_st ps) : Prop :=
    x = RrSt [] 0 (repeat false N) false (rr_ps x) /\ hkids ar ps (rr_ps x) ks (repeat 0 N).

  Lemma rr_start_round x : length ks = N -> 0 < N -> rr_start x ->
    exists x', yields rr x (round 0 0) x' /\ live 1 0 x'.
  Proof.
    intros HL HN (Hx & HK). rewrite repeat_tab in HK.
    destruct (rr_gather_run HL N 0 (rr_ps x) ltac:(lia)) as (n1 & s1 & H1 & HK1).
    { erewrite tab_ext; [exact HK|]. reflexivity. }
    assert (HA : at_ 0 0 (map (fun j => k_item (kd j) 0) (seq 0 N)) (tab N (fun j => k_len (kd j) <=? 0)) s1).
    { split; [reflexivity|]. split; [reflexivity|]. exact HK1. }
    destruct (body_run 0 0 _ _ _ HL HN HA) as (n & o & x1 & Hb & HX).
    assert (HN1 : next rr (n1 + n) x = Some (o, x1)).
    { cbn [next src_round_robin]. unfold rr_next. rewrite Hx. cbn [rr_eod rr_idx rr_buf rr_done rr_ps].
      destruct (Nat.eqb_spec (length ps) 0) as [E|_]; [lia|]. cbn [orb Nat.eqb andb].
      assert (HF : rr_all_done stop (repeat false N) = false).
      { unfold rr_all_done. destruct N as [|N']; [lia|]. destruct stop; [|reflexivity].
        clear. simpl. induction N' as [|N' IH]; [reflexivity|assumption]. }
      rewrite HF. rewrite (repeat_tab N false). cbn [seq map] in H1.
      replace (tab N (fun j => if j <? 0 then k_len (kd j) <=? 0 else false)) with (tab N (fun _ : nat => false)) in H1
        by (apply tab_ext; reflexivity).
      rewrite (rr_gather_mono n1 (n1 + n) ltac:(lia) _ _ _ _ _ _ H1).
      unfold body in Hb. destruct (rr_scan ps ar n _ 0 _ _ s1) as [y|] eqn:E in Hb; [|discriminate].
      rewrite (rr_scan_mono n (n1 + n) ltac:(lia) _ _ _ _ _ _ E). exact Hb. }
    destruct HX as [(idx' & Hi' & Hr & Hx1)|(Hr & Hx1)].
    - destruct (live_round x1 0 HL N idx' ltac:(lia) ltac:(lia) Hx1) as (x2 & Hy & Hx2).
      { destruct (Nat.eqb_spec idx' 0); [lia|reflexivity]. }
      exists x2. split; [|assumption]. rewrite Hr. econstructor; eassumption.
    - exists x1. split; [|assumption]. rewrite Hr. econstructor; [exact HN1|constructor].
  Qed.

  (** What round_robin returns: [R] rounds, then the end of data. *)
  Theorem rr_yields x R k : length ks = N -> 0 < N -> rr_start x -> 1 <= R ->
    (forall r, 1 <= r < R -> over r = false) -> over R = true ->
    exists x', yields rr x (flat_map (fun r => round r 0) (seq 0 R) ++ repeat Eod k) x'.
  Proof.
    intros HL HN Hx HR H1 H2. destruct (rr_start_round x HL HN Hx) as (x1 & Hy1 & Hx1).
    destruct R as [|R]; [lia|]. cbn [seq flat_map].
    destruct (live_rounds R HL HN 1 x1 Hx1) as (x2 & Hy2 & Hx2); [intros; apply H1; lia|].
    destruct (live_end (1 + R) x2 k HN Hx2 H2) as (x3 & Hy3). exists x3. rewrite <- app_assoc.
    eapply yields_app; [eassumption|]. eapply yields_app; eassumption.
  Qed.
End RRP.

(** ** Child pipelines described by what they supply *)
Definition kid_of (ar : bool) (c : supply) : kid := Kid (turn ar c) (epoch_len c).

Definition pre (ep : nat -> list data) (k : nat) : list data := concat (map ep (seq 0 k)).

Lemma pre_S ep k : pre ep (S k) = pre ep k ++ ep k.
Proof. unfold pre. rewrite seq_S, map_app, concat_app. simpl. rewrite app_nil_r. reflexivity. Qed.

Lemma pre_length ep k : (forall k, ep k <> []) -> k <= length (pre ep k).
Proof.
  intros H. induction k as [|k IH]; [simpl; lia|]. rewrite pre_S, app_length. specialize (H k). destruct (ep k); [contradiction|].
  simpl. lia.
Qed.

Lemma pre_prefix ep k j : k <= j -> exists r, pre ep j = pre ep k ++ r.
Proof.
  intros H. induction H as [|j H (r & IH)]; [exists []; rewrite app_nil_r; reflexivity|].
  rewrite pre_S, IH. exists (r ++ ep j). rewrite app_assoc. reflexivity.
Qed.

Lemma pre_nth ep k j e d : (forall k, ep k <> []) -> k <= j -> nth_error (pre ep k) e = Some d -> nth_error (pre ep j) e = Some d.
Proof.
  intros _ Hk H. destruct (pre_prefix ep k j Hk) as (r & ->). rewrite nth_error_app1; [assumption|].
  apply nth_error_Some. congruence.
Qed.

Lemma pre_first ep k : 1 <= k -> length (ep 0) <= length (pre ep k).
Proof. intros H. destruct (pre_prefix ep 1 k H) as (r & ->). unfold pre. simpl. rewrite !app_length. lia. Qed.

Lemma kid_epochs X s ep : epochs X s ep -> (forall k, ep k <> []) -> (forall s', finitude_type X s' <> PseudoInfinite) ->
  kholds true X (kid_of true (Epochs ep)) 0 s.
Proof.
  intros (RE & H0 & HE) Hne Hfin.
  assert (Hf : forall s', fin_eqb (finitude_type X s') PseudoInfinite = false).
  { intros s'. specialize (Hfin s'). destruct (finitude_type X s'); try reflexivity. contradiction. }
  exists (fun e s => exists k l p, RE k s l /\ pre ep (S k) = p ++ l /\ length p = e /\ (k = 0 \/ length (pre ep k) < e)).
  split; [split|].
  - intros e s1 (k & l & p & HR & Hp & He & Hk). cbn [kid_of k_item k_len turn epoch_len].
    change (concat (map ep (seq 0 (S e)))) with (pre ep (S e)).
    pose proof (pre_length ep k Hne) as Hlk. pose proof (HE _ _ _ HR) as HS. destruct l as [|d l].
    + destruct HS as (n & s2 & Hn & Hs2 & HR2). exists n, Eod, s2. split; [assumption|].
      rewrite app_nil_r in Hp. subst p.
      split; [rewrite <- He; apply pre_first; lia|].
      specialize (Hne (S k)) as Hk1. pose proof (HE _ _ _ HR2) as HS2. destruct (ep (S k)) as [|d l] eqn:Ek; [contradiction|].
      destruct HS2 as (n2 & s3 & Hn2 & HR3). exists n2, (Val d), s3. split; [assumption|]. split.
      * exists (S k), l, (pre ep (S k) ++ [d]). split; [assumption|]. rewrite pre_S, Ek, <- app_assoc. split; [reflexivity|].
        rewrite app_length. simpl. split; [lia|]. right. lia.
      * apply (pre_nth ep (S (S k))); [assumption| |].
        -- pose proof (pre_length ep (S k) Hne). lia.
        -- rewrite pre_S, Ek, nth_error_app2, He, Nat.sub_diag by lia. reflexivity.
    + destruct HS as (n & s2 & Hn & HR2). exists n, (Val d), s2. split; [assumption|].
      split; [|split].
      * apply (pre_nth ep (S k)); [assumption|lia|]. rewrite Hp, nth_error_app2, He, Nat.sub_diag by lia. reflexivity.
      * exists k, l, (p ++ [d]). split; [assumption|]. rewrite <- app_assoc. split; [assumption|].
        rewrite app_length. simpl. split; [lia|]. destruct Hk; [auto|right; lia].
      * rewrite Hf. destruct (Nat.eq_dec k 0) as [->|Hk0].
        -- left. unfold pre in Hp. simpl in Hp. rewrite app_nil_r in Hp. rewrite Hp, app_length. simpl. lia.
        -- right. destruct Hk as [|Hk]; [contradiction|]. pose proof (pre_first ep k ltac:(lia)). lia.
  - intros e s1 _ Hn. cbn [kid_of k_item turn] in Hn. change (concat (map ep (seq 0 (S e)))) with (pre ep (S e)) in Hn.
    apply nth_error_None in Hn. pose proof (pre_length ep (S e) Hne). lia.
  - exists 0, (ep 0), []. split; [assumption|]. unfold pre. simpl. rewrite app_nil_r. auto.
Qed.

Lemma pre_empty ep k : (forall k, ep k = []) -> pre ep k = [].
Proof. intros H. induction k as [|k IH]; [reflexivity|]. rewrite pre_S, IH, H. reflexivity. Qed.

Lemma kid_epochs_empty X s ep : epochs X s ep -> (forall k, ep k = []) -> kholds true X (kid_of true (Epochs ep)) 0 s.
Proof.
  intros (RE & H0 & HE) He. exists (fun e s => exists k, RE k s []).
  assert (HN : forall e, k_item (kid_of true (Epochs ep)) e = None).
  { intros e. cbn [kid_of k_item turn]. change (concat (map ep (seq 0 (S e)))) with (pre ep (S e)).
    rewrite pre_empty by assumption. destruct e; reflexivity. }
  assert (HL : k_len (kid_of true (Epochs ep)) = 0) by (cbn [kid_of k_len epoch_len]; rewrite He; reflexivity).
  split; [split|].
  - intros e s1 (k & HR). destruct (HE _ _ _ HR) as (n & s2 & Hn & Hs2 & HR2). exists n, Eod, s2. split; [assumption|].
    split; [lia|]. rewrite He in HR2. destruct (HE _ _ _ HR2) as (n2 & s3 & Hn2 & Hs3 & _). exists n2, Eod, s3.
    split; [assumption|]. split; [eauto|]. apply HN.
  - intros e s1 HR _. split; [assumption|]. split; [apply HN|lia].
  - exists 0. rewrite <- (He 0). assumption.
Qed.

Lemma kid_list X s l : mono X -> holds X s l -> (forall s', finitude_type X s' <> PseudoInfinite) ->
  forall ep, ep 0 = l -> kholds false X (kid_of false (Epochs ep)) 0 s.
Proof.
  intros HM HH Hfin ep Hl.
  assert (Hf : forall s', fin_eqb (finitude_type X s') PseudoInfinite = false).
  { intros s'. specialize (Hfin s'). destruct (finitude_type X s'); try reflexivity. contradiction. }
  exists (fun e s => holds X s (skipn e l)). cbn [kid_of]. unfold kid_of, klaw. cbn [k_item k_len turn epoch_len]. rewrite Hl.
  split; [split|exact HH].
  - intros e s1 H1. pose proof (holds_step X HM _ _ H1) as HS.
    destruct (skipn e l) as [|d r] eqn:E.
    + destruct HS as (n & s2 & Hn & Hs2). exists n, Eod, s2. split; [assumption|].
      assert (HL : length l <= e).
      { apply (f_equal (@length _)) in E. rewrite skipn_length in E. simpl in E. lia. }
      split; [assumption|]. split; [apply nth_error_None; assumption|]. rewrite skipn_all2 by lia. assumption.
    + destruct HS as (n & s2 & Hn & Hs2). exists n, (Val d), s2. split; [assumption|].
      assert (HL : e < length l).
      { apply (f_equal (@length _)) in E. rewrite skipn_length in E. simpl in E. lia. }
      assert (HE : nth_error l e = Some d /\ skipn (S e) l = r).
      { clear -E. revert l E. induction e as [|e IH]; intros [|x l] E; simpl in E; try discriminate; [inv E; auto|].
        destruct (IH l E). auto. }
      destruct HE as [HE1 HE2]. split; [assumption|]. rewrite HE2, Hf. auto.
  - intros e s1 H1 Hn. apply nth_error_None in Hn. rewrite skipn_all2 in H1 by lia. rewrite skipn_all2 by lia.
    split; [assumption|]. split; [apply nth_error_None; lia|assumption].
Qed.

Lemma streams_ext X s f g : (forall i, f i = g i) -> streams X s f -> streams X s g.
Proof.
  intros H HS k. destruct (HS k) as (s' & Hy). exists s'. erewrite map_ext; [exact Hy|]. intros i. simpl. rewrite H. reflexivity.
Qed.

Lemma kid_stream ar X s f : mono X -> streams X s f -> (forall s', finitude_type X s' = PseudoInfinite) ->
  kholds ar X (kid_of ar (Endless f)) 0 s.
Proof.
  intros HM HH Hfin. exists (fun e s => streams X s (fun i => f (e + i))). split; [split|exact HH].
  - intros e s1 H1. destruct (streams_step X s1 _ HM H1) as (n & s2 & Hn & Hs2). exists n, (Val (f (e + 0))), s2.
    split; [assumption|]. cbn [kid_of k_item k_len turn epoch_len]. rewrite Hfin. cbn [fin_eqb]. rewrite Nat.add_0_r.
    split; [reflexivity|]. split; [|lia]. eapply streams_ext; [|exact Hs2]. intros i. simpl. f_equal. lia.
  - intros e s1 _ H. discriminate.
Qed.

Lemma kid_supplies ar X s c : mono X -> supplies ar X s c -> kholds ar X (kid_of ar c) 0 s.
Proof.
  intros HM H. destruct c as [ep|f]; destruct H as [Hf H].
  - destruct ar; [|eapply kid_list; eauto]. destruct H as (HE & [Hne|He]); [apply kid_epochs|apply kid_epochs_empty]; assumption.
  - apply kid_stream; assumption.
Qed.

Fixpoint hsupplies (ar : bool) (ps : list source) : hst ps -> list supply -> Prop :=
  match ps return hst ps -> list supply -> Prop with
  | [] => fun _ cs => cs = []
  | X :: r => fun s cs => match cs with
                          | [] => False
                          | c :: cs' => supplies ar X (fst s) c /\ hsupplies ar r (snd s) cs'
                          end
  end.

Lemma hsupplies_length ar ps s cs : hsupplies ar ps s cs -> length cs = length ps.
Proof.
  revert s cs. induction ps as [|X ps IH]; intros s cs H; simpl in *; [subst; reflexivity|].
  destruct cs as [|c cs]; [contradiction|]. destruct H as [_ H]. simpl. f_equal. eauto.
Qed.

Lemma hkids_supplies ar ps : Forall mono ps -> forall s cs, hsupplies ar ps s cs ->
  hkids ar ps s (map (kid_of ar) cs) (repeat 0 (length ps)).
Proof.
  intros HF. induction HF as [|X ps HM HF IH]; intros s cs H; simpl in *; [subst; auto|].
  destruct cs as [|c cs]; [contradiction|]. destruct H as [H0 H]. simpl. split; [apply kid_supplies; assumption|apply IH; assumption].
Qed.

(** *** round_robin in terms of what the children supply *)
Lemma nth_seq_map {A B} (g : A -> B) (l : list A) (d : B) : map (fun i => nth i (map g l) d) (seq 0 (length l)) = map g l.
Proof.
  apply nth_error_ext; [rewrite !map_length, seq_length; reflexivity|]. rewrite map_length, seq_length. intros i Hi.
  rewrite nth_error_map, (nth_error_nth' (seq 0 (length l)) 0), seq_nth by (rewrite ?seq_length; assumption). simpl.
  symmetry. apply nth_error_nth'. rewrite map_length. assumption.
Qed.

Lemma list_max_ge l x : In x l -> x <= list_max l.
Proof. induction l as [|y l IH]; intros []; simpl; [subst; lia|]. specialize (IH H). lia. Qed.

Lemma list_max_in l : l <> [] -> In (list_max l) l.
Proof.
  induction l as [|y l IH]; [contradiction|]. intros _. simpl. destruct l as [|z l]; [left; simpl; lia|].
  destruct (IH ltac:(discriminate)) as [E|E]; destruct (Nat.max_spec y (list_max (z :: l))) as [[_ ->]|[_ ->]]; auto.
  - right. left. assumption.
  - right. right. assumption.
Qed.

Lemma list_min_le l x : In x l -> list_min l <= x.
Proof.
  induction l as [|y l IH]; intros H; [destruct H|]. destruct l as [|z l]; [destruct H as [->|[]]; simpl; lia|].
  change (Nat.min y (list_min (z :: l)) <= x). destruct H as [->|H]; [lia|]. specialize (IH H). lia.
Qed.

Lemma list_min_in l : l <> [] -> In (list_min l) l.
Proof.
  induction l as [|y l IH]; [contradiction|]. intros _. destruct l as [|z l]; [left; reflexivity|].
  change (In (Nat.min y (list_min (z :: l))) (y :: z :: l)).
  specialize (IH ltac:(discriminate)). destruct (Nat.min_spec y (list_min (z :: l))) as [[_ ->]|[_ ->]]; [left; reflexivity|right; assumption].
Qed.

Lemma yields_firstn X s os s' k : yields X s os s' -> exists s'', yields X s (firstn k os) s''.
Proof.
  intros H. revert k. induction H as [s|n s o s1 os s2 Hn Hy IH]; intros [|k]; try (eexists; constructor).
  destruct (IH k) as (s3 & H3). exists s3. simpl. econstructor; eassumption.
Qed.

Lemma total_holds X s l : mono X -> (forall k, exists s', yields X s (map Val l ++ repeat Eod k) s') -> holds X s l.
Proof.
  intros HM H. assert (H1 : forall k, exists s', yields X s (expected l k) s').
  { intros k. destruct (H k) as (s' & Hy). eapply yields_firstn; eassumption. }
  split; [assumption|]. intros os s' Hy. destruct (H1 (length os)) as (s2 & Hy2).
  eapply (yields_det X HM); [exact Hy|exact Hy2|]. rewrite expected_length. reflexivity.
Qed.

Section RRSpec.
  Variable ps : list source.
  Variables stop ar : bool.
  Notation rr := (src_round_robin ps stop ar).
  Hypothesis HM : Forall mono ps.

  Lemma over_rounds cs r : length cs = length ps -> 0 < length ps -> 1 <= r ->
    over ps stop (map (kid_of ar) cs) r = (rounds stop cs <=? r).
  Proof.
    intros HL HN Hr. unfold over, rr_all_done, tab. rewrite <- HL.
    assert (HE : map (fun i => k_len (nth i (map (kid_of ar) cs) (Kid (fun _ => None) 0)) <=? r) (seq 0 (length cs)) =
                 map (fun x => x <=? r) (map epoch_len cs)).
    { transitivity (map (fun k => k_len k <=? r) (map (fun i => nth i (map (kid_of ar) cs) (Kid (fun _ => None) 0)) (seq 0 (length cs)))).
      - rewrite map_map. reflexivity.
      - rewrite nth_seq_map, !map_map. reflexivity. }
    rewrite HE. unfold rounds.
    assert (Hne : map epoch_len cs <> []) by (destruct cs; simpl in *; [lia|discriminate]).
    destruct stop.
    - destruct (Nat.leb_spec (Nat.max 1 (list_min (map epoch_len cs))) r) as [H|H].
      + apply existsb_exists. exists true. split; [|reflexivity]. apply in_map_iff. exists (list_min (map epoch_len cs)).
        split; [apply Nat.leb_le; lia|]. apply list_min_in. assumption.
      + apply not_true_iff_false. intros HX. apply existsb_exists in HX. destruct HX as (b & Hb & ->). apply in_map_iff in Hb.
        destruct Hb as (x & Hx & Hin). apply Nat.leb_le in Hx. apply list_min_le in Hin. lia.
    - destruct (Nat.leb_spec (Nat.max 1 (list_max (map epoch_len cs))) r) as [H|H].
      + apply forallb_forall. intros b Hb. apply in_map_iff in Hb. destruct Hb as (x & <- & Hin). apply Nat.leb_le.
        apply list_max_ge in Hin. lia.
      + apply not_true_iff_false. intros HX. rewrite forallb_forall in HX.
        assert (HI : In (list_max (map epoch_len cs) <=? r) (map (fun x => x <=? r) (map epoch_len cs))).
        { apply in_map_iff. exists (list_max (map epoch_len cs)). split; [reflexivity|]. apply list_max_in. assumption. }
        apply HX in HI. apply Nat.leb_le in HI. lia.
  Qed.

  Lemma vals_elems cs r : length cs = length ps -> vals ps (map (kid_of ar) cs) r 0 = round_elems ar cs r.
  Proof.
    intros HL. unfold vals, round_elems. rewrite Nat.sub_0_r, <- HL.
    transitivity (flat_map (fun k => match k_item k r with Some d => [d] | None => [] end)
      (map (fun i => nth i (map (kid_of ar) cs) (Kid (fun _ => None) 0)) (seq 0 (length cs)))).
    - rewrite !flat_map_concat_map, map_map. reflexivity.
    - rewrite nth_seq_map, !flat_map_concat_map, map_map. reflexivity.
  Qed.

  (** The outputs of round [r]; when the last child has nothing to contribute the round ends with an end-of-data signal. *)
  Definition round_outs (cs : list supply) (r : nat) : list out :=
    map Val (round_elems ar cs r) ++
    match last (map (fun c => turn ar c r) cs) None with None => [Eod] | Some _ => [] end.

  Lemma last_nth {A} (l : list A) (d : A) : last l d = nth (length l - 1) l d.
  Proof.
    induction l as [|x l IH]; [reflexivity|]. destruct l as [|y l]; [reflexivity|]. change (last (x :: y :: l) d) with (last (y :: l) d).
    rewrite IH. simpl. rewrite Nat.sub_0_r. reflexivity.
  Qed.

  Lemma round_outs_eq cs r : length cs = length ps -> 0 < length ps -> round ps (map (kid_of ar) cs) r 0 = round_outs cs r.
  Proof.
    intros HL HN. unfold round, round_outs, blank. rewrite (vals_elems cs r HL). f_equal.
    rewrite last_nth, map_length, HL.
    change (Kid (fun _ : nat => None) 0) with (Kid (fun _ : nat => @None data) 0).
    destruct (nth_error cs (length ps - 1)) as [c|] eqn:E; [|apply nth_error_None in E; lia].
    rewrite (nth_error_nth (map (kid_of ar) cs) _ (x := kid_of ar c)) by (rewrite nth_error_map, E; reflexivity).
    rewrite (nth_error_nth (map (fun c => turn ar c r) cs) _ (x := turn ar c r)) by (rewrite nth_error_map, E; reflexivity).
    reflexivity.
  Qed.

  Definition rr_fresh (x : rr_st ps) : Prop := x = RrSt [] 0 (repeat false (length ps)) false (rr_ps x).

  Theorem rr_trace x cs k : 0 < length ps -> rr_fresh x -> hsupplies ar ps (rr_ps x) cs ->
    exists x', yields rr x (flat_map (round_outs cs) (seq 0 (rounds stop cs)) ++ repeat Eod k) x'.
  Proof.
    intros HN Hx HS. pose proof (hsupplies_length _ _ _ _ HS) as HL.
    destruct (rr_yields ps stop ar HM (map (kid_of ar) cs) x (rounds stop cs) k) as (x' & Hy).
    - rewrite map_length. assumption.
    - assumption.
    - split; [assumption|]. apply hkids_supplies; assumption.
    - unfold rounds. lia.
    - intros r Hr. rewrite over_rounds by (try assumption; lia). apply Nat.leb_gt. lia.
    - rewrite over_rounds by (try assumption; unfold rounds; lia). apply Nat.leb_refl.
    - exists x'. erewrite flat_map_ext; [exact Hy|]. intros r. simpl. symmetry. apply round_outs_eq; assumption.
  Qed.

  Theorem rr_holds x cs : 0 < length ps -> rr_fresh x -> hsupplies ar ps (rr_ps x) cs ->
    (forall r, r < rounds stop cs -> last (map (fun c => turn ar c r) cs) None <> None) ->
    holds rr x (flat_map (round_elems ar cs) (seq 0 (rounds stop cs))).
  Proof.
    intros HN Hx HS HL. apply total_holds; [apply rr_mono; assumption|]. intros k.
    destruct (rr_trace x cs k HN Hx HS) as (x' & Hy). exists x'.
    assert (HE : flat_map (round_outs cs) (seq 0 (rounds stop cs)) = map Val (flat_map (round_elems ar cs) (seq 0 (rounds stop cs)))).
    { clear Hy. assert (G : forall l, (forall r, In r l -> r < rounds stop cs) -> flat_map (round_outs cs) l = map Val (flat_map (round_elems ar cs) l)).
      { induction l as [|r l IH]; intros Hr; [reflexivity|]. cbn [flat_map]. rewrite map_app, IH by (intros; apply Hr; right; assumption).
        f_equal. unfold round_outs. specialize (HL r (Hr r (or_introl eq_refl))).
        destruct (last _ None); [rewrite app_nil_r; reflexivity|contradiction]. }
      apply G. intros r Hr. apply in_seq in Hr. lia. }
    rewrite HE in Hy. exact Hy.
  Qed.
End RRSpec.

(** ** Positions *)
Section RRPos.
  Variable ps : list source.
  Variables stop ar : bool.
  Notation rr := (src_round_robin ps stop ar).

  Definition rr_wf (x : rr_st ps) : Prop := rr_eod x = true -> rr_idx x = 0 /\ rr_all_done stop (rr_done x) = true.

  Definition rr_R (x y : rr_st ps) : Prop :=
    rr_buf x = rr_buf y /\ rr_idx x = rr_idx y /\ rr_done x = rr_done y /\ rr_wf x /\ rr_wf y /\ hequiv ps (rr_ps x) (rr_ps y).

  Lemma rr_fetch_equiv n i done a b : hequiv ps a b ->
    match rr_fetch ps ar n i done a, rr_fetch ps ar n i done b with
    | Some (r, d, s), Some (r', d', s') => r = r' /\ d = d' /\ hequiv ps s s'
    | None, None => True
    | _, _ => False
    end.
  Proof.
    intros H. unfold rr_fetch. pose proof (hequiv_next ps i n a b H) as HN.
    destruct (hnext ps i n a) as [[o a']|], (hnext ps i n b) as [[o' b']|]; simpl in HN; try contradiction; auto.
    destruct HN as [<- HN]. destruct o as [d| |e]; [|destruct ar|]; auto.
    - rewrite (hequiv_fin ps i a' b' HN). auto.
    - pose proof (hequiv_next ps i n _ _ (hequiv_reset1 ps i false a' b' HN)) as HN2.
      destruct (hnext ps i n (hreset1 ps i false a')) as [[o2 a2]|], (hnext ps i n (hreset1 ps i false b')) as [[o2' b2]|];
        simpl in HN2; try contradiction; auto. destruct HN2 as [<- HN2]. destruct o2; auto.
  Qed.

  Lemma rr_gather_equiv n k : forall i b done x y, hequiv ps x y ->
    match rr_gather ps ar n k i b done x, rr_gather ps ar n k i b done y with
    | Some (b1, e, d, s), Some (b1', e', d', s') => b1 = b1' /\ e = e' /\ d = d' /\ hequiv ps s s'
    | None, None => True
    | _, _ => False
    end.
  Proof.
    induction k as [|k IH]; intros i b done x y H; [simpl; auto|]. cbn [rr_gather].
    pose proof (rr_fetch_equiv n i done x y H) as HF.
    destruct (rr_fetch ps ar n i done x) as [[[r d] s]|], (rr_fetch ps ar n i done y) as [[[r' d'] s']|]; try contradiction; auto.
    destruct HF as (<- & <- & HF). destruct r; auto. apply IH. assumption.
  Qed.

  Lemma rr_scan_equiv n k : forall idx b done x y, hequiv ps x y ->
    match rr_scan ps ar n k idx b done x, rr_scan ps ar n k idx b done y with
    | Some (r, (i1, b1, d, s)), Some (r', (i1', b1', d', s')) => r = r' /\ i1 = i1' /\ b1 = b1' /\ d = d' /\ hequiv ps s s'
    | None, None => True
    | _, _ => False
    end.
  Proof.
    induction k as [|k IH]; intros idx b done x y H; [simpl; auto|]. cbn [rr_scan].
    destruct (nth idx b None); [|apply IH; assumption].
    pose proof (rr_fetch_equiv n idx done x y H) as HF.
    destruct (rr_fetch ps ar n idx done x) as [[[r d1] s]|], (rr_fetch ps ar n idx done y) as [[[r' d'] s']|]; try contradiction; auto.
    destruct HF as (<- & <- & HF). destruct r; auto 6.
  Qed.

  Lemma rr_R_bisim : bisim rr rr_R.
  Proof.
    intros x y (H1 & H2 & H3 & Wx & Wy & H). split; [|split]; [|intros g|reflexivity].
    2:{ cbn [reset src_round_robin]. unfold rr_R, rr_wf. cbn [rr_buf rr_idx rr_done rr_eod rr_ps].
        repeat split; try discriminate. apply hequiv_reset. assumption. }
    intros n. cbn [next src_round_robin]. unfold rr_next. rewrite <- H1, <- H2, <- H3.
    unfold rr_wf in Wx, Wy. rewrite <- H2, <- H3 in Wy.
    destruct (length ps =? 0); [simpl; split; [reflexivity|]; unfold rr_R, rr_wf; rewrite <- H2, <- H3; auto 8|]. cbn [orb].
    destruct ((rr_idx x =? 0) && rr_all_done stop (rr_done x)) eqn:ED.
    - apply andb_true_iff in ED. destruct ED as [E1 E2]. apply Nat.eqb_eq in E1.
      destruct (rr_eod x) eqn:Ex, (rr_eod y) eqn:Ey; (split; [reflexivity|]); unfold rr_R, rr_wf;
        cbn [rr_buf rr_idx rr_done rr_eod rr_ps]; rewrite <- ?H1, <- ?H2, <- ?H3; auto 10.
    - assert (Ex : rr_eod x = false).
      { destruct (rr_eod x); [|reflexivity]. destruct (Wx eq_refl) as [E1 E2]. rewrite E1, E2 in ED. discriminate. }
      assert (Ey : rr_eod y = false).
      { destruct (rr_eod y); [|reflexivity]. destruct (Wy eq_refl) as [E1 E2]. rewrite E1, E2 in ED. discriminate. }
      rewrite Ex, Ey.
      assert (G : forall b done s s', hequiv ps s s' -> res_rel rr_R
          match rr_scan ps ar n (length b - rr_idx x) (rr_idx x) b done s with
          | None => None
          | Some (r, (idx, b', done', s')) =>
            match r with
            | inr e => Some (Err e, RrSt b' idx done' false s')
            | inl o =>
              let idx' := if idx =? length b' then 0 else idx in
              Some (match o with Some d => Val d | None => Eod end, RrSt b' idx' done' false s')
            end
          end
          match rr_scan ps ar n (length b - rr_idx x) (rr_idx x) b done s' with
          | None => None
          | Some (r, (idx, b', done', s')) =>
            match r with
            | inr e => Some (Err e, RrSt b' idx done' false s')
            | inl o =>
              let idx' := if idx =? length b' then 0 else idx in
              Some (match o with Some d => Val d | None => Eod end, RrSt b' idx' done' false s')
            end
          end).
      { intros b done s s' Hs. pose proof (rr_scan_equiv n (length b - rr_idx x) (rr_idx x) b done s s' Hs) as HS.
        destruct (rr_scan ps ar n _ (rr_idx x) b done s) as [[r [[[i1 b1] d1] s1]]|];
          destruct (rr_scan ps ar n _ (rr_idx x) b done s') as [[r' [[[i1' b1'] d1'] s1']]|]; try contradiction; [|exact Logic.I].
        destruct HS as (<- & <- & <- & <- & HS).
        destruct r; (split; [reflexivity|]); unfold rr_R, rr_wf; cbn [rr_buf rr_idx rr_done rr_eod rr_ps];
          (repeat split; try discriminate; assumption). }
      destruct (rr_buf x) as [|b0 b]; [|apply G; assumption].
      pose proof (rr_gather_equiv n (length ps) 0 [] (rr_done x) _ _ H) as HG.
      destruct (rr_gather ps ar n (length ps) 0 [] (rr_done x) (rr_ps x)) as [[[[b1 e1] d1] s1]|];
        destruct (rr_gather ps ar n (length ps) 0 [] (rr_done x) (rr_ps y)) as [[[[b1' e1'] d1'] s1']|]; try contradiction; [|exact Logic.I].
      destruct HG as (<- & <- & <- & HG). destruct e1 as [e1|]; [|apply G; assumption].
      split; [reflexivity|]. unfold rr_R, rr_wf; cbn [rr_buf rr_idx rr_done rr_eod rr_ps]. repeat split; try discriminate. assumption.
  Qed.

  Variable clean : bool.
  Variables Is Ts : hpred ps.
  Hypothesis HR : hresumable clean ps Is Ts.

  Definition rr_inv (x : rr_st ps) : Prop := rr_wf x /\ length (rr_buf x) <= length ps /\ hall ps Is (rr_ps x).
  Definition rr_tgt (x : rr_st ps) : Prop := hall ps Ts (rr_ps x).

  Lemma rr_fetch_inv n i done s r d s' : hall ps Is s -> i < length ps -> rr_fetch ps ar n i done s = Some (r, d, s') ->
    match r with inr e => okstep clean (hall ps Is s') (Err e) | _ => hall ps Is s' end.
  Proof.
    intros Hs Hi H. unfold rr_fetch in H. destruct (hnext ps i n s) as [[o s1]|] eqn:E; [|discriminate].
    pose proof (hall_next clean ps Is Ts HR i n s o s1 Hs Hi E) as Hs1.
    destruct o as [x| |e]; [inv H; auto| |inv H; auto]. destruct ar; [|inv H; auto].
    destruct (hnext ps i n (hreset1 ps i false s1)) as [[o2 s2]|] eqn:E2; [|discriminate].
    pose proof (hall_next clean ps Is Ts HR i n _ o2 s2 (hall_reset1 clean ps Is Ts i false s1 HR Hs1) Hi E2) as Hs2.
    destruct o2; inv H; auto.
  Qed.

  Lemma rr_gather_inv n k : forall i b done s b' e d s', hall ps Is s -> k + i = length ps -> length b = i ->
    rr_gather ps ar n k i b done s = Some (b', e, d, s') ->
    length b' <= length ps /\ match e with Some e => okstep clean (hall ps Is s') (Err e) | _ => hall ps Is s' end.
  Proof.
    induction k as [|k IH]; intros i b done s b' e d s' Hs Hk Hb H; cbn [rr_gather] in H.
    - inv H. split; [lia|assumption].
    - destruct (rr_fetch ps ar n i done s) as [[[r d1] s1]|] eqn:E; [|discriminate].
      pose proof (rr_fetch_inv n i done s r d1 s1 Hs ltac:(lia) E) as Hs1. destruct r as [o|er].
      + eapply IH; [| | |exact H]; [assumption|lia|rewrite app_length; simpl; lia].
      + inv H. split; [lia|assumption].
  Qed.

  Lemma rr_scan_inv n k : forall idx b done s r i' b' d s', hall ps Is s -> idx + k <= length ps -> length b <= length ps ->
    rr_scan ps ar n k idx b done s = Some (r, (i', b', d, s')) ->
    length b' = length b /\ match r with inr e => okstep clean (hall ps Is s') (Err e) | _ => hall ps Is s' end.
  Proof.
    induction k as [|k IH]; intros idx b done s r i' b' d s' Hs Hk Hb H; cbn [rr_scan] in H.
    - inv H. auto.
    - destruct (nth idx b None).
      + destruct (rr_fetch ps ar n idx done s) as [[[r1 d1] s1]|] eqn:E; [|discriminate].
        pose proof (rr_fetch_inv n idx done s r1 d1 s1 Hs ltac:(lia) E) as Hs1. destruct r1; inv H; [|auto].
        rewrite upd_length. auto.
      + eapply IH; [| | |exact H]; [assumption|lia|assumption].
  Qed.

  Lemma rr_resumable : resumable clean rr rr_inv rr_tgt.
  Proof.
    constructor.
    - split; [discriminate|]. split; [cbn; lia|]. apply (hall_init clean ps Is Ts HR).
    - apply (hall_init clean ps Is Ts HR).
    - intros n x o x' (HW & HB & HI) H. cbn [next src_round_robin] in H. unfold rr_next in H.
      destruct ((length ps =? 0) || rr_eod x); [inv H; split; [assumption|split; assumption]|].
      destruct ((rr_idx x =? 0) && rr_all_done stop (rr_done x)) eqn:ED.
      { apply andb_true_iff in ED. destruct ED as [E1 E2]. apply Nat.eqb_eq in E1. inv H.
        split; [|split; assumption]. intros _. auto. }
      assert (G : forall b done s, hall ps Is s -> length b <= length ps ->
          match rr_scan ps ar n (length b - rr_idx x) (rr_idx x) b done s with
          | None => None
          | Some (r, (idx, b', done', s')) =>
            match r with
            | inr e => Some (Err e, RrSt b' idx done' false s')
            | inl o =>
              let idx' := if idx =? length b' then 0 else idx in
              Some (match o with Some d => Val d | None => Eod end, RrSt b' idx' done' false s')
            end
          end = Some (o, x') -> okstep clean (rr_inv x') o).
      { intros b done s Hs Hb HX.
        destruct (rr_scan ps ar n (length b - rr_idx x) (rr_idx x) b done s) as [[r [[[i1 b1] d1] s1]]|] eqn:E; [|discriminate].
        assert (HL : length b1 = length b /\ match r with inr e => okstep clean (hall ps Is s1) (Err e) | _ => hall ps Is s1 end).
        { destruct (Nat.le_gt_cases (rr_idx x) (length b)).
          - eapply rr_scan_inv; [| | |exact E]; [assumption|lia|assumption].
          - replace (length b - rr_idx x) with 0 in E by lia. cbn [rr_scan] in E. inv E. auto. }
        destruct HL as (A & B). destruct r as [o1|e1]; inv HX.
        - apply okstep_intro; [|destruct o1; exact Logic.I]. split; [discriminate|]. cbn [rr_buf rr_ps]. split; [lia|assumption].
        - eapply okstep_impl; [exact B|]. intros. split; [discriminate|]. cbn [rr_buf rr_ps]. split; [lia|assumption]. }
      destruct (rr_buf x) as [|b0 b]; [|apply G in H; assumption].
      destruct (rr_gather ps ar n (length ps) 0 [] (rr_done x) (rr_ps x)) as [[[[b1 e1] d1] s1]|] eqn:E; [|discriminate].
      destruct (rr_gather_inv n (length ps) 0 [] (rr_done x) (rr_ps x) b1 e1 d1 s1 HI ltac:(lia) eq_refl E) as (A & B).
      destruct e1 as [e1|]; [|apply G in H; assumption]. inv H. eapply okstep_impl; [exact B|]. intros. split; [discriminate|]. split; assumption.
    - intros g x (HW & HB & HI). split; [discriminate|]. split; [cbn; lia|]. cbn [reset src_round_robin rr_ps].
      eapply hall_reset; eassumption.
    - intros x x0 (HW & HB & HI) Ht. destruct (hall_resume clean ps Is Ts _ _ HR HI Ht) as (t & Hr & Hl).
      cbn [record_pos src_round_robin]. rewrite Hr. eexists. split; [reflexivity|]. intros rest.
      destruct (Hl rest) as (s1 & E & He & Hi). cbn [reload_pos src_round_robin]. rewrite <- !app_assoc, rd_wr_optvec, rd_wr_size.
      unfold rd_bools, wr_bools. rewrite rd_wr_vec by apply rd_wr_bool. rewrite E. eexists. split; [reflexivity|].
      split; [|split; [discriminate|split; assumption]].
      exists rr_R. split; [apply rr_R_bisim|]. unfold rr_R. cbn [rr_buf rr_idx rr_done rr_ps].
      split; [reflexivity|]. split; [reflexivity|]. split; [reflexivity|]. split; [assumption|]. split; [discriminate|assumption].
  Qed.

  Lemma rr_restarts g : hrestarts g ps Is -> restarts rr rr_inv g.
  Proof.
    intros H x (HW & HB & HI). exists rr_R. split; [apply rr_R_bisim|]. unfold rr_R. cbn.
    split; [reflexivity|]. split; [reflexivity|]. split; [reflexivity|]. split; [discriminate|]. split; [discriminate|].
    eapply hrestart; eassumption.
  Qed.
End RRPos.
