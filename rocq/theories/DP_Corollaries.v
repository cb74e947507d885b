(** Consequences of the specifications that are closer to what a user asks, and laws of the top-level pipeline and the tape. *)

From Coq Require Import QArith Lia Permutation.
From Verif Require Import DP_Base DP_Spec DP_Sources_Model DP_Bucketing_Model DP_Multi_Model DP_Laws DP_Sources_Proofs
  DP_Sources_Proofs2 DP_Multi_Lemmas DP_Shuffle_Proofs DP_BBL_Proofs DP_Dyn_Proofs DP_Pack_Proofs DP_Zip_Proofs DP_RR_Proofs
  DP_Sample_Proofs.

(** ** Shards *)
Lemma filter_seq_chunk (A : Type) i n o (a : list A) : length a = n -> i < n -> o mod n = 0 ->
  map snd (filter (fun p : nat * A => fst p mod n =? i) (combine (seq o (length a)) a)) = firstn 1 (skipn i a).
Proof.
  intros Hl Hi Ho.
  assert (G : forall b j, j + length b = n ->
    map snd (filter (fun p : nat * A => fst p mod n =? i) (combine (seq (o + j) (length b)) b)) = if i <? j then [] else firstn 1 (skipn (i - j) b)).
  { induction b as [|x b IH]; intros j Hj.
    - simpl. destruct (i <? j); [reflexivity|]. rewrite skipn_nil. reflexivity.
    - cbn [length seq combine filter map fst]. simpl length in Hj.
      assert (Hm : (o + j) mod n = j) by (rewrite Nat.add_mod, Ho by lia; simpl; rewrite Nat.mod_mod by lia; apply Nat.mod_small; lia).
      rewrite Hm. replace (S (o + j)) with (o + S j) by lia. specialize (IH (S j) ltac:(lia)).
      destruct (Nat.eqb_spec j i) as [->|Hne].
      + cbn [map snd]. rewrite IH. rewrite (proj2 (Nat.ltb_lt i (S i))) by lia. rewrite Nat.ltb_irrefl, Nat.sub_diag. reflexivity.
      + rewrite IH. destruct (Nat.ltb_spec i (S j)), (Nat.ltb_spec i j); try lia; [reflexivity|].
        replace (i - j) with (S (i - S j)) by lia. reflexivity. }
  specialize (G a 0 Hl). rewrite Nat.add_0_r, Nat.sub_0_r in G. simpl in G. exact G.
Qed.

Lemma combine_app_seq (A : Type) o (a b : list A) :
  combine (seq o (length (a ++ b))) (a ++ b) = combine (seq o (length a)) a ++ combine (seq (o + length a) (length b)) b.
Proof.
  revert o. induction a as [|x a IH]; intros o; simpl; [rewrite Nat.add_0_r; reflexivity|].
  f_equal. rewrite IH. do 3 f_equal. lia.
Qed.

Lemma every_shift i n (l : list data) o : n <> 0 -> o mod n = 0 ->
  map snd (filter (fun p : nat * data => fst p mod n =? i) (combine (seq o (length l)) l)) = every i n l.
Proof.
  intros Hn Ho. unfold every. assert (G : forall l a b, a mod n = b mod n ->
    map snd (filter (fun p : nat * data => fst p mod n =? i) (combine (seq a (length l)) l)) =
    map snd (filter (fun p : nat * data => fst p mod n =? i) (combine (seq b (length l)) l))).
  { clear l. induction l as [|x l IH]; intros a b Hab; [reflexivity|]. cbn [length seq combine filter fst]. rewrite Hab.
    assert (E : S a mod n = S b mod n) by (change (S a) with (1 + a); change (S b) with (1 + b); rewrite (Nat.add_mod 1 a), (Nat.add_mod 1 b), Hab by lia; reflexivity).
    destruct (b mod n =? i); simpl; rewrite (IH _ _ E); reflexivity. }
  apply G. rewrite Ho, Nat.mod_0_l by lia. reflexivity.
Qed.

Lemma every_chunk i n a l : length a = n -> i < n -> every i n (a ++ l) = firstn 1 (skipn i a) ++ every i n l.
Proof.
  intros Hl Hi. unfold every at 1. rewrite combine_app_seq, filter_app, map_app. f_equal.
  - apply filter_seq_chunk; auto. apply Nat.mod_0_l. lia.
  - apply every_shift; [lia|]. simpl. rewrite Hl. apply Nat.mod_same. lia.
Qed.

Lemma filter_none (A : Type) (f : A -> bool) l : (forall x, In x l -> f x = false) -> filter f l = [].
Proof. induction l as [|x l IH]; intros H; simpl; [reflexivity|]. rewrite (H x) by (left; reflexivity). apply IH. intros y Hy. apply H. right; assumption. Qed.

(** The [k]-th element of shard [i] is the element at position [i + k * n] of the input. *)
Lemma every_nth i n l : i < n -> forall k, nth_error (every i n l) k = nth_error l (i + k * n).
Proof.
  intros Hi. remember (length l) as m eqn:Em. revert l Em. induction m as [m IH] using lt_wf_ind. intros l Em k.
  destruct (Nat.le_gt_cases n m) as [H|H].
  - rewrite <- (firstn_skipn n l). assert (Ha : length (firstn n l) = n) by (rewrite firstn_length; lia).
    rewrite every_chunk by assumption.
    assert (H1 : exists x, skipn i (firstn n l) = x :: skipn (S i) (firstn n l) /\ nth_error (firstn n l) i = Some x).
    { destruct (nth_error (firstn n l) i) as [x|] eqn:E; [|apply nth_error_None in E; lia]. exists x. split; [|reflexivity].
      clear -E. revert i E. induction (firstn n l) as [|y r IH]; intros [|i] E; simpl in *; try discriminate; [congruence|auto]. }
    destruct H1 as (x & H1 & H2). rewrite H1. cbn [firstn app]. destruct k as [|k].
    + simpl. rewrite Nat.add_0_r. rewrite nth_error_app1 by lia. congruence.
    + cbn [nth_error]. rewrite (IH (length (skipn n l))); [|rewrite skipn_length; lia|reflexivity].
      rewrite nth_error_app2 by (rewrite Ha; simpl; lia). rewrite Ha. f_equal. simpl. lia.
  - destruct (Nat.le_gt_cases m i) as [H2|H2].
    + replace (nth_error l (i + k * n)) with (@None data) by (symmetry; apply nth_error_None; lia).
      apply nth_error_None. unfold every. rewrite map_length, filter_none; [simpl; lia|].
      intros [p x] Hp. apply in_combine_l in Hp. apply in_seq in Hp. simpl. rewrite Nat.mod_small by lia. apply Nat.eqb_neq. lia.
    + (* one incomplete chunk *)
      assert (HE : every i n (l ++ repeat (DBool false) (n - m)) = every i n l).
      { unfold every. rewrite combine_app_seq, filter_app, map_app. rewrite (filter_none _ _ (combine (seq (0 + length l) _) _)).
        - simpl. apply app_nil_r.
        - intros [p x] Hp. apply in_combine_l in Hp. apply in_seq in Hp. rewrite repeat_length in Hp. simpl in Hp. simpl.
          rewrite Nat.mod_small by lia. apply Nat.eqb_neq. lia. }
      rewrite <- HE. clear HE. set (l1 := l ++ repeat (DBool false) (n - m)).
      assert (Hl1 : length l1 = n) by (unfold l1; rewrite app_length, repeat_length; lia).
      rewrite <- (app_nil_r l1). rewrite every_chunk by assumption. unfold l1.
      assert (Hx : exists x, skipn i l1 = x :: skipn (S i) l1 /\ nth_error l i = Some x).
      { destruct (nth_error l i) as [x|] eqn:E; [|apply nth_error_None in E; lia]. exists x. split; [|reflexivity].
        unfold l1. clear -E. revert i E. induction l as [|y r IH]; intros [|i] E; simpl in *; try discriminate; [congruence|auto]. }
      destruct Hx as (x & Hx1 & Hx2). fold l1. rewrite Hx1. cbn [firstn app]. destruct k as [|k].
      * simpl. rewrite Nat.add_0_r. congruence.
      * simpl. replace (nth_error l (i + (n + k * n))) with (@None data) by (symmetry; apply nth_error_None; lia).
        destruct k; reflexivity.
Qed.

Lemma shard_even_length i n l : i < n -> length (shard_spec i n false l) = length l / n.
Proof.
  intros Hi. unfold shard_spec. set (q := length l / n). set (l' := firstn (n * q) l).
  assert (Hl' : length l' = n * q). { unfold l'. rewrite firstn_length. pose proof (Nat.mul_div_le (length l) n). fold q in H. lia. }
  assert (A : nth_error (every i n l') q = None). { rewrite every_nth by assumption. apply nth_error_None. nia. }
  apply nth_error_None in A. destruct q as [|q'] eqn:Eq; [lia|].
  assert (B : nth_error (every i n l') q' <> None). { rewrite every_nth by assumption. apply nth_error_Some. nia. }
  apply nth_error_Some in B. lia.
Qed.

Lemma partition_perm (A : Type) (key : A -> nat) n l : (forall x, In x l -> key x < n) ->
  Permutation (flat_map (fun i => filter (fun x => key x =? i) l) (seq 0 n)) l.
Proof.
  induction l as [|x l IH]; intros H.
  - clear. induction (seq 0 n) as [|k s IH]; simpl; auto.
  - assert (HX : forall s, NoDup s -> Permutation (flat_map (fun i => filter (fun y => key y =? i) (x :: l)) s)
      (if in_dec Nat.eq_dec (key x) s then x :: flat_map (fun i => filter (fun y => key y =? i) l) s
       else flat_map (fun i => filter (fun y => key y =? i) l) s)).
    { clear IH H. induction s as [|k s IHs]; intros HN; [simpl; auto|]. inversion HN as [|? ? Hk HN']; subst.
      specialize (IHs HN'). simpl flat_map. destruct (Nat.eqb_spec (key x) k) as [E|E].
      - rewrite E in *. destruct (in_dec Nat.eq_dec k (k :: s)) as [_|C]; [|exfalso; apply C; left; reflexivity].
        destruct (in_dec Nat.eq_dec k s) as [C|_]; [contradiction|]. simpl. constructor. apply Permutation_app_head. rewrite <- E. exact IHs.
      - destruct (in_dec Nat.eq_dec (key x) (k :: s)) as [C|C], (in_dec Nat.eq_dec (key x) s) as [D|D].
        + rewrite IHs. symmetry. apply Permutation_middle.
        + destruct C as [C|C]; [congruence|contradiction].
        + exfalso. apply C. right; assumption.
        + apply Permutation_app_head. exact IHs. }
    rewrite HX by apply seq_NoDup. destruct (in_dec Nat.eq_dec (key x) (seq 0 n)) as [C|C].
    + constructor. apply IH. intros y Hy. apply H. right; assumption.
    + exfalso. apply C. apply in_seq. specialize (H x (or_introl eq_refl)). lia.
Qed.

Lemma map_flat_map (A B C : Type) (f : B -> C) (g : A -> list B) l : map f (flat_map g l) = flat_map (fun a => map f (g a)) l.
Proof. induction l as [|x l IH]; simpl; [reflexivity|]. rewrite map_app, IH. reflexivity. Qed.

Lemma combine_snd (A : Type) o (l : list A) : map snd (combine (seq o (length l)) l) = l.
Proof. revert o. induction l as [|x l IH]; intros o; simpl; [reflexivity|]. rewrite IH. reflexivity. Qed.

Lemma every_partition n l : n <> 0 -> Permutation (flat_map (fun i => every i n l) (seq 0 n)) l.
Proof.
  intros Hn. unfold every. rewrite <- map_flat_map. transitivity (map snd (combine (seq 0 (length l)) l)); [|rewrite combine_snd; reflexivity]. apply Permutation_map.
  apply (partition_perm _ (fun p : nat * data => fst p mod n)). intros x _. apply Nat.mod_upper_bound. assumption.
Qed.

(** ** Buckets *)
Lemma cut_concat n l bs : cut n l bs -> concat bs = l /\
  forall hd b tl, bs = hd ++ b :: tl -> 1 <= length b \/ n = 0.
Proof.
  induction 1 as [|l Hl|l r bs Hl H [IH1 IH2]].
  - split; [reflexivity|]. intros [|? ?] b tl E; discriminate.
  - split; [simpl; apply app_nil_r|]. intros [|? [|? ?]] b tl E; inversion E; subst. left; lia.
  - split; [simpl; congruence|]. intros [|c hd] b tl E; inversion E; subst.
    + destruct (length b); auto. left; lia.
    + eapply IH2; reflexivity.
Qed.

Lemma cut_sizes n l bs : 0 < n -> cut n l bs ->
  forall hd b tl, bs = hd ++ b :: tl -> 1 <= length b <= n /\ (tl <> [] -> length b = n).
Proof.
  intros Hn. induction 1 as [|l Hl|l r bs Hl H IH]; intros hd b tl E.
  - destruct hd; discriminate.
  - destruct hd as [|? [|? ?]]; inversion E; subst. split; [lia|congruence].
  - destruct hd as [|c hd]; inversion E; subst; [split; [lia|auto]|]. eapply IH; reflexivity.
Qed.

Lemma cut_drop_concat n l bs : cut_drop n l bs ->
  (exists tail, l = concat bs ++ tail /\ length tail < n) /\ forall b, In b bs -> length b = n.
Proof.
  induction 1 as [l Hl|l r bs Hl H [(tail & IH1 & IH2) IH3]].
  - split; [exists l; auto|]. intros b [].
  - split; [exists tail; simpl; rewrite <- app_assoc; split; [f_equal; assumption|assumption]|].
    intros b [<-|Hb]; auto.
Qed.

(** ** dynamic_bucket *)
Lemma dyn_groups_concat th c mn mx drop l bs : dyn_groups th c mn mx drop l bs ->
  exists tail, l = concat bs ++ tail /\ (tail <> [] -> drop = true /\ forall p q, tail = p ++ q -> ~ complete th c mn mx p).
Proof.
  induction 1 as [|b Hb Hc|b r bs Hb Hc H (tail & E & IH)].
  - exists []. split; [reflexivity|congruence].
  - destruct drop; simpl; [exists b; auto|]. exists []. rewrite !app_nil_r. split; [reflexivity|congruence].
  - exists tail. simpl. rewrite <- app_assoc. split; [f_equal; assumption|assumption].
Qed.

Lemma dyn_groups_max th c mn mx drop l bs k : mx = Some k -> 0 < k -> dyn_groups th c mn mx drop l bs ->
  forall b, In b bs -> length b <= k.
Proof.
  intros Hk H0. assert (G : forall b, (forall p q, b = p ++ q -> q <> [] -> ~ complete th c mn mx p) -> length b <= k).
  { intros b Hb. destruct (Nat.le_gt_cases (length b) k) as [|HG]; [assumption|exfalso].
    apply (Hb (firstn k b) (skipn k b)); [symmetry; apply firstn_skipn| |].
    - intros E. assert (L : length (skipn k b) = 0) by (rewrite E; reflexivity). rewrite skipn_length in L. lia.
    - right. exists k. split; [assumption|]. rewrite firstn_length. lia. }
  induction 1 as [|b Hb Hc|b r bs Hb Hc H IH]; intros b' Hin.
  - destruct Hin.
  - destruct drop; [destruct Hin|]. destruct Hin as [<-|[]]. apply G. intros p q E _. eapply Hc; eassumption.
  - destruct Hin as [<-|Hin]; [apply G; assumption|auto].
Qed.

(** ** Shuffle *)
Lemma shuffled_local b rest out : shuffled b rest out -> forall t, exists rem,
  Permutation (b ++ firstn (t - 1) rest) (firstn t out ++ rem).
Proof.
  induction 1 as [|b d b' x rest out HP H IH|b d b' out HP H IH]; intros t.
  - exists []. rewrite !firstn_nil. reflexivity.
  - destruct t as [|t]; [exists b; simpl; rewrite app_nil_r; reflexivity|].
    destruct (IH t) as (rem & Hrem). destruct t as [|t].
    + exists b'. simpl. rewrite app_nil_r. exact HP.
    + simpl in Hrem. rewrite Nat.sub_0_r in Hrem. exists rem. simpl. rewrite HP. simpl. constructor.
      rewrite <- Hrem. symmetry. apply Permutation_middle.
  - destruct t as [|t]; [exists b; simpl; rewrite app_nil_r; reflexivity|].
    destruct (IH t) as (rem & Hrem). exists rem. rewrite firstn_nil, app_nil_r in *. simpl. rewrite HP. constructor. exact Hrem.
Qed.

(** ** Sampling *)
Lemma times_hit picks i r T : r < times picks T i -> exists t, t < T /\ picks t = i /\ times picks t i = r.
Proof.
  induction T as [|T IH]; simpl; [lia|]. intros H. destruct (Nat.eqb_spec (picks T) i) as [E|E].
  - destruct (Nat.eq_dec (times picks T i) r) as [E2|E2]; [exists T; auto|].
    destruct IH as (t & Ht & ?); [lia|]. exists t. split; [lia|assumption].
  - destruct IH as (t & Ht & ?); [lia|]. exists t. split; [lia|assumption].
Qed.

(** ** The top-level pipeline: errors *)

(** The outcomes of the source with the first [k] recoverable errors left out. *)
Fixpoint swallow (k : nat) (os : list out) : list out :=
  match os with
  | [] => []
  | Err Recoverable :: r => match k with S k' => swallow k' r | O => Err Recoverable :: swallow 0 r end
  | o :: r => o :: swallow k r
  end.

Section PipeErr.
  Variable maxw : nat.
  Variable I : source.
  Hypothesis HM : mono I.
  Notation pipe := (src_pipe maxw I).

  Lemma pipe_loop_step n s o s1 w m : next I n s = Some (o, s1) -> n <= m -> w <= maxw ->
    pipe_loop maxw I m (S m) w s =
      match o with
      | Err Recoverable => if w <? maxw then pipe_loop maxw I m m (S w) s1 else Some (o, PipeSt false w true s1)
      | Err Fatal => Some (o, PipeSt true w true s1)
      | _ => Some (o, PipeSt false w true s1)
      end.
  Proof.
    intros Hn Hm Hw. cbn [pipe_loop]. rewrite (HM n m _ _ Hm Hn). destruct o as [d| |[]]; reflexivity.
  Qed.

  Lemma pipe_swallow os : forall s s' x, yields I s os s' -> ~ In (Err Fatal) os -> p_broken x = false -> p_src x = s ->
    exists x', yields pipe x (swallow (maxw - p_warn x) os) x'.
  Proof.
    induction os as [|o os IH]; intros s s' x Hy HF Hb Hs; [exists x; constructor|].
    inversion Hy as [|n ? ? s1 ? ? Hn Hy1]; subst.
    assert (HF1 : ~ In (Err Fatal) os) by (intros C; apply HF; right; assumption).
    assert (G : forall o', o' = o -> match o' with Err _ => False | _ => True end ->
      exists x', next pipe (S n) x = Some (o, PipeSt false (p_warn x) true s1) /\ yields pipe x (o :: swallow (maxw - p_warn x) os) x').
    { intros o' -> Ho. assert (Hx : next pipe (S n) x = Some (o, PipeSt false (p_warn x) true s1)).
      { cbn [next src_pipe]. unfold pipe_next. rewrite Hb. cbn [pipe_loop]. rewrite (HM n (S n) _ _ ltac:(lia) Hn).
        destruct o as [d| |e]; [reflexivity|reflexivity|contradiction]. }
      destruct (IH s1 s' (PipeSt false (p_warn x) true s1) Hy1 HF1 eq_refl eq_refl) as (x' & Hx').
      exists x'. split; [assumption|]. econstructor; [exact Hx|exact Hx']. }
    destruct o as [d| |[]].
    - destruct (G (Val d) eq_refl Logic.I) as (x' & _ & Hx'). exists x'. exact Hx'.
    - destruct (G Eod eq_refl Logic.I) as (x' & _ & Hx'). exists x'. exact Hx'.
    - cbn [swallow]. destruct (maxw - p_warn x) as [|k] eqn:Ek.
      + assert (Hx : next pipe (S n) x = Some (Err Recoverable, PipeSt false (p_warn x) true s1)).
        { cbn [next src_pipe]. unfold pipe_next. rewrite Hb. cbn [pipe_loop]. rewrite (HM n (S n) _ _ ltac:(lia) Hn).
          rewrite (proj2 (Nat.ltb_ge _ _)) by lia. reflexivity. }
        destruct (IH s1 s' (PipeSt false (p_warn x) true s1) Hy1 HF1 eq_refl eq_refl) as (x' & Hx').
        simpl in Hx'. rewrite Ek in Hx'. exists x'. econstructor; [exact Hx|exact Hx'].
      + destruct (IH s1 s' (PipeSt false (S (p_warn x)) true s1) Hy1 HF1 eq_refl eq_refl) as (x' & Hx').
        cbn [p_warn] in Hx'. replace (maxw - S (p_warn x)) with k in Hx' by lia.
        destruct (swallow k os) as [|o' r] eqn:Es; [exists x; constructor|].
        inversion Hx' as [|m ? ? x1 ? ? Hm Hr]; subst. exists x'. econstructor; [|exact Hr].
        instantiate (1 := S (n + m)). cbn [next src_pipe] in Hm |- *. unfold pipe_next in *. rewrite Hb. cbn [p_broken p_warn p_src] in Hm.
        cbn [pipe_loop]. rewrite (HM n (S (n + m)) _ _ ltac:(lia) Hn). rewrite (proj2 (Nat.ltb_lt _ _)) by lia.
        eapply pipe_loop_mono; [assumption| | |exact Hm]; lia.
    - exfalso. apply HF. left; reflexivity.
  Qed.

  Lemma pipe_streams x f : p_broken x = false -> streams I (p_src x) f -> streams pipe x f.
  Proof.
    intros Hb Hf. apply (streams_intro pipe (fun (x : pipe_st I) f => p_broken x = false /\ streams I (p_src x) f)); [|auto].
    clear x f Hb Hf. intros x g [Hb Hg]. destruct (streams_step I (p_src x) g HM Hg) as (n & s' & Hn & Hs').
    exists (S n), (PipeSt false (p_warn x) true s'), (fun i => g (S i)). cbn [next src_pipe]. unfold pipe_next. rewrite Hb. cbn [pipe_loop].
    rewrite (HM n (S n) _ _ ltac:(lia) Hn). auto.
  Qed.

  Lemma pipe_fatal_breaks n x x' : next pipe n x = Some (Err Fatal, x') -> p_broken x' = true.
  Proof.
    cbn [next src_pipe]. unfold pipe_next. destruct (p_broken x) eqn:Hb; [congruence|].
    assert (G : forall k w s, pipe_loop maxw I n k w s = Some (Err Fatal, x') -> p_broken x' = true).
    { induction k as [|k IH]; intros w s H; [discriminate|]. cbn [pipe_loop] in H.
      destruct (next I n s) as [[o s1]|]; [|discriminate]. destruct o as [d| |[]]; try congruence.
      - destruct (w <? maxw); [eauto|congruence].
      - inversion H; reflexivity. }
    apply G.
  Qed.

  Lemma pipe_broken_stays x : p_broken x = true -> forall x', reaches pipe x x' ->
    p_broken x' = true /\ (forall n, next pipe n x' = Some (Err Fatal, x')) /\ (forall strict, state_dict I strict x' = None) /\
    (forall t, load_state_dict I x' t = None) /\ (forall g, reset pipe g x' = x').
  Proof.
    intros Hb x' Hr. assert (Hx : p_broken x' = true).
    { induction Hr as [|n o s1 s2 Hr IH Hn|g s1 Hr IH]; [assumption| |].
      - cbn [next src_pipe] in Hn. unfold pipe_next in Hn. rewrite IH in Hn. congruence.
      - cbn [reset src_pipe]. unfold pipe_reset. rewrite IH. assumption. }
    split; [assumption|]. split; [|split; [|split]].
    - intros n. cbn [next src_pipe]. unfold pipe_next. rewrite Hx. reflexivity.
    - intros strict. unfold state_dict, pipe_record. rewrite Hx. reflexivity.
    - intros t. unfold load_state_dict, pipe_reload. rewrite Hx. reflexivity.
    - intros g. cbn [reset src_pipe]. unfold pipe_reset. rewrite Hx. reflexivity.
  Qed.
End PipeErr.

(** ** Tape *)

(** The values a source can record (data/tape-inl.h:37-85) and their types. *)
Inductive tval :=
| TBool (b : bool) | TInt (z : Z) | TSize (n : nat) | TFloat (q : Q) | TTensor (v : list Z) | TData (d : data) | TList (l : list data)
| TNone (k : tkind) | TSome (v : tval)
with tkind := KBool | KInt | KSize | KFloat | KTensor | KData | KList | KOpt (k : tkind).

Fixpoint kind_of (v : tval) : tkind :=
  match v with
  | TBool _ => KBool | TInt _ => KInt | TSize _ => KSize | TFloat _ => KFloat | TTensor _ => KTensor | TData _ => KData | TList _ => KList
  | TNone k => KOpt k | TSome v => KOpt (kind_of v)
  end.

Fixpoint wr (v : tval) : tape :=
  match v with
  | TBool b => wr_bool b | TInt z => wr_int z | TSize n => wr_size n | TFloat q => wr_float (Some q) | TTensor t => wr_tensor t
  | TData d => wr_data d | TList l => wr_list l
  | TNone _ => wr_opt wr_data None | TSome v => wr_opt wr (Some v)
  end.

Definition rdm {A} (rd : reader A) (f : A -> tval) : reader tval :=
  fun t => match rd t with Some (a, r) => Some (f a, r) | None => None end.

Fixpoint rd (k : tkind) : reader tval :=
  match k with
  | KBool => rdm rd_bool TBool | KInt => rdm rd_int TInt | KSize => rdm rd_size TSize | KFloat => rdm rd_float TFloat
  | KTensor => rdm rd_tensor TTensor | KData => rdm rd_data TData | KList => rdm rd_list TList
  | KOpt k => rdm (rd_opt (rd k)) (fun o => match o with Some v => TSome v | None => TNone k end)
  end.

Fixpoint rds (ks : list tkind) : reader (list tval) :=
  fun t => match ks with
           | [] => Some ([], t)
           | k :: ks' => match rd k t with
                         | None => None
                         | Some (v, r) => match rds ks' r with Some (vs, r') => Some (v :: vs, r') | None => None end
                         end
           end.

Lemma rd_wr v : forall r, rd (kind_of v) (wr v ++ r) = Some (v, r).
Proof.
  induction v; intros r; cbn [kind_of rd wr]; unfold rdm.
  - rewrite rd_wr_bool. reflexivity.
  - rewrite rd_wr_int. reflexivity.
  - rewrite rd_wr_size. reflexivity.
  - rewrite rd_wr_float. reflexivity.
  - rewrite rd_wr_tensor. reflexivity.
  - rewrite rd_wr_data. reflexivity.
  - rewrite rd_wr_list. reflexivity.
  - Transparent rd_opt wr_opt. reflexivity.
  - simpl. rewrite IHv. reflexivity. Opaque rd_opt wr_opt.
Qed.

Lemma rds_wr vs : forall r, rds (map kind_of vs) (flat_map wr vs ++ r) = Some (vs, r).
Proof.
  induction vs as [|v vs IH]; intros r; [reflexivity|]. cbn [map rds flat_map]. rewrite <- app_assoc, rd_wr, IH. reflexivity.
Qed.
