(** The statements of [DP_Props], assembled from the lemmas about the single operators. *)

From Coq Require Import QArith Lia Permutation.
From Verif Require Import DP_Base DP_Spec DP_Sources_Model DP_Bucketing_Model DP_Multi_Model DP_Laws DP_Sources_Proofs
  DP_Sources_Proofs2 DP_Multi_Lemmas DP_Shuffle_Proofs DP_BBL_Proofs DP_Dyn_Proofs DP_Pack_Proofs DP_Zip_Proofs DP_RR_Proofs
  DP_Sample_Proofs DP_Corollaries DP_Ast DP_Ast_Proofs.

Lemma C01_pipeline_contents_lemma : forall rnd maxw a, wf a -> exists c, sem a c /\
  match c with
  | CList l => holds (pl rnd maxw a) (fresh rnd a) l
  | CStream f => streams (pl rnd maxw a) (fresh rnd a) f
  end.
Proof. intros rnd maxw a. apply pl_contents. Qed.

Lemma cut_chunks n l bs : 0 < n -> cut n l bs -> forall k, length l <= k -> chunks k n false l = bs.
Proof.
  intros Hn. induction 1 as [|l Hl|l r bs Hl H IH]; intros k Hk.
  - destruct k; reflexivity.
  - destruct k as [|k]; [lia|]. destruct l as [|x l]; [simpl in Hl; lia|]. cbn [chunks andb].
    rewrite firstn_all2, skipn_all2 by lia. destruct k; reflexivity.
  - rewrite app_length in Hk. destruct k as [|k]; [lia|].
    rewrite <- (IH k) by lia. destruct l as [|x l]; [simpl in Hl; lia|]. cbn [chunks andb app].
    rewrite app_comm_cons, firstn_app, skipn_app, Hl, Nat.sub_diag, firstn_all2, skipn_all2 by lia. simpl.
    rewrite app_nil_r. reflexivity.
Qed.

Lemma cut_drop_chunks n l bs : 0 < n -> cut_drop n l bs -> forall k, length l <= k -> chunks k n true l = bs.
Proof.
  intros Hn. induction 1 as [l Hl|l r bs Hl H IH]; intros k Hk.
  - destruct k as [|k]; [destruct l; reflexivity|]. destruct l as [|x l]; [reflexivity|]. cbn [chunks andb].
    rewrite (proj2 (Nat.ltb_lt _ _)) by lia. reflexivity.
  - rewrite app_length in Hk. destruct k as [|k]; [lia|].
    rewrite <- (IH k) by lia. destruct l as [|x l]; [simpl in Hl; lia|]. cbn [chunks andb app].
    rewrite app_comm_cons, (proj2 (Nat.ltb_ge _ _)) by (rewrite app_length; lia).
    rewrite firstn_app, skipn_app, Hl, Nat.sub_diag, firstn_all2, skipn_all2 by lia. simpl.
    rewrite app_nil_r. reflexivity.
Qed.

Lemma plain_sem a : plain a -> forall c, sem a c -> c = CList (list_value a).
Proof.
  induction a using ast_ind'; cbn [plain]; intros HP c0 HS; try contradiction; inversion HS; subst; cbn [list_value];
    try (match goal with Hs : sem a _ |- _ => specialize (IHa HP _ Hs); inversion IHa; subst; reflexivity end).
  - reflexivity.
  - destruct HP as [Hn HP]. match goal with Hs : sem a _ |- _ => specialize (IHa HP _ Hs); inversion IHa; subst end.
    do 2 f_equal. symmetry. destruct d; [apply cut_drop_chunks|apply cut_chunks]; auto.
  - destruct HP as [HF HP]. match goal with Hs : sem a _ |- _ => specialize (IHa HP _ Hs); inversion IHa; subst end.
    f_equal. rewrite flat_map_concat_map. f_equal.
    match goal with HX : Forall2 _ _ _ |- _ => rename HX into HX' end. clear - H HF HX'.
    revert HX'. generalize (list_value a). intros L HX. induction HX as [|d r l rs' H1 H2 IH]; [reflexivity|].
    simpl. f_equal; [|assumption]. specialize (H d (HF d) _ H1). inversion H. reflexivity.
  - f_equal. f_equal.
    match goal with HX : Forall2 _ _ _ |- _ => revert H HP; clear HS; induction HX as [|p l ps ls H1 H2 IH]; intros H HP; [reflexivity|] end.
    destruct HP as [HP1 HP2]. inversion H as [|? ? Hp HF]; subst. simpl. f_equal; [|apply IH; assumption].
    specialize (Hp HP1 _ H1). inversion Hp. reflexivity.
Qed.

Lemma C01_sequential_lemma : forall rnd maxw a, plain a -> wf a -> holds (pl rnd maxw a) (fresh rnd a) (list_value a).
Proof.
  intros rnd maxw a HP HW. destruct (pl_contents rnd a maxw HW) as (c & Hs & Hc).
  rewrite (plain_sem a HP c Hs) in Hc. exact Hc.
Qed.

Lemma nth_error_ext_list : forall (a b : list data), (forall i, nth_error a i = nth_error b i) -> a = b.
Proof.
  induction a as [|x a IH]; intros b H.
  - destruct b; [reflexivity|]. specialize (H 0). discriminate.
  - destruct b as [|y b]; [specialize (H 0); discriminate|]. pose proof (H 0) as H0. inversion H0; subst. f_equal.
    apply IH. intros i. apply (H (S i)).
Qed.

Lemma nth_error_map_seq (f : nat -> data) k : forall i, nth_error (map f (seq 0 k)) i = if i <? k then Some (f i) else None.
Proof.
  intros i. destruct (Nat.ltb_spec i k) as [H|H].
  - rewrite (map_nth_error f i (seq 0 k) (d := i)); [reflexivity|].
    rewrite (nth_error_nth' _ 0) by (rewrite seq_length; assumption). rewrite seq_nth by assumption. reflexivity.
  - apply nth_error_None. rewrite map_length, seq_length. assumption.
Qed.

Lemma nth_error_firstn_lt : forall k (l : list data) i, i < k -> nth_error (firstn k l) i = nth_error l i.
Proof.
  induction k as [|k IH]; intros l i H; [lia|]. destruct l as [|x l]; [reflexivity|].
  destruct i as [|i]; [reflexivity|]. simpl. apply IH. lia.
Qed.

Lemma nth_error_cycle (l : list data) d : l <> [] -> forall m i, i < m * length l ->
  nth_error (concat (repeat l m)) i = Some (nth (i mod length l) l d).
Proof.
  intros Hne. assert (HL : length l <> 0) by (destruct l; [congruence|discriminate]).
  induction m as [|m IH]; intros i Hi; [simpl in Hi; lia|]. simpl in *. destruct (Nat.lt_ge_cases i (length l)) as [H|H].
  - rewrite nth_error_app1 by assumption. rewrite Nat.mod_small by assumption. apply nth_error_nth'. assumption.
  - rewrite nth_error_app2 by assumption. rewrite IH by lia.
    replace (i mod length l) with (((i - length l) + 1 * length l) mod length l) by (f_equal; lia).
    rewrite Nat.mod_add by assumption. reflexivity.
Qed.

Lemma yields_prefix X os' : forall os s s', yields X s (os ++ os') s' -> exists s1, yields X s os s1.
Proof.
  induction os as [|o os IH]; intros s s' H; [exists s; constructor|]. inversion H; subst.
  match goal with Hx : yields X _ (os ++ os') _ |- _ => destruct (IH _ _ Hx) as (s2 & H2) end.
  exists s2. econstructor; eassumption.
Qed.

Section Operators.
  Variable rnd : Z -> nat -> Z.
  Notation dn := (denote rnd).
  Notation produces := (produces rnd).
  Notation child_ok := (child_ok rnd).
  Notation supplier_ok := (supplier_ok rnd).

  Lemma C02_lemma p n L : produces p L -> 0 < n -> exists S T : nat -> list data,
    (forall i, i < n -> produces (AShard i n true p) (S i) /\ produces (AShard i n false p) (T i)) /\
    Permutation (flat_map S (seq 0 n)) L /\
    (forall i k, i < n -> nth_error (S i) k = nth_error L (i + k * n)) /\
    Permutation (flat_map T (seq 0 n)) (firstn (n * (length L / n)) L) /\
    (forall i, i < n -> length (T i) = length L / n).
  Proof.
    intros HL Hn. exists (fun i => shard_spec i n true L), (fun i => shard_spec i n false L). split; [|split; [|split; [|split]]].
    - intros i Hi. split; apply shard_holds; try assumption; apply dn_mono.
    - apply every_partition. lia.
    - intros i k Hi. apply every_nth. assumption.
    - apply every_partition. lia.
    - intros i Hi. apply shard_even_length. assumption.
  Qed.

  Lemma C03_lemma p n L : produces p L -> 0 < n ->
    (exists bs, produces (ABucket n false p) (map DList bs) /\ concat bs = L /\
       forall hd b tl, bs = hd ++ b :: tl -> 1 <= length b <= n /\ (tl <> [] -> length b = n)) /\
    (exists bs tail, produces (ABucket n true p) (map DList bs) /\ L = concat bs ++ tail /\ length tail < n /\
       forall b, In b bs -> length b = n).
  Proof.
    intros HL Hn. split.
    - destruct (cut_exists n L Hn) as (bs & Hbs). exists bs. split; [|split].
      + apply (bucket_holds (dn p) n false (init (dn p)) L bs (dn_mono rnd p) Hn HL). assumption.
      + apply (proj1 (cut_concat n L bs Hbs)).
      + apply (cut_sizes n L bs Hn Hbs).
    - destruct (cut_drop_exists n L Hn) as (bs & Hbs). destruct (cut_drop_concat n L bs Hbs) as ((tail & E & Ht) & Hb).
      exists bs, tail. split; [|split; [assumption|split; assumption]].
      apply (bucket_holds (dn p) n true (init (dn p)) L bs (dn_mono rnd p) Hn HL). assumption.
  Qed.

  Lemma C04_lemma p sizes len min_len skip_below skip_above drop L : produces p L ->
    sizes <> [] ->
    (forall i j a b, i < j -> nth_error sizes i = Some a -> nth_error sizes j = Some b -> snd a <= snd b) ->
    (forall d, In d L -> exists n, len d = FVal n /\ (n < min_len -> skip_below = true) /\
        (class_of sizes n >= length sizes -> skip_above = true)) ->
    exists bs, bbl_spec sizes (value 0 len) min_len drop L bs /\
      produces (ABbl sizes len min_len skip_below skip_above drop p) (map DList bs).
  Proof.
    intros HL H1 H2 H3.
    destruct (bbl_holds sizes len min_len skip_below skip_above drop (dn p) (value 0 len) H1 H2 (init (dn p)) L (dn_mono rnd p) HL)
      as (bs & A & B).
    - intros d Hd. destruct (H3 d Hd) as (n & E & Hx). unfold value. rewrite E. auto.
    - exists bs. auto.
  Qed.

  Lemma C05_lemma p threshold cost minn maxn drop L : produces p L -> (0 < threshold)%Q -> (forall k, maxn = Some k -> 0 < k) ->
    (forall d, In d L -> exists q, cost d = FVal q) ->
    exists bs tail, produces (ADyn threshold cost minn maxn drop p) (map DList bs) /\
      dyn_groups threshold (value 0%Q cost) minn maxn drop L bs /\
      L = concat bs ++ tail /\
      (tail <> [] -> drop = true /\ forall q r, tail = q ++ r -> ~ complete threshold (value 0%Q cost) minn maxn q) /\
      (forall k b, maxn = Some k -> In b bs -> length b <= k).
  Proof.
    intros HL H1 H2 H3.
    destruct (db_holds threshold cost minn maxn drop (dn p) (value 0%Q cost) H1 H2 (init (dn p)) L (dn_mono rnd p) HL) as (bs & A & B).
    - intros d Hd. destruct (H3 d Hd) as (n & E). unfold value. rewrite E. auto.
    - destruct (dyn_groups_concat _ _ _ _ _ _ _ A) as (tail & E & Ht). exists bs, tail.
      split; [exact B|]. split; [assumption|]. split; [assumption|]. split; [assumption|].
      intros k b Hk Hb. eapply dyn_groups_max; eauto.
  Qed.

  Lemma C06_lemma p capacity max_seq_len pad drop ts : produces p (map DTensor ts) ->
    ((forall t, In t ts -> 0 < length t <= Nat.min capacity max_seq_len) ->
     exists bs, pack_spec capacity ts bs /\ concat bs = ts /\
       produces (APack capacity max_seq_len pad false drop p) (map (packed_batch capacity pad) bs)) /\
    (2 <= capacity -> 1 <= max_seq_len -> (forall t, In t ts -> 0 < length t) ->
     exists bs, trunc_spec capacity max_seq_len drop ts bs /\
       produces (APack capacity max_seq_len pad true drop p) (map (packed_batch capacity pad) bs)).
  Proof.
    intros HL. split.
    - intros Hf. destruct (pack_holds capacity max_seq_len pad drop (dn p) (init (dn p)) ts (dn_mono rnd p) HL Hf) as (bs & A & B).
      exists bs. split; [assumption|]. split; [|exact B].
      clear -A. induction A as [|b r bs H1 H2 H3 H4 IH]; [reflexivity|]. simpl. congruence.
    - intros H1 H2 H3. destruct (trunc_holds capacity max_seq_len pad drop (dn p) H1 H2 (init (dn p)) ts (dn_mono rnd p) HL H3) as (bs & A & B).
      exists bs. split; [assumption|exact B].
  Qed.

  Lemma C07_lemma p moved window seed L : produces p L -> exists out,
    produces (AShuffle moved window seed p) out /\
    Permutation out L /\
    (window = 1 -> out = L) /\
    (1 <= window -> forall t, 1 <= t -> exists rem, Permutation (firstn (window + t - 1) L) (firstn t out ++ rem)).
  Proof.
    intros HL.
    destruct (shuffle_holds rnd moved window seed (dn p) seed (seed, 0) 0 0 (init (dn p)) L (dn_mono rnd p) HL) as (out & A & B).
    exists out. split; [exact B|]. unfold shuffle_spec in A.
    split; [|split].
    - destruct (Nat.eqb_spec window 0) as [->|Hw].
      + rewrite (shuffled_permutation _ _ _ A), app_nil_r. reflexivity.
      + rewrite (shuffled_permutation _ _ _ A), firstn_skipn. reflexivity.
    - intros ->. simpl in A. destruct L as [|d L]; simpl in A.
      + inversion A; subst; [reflexivity|]. exfalso. eapply Permutation_nil_cons; eassumption.
      + apply (shuffled_window1 _ _ _ A).
    - intros Hw t Ht. destruct (Nat.eqb_spec window 0) as [->|_]; [lia|].
      destruct (shuffled_local _ _ _ A t) as (rem & Hrem). exists rem. rewrite <- Hrem.
      replace (window + t - 1) with (window + (t - 1)) by lia.
      assert (E : forall a b (l : list data), firstn (a + b) l = firstn a l ++ firstn b (skipn a l)).
      { clear. induction a as [|a IH]; intros b l; [reflexivity|]. destruct l as [|x l]; simpl; [rewrite firstn_nil; reflexivity|].
        rewrite IH. reflexivity. }
      rewrite E. reflexivity.
  Qed.

  Lemma child_cholds ps cs : Forall2 child_ok ps cs -> Forall2 (fun p c => cholds (dn p) (init (dn p)) c) ps cs.
  Proof.
    induction 1 as [|p c ps cs [H1 H2] HF IH]; constructor; auto.
    destruct c as [l|f]; simpl in *; split; auto; intros s'; rewrite dn_fin; assumption.
  Qed.

  Lemma dn_monos ps : Forall mono (map dn ps).
  Proof. apply map_Forall, Forall_forall. auto using dn_mono. Qed.

  Lemma C08_lemma names shortest flatten ps cs out : Forall2 child_ok ps cs ->
    (exists l, In (CList l) cs /\ length l = length out) ->
    (forall l, In (CList l) cs -> length out <= length l) ->
    (forall i d, nth_error out i = Some d -> zip_value names flatten (items cs i) d) ->
    (shortest = true \/ (forall l, In (CList l) cs -> length l = length out) -> produces (AZip names shortest flatten ps) out) /\
    (shortest = false -> (exists l, In (CList l) cs /\ length out < length l) ->
      exists s', yields (dn (AZip names shortest flatten ps)) (init (dn (AZip names shortest flatten ps)))
        (map Val out ++ [Err Fatal]) s').
  Proof.
    intros HC H1 H2 H3. pose proof (hcholds_of rnd ps cs (child_cholds ps cs HC)) as HH. split.
    - intros Hs. apply (zip_holds (map dn ps) names shortest flatten (dn_monos ps)) with (cs := cs); [exact HH|].
      split; [assumption|]. split; [|assumption]. intros l Hl. split; [auto|]. intros E. destruct Hs as [Hs|Hs]; [congruence|auto].
    - intros Hs H4. apply (zip_mismatch (map dn ps) names shortest flatten (dn_monos ps) out _ cs); auto.
  Qed.

  Lemma suppliers ar ps cs : Forall2 (supplier_ok ar) ps cs -> Forall2 (fun p c => supplies ar (dn p) (init (dn p)) c) ps cs.
  Proof.
    induction 1 as [|p c ps cs H HF IH]; constructor; auto.
    destruct c as [l|f]; simpl in *; destruct H as [H1 H2]; split; auto; intros s'; rewrite dn_fin; assumption.
  Qed.

  (** A pipeline without random choices repeats the same list after every reset. *)
  Lemma constant_supplier p l clean : produces p l -> resumes clean p -> rngfree p -> fin p <> PseudoInfinite ->
    supplier_ok true p (Epochs (fun _ => l)).
  Proof.
    intros H1 H2 H3 H4. split; [assumption|]. destruct (all_sound rnd p clean H2) as (A1 & A2 & _).
    split; [eapply epochs_const; eauto using dn_mono|]. destruct l; [right; reflexivity|left; discriminate].
  Qed.

  Lemma C09_lemma stop ar ps cs : ps <> [] -> Forall2 (supplier_ok ar) ps cs ->
    (forall r, r < rounds stop cs -> last (map (fun c => turn ar c r) cs) None <> None) ->
    produces (ARR stop ar ps) (flat_map (round_elems ar cs) (seq 0 (rounds stop cs))).
  Proof.
    intros Hne HS HL. apply (rr_holds (map dn ps) stop ar (dn_monos ps)).
    - rewrite map_length. destruct ps; [congruence|simpl; lia].
    - reflexivity.
    - apply hsupplies_of. apply suppliers. assumption.
    - assumption.
  Qed.

  Lemma C10_once_lemma ws seed ps ls : ps <> [] -> length ws = length ps -> Forall (fun w => 0 < w)%Q ws ->
    Forall2 (fun p l => produces p l /\ fin p <> PseudoInfinite) ps ls -> (exists l, In l ls /\ l <> []) ->
    exists draw out, produces (ASample ws seed false ps) out /\ (forall k, 0 <= draw k < 1)%Q /\
      sampled draw ws 0 ls out /\ interleaving ls out.
  Proof.
    intros Hne Hl Hw HS Hx.
    destruct (sample_once rnd (map dn ps) ws seed) with (ls := ls) (x := init (src_sample rnd (map dn ps) ws seed false)) as (out & Ho & Hh).
    - apply dn_monos.
    - rewrite map_length. assumption.
    - assumption.
    - rewrite map_length. clear -HS. induction HS; simpl; congruence.
    - rewrite map_length. destruct ps; [congruence|simpl; lia].
    - split; [reflexivity|]. split; reflexivity.
    - simpl. apply hsupplies_of. clear - HS. induction HS as [|p l ps ls [A B] HF IH]; [constructor|].
      simpl. constructor; [|assumption]. split; [intros s'; rewrite dn_fin; assumption|exact A].
    - assumption.
    - eexists _, out. split; [exact Hh|]. split; [|split; [exact Ho|eapply sampled_interleaving; exact Ho]].
      intros k. apply sm_draw_range.
  Qed.

  Lemma C10_repeat_lemma ws seed ps cs : ps <> [] -> length ws = length ps -> Forall (fun w => 0 < w)%Q ws ->
    Forall2 (supplier_ok true) ps cs -> (forall ep k, In (Epochs ep) cs -> ep k <> []) ->
    exists (draw : nat -> Q) (picks : nat -> nat),
      (forall t, 0 <= draw t < 1)%Q /\
      (forall t, picked ws (repeat true (length ps)) (draw t) (picks t)) /\
      forall T, (forall t, t < T -> ~ sampling_over cs picks t) ->
        exists out, length out = T /\
          (forall t, t < T -> exists c, nth_error cs (picks t) = Some c /\ nth_error out t = turn true c (times picks t (picks t))) /\
          (exists s', yields (dn (ASample ws seed true ps)) (init (dn (ASample ws seed true ps))) (map Val out) s') /\
          (sampling_over cs picks T -> produces (ASample ws seed true ps) out /\
             forall i ep d, nth_error cs i = Some (Epochs ep) -> In d (ep 0) -> In d out).
  Proof.
    intros Hne Hl Hw HS Hx.
    destruct (sample_repeat rnd (map dn ps) ws seed) with (cs := cs) (x := init (src_sample rnd (map dn ps) ws seed true)) as (picks & Hp & Hr).
    - apply dn_monos.
    - rewrite map_length. assumption.
    - assumption.
    - rewrite map_length. destruct ps; [congruence|simpl; lia].
    - split; [reflexivity|]. split; reflexivity.
    - apply hsupplies_of. apply suppliers. assumption.
    - apply Forall_forall. intros c Hc. destruct c as [ep|f]; simpl; auto.
    - eexists _, picks. split; [intros t; apply sm_draw_range|]. split.
      + intros t. specialize (Hp t). rewrite map_length in Hp. exact Hp.
      + intros T HT. destruct (Hr T HT) as (out & H1 & H2 & H3 & H4). exists out.
        split; [assumption|]. split; [assumption|]. split; [assumption|]. intros HO. split; [apply H4; assumption|].
        intros i ep d Hi Hd. destruct HO as [_ HO]. specialize (HO i _ Hi). simpl in HO.
        apply In_nth_error in Hd. destruct Hd as (r & Hd).
        assert (Hlt : r < times picks T i). { assert (r < length (ep 0)) by (apply nth_error_Some; congruence). lia. }
        destruct (times_hit picks i r T Hlt) as (t & Ht & E1 & E2). destruct (H2 t Ht) as (c & Hc & Ho).
        rewrite E1, Hi in Hc. inversion Hc; subst c. rewrite E1, E2 in Ho. simpl in Ho.
        assert (Hd' : nth_error (ep 0 ++ concat (map ep (seq 1 r))) r = Some d).
        { rewrite nth_error_app1 by (apply nth_error_Some; congruence). assumption. }
        rewrite Hd' in Ho. eapply nth_error_In. exact Ho.
  Qed.

  Lemma C17_lemma p l k g clean : produces p l -> resumes clean p -> (g = true \/ rngfree p) ->
    produces (ARepeat (Some k) g p) (concat (repeat l k)) /\
    (l = [] -> produces (ARepeat None g p) []) /\
    (l <> [] -> flows rnd (ARepeat None g p) (fun i => nth (i mod length l) l (DBool false))).
  Proof.
    intros HL HR Hg. destruct (all_sound rnd p clean HR) as (A1 & A2 & _). specialize (A2 g Hg).
    split; [|split].
    - eapply (repeat_holds (Some k) g (dn p) clean (inv rnd p) (tgt rnd p)); eauto using dn_mono.
    - intros ->. apply (progress_holds (src_repeat None g (dn p)) (fun (x : repeat_st (dn p)) l' => l' = [] /\ fst (fst x) = false /\ holds (dn p) (snd x) [])).
      + apply repeat_mono, dn_mono.
      + intros [[has nr] s] l' (-> & Hh & Hs). simpl in *. subst has.
        destruct (holds_step (dn p) (dn_mono rnd p) _ _ Hs) as (n & s' & Hn & Hs'). exists (S n), (false, nr, s').
        cbn [repeat_loop repeat_next]. rewrite (dn_mono rnd p n (S n) _ _ ltac:(lia) Hn). auto.
      + simpl. auto.
    - intros Hne.
      assert (G : forall m, exists x', yields (src_repeat None g (dn p)) (init (src_repeat None g (dn p))) (map Val (concat (repeat l m))) x' /\
         (m = 0 /\ rep_ok (dn p) (inv rnd p) l x' l \/ rep_ok (dn p) (inv rnd p) l x' [])).
      { induction m as [|m IH].
        - exists (init (src_repeat None g (dn p))). split; [constructor|]. left. split; [reflexivity|]. simpl.
          split; [apply A1|]. split; [exact HL|]. auto.
        - destruct IH as (x' & Hy & Hx').
          assert (HZ : exists x2, yields (src_repeat None g (dn p)) x' (map Val l) x2 /\ rep_ok (dn p) (inv rnd p) l x2 []).
          { destruct Hx' as [[_ Hx']|Hx'].
            - eapply repeat_epoch; eauto using dn_mono.
            - eapply repeat_next_epoch; eauto using dn_mono. }
          destruct HZ as (x2 & H2 & H3). exists x2. split; [|right; assumption].
          replace (repeat l (S m)) with (repeat l m ++ [l]) by (clear; induction m as [|m IH]; [reflexivity|simpl; f_equal; exact IH]).
          rewrite concat_app, map_app. simpl. rewrite app_nil_r. eapply yields_app; eassumption. }
      intros k0. destruct (G k0) as (x' & Hy & _).
      assert (Hlen : forall m, m <= length (concat (repeat l m))).
      { clear -Hne. destruct l as [|d l]; [congruence|]. induction m as [|m IH]; simpl; [lia|]. rewrite app_length. simpl in IH. lia. }
      assert (HE : map (fun i => Val (nth (i mod length l) l (DBool false))) (seq 0 k0) = firstn k0 (map Val (concat (repeat l k0)))).
      { rewrite firstn_map. rewrite <- (map_map (fun i => nth (i mod length l) l (DBool false)) Val). f_equal.
        apply nth_error_ext_list. intros i. rewrite nth_error_map_seq. destruct (Nat.ltb_spec i k0) as [Hi|Hi].
        - rewrite nth_error_firstn_lt by assumption. symmetry. apply nth_error_cycle; [assumption|].
          pose proof (Hlen k0). clear -Hi Hne. assert (1 <= length l) by (destruct l; [congruence|simpl; lia]). nia.
        - symmetry. apply nth_error_None. rewrite firstn_length. lia. }
      rewrite HE. rewrite <- (firstn_skipn k0 (map Val (concat (repeat l k0)))) in Hy. exact (yields_prefix _ _ _ _ _ Hy).
  Qed.
End Operators.

(** * Saving, loading and resetting *)
Section Prefix.
  Local Transparent wr_bool wr_int wr_size wr_float wr_tensor wr_data wr_list wr_opt rd_bool rd_int rd_size rd_float rd_tensor rd_data
    rd_list rd_opt.

  Lemma rd_prefix : forall v m, m < length (wr v) -> rd (kind_of v) (firstn m (wr v)) = None.
  Proof.
    induction v; intros m Hk; destruct m as [|m]; simpl in Hk; try reflexivity; try (exfalso; lia).
    cbn [kind_of rd wr wr_opt firstn]. unfold rdm. cbn [rd_opt]. rewrite IHv by lia. reflexivity.
  Qed.
End Prefix.

Lemma rds_prefix : forall vs k, k < length (flat_map wr vs) -> rds (map kind_of vs) (firstn k (flat_map wr vs)) = None.
Proof.
  induction vs as [|v vs IH]; intros k Hk; simpl in Hk; [lia|]. cbn [map rds flat_map]. rewrite app_length in Hk.
  rewrite firstn_app. destruct (Nat.lt_ge_cases k (length (wr v))) as [H|H].
  - replace (k - length (wr v)) with 0 by lia. rewrite app_nil_r, rd_prefix by assumption. reflexivity.
  - rewrite firstn_all2 by assumption. rewrite rd_wr, IH by lia. reflexivity.
Qed.

(** * Running a pipeline on concrete data *)
Fixpoint run (X : source) (n k : nat) (s : St X) : option (list out * St X) :=
  match k with
  | O => Some ([], s)
  | S k' => match next X n s with
            | None => None
            | Some (o, s1) => match run X n k' s1 with None => None | Some (os, s2) => Some (o :: os, s2) end
            end
  end.

Lemma run_yields X n : forall k s os s', run X n k s = Some (os, s') -> yields X s os s'.
Proof.
  induction k as [|k IH]; intros s os s' H; simpl in H; [inversion H; constructor|].
  destruct (next X n s) as [[o s1]|] eqn:E; [|discriminate]. destruct (run X n k s1) as [[os1 s2]|] eqn:E2; [|discriminate].
  inversion H; subst. econstructor; [eassumption|]. eapply IH; eassumption.
Qed.

Lemma run_ok X n k s os : option_map fst (run X n k s) = Some os -> exists s', yields X s os s'.
Proof.
  destruct (run X n k s) as [[os' s']|] eqn:E; intros H; [|discriminate]. inversion H; subst. exists s'. eapply run_yields. eassumption.
Qed.

Lemma list_produces rnd l : produces rnd (AList l) l.
Proof. apply list_holds. Qed.

Lemma count_flows rnd x y k : flows rnd (ACount x y k) (fun i => labelled k (DInt (x + Z.of_nat i * y))).
Proof.
  destruct (contents rnd (ACount x y k) Logic.I) as (c & Hs & Hc). inversion Hs; subst. exact Hc.
Qed.

Lemma rd_wrong : forall r,
  (forall d, (forall b, d <> DBool b) -> rd KBool (d :: r) = None /\ forall k, rd (KOpt k) (d :: r) = None) /\
  (forall d, (forall z, d <> DInt z) -> rd KInt (d :: r) = None /\ rd KSize (d :: r) = None) /\
  (forall d, (forall f, d <> DFloat f) -> rd KFloat (d :: r) = None) /\
  (forall d, (forall f, d <> DTensor f) -> rd KTensor (d :: r) = None) /\
  (forall d, (forall f, d <> DList f) -> rd KList (d :: r) = None).
Proof.
  Local Transparent rd_bool rd_int rd_size rd_float rd_tensor rd_data rd_list rd_opt.
  intros r. split; [|split; [|split; [|split]]]; intros d H; try split; intros; destruct d; try reflexivity; exfalso; eapply H; reflexivity.
Qed.

Lemma leftover_lemma : forall rnd clean a maxw x t extra, resumes clean a -> clean = true \/ maxw = 0 ->
  lives rnd maxw a x -> p_broken x = false -> state_dict (denote rnd a) true x = Some t -> extra <> [] ->
  load_state_dict (denote rnd a) (fresh rnd a) (t ++ extra) = None.
Proof.
  intros rnd clean a maxw x t extra HA HC HL Hb Ht Hx. destruct (pl_lives rnd clean a maxw x HA HC HL) as [H|H]; [congruence|].
  destruct (all_sound rnd a clean HA) as (A1 & _ & _). destruct H as (_ & HI & _).
  unfold state_dict, pipe_record in Ht. rewrite Hb in Ht. unfold load_state_dict, pipe_reload. simpl p_broken. cbv iota.
  destruct (p_inited x).
  - destruct (rs_resume _ _ _ _ A1 _ _ HI (rs_tinit _ _ _ _ A1)) as (t' & Hr & Hl). rewrite Hr in Ht. inversion Ht; subst t.
    rewrite <- !app_assoc. rewrite rd_wr_bool. cbv beta iota. rewrite rd_wr_bool. destruct (Hl extra) as (s1 & Hs1 & _).
    simpl p_src. rewrite Hs1. destruct extra; [congruence|reflexivity].
  - inversion Ht; subst t. rewrite rd_wr_bool. simpl. destruct extra; [congruence|reflexivity].
Qed.

Lemma warnings_lemma : forall rnd maxw a os s', yields (denote rnd a) (init (denote rnd a)) os s' -> ~ In (Err Fatal) os ->
  exists x', yields (pl rnd maxw a) (fresh rnd a) (swallow maxw os) x'.
Proof.
  intros rnd maxw a os s' Hy Hf. destruct (pipe_swallow maxw (denote rnd a) (dn_mono rnd a) os _ s' (fresh rnd a) Hy Hf eq_refl eq_refl) as (x' & Hx').
  exists x'. simpl p_warn in Hx'. rewrite Nat.sub_0_r in Hx'. exact Hx'.
Qed.

Lemma broken_lemma : forall rnd maxw a n x x', next (pl rnd maxw a) n x = Some (Err Fatal, x') ->
  forall x2, reaches (pl rnd maxw a) x' x2 ->
    (forall m, next (pl rnd maxw a) m x2 = Some (Err Fatal, x2)) /\
    (forall strict, state_dict (denote rnd a) strict x2 = None) /\
    (forall t, load_state_dict (denote rnd a) x2 t = None) /\
    (forall g, reset (pl rnd maxw a) g x2 = x2).
Proof.
  intros rnd maxw a n x x' Hn x2 Hr.
  exact (proj2 (pipe_broken_stays maxw (denote rnd a) x' (pipe_fatal_breaks _ _ _ _ _ Hn) x2 Hr)).
Qed.

Lemma run_lives rnd maxw a n : forall k os x, run (pl rnd maxw a) n k (fresh rnd a) = Some (os, x) -> lives rnd maxw a x.
Proof.
  assert (H : forall k s os x, lives rnd maxw a s -> run (pl rnd maxw a) n k s = Some (os, x) -> lives rnd maxw a x).
  { induction k as [|k IH]; intros s os x Hs H; cbn [run] in H; [inversion H; subst; assumption|].
    destruct (next (pl rnd maxw a) n s) as [[o s1]|] eqn:En; [|discriminate].
    destruct (run (pl rnd maxw a) n k s1) as [[os1 s2]|] eqn:E2; [|discriminate].
    inversion H; subst. eapply IH; [|exact E2]. eapply lives_next; eassumption. }
  intros k os x. apply H. apply lives_fresh.
Qed.

(** A test of saving and loading: advance one pipeline to the outcomes [os] and another to the outcomes [os0], save the first,
    load the state into the second and compare what both do then. *)
Definition save_load (rnd : Z -> nat -> Z) (maxw : nat) (a : ast) (os os0 : list out) (P : option (list out) -> option (list out) -> Prop)
  (k : nat) : Prop :=
  match run (pl rnd maxw a) 100 (length os) (fresh rnd a), run (pl rnd maxw a) 100 (length os0) (fresh rnd a) with
  | Some (os', x), Some (os0', x0) => os' = os /\ os0' = os0 /\
      match state_dict (denote rnd a) true x with
      | Some t => P (option_map fst (run (pl rnd maxw a) 100 k x))
                    (match load_state_dict (denote rnd a) x0 t with Some x1 => option_map fst (run (pl rnd maxw a) 100 k x1) | None => None end)
      | None => False
      end
  | _, _ => False
  end.

Lemma save_load_differ rnd maxw a os os0 k os1 os2 : save_load rnd maxw a os os0 (fun r1 r2 => r1 = Some os1 /\ r2 = Some os2) k ->
  exists x x0 t x1, yields (pl rnd maxw a) (fresh rnd a) os x /\ yields (pl rnd maxw a) (fresh rnd a) os0 x0 /\
    state_dict (denote rnd a) true x = Some t /\ load_state_dict (denote rnd a) x0 t = Some x1 /\
    (exists s, yields (pl rnd maxw a) x os1 s) /\ (exists s, yields (pl rnd maxw a) x1 os2 s).
Proof.
  unfold save_load. destruct (run (pl rnd maxw a) 100 (length os) (fresh rnd a)) as [[os' x]|] eqn:E1; [|intros []].
  destruct (run (pl rnd maxw a) 100 (length os0) (fresh rnd a)) as [[os0' x0]|] eqn:E2; [|intros []].
  intros (<- & <- & H). destruct (state_dict (denote rnd a) true x) as [t|] eqn:E3; [|destruct H]. destruct H as [H1 H2].
  destruct (load_state_dict (denote rnd a) x0 t) as [x1|] eqn:E4; [|discriminate].
  exists x, x0, t, x1. split; [eapply run_yields; eassumption|]. split; [eapply run_yields; eassumption|].
  split; [assumption|]. split; [assumption|]. split; eapply run_ok; eassumption.
Qed.

Lemma save_load_rejected rnd maxw a os : save_load rnd maxw a os [] (fun _ r => r = None) 0 ->
  exists x t, yields (pl rnd maxw a) (fresh rnd a) os x /\ state_dict (denote rnd a) true x = Some t /\
    load_state_dict (denote rnd a) (fresh rnd a) t = None.
Proof.
  unfold save_load. destruct (run (pl rnd maxw a) 100 (length os) (fresh rnd a)) as [[os' x]|] eqn:E1; [|intros []].
  simpl run. intros (<- & _ & H). destruct (state_dict (denote rnd a) true x) as [t|] eqn:E3; [|destruct H].
  destruct (load_state_dict (denote rnd a) (fresh rnd a) t) as [x1|] eqn:E4; [discriminate|].
  exists x, t. split; [eapply run_yields; eassumption|]. auto.
Qed.
