(** Compositional proofs about pipeline expressions. *)

From Coq Require Import QArith Lia.
From Verif Require Import DP_Base DP_Spec DP_Sources_Model DP_Bucketing_Model DP_Multi_Model DP_Laws DP_Sources_Proofs
  DP_Sources_Proofs2 DP_Multi_Lemmas DP_Shuffle_Proofs DP_BBL_Proofs DP_Dyn_Proofs DP_Pack_Proofs DP_Zip_Proofs DP_RR_Proofs
  DP_Sample_Proofs DP_Corollaries DP_Ast.

Section AstInd.
  Variable P : ast -> Prop.
  Hypothesis HList : forall l, P (AList l).
  Hypothesis HCount : forall x y k, P (ACount x y k).
  Hypothesis HConst : forall d k, P (AConst d k).
  Hypothesis HMap : forall f n p, P p -> P (AMap f n p).
  Hypothesis HFilter : forall f p, P p -> P (AFilter f p).
  Hypothesis HSkip : forall k p, P p -> P (ASkip k p).
  Hypothesis HTake : forall k p, P p -> P (ATake k p).
  Hypothesis HShard : forall i n u p, P p -> P (AShard i n u p).
  Hypothesis HBucket : forall n d p, P p -> P (ABucket n d p).
  Hypothesis HRepeat : forall n g p, P p -> P (ARepeat n g p).
  Hypothesis HShuffle : forall mv w sd p, P p -> P (AShuffle mv w sd p).
  Hypothesis HBbl : forall sz ln mn sb sa dr p, P p -> P (ABbl sz ln mn sb sa dr p).
  Hypothesis HDyn : forall th c mn mx dr p, P p -> P (ADyn th c mn mx dr p).
  Hypothesis HPack : forall cp mx pd tr dr p, P p -> P (APack cp mx pd tr dr p).
  Hypothesis HYield : forall F p, (forall d, P (F d)) -> P p -> P (AYield F p).
  Hypothesis HPipe : forall w p, P p -> P (APipe w p).
  Hypothesis HConcat : forall ps, Forall P ps -> P (AConcat ps).
  Hypothesis HZip : forall nm sh fl ps, Forall P ps -> P (AZip nm sh fl ps).
  Hypothesis HRR : forall st ar ps, Forall P ps -> P (ARR st ar ps).
  Hypothesis HSample : forall ws sd ar ps, Forall P ps -> P (ASample ws sd ar ps).

  Fixpoint ast_ind' (a : ast) : P a :=
    let all := fix all (ps : list ast) : Forall P ps :=
      match ps with [] => Forall_nil P | p :: r => Forall_cons p (ast_ind' p) (all r) end in
    match a with
    | AList l => HList l
    | ACount x y k => HCount x y k
    | AConst d k => HConst d k
    | AMap f n p => HMap f n p (ast_ind' p)
    | AFilter f p => HFilter f p (ast_ind' p)
    | ASkip k p => HSkip k p (ast_ind' p)
    | ATake k p => HTake k p (ast_ind' p)
    | AShard i n u p => HShard i n u p (ast_ind' p)
    | ABucket n d p => HBucket n d p (ast_ind' p)
    | ARepeat n g p => HRepeat n g p (ast_ind' p)
    | AShuffle mv w sd p => HShuffle mv w sd p (ast_ind' p)
    | ABbl sz ln mn sb sa dr p => HBbl sz ln mn sb sa dr p (ast_ind' p)
    | ADyn th c mn mx dr p => HDyn th c mn mx dr p (ast_ind' p)
    | APack cp mx pd tr dr p => HPack cp mx pd tr dr p (ast_ind' p)
    | AYield F p => HYield F p (fun d => ast_ind' (F d)) (ast_ind' p)
    | APipe w p => HPipe w p (ast_ind' p)
    | AConcat ps => HConcat ps (all ps)
    | AZip nm sh fl ps => HZip nm sh fl ps (all ps)
    | ARR st ar ps => HRR st ar ps (all ps)
    | ASample ws sd ar ps => HSample ws sd ar ps (all ps)
    end.
End AstInd.

Section AstP.
  Variable rnd : Z -> nat -> Z.
  Notation dn := (denote rnd).

  Lemma map_Forall ps (P : source -> Prop) : Forall (fun p => P (dn p)) ps -> Forall P (map dn ps).
  Proof. induction 1; simpl; constructor; auto. Qed.

  Lemma dn_mono a : mono (dn a).
  Proof.
    induction a using ast_ind'; cbn [denote].
    - apply list_mono.
    - apply count_mono.
    - apply constant_mono.
    - apply map_mono; assumption.
    - apply filter_mono; assumption.
    - apply skip_mono; assumption.
    - apply take_mono; assumption.
    - apply shard_mono; assumption.
    - apply bucket_mono; assumption.
    - apply repeat_mono; assumption.
    - apply shuffle_mono; assumption.
    - apply bbl_mono; assumption.
    - apply db_mono; assumption.
    - apply pk_mono; assumption.
    - apply yf_mono; assumption.
    - apply pipe_mono; assumption.
    - apply concat_mono. apply map_Forall; assumption.
    - apply zip_mono. apply map_Forall; assumption.
    - apply rr_mono. apply map_Forall; assumption.
    - apply sm_mono. apply map_Forall; assumption.
  Qed.

  Lemma hfins_map ps : Forall (fun p => forall s, finitude_type (dn p) s = fin p) ps ->
    forall s, hfins (map dn ps) s = map fin ps.
  Proof.
    induction 1 as [|p ps Hp HF IH]; intros s; [reflexivity|]. destruct s as [s1 s2]. simpl. rewrite Hp.
    f_equal. apply IH.
  Qed.

  Lemma dn_fin a : forall s, finitude_type (dn a) s = fin a.
  Proof.
    induction a using ast_ind'; cbn [denote fin]; intros s; try reflexivity; try (simpl; auto; fail).
    - simpl. destruct n; auto.
    - simpl. f_equal. apply hfins_map. assumption.
    - cbn [finitude_type src_zip]. unfold zip_finitude, zip_all_finite, zip_all_infinite, zip_fin.
      rewrite (hfins_map ps) by assumption. destruct ps; reflexivity.
    - simpl. f_equal. apply hfins_map. assumption.
    - simpl. f_equal. apply hfins_map. assumption.
  Qed.

  Lemma hreset_init ps g : Forall (fun p => forall g, reset (dn p) g (init (dn p)) = init (dn p)) ps ->
    hreset (map dn ps) g (hinit (map dn ps)) = hinit (map dn ps).
  Proof. induction 1 as [|p ps Hp HF IH]; [reflexivity|]. simpl. rewrite Hp, IH. reflexivity. Qed.

  Lemma dn_reset_init a : forall g, reset (dn a) g (init (dn a)) = init (dn a).
  Proof.
    induction a using ast_ind'; cbn [denote]; intros g0; try reflexivity;
      try (simpl; rewrite ?IHa; reflexivity).
    - simpl. unfold sh_reset. simpl. rewrite IHa. destruct g0; reflexivity.
    - simpl. rewrite IHa, map_map. reflexivity.
    - simpl. unfold pipe_reset. simpl. rewrite IHa. reflexivity.
    - simpl. apply hreset_init; assumption.
    - simpl. apply hreset_init; assumption.
    - simpl. rewrite hreset_init by assumption. reflexivity.
    - simpl. rewrite hreset_init by assumption. destruct g0, ar; reflexivity.
  Qed.

  (** ** Positions: the invariant and the admissible targets of every expression *)
  Definition hpreds (f : forall a, St (dn a) -> Prop) : forall ps, hpred (map dn ps) :=
    fix all (ps : list ast) : hpred (map dn ps) :=
      match ps return hpred (map dn ps) with [] => tt | p :: r => (f p, all r) end.

  Fixpoint inv (a : ast) : St (dn a) -> Prop :=
    match a return St (dn a) -> Prop with
    | AList l => fun p => p <= length l
    | ACount _ _ _ => fun _ => True
    | AConst _ _ => fun _ => True
    | AMap _ _ p => fun x => inv p (snd x)
    | AFilter _ p => inv p
    | ASkip _ p => fun x => inv p (snd x)
    | ATake _ p => fun x => inv p (snd x)
    | AShard _ _ _ p => inv p
    | ABucket _ _ p => inv p
    | ARepeat _ _ p => fun x => inv p (snd x)
    | AShuffle _ _ sd p => sh_inv sd (dn p) (inv p)
    | ABbl sz _ _ _ _ _ p => bbl_inv sz (dn p) (inv p)
    | ADyn _ _ _ _ _ p => db_inv (dn p) (inv p)
    | APack _ _ _ _ _ p => pk_inv (dn p) (inv p)
    | AYield F p => yf_inv (fun d => dn (F d)) (dn p) (inv p) (fun d => inv (F d))
    | APipe _ p => pipe_inv (dn p) (inv p)
    | AConcat ps => hall (map dn ps) (hpreds inv ps)
    | AZip _ _ _ ps => hall (map dn ps) (hpreds inv ps)
    | ARR st _ ps => rr_inv (map dn ps) st (hpreds inv ps)
    | ASample ws sd ar ps => sm_inv (map dn ps) ws sd ar (hpreds inv ps)
    end.

  Fixpoint tgt (a : ast) : St (dn a) -> Prop :=
    match a return St (dn a) -> Prop with
    | AList l => fun _ => True
    | ACount _ _ _ => fun _ => True
    | AConst _ _ => fun _ => True
    | AMap _ _ p => fun x => tgt p (snd x)
    | AFilter _ p => tgt p
    | ASkip _ p => fun x => tgt p (snd x)
    | ATake _ p => fun x => tgt p (snd x)
    | AShard _ _ _ p => tgt p
    | ABucket _ _ p => tgt p
    | ARepeat _ _ p => fun x => tgt p (snd x)
    | AShuffle _ _ sd p => sh_tgt (dn p) (tgt p)
    | ABbl sz _ _ _ _ _ p => bbl_tgt (dn p) (tgt p)
    | ADyn _ _ _ _ _ p => db_tgt (dn p) (tgt p)
    | APack _ _ _ _ _ p => pk_tgt (dn p) (tgt p)
    | AYield F p => yf_tgt (fun d => dn (F d)) (dn p) (tgt p)
    | APipe _ p => pipe_tgt (dn p) (tgt p)
    | AConcat ps => hall (map dn ps) (hpreds tgt ps)
    | AZip _ _ _ ps => hall (map dn ps) (hpreds tgt ps)
    | ARR st _ ps => rr_tgt (map dn ps) (hpreds tgt ps)
    | ASample ws sd ar ps => sm_tgt (map dn ps) (hpreds tgt ps)
    end.

  Notation hinv := (hpreds inv).
  Notation htgt := (hpreds tgt).

  Lemma resumable_weaken clean X I T : resumable true X I T -> resumable clean X I T.
  Proof.
    intros [H1 H2 H3 H4 H5]. constructor; auto.
    intros n s o s' Hs Hn. specialize (H3 n s o s' Hs Hn). destruct o as [d| |[]]; simpl in *; auto. destruct H3; discriminate.
  Qed.

  Definition sound (a : ast) : Prop := forall clean, resumes clean a ->
    resumable clean (dn a) (inv a) (tgt a) /\
    (forall g, g = true \/ rngfree a -> restarts (dn a) (inv a) g) /\
    (reloads a -> forall s, inv a s -> tgt a s).

  Lemma sound_all clean ps : Forall sound ps -> all_of (resumes clean) ps ->
    hresumable clean (map dn ps) (hinv ps) (htgt ps) /\
    (forall g, g = true \/ all_of rngfree ps -> hrestarts g (map dn ps) (hinv ps)) /\
    (all_of reloads ps -> forall s, hall (map dn ps) (hinv ps) s -> hall (map dn ps) (htgt ps) s).
  Proof.
    induction 1 as [|p ps Hp HF IH]; intros Ha; [simpl; auto|]. destruct Ha as [Ha1 Ha2].
    destruct (Hp clean Ha1) as (A1 & A2 & A3). destruct (IH Ha2) as (B1 & B2 & B3).
    split; [|split].
    - simpl. auto.
    - intros g Hg. simpl. split; [apply A2|apply B2]; destruct Hg as [->|[? ?]]; auto.
    - intros [C1 C2] [s1 s2] [D1 D2]. simpl in *. split; auto.
  Qed.

  Theorem all_sound a : sound a.
  Proof.
    induction a using ast_ind'; intros clean HA.
    - split; [|split]; cbn [denote inv tgt]; auto.
      + apply resumable_weaken, list_resumable.
      + intros; apply list_restarts.
    - split; [|split]; cbn [denote inv tgt]; auto.
      + apply resumable_weaken, count_resumable.
      + intros; apply count_restarts.
    - split; [|split]; cbn [denote inv tgt]; auto.
      + apply resumable_weaken, constant_resumable.
      + intros; apply constant_restarts.
    - destruct HA as [Hf HA]. destruct (IHa clean HA) as (A1 & A2 & A3). split; [|split]; cbn [denote inv tgt].
      + apply map_resumable; [|assumption]. intros d e E. specialize (Hf d). rewrite E in Hf. destruct e; simpl in *; auto.
      + intros g Hg. apply map_restarts. auto.
      + intros Hr x. apply A3; assumption.
    - destruct HA as [Hf HA]. destruct (IHa clean HA) as (A1 & A2 & A3). split; [|split]; cbn [denote inv tgt].
      + apply filter_resumable; [|assumption]. intros d e E. specialize (Hf d). rewrite E in Hf. destruct e; simpl in *; auto.
      + intros g Hg. apply filter_restarts. auto.
      + intros Hr x. apply A3; assumption.
    - destruct (IHa clean HA) as (A1 & A2 & A3). split; [|split]; cbn [denote inv tgt].
      + apply skip_resumable; assumption.
      + intros g Hg. apply skip_restarts. auto.
      + intros Hr x. apply A3; assumption.
    - destruct (IHa clean HA) as (A1 & A2 & A3). split; [|split]; cbn [denote inv tgt].
      + apply take_resumable; assumption.
      + intros g Hg. apply take_restarts. auto.
      + intros Hr x. apply A3; assumption.
    - destruct (IHa clean HA) as (A1 & A2 & A3). split; [|split]; cbn [denote inv tgt].
      + apply shard_resumable; assumption.
      + intros g Hg. apply shard_restarts. auto.
      + intros Hr x. apply A3; assumption.
    - destruct (IHa clean HA) as (A1 & A2 & A3). split; [|split]; cbn [denote inv tgt].
      + apply bucket_resumable; assumption.
      + intros g Hg. apply bucket_restarts. auto.
      + intros Hr x. apply A3; assumption.
    - destruct HA.
    - destruct HA as [Hs HA]. destruct (IHa clean HA) as (A1 & A2 & A3). split; [|split]; cbn [denote inv tgt].
      + apply shuffle_resumable; assumption.
      + intros g Hg. destruct Hg as [->|[]]. apply shuffle_restarts. auto.
      + intros Hr. apply shuffle_any. auto.
    - destruct HA as [Hl HA]. destruct (IHa clean HA) as (A1 & A2 & A3). split; [|split]; cbn [denote inv tgt].
      + apply bbl_resumable; [assumption|]. intros d. specialize (Hl d). destruct (ln d) as [l| |[]]; simpl; auto.
      + intros g Hg. apply bbl_restarts. auto.
      + intros Hr x [H1 H2]. apply A3; assumption.
    - destruct HA as [Hc HA]. destruct (IHa true HA) as (A1 & A2 & A3). split; [|split]; cbn [denote inv tgt].
      + apply resumable_weaken. apply db_resumable; auto.
      + intros g Hg. apply db_restarts. auto.
      + intros Hr x (H1 & H2 & H3). split; [|split]; auto.
    - destruct HA as [-> HA]. destruct (IHa false HA) as (A1 & A2 & A3). split; [|split]; cbn [denote inv tgt].
      + apply pk_resumable. assumption.
      + intros g Hg. apply pk_restarts. auto.
      + intros [].
    - destruct HA as [HF HA]. destruct (IHa clean HA) as (A1 & A2 & A3). split; [|split]; cbn [denote inv tgt].
      + apply (yf_resumable (fun d => dn (F d)) (dn a) clean (inv a) (tgt a) (fun d => inv (F d)) (fun d => tgt (F d))).
        * assumption.
        * intros d. apply (H d clean). apply HF.
        * intros d. rewrite dn_fin. apply HF.
      + intros g Hg. apply (yf_restarts (fun d => dn (F d))). auto.
      + intros Hr [[cur y] s] [H1 H2]. unfold yf_tgt. simpl. apply A3; assumption.
    - destruct HA as [Hw HA]. destruct (IHa clean HA) as (A1 & A2 & A3). split; [|split]; cbn [denote inv tgt].
      + apply pipe_resumable; assumption.
      + intros g Hg. eapply pipe_restarts; eauto.
      + intros Hr x (H1 & H2 & H3). split; auto.
    - destruct (sound_all clean ps H HA) as (A1 & A2 & A3). split; [|split]; cbn [denote inv tgt].
      + apply concat_resumable. exact A1.
      + intros g Hg. apply concat_restarts. apply A2. exact Hg.
      + intros Hr. apply A3. exact Hr.
    - destruct HA as [Hf HA]. destruct (sound_all clean ps H HA) as (A1 & A2 & A3). split; [|split]; cbn [denote inv tgt].
      + apply zip_resumable; [exact A1|exact Hf].
      + intros g Hg. apply zip_restarts. apply A2. exact Hg.
      + intros Hr. apply A3. exact Hr.
    - destruct (sound_all clean ps H HA) as (A1 & A2 & A3). split; [|split]; cbn [denote inv tgt].
      + apply rr_resumable. exact A1.
      + intros g Hg. apply rr_restarts. apply A2. exact Hg.
      + intros Hr x (H1 & H2 & H3). apply A3; assumption.
    - destruct HA as (Har & Hw & Hl & Hs & HA). destruct (sound_all clean ps H HA) as (A1 & A2 & A3).
      split; [|split]; cbn [denote inv tgt].
      + apply sm_resumable; auto. rewrite map_length; assumption.
      + intros g Hg. destruct Hg as [->|[]]. apply sm_restarts. apply A2. left; reflexivity.
      + intros Hr x (H1 & H2 & H3 & H4 & H5). apply A3; assumption.
  Qed.

  (** ** Contents *)
  Definition contains (a : ast) (c : content) : Prop :=
    match c with
    | CList l => holds (dn a) (init (dn a)) l
    | CStream f => streams (dn a) (init (dn a)) f
    end.

  Lemma sem_stream_fin a f : sem a (CStream f) -> fin a = PseudoInfinite.
  Proof.
    induction a using ast_ind'; intros Hs; inversion Hs; subst; simpl; auto.
  Qed.

  Lemma contains_cholds p c : sem p c -> contains p c -> (forall l, c = CList l -> fin p <> PseudoInfinite) ->
    cholds (dn p) (init (dn p)) c.
  Proof.
    intros Hs Hc Hf. destruct c as [l|f]; simpl in *; split; auto; intros s'; rewrite dn_fin; eauto using sem_stream_fin.
  Qed.

  Lemma hcholds_of ps cs : Forall2 (fun p c => cholds (dn p) (init (dn p)) c) ps cs ->
    hcholds (map dn ps) (hinit (map dn ps)) cs.
  Proof. induction 1; simpl; auto. Qed.

  Lemma hholds_of ps ls : Forall2 (fun p l => holds (dn p) (init (dn p)) l) ps ls ->
    hholds (map dn ps) (hinit (map dn ps)) ls.
  Proof. induction 1; simpl; auto. Qed.

  Lemma hsupplies_of ar ps cs : Forall2 (fun p c => supplies ar (dn p) (init (dn p)) c) ps cs ->
    hsupplies ar (map dn ps) (hinit (map dn ps)) cs.
  Proof. induction 1; simpl; auto. Qed.

  Lemma contents_all ps : Forall (fun p => wf p -> exists c, sem p c /\ contains p c) ps -> all_of wf ps ->
    exists cs, Forall2 (fun p c => sem p c /\ contains p c) ps cs.
  Proof.
    induction 1 as [|p ps Hp HF IH]; intros Ha; [exists []; constructor|].
    destruct Ha as [H1 H2]. destruct (Hp H1) as (c & Hc). destruct (IH H2) as (cs & Hcs). exists (c :: cs). constructor; auto.
  Qed.

  Lemma contents_lists ps cs : Forall2 (fun p c => sem p c /\ contains p c) ps cs ->
    (forall p, In p ps -> holds_list p (fun _ => True)) ->
    exists ls, cs = map CList ls /\ Forall2 (fun p l => sem p (CList l) /\ contains p (CList l)) ps ls.
  Proof.
    induction 1 as [|p c ps cs [H1 H2] HF IH]; intros Hl; [exists []; split; [reflexivity|constructor]|].
    destruct IH as (ls & -> & Hls); [intros q Hq; apply Hl; right; assumption|].
    destruct (Hl p (or_introl eq_refl) c H1) as (l & -> & _). exists (l :: ls). split; [reflexivity|]. constructor; auto.
  Qed.

  Lemma Forall2_impl' {A B} (R R' : A -> B -> Prop) l l' :
    (forall a b, In a l -> R a b -> R' a b) -> Forall2 R l l' -> Forall2 R' l l'.
  Proof.
    intros H HF. revert H. induction HF; intros H1; constructor; [apply H1; [left; reflexivity|assumption]|].
    apply IHHF. intros a b Ha. apply H1. right; assumption.
  Qed.

  Lemma epochs_const X I T clean l : mono X -> resumable clean X I T -> restarts X I false -> holds X (init X) l ->
    epochs X (init X) (fun _ => l).
  Proof.
    intros HM HR Hr Hl. exists (fun _ s l' => I s /\ holds X s l'). split; [split; [apply HR|assumption]|].
    intros k s l' [Hi Hh]. pose proof (holds_step X HM _ _ Hh) as HP. destruct l' as [|d l'].
    - destruct HP as (n & s' & Hn & Hs'). exists n, s'. pose proof (rs_next _ _ _ _ HR _ _ _ _ Hi Hn) as Hi'. simpl in Hi'.
      split; [assumption|]. split; [auto|]. split; [apply (rs_reset _ _ _ _ HR); assumption|].
      eapply equiv_holds; [|exact Hl]. apply equiv_sym, Hr. assumption.
    - destruct HP as (n & s' & Hn & Hs'). exists n, s'. pose proof (rs_next _ _ _ _ HR _ _ _ _ Hi Hn) as Hi'. simpl in Hi'. auto.
  Qed.

  Lemma take_stream X s k f : mono X -> streams X s f -> holds (src_take k X) (0, s) (map f (seq 0 k)).
  Proof.
    intros HM Hs. apply (progress_holds (src_take k X) (fun (x : nat * St X) l =>
      fst x + length l = k /\ exists g, streams X (snd x) g /\ l = map g (seq 0 (length l)))).
    - apply take_mono; assumption.
    - intros [c t] l (Hc & g & Hg & El). simpl in *. destruct l as [|d l].
      + exists 0, (c, t). simpl in *. destruct (Nat.eqb_spec c k); [|lia]. split; [reflexivity|]. split; [simpl; lia|]. exists g; auto.
      + destruct (streams_step X t g HM Hg) as (n & t' & Hn & Ht'). exists n, (S c, t'). simpl in *.
        destruct (Nat.eqb_spec c k); [lia|]. rewrite Hn. injection El as E1 E2. split; [rewrite E1; reflexivity|].
        split; [simpl; lia|]. exists (fun i => g (S i)). split; [assumption|]. rewrite <- seq_shift, map_map in E2. exact E2.
    - simpl. rewrite map_length, seq_length. split; [lia|]. exists f. auto.
  Qed.

  Lemma cut_exists n l : 0 < n -> exists bs, cut n l bs.
  Proof.
    intros Hn. remember (length l) as k eqn:Ek. revert l Ek. induction k as [k IH] using lt_wf_ind. intros l Ek.
    destruct (Nat.eq_dec k 0) as [->|Hk]; [destruct l; [exists []; constructor|discriminate]|].
    destruct (Nat.lt_ge_cases k n) as [H|H]; [exists [l]; constructor; lia|].
    destruct (IH (length (skipn n l))) with (l := skipn n l) as (bs & Hbs); auto; [rewrite skipn_length; lia|].
    exists (firstn n l :: bs). rewrite <- (firstn_skipn n l) at 1. constructor; auto. rewrite firstn_length. lia.
  Qed.

  Lemma cut_drop_exists n l : 0 < n -> exists bs, cut_drop n l bs.
  Proof.
    intros Hn. remember (length l) as k eqn:Ek. revert l Ek. induction k as [k IH] using lt_wf_ind. intros l Ek.
    destruct (Nat.lt_ge_cases k n) as [H|H]; [exists []; constructor; lia|].
    destruct (IH (length (skipn n l))) with (l := skipn n l) as (bs & Hbs); auto; [rewrite skipn_length; lia|].
    exists (firstn n l :: bs). rewrite <- (firstn_skipn n l) at 1. constructor; auto. rewrite firstn_length. lia.
  Qed.

  Ltac kid IH H1 l Hs Hc Hl HP :=
    let c := fresh in let E := fresh in
    destruct (IH H1) as (c & Hs & Hc); match type of Hl with holds_list _ _ => destruct (Hl c Hs) as (l & E & HP); subst c end.

  Theorem contents a : wf a -> exists c, sem a c /\ contains a c.
  Proof.
    induction a using ast_ind'; cbn [wf]; intros HW.
    - eexists. split; [constructor|]. apply list_holds.
    - eexists. split; [constructor|]. simpl. apply (streams_intro (src_count x y k)
        (fun (c : Z) f => forall i, f i = labelled k (DInt (c + Z.of_nat i * y)))).
      + intros c f Hf. exists 0, (c + y)%Z, (fun i => f (S i)). simpl. split; [|split; [|reflexivity]].
        * rewrite Hf. unfold labelled. simpl. rewrite Z.add_0_r. destruct k; reflexivity.
        * intros i. rewrite Hf. do 2 f_equal. lia.
      + intros i. reflexivity.
    - eexists. split; [constructor|]. simpl. apply (streams_intro (src_constant d k)
        (fun (c : unit) f => forall i, f i = labelled k d)).
      + intros c f Hf. exists 0, c, (fun i => f (S i)). simpl. rewrite Hf. split; [reflexivity|]. split; auto.
      + reflexivity.
    - destruct HW as [H1 H2]. kid IHa H1 l Hs Hc H2 HP. eexists. split; [econstructor; eassumption|].
      simpl. apply (map_holds f n (dn a) (init (dn a)) l); auto using dn_mono.
    - destruct HW as [H1 H2]. kid IHa H1 l Hs Hc H2 HP. eexists. split; [econstructor; eassumption|].
      simpl. apply (filter_holds f (dn a)); auto using dn_mono. intros d Hd. destruct (HP d Hd) as (b & ->). reflexivity.
    - destruct HW as [H1 H2]. kid IHa H1 l Hs Hc H2 HP. eexists. split; [econstructor; eassumption|].
      simpl. apply skip_holds; auto using dn_mono.
    - destruct (IHa HW) as ([l|f] & Hs & Hc).
      + eexists. split; [econstructor; eassumption|]. simpl. apply take_holds; auto using dn_mono.
      + eexists. split; [eapply sem_take_stream; eassumption|]. simpl. apply take_stream; auto using dn_mono.
    - destruct HW as (H1 & H3 & H2). kid IHa H1 l Hs Hc H2 HP. eexists. split; [econstructor; eassumption|].
      simpl. apply shard_holds; auto using dn_mono.
    - destruct HW as (H1 & H3 & H2). kid IHa H1 l Hs Hc H2 HP.
      assert (HB : exists bs, if d then cut_drop n l bs else cut n l bs)
        by (destruct d; [apply cut_drop_exists|apply cut_exists]; assumption).
      destruct HB as (bs & HB). exists (CList (map DList bs)). split; [econstructor; eassumption|].
      simpl. eapply bucket_holds; eauto using dn_mono.
    - destruct HW as (H1 & H3 & (clean & H4) & H5 & H2). destruct n as [k|]; [|congruence]. kid IHa H1 l Hs Hc H2 HP.
      eexists. split; [econstructor; eassumption|]. destruct (all_sound a clean H4) as (A1 & A2 & _).
      simpl. eapply (repeat_holds (Some k) g (dn a) clean (inv a) (tgt a)); eauto using dn_mono.
    - destruct HW as (H1 & H2). kid IHa H1 l Hs Hc H2 HP.
      destruct (shuffle_holds rnd mv w sd (dn a) sd (sd, 0) 0 0 (init (dn a)) l (dn_mono _) Hc) as (out & Ho & Hh).
      exists (CList out). split; [econstructor; eassumption|]. exact Hh.
    - destruct HW as (H1 & H3 & H4 & H2). kid IHa H1 l Hs Hc H2 HP.
      destruct (bbl_holds sz ln mn sb sa dr (dn a) (value 0 ln) H3 H4 (init (dn a)) l (dn_mono _) Hc) as (bs & Ho & Hh).
      { intros d Hd. destruct (HP d Hd) as (n & En & Hx). unfold value. rewrite En. auto. }
      exists (CList (map DList bs)). split; [econstructor; eassumption|]. exact Hh.
    - destruct HW as (H1 & H3 & H4 & H2). kid IHa H1 l Hs Hc H2 HP.
      destruct (db_holds th c mn mx dr (dn a) (value 0%Q c) H3 H4 (init (dn a)) l (dn_mono _) Hc) as (bs & Ho & Hh).
      { intros d Hd. destruct (HP d Hd) as (n & En). unfold value. rewrite En. reflexivity. }
      exists (CList (map DList bs)). split; [econstructor; eassumption|]. exact Hh.
    - destruct HW as (H1 & H2). kid IHa H1 l Hs Hc H2 HP. destruct HP as (ts & -> & HP). destruct tr.
      + destruct HP as (P1 & P2 & P3).
        destruct (trunc_holds cp mx pd dr (dn a) P1 P2 (init (dn a)) ts (dn_mono _) Hc P3) as (bs & Ho & Hh).
        eexists. split; [eapply sem_trunc; eassumption|]. exact Hh.
      + destruct (pack_holds cp mx pd dr (dn a) (init (dn a)) ts (dn_mono _) Hc HP) as (bs & Ho & Hh).
        eexists. split; [eapply sem_pack; eassumption|]. exact Hh.
    - destruct HW as (H1 & H3 & H2). kid IHa H1 l Hs Hc H2 HP.
      assert (HR : exists rs, Forall2 (fun d r => sem (F d) (CList r) /\ contains (F d) (CList r)) l rs).
      { clear Hs Hc HP. induction l as [|d l IH]; [exists []; constructor|]. destruct IH as (rs & Hrs).
        destruct (H3 d) as (_ & W & Wl). destruct (H d W) as (c & Hc1 & Hc2). destruct (Wl c Hc1) as (r & -> & _).
        exists (r :: rs). constructor; auto. }
      destruct HR as (rs & HR). exists (CList (concat rs)). split.
      + econstructor; [eassumption|]. eapply Forall2_impl'; [|exact HR]. intros d r _ [? _]. assumption.
      + simpl. apply (yf_holds (fun d => dn (F d)) (dn a) (init (dn a)) l rs); auto using dn_mono.
        * intros d. rewrite dn_fin. apply H3.
        * eapply Forall2_impl'; [|exact HR]. intros d r _ [_ ?]. assumption.
    - destruct (IHa HW) as (c & Hs & Hc). exists c. split; [constructor; assumption|]. destruct c as [l|f]; simpl in *.
      + apply pipe_holds; auto using dn_mono.
      + apply pipe_streams; auto using dn_mono.
    - destruct HW as (H1 & H2). destruct (contents_all ps H H1) as (cs & Hcs).
      destruct (contents_lists ps cs Hcs H2) as (ls & -> & Hls). exists (CList (concat ls)). split.
      + constructor. eapply Forall2_impl'; [|exact Hls]. intros d r _ [? _]. assumption.
      + simpl. apply concat_holds; [apply map_Forall, Forall_forall; auto using dn_mono|].
        apply hholds_of. eapply Forall2_impl'; [|exact Hls]. intros d r _ [_ ?]. assumption.
    - destruct HW as (H1 & H2 & H3 & H4). destruct (contents_all ps H H1) as (cs & Hcs).
      assert (Hsem : Forall2 sem ps cs) by (eapply Forall2_impl'; [|exact Hcs]; intros p c _ [? _]; assumption).
      destruct (H4 cs Hsem) as (out & P1 & P2 & P3). exists (CList out). split.
      + econstructor; try eassumption. intros l Hl. apply P2; assumption.
      + simpl. apply (zip_holds (map dn ps) nm sh fl) with (cs := cs).
        * apply map_Forall, Forall_forall; auto using dn_mono.
        * apply hcholds_of. eapply Forall2_impl'; [|exact Hcs]. intros p c Hp [A B]. apply contains_cholds; auto.
          intros l ->. eapply H3; eassumption.
        * split; [assumption|]. split; assumption.
    - destruct HW as (H1 & H2 & H3 & H4). destruct (contents_all ps H H1) as (cs & Hcs).
      assert (Hsem : Forall2 sem ps cs) by (eapply Forall2_impl'; [|exact Hcs]; intros p c _ [? _]; assumption).
      eexists. split; [econstructor; exact Hsem|]. simpl.
      apply (rr_holds (map dn ps) st ar).
      + apply map_Forall, Forall_forall; auto using dn_mono.
      + rewrite map_length. destruct ps; [congruence|simpl; lia].
      + reflexivity.
      + simpl. apply hsupplies_of. clear H4 H1 H2 Hsem H. induction Hcs as [|p c ps cs [A B] HF IH]; [constructor|].
        simpl. constructor; [|apply IH; intros q l Hq; apply H3; right; assumption].
        destruct c as [l|f]; simpl.
        * destruct (H3 p l (or_introl eq_refl) A) as [F1 F2]. split; [intros s'; rewrite dn_fin; assumption|].
          destruct ar; [|exact B]. destruct (F2 eq_refl) as (G1 & clean & G2).
          destruct (all_sound p clean G2) as (A1 & A2 & _). split; [eapply epochs_const; eauto using dn_mono|].
          destruct l; [right; reflexivity|left; discriminate].
        * split; [|exact B]. intros s'. rewrite dn_fin. eapply sem_stream_fin; eassumption.
      + apply H4. assumption.
    - destruct HW as (H1 & H2 & H3 & H4 & H5 & H6 & H7 & H8). subst ar.
      destruct (contents_all ps H H1) as (cs & Hcs).
      assert (Hsem : Forall2 sem ps cs) by (eapply Forall2_impl'; [|exact Hcs]; intros p c _ [? _]; assumption).
      destruct (contents_lists ps cs Hcs H7) as (ls & -> & Hls). destruct (H8 _ Hsem) as (l & Hl & Hne).
      destruct (sample_once rnd (map dn ps) ws sd) with (ls := ls) (x := init (src_sample rnd (map dn ps) ws sd false)) as (out & Ho & Hh).
      + apply map_Forall, Forall_forall; auto using dn_mono.
      + rewrite map_length. assumption.
      + assumption.
      + rewrite map_length. clear -Hls. induction Hls; simpl; congruence.
      + rewrite map_length. destruct ps; [congruence|simpl; lia].
      + split; [reflexivity|]. split; reflexivity.
      + simpl. apply hsupplies_of. clear - Hls H6. induction Hls as [|p l ps ls [A B] HF IH]; [constructor|].
        simpl. constructor; [|apply IH; intros q Hq; apply H6; right; assumption].
        split; [intros s'; rewrite dn_fin; apply H6; left; reflexivity|exact B].
      + apply in_map_iff in Hl. destruct Hl as (l' & E & Hl'). inversion E; subst. eauto.
      + exists (CList out). split; [|exact Hh]. econstructor; [|intros k; apply sm_draw_range|exact Ho].
        eapply Forall2_impl'; [|exact Hls]. intros d r _ [? _]. assumption.
  Qed.

  (** ** Top-level pipelines *)
  Theorem pl_contents a maxw : wf a -> exists c, sem a c /\
    match c with
    | CList l => holds (pl rnd maxw a) (fresh rnd a) l
    | CStream f => streams (pl rnd maxw a) (fresh rnd a) f
    end.
  Proof.
    intros HW. destruct (contents a HW) as (c & Hs & Hc). exists c. split; [assumption|]. destruct c as [l|f]; simpl in Hc.
    - apply pipe_holds; auto using dn_mono.
    - apply (pipe_streams maxw (dn a)); auto using dn_mono.
  Qed.

  Lemma pl_lives clean a maxw x : resumes clean a -> clean = true \/ maxw = 0 -> lives rnd maxw a x ->
    p_broken x = true \/ top_inv (dn a) (inv a) x.
  Proof.
    intros HA HC HL. destruct (all_sound a clean HA) as (A1 & _ & _).
    induction HL as [|n o x x' HL IH Hn|g x HL IH|x t x' HL IH Ht Hl].
    - right. eapply top_fresh_inv; eassumption.
    - destruct IH as [IH|IH].
      + left. apply (pipe_broken_stays maxw (dn a) x IH x'). eapply reaches_next; [apply reaches_refl|exact Hn].
      + eapply (top_reaches maxw (dn a) clean); try eassumption. eapply reaches_next; [apply reaches_refl|exact Hn].
    - destruct IH as [IH|IH].
      + left. apply (pipe_broken_stays maxw (dn a) x IH). apply reaches_reset, reaches_refl.
      + right. apply (top_reset_inv (dn a) clean (inv a) (tgt a)); assumption.
    - destruct IH as [IH|IH].
      + unfold state_dict, pipe_record in Ht. rewrite IH in Ht. discriminate.
      + right. destruct (top_resume_fresh maxw (dn a) clean (inv a) (tgt a) HC A1 x IH) as (t' & Ht' & x1 & Hx1 & _ & Hi).
        rewrite Ht in Ht'. inversion Ht'; subst t'. unfold fresh in Hl. rewrite Hl in Hx1. inversion Hx1; subst. assumption.
  Qed.

  Theorem pl_resume clean a maxw x : resumes clean a -> clean = true \/ maxw = 0 -> lives rnd maxw a x -> p_broken x = false ->
    exists t x1, state_dict (dn a) true x = Some t /\ load_state_dict (dn a) (fresh rnd a) t = Some x1 /\
      same_behaviour (pl rnd maxw a) x x1.
  Proof.
    intros HA HC HL Hb. destruct (pl_lives clean a maxw x HA HC HL) as [H|H]; [congruence|].
    destruct (all_sound a clean HA) as (A1 & _ & _).
    destruct (top_resume_fresh maxw (dn a) clean (inv a) (tgt a) HC A1 x H) as (t & Ht & x1 & Hx1 & He & _).
    exists t, x1. split; [assumption|]. split; [assumption|]. apply equiv_same_behaviour. assumption.
  Qed.

  Theorem pl_resume_used clean a maxw x x0 : resumes clean a -> reloads a -> clean = true \/ maxw = 0 ->
    lives rnd maxw a x -> p_broken x = false -> lives rnd maxw a x0 -> p_broken x0 = false ->
    p_inited x = true \/ p_inited x0 = false \/ rngfree a ->
    exists t x1, state_dict (dn a) true x = Some t /\ load_state_dict (dn a) x0 t = Some x1 /\
      same_behaviour (pl rnd maxw a) x x1.
  Proof.
    intros HA HT HC HL Hb HL0 Hb0 HQ. destruct (pl_lives clean a maxw x HA HC HL) as [H|H]; [congruence|].
    destruct (pl_lives clean a maxw x0 HA HC HL0) as [H0|H0]; [congruence|].
    destruct (all_sound a clean HA) as (A1 & A2 & A3).
    destruct (top_resume_any maxw (dn a) clean (inv a) (tgt a) HC A1 x x0) as (t & Ht & x1 & Hx1 & He & _); auto.
    { intros E1 E2 g. apply A2. destruct HQ as [HQ|[HQ|HQ]]; [congruence|congruence|auto]. }
    exists t, x1. split; [assumption|]. split; [assumption|]. apply equiv_same_behaviour. assumption.
  Qed.

  Theorem pl_restart clean a maxw x g : resumes clean a -> clean = true \/ maxw = 0 -> lives rnd maxw a x -> p_broken x = false ->
    g = true \/ rngfree a -> same_behaviour (pl rnd maxw a) (reset (pl rnd maxw a) g x) (fresh rnd a).
  Proof.
    intros HA HC HL Hb HG. destruct (pl_lives clean a maxw x HA HC HL) as [H|H]; [congruence|].
    destruct (all_sound a clean HA) as (A1 & A2 & _). apply equiv_same_behaviour.
    apply (top_restart maxw (dn a) clean (inv a) (tgt a) HC A1 g x); auto.
    intros g0. rewrite dn_reset_init. apply equiv_refl.
  Qed.
End AstP.
