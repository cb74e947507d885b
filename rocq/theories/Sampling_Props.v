(** The promises of sampling: C37, C38. *)
From Coq Require Import List Bool Arith Lia QArith Sorted Permutation Lqa.
From Verif Require Import Beam_Model Beam_Spec Beam_Proofs Sampling_Model Sampling_Spec Sampling_Proofs Sampling_Proofs2 Sampling_Proofs3.
Import ListNotations.
Open Scope nat_scope.

(** ** Instances of the external functions *)
(** torch.multinomial: the random number selects among the indices of positive probability. *)
Definition positives (l : list Q) : list nat := filter (fun i => negb (Qle_bool (nth i l 0%Q) 0)) (seq 0 (length l)).
Definition some_multinomial (r : nat) (l : list Q) : option nat :=
  if forallb (Qle_bool 0) l then if Nat.eqb (length (positives l)) 0 then None else Some (nth (r mod length (positives l)) (positives l) 0) else None.
Fixpoint ins (l : list Q) (i : nat) (s : list nat) : list nat :=
  match s with [] => [i] | j :: s' => if Qle_bool (nth j l 0%Q) (nth i l 0%Q) then i :: s else j :: ins l i s' end.
Definition some_sortd (l : list Q) : list nat := fold_right (ins l) [] (seq 0 (length l)).
Definition some_qtopk (k : nat) (l : list Q) : list nat := firstn k (some_sortd l).
Definition some_argmax (l : list Q) : nat := hd 0 (some_sortd l).

Lemma some_multinomial_ok : multinomial_ok some_multinomial.
Proof.
  intros r l j. unfold some_multinomial. destruct (forallb (Qle_bool 0) l) eqn:F; [|discriminate]. destruct (Nat.eqb_spec (length (positives l)) 0) as [|NZ]; [discriminate|].
  intros H. assert (I : In j (positives l)) by (inversion H; apply nth_In, Nat.mod_upper_bound, NZ). clear H. rewrite forallb_forall in F. split; [intros y Hy; apply Qle_bool_iff, F, Hy|].
  apply filter_In in I. destruct I as [I1 I2]. apply in_seq in I1. split; [lia|]. apply negb_true_iff in I2.
  destruct (Qlt_le_dec 0 (nth j l 0%Q)) as [K|K]; [exact K|]. apply Qle_bool_iff in K. congruence.
Qed.
Lemma some_multinomial_complete q j : (forall x, In x q -> 0 <= x)%Q -> (0 < nth j q 0)%Q -> exists r, some_multinomial r q = Some j.
Proof.
  intros N H. unfold some_multinomial. assert (F : forallb (Qle_bool 0) q = true) by (apply forallb_forall; intros x Hx; apply Qle_bool_iff, N, Hx). rewrite F.
  assert (I : In j (positives q)).
  { apply filter_In. split.
    - apply in_seq. destruct (Nat.lt_ge_cases j (length q)); [lia|]. rewrite nth_overflow in H by assumption. exfalso. revert H. apply Qlt_irrefl.
    - apply negb_true_iff. destruct (Qle_bool (nth j q 0%Q) 0) eqn:E; [|reflexivity]. apply Qle_bool_iff in E. exfalso. revert H. apply Qle_not_lt, E. }
  destruct (Nat.eqb_spec (length (positives q)) 0) as [Z|_]; [destruct (positives q); [destruct I|discriminate]|]. apply In_nth with (d := 0) in I. destruct I as (r & Hr & E). exists r. rewrite Nat.mod_small by exact Hr. rewrite E. reflexivity.
Qed.
Lemma ins_perm l i s : Permutation (ins l i s) (i :: s).
Proof. induction s as [|j s IH]; simpl; [reflexivity|]. destruct (Qle_bool _ _); [reflexivity|]. rewrite IH. apply perm_swap. Qed.
Lemma ins_sorted l i s : StronglySorted (fun i j => nth j l 0 <= nth i l 0)%Q s -> StronglySorted (fun i j => nth j l 0 <= nth i l 0)%Q (ins l i s).
Proof.
  induction 1 as [|j s S IH F]; simpl; [constructor; constructor|]. destruct (Qle_bool (nth j l 0%Q) (nth i l 0%Q)) eqn:E.
  - apply Qle_bool_iff in E. constructor; [constructor; assumption|]. constructor; [exact E|]. eapply Forall_impl; [|exact F]. simpl. intros a Ha. eapply Qle_trans; eassumption.
  - constructor; [exact IH|]. apply Forall_forall. intros x Hx. apply (Permutation_in _ (ins_perm l i s)) in Hx. destruct Hx as [<-|Hx].
    + destruct (Qlt_le_dec (nth i l 0%Q) (nth j l 0%Q)) as [K|K]; [apply Qlt_le_weak, K|]. apply Qle_bool_iff in K. congruence.
    + rewrite Forall_forall in F. apply F, Hx.
Qed.
Lemma some_sortd_ok : sortd_ok some_sortd.
Proof.
  intros l. unfold some_sortd. generalize (seq 0 (length l)). induction l0 as [|i s [A B]]; simpl; [split; constructor|].
  split; [rewrite ins_perm; constructor; exact A|apply ins_sorted, B].
Qed.
Lemma some_qtopk_ok : qtopk_ok some_qtopk.
Proof.
  intros k l H. destruct (top_firstn some_sortd l k some_sortd_ok) as (A & B & C). destruct (some_sortd_ok l) as [P _]. split; [|auto].
  unfold some_qtopk. rewrite firstn_length, <- (Permutation_length P), seq_length. lia.
Qed.
Lemma some_argmax_ok : argmax_ok some_argmax.
Proof.
  intros l N. destruct (some_sortd_ok l) as [P S]. unfold some_argmax. destruct (some_sortd l) as [|x s] eqn:E; simpl.
  - apply Permutation_length in P. rewrite seq_length in P. destruct l; [congruence|discriminate].
  - assert (I : In x (seq 0 (length l))) by (apply (Permutation_in _ (Permutation_sym P)); left; reflexivity). apply in_seq in I. split; [lia|].
    intros i Hi. assert (J : In i (x :: s)) by (apply (Permutation_in _ P), in_seq; lia). inversion S as [|? ? S1 S2]; subst. destruct J as [->|J]; [apply Qle_refl|]. rewrite Forall_forall in S2. apply S2, J.
Qed.

(** ** C38 *)
(** TopKSampler returns one of the [min k V] most probable tokens; every one of them that has positive probability is possible. *)
Theorem C38_top_k (R : Type) mult topk argmax k l : multinomial_ok mult -> qtopk_ok topk -> argmax_ok argmax -> l <> [] -> 1 <= k ->
  exists N, top_set l N /\ length N = Nat.min k (length l) /\
    (forall r v, top_k R mult topk argmax k r l = Some v -> In v N) /\
    ((forall x, In x l -> 0 <= x)%Q -> (exists x, In x l /\ 0 < x)%Q -> forall r v, top_k R mult topk argmax k r l = Some v -> (0 < nth v l 0)%Q) /\
    ((forall x, In x l -> 0 <= x)%Q -> (forall q j, (forall x, In x q -> 0 <= x)%Q -> (0 < nth j q 0)%Q -> exists r, mult r q = Some j) -> inhabited R ->
      forall v, In v N -> (0 < nth v l 0)%Q -> exists r, top_k R mult topk argmax k r l = Some v).
Proof.
  intros Hm Hk Ha NE K1. destruct (top_k_main R mult Hm topk argmax Hk Ha k l) as (N & A & B & C & E & _ & F); auto.
  exists N. auto.
Qed.
Print Assumptions C38_top_k.

(** TopPSampler returns a token of positive probability from a smallest set of most probable tokens whose share exceeds [p]; every
    token of the set that has positive probability is possible. *)
Theorem C38_top_p (R : Type) mult sortd p l : multinomial_ok mult -> sortd_ok sortd -> (forall x, In x l -> 0 <= x)%Q -> (0 < qsum l)%Q ->
  exists N, is_nucleus p l N /\ (forall r v, top_p R mult sortd p r l = Some v -> In v N /\ (0 < nth v l 0)%Q) /\
    ((forall q j, (forall x, In x q -> 0 <= x)%Q -> (0 < nth j q 0)%Q -> exists r, mult r q = Some j) ->
      forall v, In v N -> (0 < nth v l 0)%Q -> exists r, top_p R mult sortd p r l = Some v).
Proof. intros Hm Hs NN T. apply (top_p_main R mult sortd Hm Hs p l NN T). Qed.
Print Assumptions C38_top_p.

(** The nucleus is not empty, and has positive mass, for every [p] of at least 0. *)
Theorem C38_nonempty p l N : (forall x, In x l -> 0 <= x)%Q -> (0 < qsum l)%Q -> (0 <= p)%Q -> is_nucleus p l N -> N <> [] /\ exists v, In v N /\ (0 < nth v l 0)%Q.
Proof.
  intros NN T P (TS & A & B).
  assert (M : (0 < mass l N)%Q).
  { destruct A as [A|A].
    - assert (0 <= p * qsum l)%Q by (apply Qmult_le_0_compat; lra). lra.
    - assert (E : (qsum l <= mass l N)%Q); [|lra]. rewrite <- (map_nth_seq l) at 1. apply (mass_top l N (seq 0 (length l))); auto.
      + apply seq_NoDup.
      + intros i Hi. apply in_seq in Hi. lia.
      + rewrite seq_length. lia. }
  assert (K : exists v, In v N /\ (0 < nth v l 0)%Q).
  { clear - M. unfold mass, qsum in M. induction N as [|v N IH]; simpl in M; [lra|]. destruct (Qlt_le_dec 0 (nth v l 0)%Q); [exists v; split; [left; reflexivity|assumption]|].
    destruct IH as (w & H1 & H2); [lra|]. exists w. split; [right; exact H1|exact H2]. }
  split; [|exact K]. destruct K as (v & Hv & _). intros ->. destruct Hv.
Qed.
Print Assumptions C38_nonempty.

(** With the docstring's "exceeds" read as "reaches" the set may be one token too large. *)
Theorem C38_reaches_refuted : exists p l r v, (nth 0 l 0 == p)%Q /\ v <> 0 /\ qsum l == 1 /\ top_p nat some_multinomial some_sortd p r l = Some v /\ v = 1.
Proof. exists (1#2)%Q, [1#2; 1#4; 1#4]%Q, 1, 1. repeat split; auto. Qed.
Print Assumptions C38_reaches_refuted.
(** A negative [p] is accepted and leaves no token: sampling always fails. *)
Theorem C38_negative_p_refuted (R : Type) mult sortd p l : multinomial_ok mult -> sortd_ok sortd -> (forall x, In x l -> 0 <= x)%Q -> (0 < qsum l)%Q -> (p < 0)%Q ->
  forall r : R, top_p R mult sortd p r l = None.
Proof.
  intros Hm Hs NN T P r. unfold top_p. destruct (mult r _) as [j|] eqn:E; [|reflexivity]. exfalso. destruct (Hm _ _ _ E) as (_ & _ & J).
  rewrite nth_qnorm, nucleus_zero in J.
  - rewrite nth_repeat in J. unfold Qdiv in J. lra.
  - intros x Hx. apply in_map_iff in Hx. destruct Hx as (i & <- & _). apply nonneg_nth, qnorm_nonneg, NN.
  - exact P.
Qed.
Print Assumptions C38_negative_p_refuted.

Example C38_example : (forall x, In x [1#10; 4#10; 0; 3#10; 2#10] -> 0 <= x)%Q /\ (0 < qsum [1#10; 4#10; 0; 3#10; 2#10])%Q /\
  map (fun r => top_p nat some_multinomial some_sortd (6#10)%Q r [1#10; 4#10; 0; 3#10; 2#10]%Q) [0; 1; 2; 3] = [Some 1; Some 3; Some 1; Some 3] /\
  map (fun r => top_k nat some_multinomial some_qtopk some_argmax 3 r [1#10; 4#10; 0; 3#10; 2#10]%Q) [0; 1; 2; 3] = [Some 1; Some 3; Some 4; Some 1].
Proof.
  split; [|split; [reflexivity|split; vm_compute; reflexivity]]. intros x Hx. apply Qle_bool_iff. simpl in Hx.
  repeat (destruct Hx as [<-|Hx]; [reflexivity|]). destruct Hx.
Qed.

(** ** C37 *)
Section C37.
  Variable D : sdecoder.
  Variable c : sconfig.
  Variable prompts : list (list nat).
  Notation XP := (max_prompt_len prompts).
  Notation XS := (smax_seq_len c prompts).

  (** Exactly [num_gens] hypotheses for each prompt: the prompt, a continuation without EOS, EOS; at most [max_seq_len] tokens; its
      scores are those of its own tokens. *)
  Theorem C37_form out : ssound c prompts -> sgenerate D c prompts = SHyps c out ->
    length out = length prompts /\ forall i p, nth_error prompts i = Some p ->
      length (nth i out []) = g_num c /\ forall h, In h (nth i out []) -> exists g, shyp_ok D c prompts i p g h.
  Proof.
    intros Hs E. assert (Hx : XP < g_max_seq c) by (unfold sgenerate in E; destruct (Nat.leb_spec (g_max_seq c) XP); [discriminate|assumption]).
    destruct (generate_ok D c prompts Hs Hx out E) as [A B]. split; [exact A|]. intros i p Hp. assert (i < length prompts) by (apply nth_error_Some; congruence).
    destruct (B i H) as [B1 B2]. split; [exact B1|]. intros h Hh. rewrite Forall_forall in B2. destruct (B2 h Hh) as (p' & g & N & G & _). rewrite Hp in N. inversion N; subst. exists g; exact G.
  Qed.
  (** With a sampler that returns tokens of positive probability: no PAD, not before the minimum length, every token possible. *)
  Theorem C37_clean out : ssound c prompts -> proper D c prompts -> sgenerate D c prompts = SHyps c out ->
    forall i p, nth_error prompts i = Some p -> forall h, In h (nth i out []) -> exists g, shyp_ok D c prompts i p g h /\ sclean D c prompts i p g.
  Proof.
    intros Hs P E. assert (Hx : XP < g_max_seq c) by (unfold sgenerate in E; destruct (Nat.leb_spec (g_max_seq c) XP); [discriminate|assumption]).
    destruct (generate_ok D c prompts Hs Hx out E) as [A B]. intros i p Hp. assert (i < length prompts) by (apply nth_error_Some; congruence).
    destruct (B i H) as [B1 B2]. intros h Hh. rewrite Forall_forall in B2. destruct (B2 h Hh) as (p' & g & N & G & C). rewrite Hp in N. inversion N; subst. exists g; auto.
  Qed.
  (** Best hypotheses first, if scores are computed. *)
  Theorem C37_sorted out : ssound c prompts -> g_compute_scores c = true ->
    (forall a b, g_leb c a b = true \/ g_leb c b a = true) -> (forall a b d, g_leb c a b = true -> g_leb c b d = true -> g_leb c a d = true) ->
    sgenerate D c prompts = SHyps c out -> forall i j k a b, j < k -> option_map (y_score c) (nth_error (nth i out []) j) = Some (Some a) -> option_map (y_score c) (nth_error (nth i out []) k) = Some (Some b) -> g_leb c b a = true.
  Proof.
    intros Hs CS T1 T2 E i. assert (Hx : XP < g_max_seq c) by (unfold sgenerate in E; destruct (Nat.leb_spec (g_max_seq c) XP); [discriminate|assumption]).
    assert (S := generate_sorted D c prompts Hs Hx T1 T2 out CS E i). induction S as [|x l S IH F]; intros [|j] [|k] a b JK Ha Hb; simpl in *; try lia; try discriminate.
    - destruct (nth_error l k) as [y|] eqn:Ek; [|discriminate]. simpl in Hb. inversion Ha as [Ha']. inversion Hb as [Hb']. rewrite Forall_forall in F. specialize (F y (nth_error_In _ _ Ek)).
      unfold better in F. rewrite Ha', Hb' in F. exact F.
    - eapply IH; [|eassumption|eassumption]. lia.
  Qed.
  Theorem C37_too_long : sgenerate D c prompts = SPromptTooLong c <-> (exists p, In p prompts /\ g_max_seq c <= length p) \/ g_max_seq c = 0.
  Proof.
    assert (K : g_max_seq c <= XP <-> (exists p, In p prompts /\ g_max_seq c <= length p) \/ g_max_seq c = 0).
    { split.
      - intros H. unfold max_prompt_len, list_max in H. destruct (proj2 (proj2 (fold_max_spec (map (@length nat) prompts) 0))) as [E|E].
        + right. lia.
        + apply in_map_iff in E. destruct E as (p & E & Hp). left. exists p. split; [exact Hp|]. lia.
      - intros [(p & H1 & H2)|H]; [|lia]. pose proof (max_prompt_ge prompts p H1). lia. }
    rewrite <- K. unfold sgenerate. destruct (Nat.leb_spec (g_max_seq c) XP); [split; auto|]. destruct (sloop _ _ _ _ _); split; try discriminate; lia.
  Qed.
  (** It fails only if the sampler does. *)
  Theorem C37_no_error : (forall r ps, g_sample c r ps <> None) -> sgenerate D c prompts <> SamplerError c.
  Proof.
    intros H. unfold sgenerate. destruct (g_max_seq c <=? XP); [discriminate|].
    assert (R : forall t rs k, sstep_rows D c prompts t k rs <> None).
    { intros t. induction rs as [|r rs IH]; intros k; simpl; [discriminate|]. specialize (IH (k + 1)).
      assert (S1 : sstep_row D c prompts t k r <> None).
      { unfold sstep_row. destruct (sfeed D (w_ds D r) _) as [d ps]. destruct (Nat.eqb t (XS - 1)); [discriminate|]. specialize (H (g_rand c t k) (sadjust c prompts t (firstn t (w_buf D r)) ps)). destruct (g_sample _ _ _); [discriminate|congruence]. }
      destruct (sstep_row D c prompts t k r); [|congruence]. destruct (sstep_rows D c prompts t (k + 1) rs); [discriminate|congruence]. }
    assert (L : forall ts s, sloop D c prompts ts s <> None).
    { induction ts as [|t ts IH]; intros s; simpl; [discriminate|]. unfold sstep. specialize (R t (s_rows D c s) 0). destruct (sstep_rows D c prompts t 0 (s_rows D c s)) as [l|]; [|congruence].
      destruct (map fst (filter snd l)); [apply IH|]. destruct (map fst (filter (fun x => negb (snd x)) l)); [discriminate|apply IH]. }
    specialize (L (seq (min_prompt_len prompts) (XS - min_prompt_len prompts)) (sinit_state D c prompts)). destruct (sloop _ _ _ _ _); [discriminate|congruence].
  Qed.
End C37.
Print Assumptions C37_form.
Print Assumptions C37_clean.
Print Assumptions C37_sorted.
Print Assumptions C37_too_long.
Print Assumptions C37_no_error.

(** The library's samplers are proper as long as no penalty makes a probability negative. *)
Theorem C37_top_p_proper D c prompts mult sortd p : multinomial_ok mult -> sortd_ok sortd -> g_sample c = top_p (g_Rand c) mult sortd p ->
  (forall i s x, In x (offered D c prompts i s) -> 0 <= x)%Q -> proper D c prompts.
Proof.
  intros Hm Hs Es NN r i s v _ _ H. rewrite Es in H. set (l := offered D c prompts i s) in *. assert (NL : forall x, In x l -> (0 <= x)%Q) by apply NN.
  destruct (Qlt_le_dec 0 (qsum l)) as [T|T].
  - destruct (C38_top_p _ mult sortd p l Hm Hs NL T) as (N & _ & A & _). apply (A r v H).
  - exfalso. assert (E : (qsum l == 0)%Q) by (pose proof (qsum_nonneg l NL); lra). unfold top_p in H. destruct (mult r _) as [j|] eqn:Ej; [|discriminate].
    destruct (Hm _ _ _ Ej) as (_ & _ & J). rewrite nth_qnorm in J. set (q := qsum _) in J.
    assert (Z : forall l' p acc, (forall x, In x l' -> x == 0)%Q -> forall j, (nth j (nucleus p acc l') 0 == 0)%Q).
    { clear. induction l' as [|x l' IH]; intros p acc Z [|j]; simpl; try reflexivity; [|apply IH; intros; apply Z; right; assumption].
      destruct (Qle_bool _ _); [apply Z; left; reflexivity|reflexivity]. }
    rewrite Z in J; [unfold Qdiv in J; lra|]. intros x Hx. apply in_map_iff in Hx. destruct Hx as (k & <- & _). rewrite nth_qnorm, E. unfold Qdiv. apply Qmult_0_r.
Qed.
Print Assumptions C37_top_p_proper.
Theorem C37_top_k_proper D c prompts mult topk argmax k : multinomial_ok mult -> qtopk_ok topk -> argmax_ok argmax -> g_sample c = top_k (g_Rand c) mult topk argmax k -> 2 <= k ->
  (forall i s x, In x (offered D c prompts i s) -> 0 <= x)%Q -> (forall i s, 2 <= length (offered D c prompts i s)) -> proper D c prompts.
Proof.
  intros Hm Hk Ha Es K NN V r i s v _ _ H. rewrite Es in H. specialize (V i s).
  destruct (top_k_main _ mult Hm topk argmax Hk Ha k (offered D c prompts i s)) as (N & _ & _ & _ & _ & A & _); [intros Z; rewrite Z in V; simpl in V; lia|lia|].
  apply (A K V (NN i s) r v H).
Qed.
Print Assumptions C37_top_k_proper.

(** A model over 5 tokens (0: PAD, 1: EOS) whose probabilities depend on the last token. *)
Definition SD : sdecoder := SDecoder (list nat) (fun _ => []) (fun d t => (d ++ [t], if Nat.eqb t 2 then [1#10; 2#10; 1#10; 3#10; 3#10] else [1#10; 1#10; 4#10; 3#10; 1#10])%Q).
Definition SC (n : nat) (smp : nat -> list Q -> option nat) : sconfig :=
  SConfig n 1 (Some 0) None 5 2 4 16 (Some 2) true true 0%Q (list Q) (fun l => l) (fun _ x => x) (fun a b => Qle_bool (qsum a) (qsum b)) (fun _ l => l) (fun _ _ => 7) nat (fun t k => t + 3 * k) smp.
Definition SC1 := SC 2 (top_k nat some_multinomial some_qtopk some_argmax 4).
Definition SP : list (list nat) := [[2; 3; 4]; [2; 2]].
Example C37_example_sound : ssound SC1 SP.
Proof. constructor; [reflexivity|simpl; lia|]. repeat constructor; discriminate. Qed.
Lemma SD_offered i s : length (offered SD SC1 SP i s) = 5 /\ forall x, In x (offered SD SC1 SP i s) -> (0 <= x)%Q.
Proof.
  unfold offered. set (ps := next_probs SD i s). assert (P : length ps = 5 /\ Forall (fun x => 0 <= x)%Q ps).
  { unfold ps, next_probs, SD. cbn [snd sfeed]. destruct (Nat.eqb _ 2); split; try reflexivity; repeat (constructor; [apply Qle_bool_iff; reflexivity|]); constructor. }
  destruct P as [L F]. destruct ps as [|a [|b [|d [|e [|f [|]]]]]]; try discriminate L. inversion F as [|? ? A1 F1]; inversion F1 as [|? ? A2 F2]; inversion F2 as [|? ? A3 F3]; inversion F3 as [|? ? A4 F4]; inversion F4 as [|? ? A5 F5]; subst. unfold sadjust. destruct (Nat.eqb _ _); [|destruct (_ <? _)]; cbn [g_process g_unk g_pad g_eos SC1 SC set_nth length]; (split; [reflexivity|]); intros x Hx; cbn [In] in Hx;
    repeat (destruct Hx as [<-|Hx]; [first [assumption|apply Qle_refl]|]); destruct Hx.
Qed.
Example C37_example_proper : proper SD SC1 SP.
Proof.
  apply C37_top_k_proper with (mult := some_multinomial) (topk := some_qtopk) (argmax := some_argmax) (k := 4); auto using some_multinomial_ok, some_qtopk_ok, some_argmax_ok.
  - intros i s x. apply SD_offered.
  - intros i s. rewrite (proj1 (SD_offered i s)). lia.
Qed.
Example C37_example : match sgenerate SD SC1 SP with SHyps _ out => map (map (fun h => y_seq SC1 h)) out | _ => [] end =
  [[[2; 3; 4; 2; 3; 3; 1]; [2; 3; 4; 2; 2; 3; 1]]; [[2; 2; 2; 3; 3; 4; 1]; [2; 2; 2; 3; 1]]].
Proof. vm_compute. reflexivity. Qed.
(** max_gen_len counts from the longest prompt: a shorter one is continued by more than max_gen_len tokens. *)
Theorem C37_max_gen_len_refuted : exists D c prompts i p h out, ssound c prompts /\ proper D c prompts /\ sgenerate D c prompts = SHyps c out /\
  nth_error prompts i = Some p /\ In h (nth i out []) /\ g_echo c = true /\ length p + g_max_gen c < length (y_seq c h).
Proof.
  pose proof C37_example as K. pose proof C37_example_sound as S0. pose proof C37_example_proper as P0.
  destruct (sgenerate SD SC1 SP) as [out| |] eqn:E; [|discriminate K|discriminate K].
  destruct out as [|o0 [|o1 out]]; try discriminate K. destruct o1 as [|h o1]; [discriminate K|]. injection K as _ K1 _ _.
  exists SD, SC1, SP, 1, [2; 2], h, (o0 :: (h :: o1) :: out).
  split; [exact S0|]. split; [exact P0|]. split; [exact E|]. split; [reflexivity|]. split; [left; reflexivity|]. split; [reflexivity|]. rewrite K1. apply Nat.leb_le. reflexivity.
Qed.
Print Assumptions C37_max_gen_len_refuted.
(** num_gens = 0 is accepted and gives one hypothesis. *)
Theorem C37_zero_gens_refuted : exists D c prompts out, g_num c = 0 /\ check_args (g_min_gen c) (g_max_gen c) (g_chunk c) = true /\ sgenerate D c prompts = SHyps c out /\ map (@length _) out = [1; 1].
Proof.
  set (c0 := SC 0 (top_k nat some_multinomial some_qtopk some_argmax 4)).
  assert (K : match sgenerate SD c0 SP with SHyps _ out => map (@length _) out | _ => [] end = [1; 1]) by (vm_compute; reflexivity).
  destruct (sgenerate SD c0 SP) as [out| |] eqn:E; [|discriminate K|discriminate K]. exists SD, c0, SP, out. auto.
Qed.
Print Assumptions C37_zero_gens_refuted.
(** Greedy sampling (k = 1) generates PAD if nothing has a positive probability, for example after a processor banned all tokens. *)
Definition SC_ban : sconfig :=
  SConfig 1 1 (Some 0) None 5 2 4 16 None false false 0%Q (list Q) (fun l => l) (fun _ x => x) (fun a b => true) (fun _ l => map (fun _ => 0%Q) l) (fun _ _ => 7) nat (fun t k => t) (top_k nat some_multinomial some_qtopk some_argmax 1).
Theorem C37_greedy_refuted : exists D c prompts h, ssound c prompts /\ sgenerate D c prompts = SHyps c [[h]] /\ g_pad c = Some 0 /\ g_echo c = false /\ In 0 (y_seq c h).
Proof.
  assert (K : match sgenerate SD SC_ban [[2]] with SHyps _ out => map (map (y_seq SC_ban)) out | _ => [] end = [[[0; 0; 0; 1]]]) by (vm_compute; reflexivity).
  destruct (sgenerate SD SC_ban [[2]]) as [out| |] eqn:E; [|discriminate K|discriminate K].
  destruct out as [|[|h [|]] [|]]; try discriminate K. injection K as K. exists SD, SC_ban, [[2]], h.
  split; [constructor; [reflexivity|simpl; lia|repeat constructor; discriminate]|]. split; [exact E|]. split; [reflexivity|]. split; [reflexivity|]. rewrite K. simpl. auto.
Qed.
Print Assumptions C37_greedy_refuted.
(** A penalty on UNK makes its probability negative: with a distribution that is fine otherwise sampling fails. *)
Definition SC_unk (pen : Q) : sconfig :=
  SConfig 1 1 (Some 0) (Some 4) 5 2 4 16 None false false pen (list Q) (fun l => l) (fun _ x => x) (fun a b => true) (fun _ l => l) (fun _ _ => 7) nat (fun t k => t) (top_k nat some_multinomial some_qtopk some_argmax 5).
Theorem C37_unk_penalty_refuted : exists D prompts, (exists out, sgenerate D (SC_unk 0) prompts = SHyps _ out) /\ sgenerate D (SC_unk (1#2)) prompts = SamplerError _.
Proof.
  assert (K : match sgenerate SD (SC_unk 0) [[2]] with SHyps _ out => true | _ => false end = true) by (vm_compute; reflexivity).
  assert (K' : match sgenerate SD (SC_unk (1#2)) [[2]] with SamplerError _ => true | _ => false end = true) by (vm_compute; reflexivity).
  exists SD, [[2]]. destruct (sgenerate SD (SC_unk 0) [[2]]) as [out| |]; try discriminate K. destruct (sgenerate SD (SC_unk (1#2)) [[2]]); try discriminate K'. eauto.
Qed.
Print Assumptions C37_unk_penalty_refuted.
