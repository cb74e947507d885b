(** C34 - C36: beam search. *)
From Coq Require Import List Bool Arith Lia ZArith Sorted Permutation.
From Verif Require Import Beam_Model Beam_Spec Beam_Proofs Beam_Proofs2 Beam_Proofs3.
Import ListNotations.

(** All that is known about the result, for the theorems below. *)
Lemma result_ok S D c prompts (reg : Prop) : sound S D c prompts -> (reg -> ample S D c prompts) -> prompts <> [] -> max_prompt_len prompts < cfg_max_seq_len c ->
  match generate S D c prompts with
  | Hyps _ out => length out = length prompts /\ forall i p hs, nth_error prompts i = Some p -> nth_error out i = Some hs ->
      StronglySorted (desc S) hs /\ length hs <= beam_size c /\ (reg -> hs <> []) /\
      forall h, In h hs -> exists g, hyp_ok S D c prompts i p g h /\ (reg -> extra S D c prompts i p g)
  | PromptTooLong _ => False
  | Broken _ => ~ reg
  end.
Proof.
  intros Hs Hr N Hl. pose proof (generate_ok S D c prompts reg Hs Hr Hl N) as G. destruct (generate S D c prompts) as [out| |]; [|exact G|exact G].
  destruct G as (s & [F1 F2] & ->). rewrite map_length. split; [exact F1|]. intros i p hs Ep Eh.
  assert (Hi : i < length prompts) by (apply nth_error_Some; congruence). destruct (F2 i Hi) as (A1 & A2 & A3).
  rewrite nth_error_map in Eh. destruct (nth_error (output S D s) i) as [hs0|] eqn:E; [|discriminate]. injection Eh as <-. rewrite (nth_error_nth _ _ [] E) in *.
  pose proof (sort_perm S hs0) as P. split; [apply (sort_sorted S (sd_laws _ _ _ _ Hs))|]. split; [rewrite (Permutation_length P); exact A2|]. split.
  - intros R Q. apply (A3 R). rewrite Q in P. apply Permutation_nil. exact P.
  - intros h Hh. apply (Permutation_in _ P) in Hh. rewrite Forall_forall in A1. destruct (A1 h Hh) as (p' & g & E1 & E2 & E3). assert (p' = p) by congruence. subst. exists g. auto.
Qed.

(** ** C34 *)
(** Beam search ends after at most max_seq_len steps. *)
Theorem C34_ends : forall S D c prompts out, generate S D c prompts = Hyps _ out ->
  exists n s, n <= cfg_max_seq_len c /\ steps S D c prompts (min_prompt_len prompts) n (init_state S D c prompts) s /\ out = map (sort_hyps S) (output S D s).
Proof.
  intros S D c prompts out H. unfold generate in H. destruct (_ <=? _); [discriminate|].
  destruct (loop S D c prompts _ _) as [s|] eqn:E; [|discriminate]. injection H as <-. apply loop_steps in E. destruct E as (n & Hn & Hst).
  exists n, s. split; [|auto]. unfold max_seq_len in Hn. lia.
Qed.
Print Assumptions C34_ends.

(** Every hypothesis is the prompt, tokens other than EOS, and EOS, within the length limits. *)
Theorem C34_form : forall S D c prompts out, sound S D c prompts -> prompts <> [] -> generate S D c prompts = Hyps _ out ->
  forall i p hs h, nth_error prompts i = Some p -> nth_error out i = Some hs -> In h hs ->
  exists g, h_seq S h = (if echo_prompt c then p else []) ++ g ++ [eos c] /\ ~ In (eos c) g /\
    length (p ++ g ++ [eos c]) <= cfg_max_seq_len c /\ length (p ++ g ++ [eos c]) <= max_prompt_len prompts + max_gen_len c.
Proof.
  intros S D c prompts out Hs N G i p hs h Ep Eh Hh.
  assert (Hl : max_prompt_len prompts < cfg_max_seq_len c). { unfold generate in G. destruct (Nat.leb_spec (cfg_max_seq_len c) (max_prompt_len prompts)); [discriminate|lia]. }
  pose proof (result_ok S D c prompts False Hs ltac:(contradiction) N Hl) as R. rewrite G in R. destruct R as [_ R].
  destruct (R i p hs Ep Eh) as (_ & _ & _ & R4). destruct (R4 h Hh) as (g & [H1 H2 H3 H4 H5] & _). exists g.
  unfold whole in *. unfold max_seq_len in H3. split; [rewrite H1; destruct (echo_prompt c); reflexivity|]. split; [exact H2|]. lia.
Qed.
Print Assumptions C34_form.

(** If there are always enough tokens to choose from: no PAD, and at least min_gen_len tokens counted from the longest prompt
    (as far as max_seq_len allows). *)
Theorem C34_clean : forall S D c prompts out, sound S D c prompts -> ample S D c prompts -> prompts <> [] -> generate S D c prompts = Hyps _ out ->
  forall i p hs h, nth_error prompts i = Some p -> nth_error out i = Some hs -> In h hs ->
  exists g, h_seq S h = (if echo_prompt c then p else []) ++ g ++ [eos c] /\ (forall v, In v g -> pad c <> Some v) /\
    (max_prompt_len prompts + min_gen_len c <= length (p ++ g ++ [eos c]) \/ length (p ++ g ++ [eos c]) = cfg_max_seq_len c).
Proof.
  intros S D c prompts out Hs Ha N G i p hs h Ep Eh Hh.
  assert (Hl : max_prompt_len prompts < cfg_max_seq_len c). { unfold generate in G. destruct (Nat.leb_spec (cfg_max_seq_len c) (max_prompt_len prompts)); [discriminate|lia]. }
  pose proof (result_ok S D c prompts True Hs (fun _ => Ha) N Hl) as R. rewrite G in R. destruct R as [_ R].
  destruct (R i p hs Ep Eh) as (_ & _ & _ & R4). destruct (R4 h Hh) as (g & [H1 H2 H3 H4 H5] & X). destruct (X I) as [X1 X2 X3]. exists g.
  unfold whole in *. unfold max_seq_len, min_seq_len in *. split; [rewrite H1; destruct (echo_prompt c); reflexivity|]. split; [exact X1|]. lia.
Qed.
Print Assumptions C34_clean.

(** ** C35 *)
(** At most beam_size hypotheses for every prompt, best first. *)
Theorem C35_sorted : forall S D c prompts out, sound S D c prompts -> prompts <> [] -> generate S D c prompts = Hyps _ out ->
  length out = length prompts /\ forall hs, In hs out -> length hs <= beam_size c /\ StronglySorted (fun a b => leb S (h_score S b) (h_score S a) = true) hs.
Proof.
  intros S D c prompts out Hs N G.
  assert (Hl : max_prompt_len prompts < cfg_max_seq_len c). { unfold generate in G. destruct (Nat.leb_spec (cfg_max_seq_len c) (max_prompt_len prompts)); [discriminate|lia]. }
  pose proof (result_ok S D c prompts False Hs ltac:(contradiction) N Hl) as R. rewrite G in R. destruct R as [R0 R]. split; [exact R0|].
  intros hs Hh. apply In_nth_error in Hh. destruct Hh as [i Ei]. destruct (nth_error prompts i) as [p|] eqn:Ep.
  - destruct (R i p hs Ep Ei) as (A & B & _). auto.
  - apply nth_error_None in Ep. assert (i < length out) by (apply nth_error_Some; congruence). lia.
Qed.
Print Assumptions C35_sorted.

(** If there are always enough tokens to choose from: generation succeeds and every prompt gets a hypothesis with a finite score. *)
Theorem C35_found : forall S D c prompts, sound S D c prompts -> ample S D c prompts -> prompts <> [] -> max_prompt_len prompts < cfg_max_seq_len c ->
  exists out, generate S D c prompts = Hyps _ out /\ length out = length prompts /\ forall hs, In hs out -> hs <> [].
Proof.
  intros S D c prompts Hs Ha N Hl. pose proof (result_ok S D c prompts True Hs (fun _ => Ha) N Hl) as R.
  destruct (generate S D c prompts) as [out| |]; [|contradiction|exfalso; apply R; exact I]. destruct R as [R0 R]. exists out. split; [reflexivity|]. split; [exact R0|].
  intros hs Hh. apply In_nth_error in Hh. destruct Hh as [i Ei]. destruct (nth_error prompts i) as [p|] eqn:Ep.
  - destruct (R i p hs Ep Ei) as (_ & _ & A & _). auto.
  - apply nth_error_None in Ep. assert (i < length out) by (apply nth_error_Some; congruence). lia.
Qed.
Print Assumptions C35_found.

(** Prompts that leave no room are refused, others are not. *)
Theorem C35_too_long : forall S D c prompts, sound S D c prompts -> prompts <> [] ->
  (generate S D c prompts = PromptTooLong _ <-> exists p, In p prompts /\ cfg_max_seq_len c <= length p).
Proof.
  intros S D c prompts Hs N. assert (M : exists p, In p prompts /\ length p = max_prompt_len prompts).
  { unfold max_prompt_len, list_max. destruct (fold_max_spec (map (@length nat) prompts) 0) as (_ & A & [B|B]).
    - destruct prompts as [|p ps]; [congruence|]. exists p. split; [left; reflexivity|]. specialize (A (length p) (or_introl eq_refl)). lia.
    - apply in_map_iff in B. destruct B as (p & E & Hp). exists p. auto. }
  split.
  - intros G. unfold generate in G. destruct (Nat.leb_spec (cfg_max_seq_len c) (max_prompt_len prompts)) as [Y|Y]; [|destruct (loop S D c prompts _ _); discriminate].
    destruct M as (p & Hp & E). exists p. split; [exact Hp|lia].
  - intros (p & Hp & H). unfold generate. pose proof (max_prompt_ge prompts p Hp). destruct (Nat.leb_spec (cfg_max_seq_len c) (max_prompt_len prompts)); [reflexivity|lia].
Qed.
Print Assumptions C35_too_long.

(** ** C36 *)
(** The score is that of the hypothesis' own tokens, each given its own prefix (including the tokens of the prompt). *)
Theorem C36_score : forall S D c prompts out, sound S D c prompts -> prompts <> [] -> generate S D c prompts = Hyps _ out ->
  forall i p hs h, nth_error prompts i = Some p -> nth_error out i = Some hs -> In h hs ->
  exists g, h_seq S h = (if echo_prompt c then p else []) ++ g ++ [eos c] /\
    let s := p ++ g ++ [eos c] in
    h_score S h = normalize c (length s - 1) (total S (map (fun j => token_score S D c prompts i j s) (seq 1 (length s - 1)))) /\
    let b := length s - length (h_seq S h) in
    h_steps S h = map (fun k => if Nat.eqb k b then total S (map (fun j => token_score S D c prompts i j (firstn (k + 1) s)) (seq 1 k))
                                else sub S (total S (map (fun j => token_score S D c prompts i j (firstn (k + 1) s)) (seq 1 k)))
                                           (total S (map (fun j => token_score S D c prompts i j (firstn k s)) (seq 1 (k - 1))))) (seq b (length (h_seq S h))).
Proof.
  intros S D c prompts out Hs N G i p hs h Ep Eh Hh.
  assert (Hl : max_prompt_len prompts < cfg_max_seq_len c). { unfold generate in G. destruct (Nat.leb_spec (cfg_max_seq_len c) (max_prompt_len prompts)); [discriminate|lia]. }
  pose proof (result_ok S D c prompts False Hs ltac:(contradiction) N Hl) as R. rewrite G in R. destruct R as [_ R].
  destruct (R i p hs Ep Eh) as (_ & _ & _ & R4). destruct (R4 h Hh) as (g & [H1 H2 H3 H4 H5] & _). exists g.
  unfold whole in *. set (s := p ++ g ++ [eos c]) in *. split; [rewrite H1; destruct (echo_prompt c); reflexivity|]. split; [exact H4|]. cbn zeta.
  assert (Ls : length s = length p + (length g + 1)) by (unfold s; rewrite !app_length; reflexivity).
  assert (Eb : (if echo_prompt c then 0 else length p) = length s - length (h_seq S h)).
  { rewrite H1. destruct (echo_prompt c); [lia|]. rewrite app_length. simpl. lia. }
  rewrite <- Eb. set (b := if echo_prompt c then 0 else length p) in *. assert (Lh : length s - b = length (h_seq S h)).
  { rewrite H1. unfold b. destruct (echo_prompt c); [lia|]. rewrite app_length. simpl. lia. }
  cbn zeta in H5. rewrite Lh in H5. rewrite H5. apply map_ext_in. intros k Hk. apply in_seq in Hk. unfold step_score, seq_score.
  rewrite !firstn_length, !Nat.min_l by lia. rewrite Nat.add_sub. reflexivity.
Qed.
Print Assumptions C36_score.

(** Without step processors and UNK penalty: the score of a hypothesis, if finite, is the sum of the model's log probabilities of its
    tokens after the first, each given the tokens before it and the prompt it belongs to. *)
Theorem C36_plain : forall S D c prompts out, sound S D c prompts -> prompts <> [] -> generate S D c prompts = Hyps _ out ->
  (forall s l, process c s l = l) -> unk c = None -> (forall n x, normalize c n x = x) ->
  forall i p hs h, nth_error prompts i = Some p -> nth_error out i = Some hs -> In h hs -> finite S (h_score S h) ->
  exists g, h_seq S h = (if echo_prompt c then p else []) ++ g ++ [eos c] /\
    let s := p ++ g ++ [eos c] in h_score S h = total S (map (fun j => nth (nth j s 0) (next_lprobs S D i (firstn j s)) (ninf S)) (seq 1 (length s - 1))).
Proof.
  intros S D c prompts out Hs N G Hp Hu Hn i p hs h Ep Eh Hh F. destruct (C36_score S D c prompts out Hs N G i p hs h Ep Eh Hh) as (g & H1 & H2 & _).
  exists g. split; [exact H1|]. cbn zeta in *. set (s := p ++ g ++ [eos c]) in *. rewrite Hn in H2. rewrite H2 in F |- *. f_equal.
  pose proof (sd_laws _ _ _ _ Hs) as L. apply (total_finite S L) in F. rewrite Forall_forall in F. apply map_ext_in. intros j Hj.
  specialize (F _ (in_map _ _ _ Hj)). revert F. unfold token_score. destruct (j <? min_prompt_len prompts); [reflexivity|]. set (v := nth j s 0). set (l := next_lprobs S D i (firstn j s)).
  intros F. assert (NF : nth v (adjust S c prompts j (firstn j s) l) (ninf S) <> ninf S) by (intros E; rewrite E in F; apply (ninf_not_finite S D c prompts Hs F)).
  unfold adjust in *. rewrite Hp, Hu in *.
  destruct (Nat.eqb j _).
  - destruct (Nat.lt_ge_cases v (length l)) as [Y|Y]; [|destruct NF; apply nth_overflow; rewrite mapi_length; exact Y].
    rewrite (nth_mapi _ l v (ninf S)) in * by exact Y. destruct (Nat.eqb v (eos c)); [reflexivity|congruence].
  - destruct (pad c) as [q|]; destruct (j <? _); rewrite ?nth_set_nth in *; repeat (destruct (_ && _); [congruence|]); reflexivity.
Qed.
Print Assumptions C36_plain.

(** ** Concrete instances *)
(** A model given by a function of the tokens before. *)
Definition prefix_decoder (f : list nat -> list (option Z)) : decoder ZS := @Decoder ZS (list nat) (fun _ => []) (fun d t => (d ++ [t], f (d ++ [t]))).
Lemma prefix_next f i s : s <> [] -> next_lprobs ZS (prefix_decoder f) i s = f s.
Proof.
  intros N. unfold next_lprobs, state_after. simpl. assert (A : forall (s a : list nat), fold_left (fun d t => d ++ [t]) s a = a ++ s).
  { induction s0 as [|x s0 IH]; intros a; simpl; [rewrite app_nil_r; reflexivity|]. rewrite IH, <- app_assoc. reflexivity. }
  rewrite A. simpl. rewrite <- app_removelast_last by exact N. reflexivity.
Qed.
Definition sum (l : list nat) : nat := fold_left Nat.add l 0.
(** Log probabilities that depend on the prefix and the token. *)
Definition lm (V : nat) (s : list nat) : list (option Z) := map (fun v => Some (- Z.of_nat ((3 * sum s + 2 * v + length s) mod 7) - 1)%Z) (seq 0 V).
Definition conf (B V min_gen max_gen max_len : nat) (echo : bool) : config ZS :=
  @Config ZS B 1 (Some 0) None V min_gen max_gen max_len (Some 1) echo (fun x => x) (fun _ x => x) (fun _ l => l) (some_topk ZS) (fun i j => 7 * i + j).
Definition M (V : nat) : decoder ZS := prefix_decoder (lm V).
Lemma lm_length V s : length (lm V s) = V.
Proof. unfold lm. rewrite map_length. apply seq_length. Qed.
Lemma M_length V i s : length (next_lprobs ZS (M V) i s) = V.
Proof. unfold next_lprobs, M, prefix_decoder. cbn [feed snd]. apply lm_length. Qed.
Lemma lm_finite V s v : v < V -> finite ZS (nth v (lm V s) None).
Proof. intros H. destruct (nth v (lm V s) None) as [z|] eqn:E; [reflexivity|]. exfalso. assert (I : In (nth v (lm V s) None) (lm V s)) by (apply nth_In; rewrite lm_length; exact H).
  rewrite E in I. unfold lm in I. apply in_map_iff in I. destruct I as (x & X & _). discriminate. Qed.

Lemma M_finite V i s x : In x (next_lprobs ZS (M V) i s) -> finite ZS x.
Proof. intros Hx. apply (In_nth _ _ None) in Hx. destruct Hx as (k & Hk & <-). rewrite M_length in Hk. unfold next_lprobs, M, prefix_decoder. cbn [feed snd]. apply lm_finite, Hk. Qed.

Lemma conf_sound B V min_gen max_gen max_len echo prompts : 1 <= B -> 1 <= V -> 1 <= min_gen -> min_gen <= max_gen -> Forall (fun p => p <> []) prompts ->
  sound ZS (M V) (conf B V min_gen max_gen max_len echo) prompts.
Proof.
  intros HB HV H1 H2 H3. split; auto.
  - apply ZS_laws.
  - apply some_topk_ok, ZS_laws.
  - unfold check_args, conf; simpl. destruct min_gen; [lia|]. destruct max_gen; [lia|]. simpl. rewrite andb_true_r. apply negb_true_iff, Nat.ltb_ge. simpl in *. lia.
  - intros i s. apply M_length.
Qed.

(** Two prompts of different length; beams of size 2. *)
Definition ps : list (list nat) := [[2; 3; 4]; [5]].
Definition c1 : config ZS := conf 2 8 2 4 10 true.
Example C34_example_sound : sound ZS (M 8) c1 ps.
Proof. apply conf_sound; auto; try lia. repeat constructor; discriminate. Qed.
Example C34_example_ample : ample ZS (M 8) c1 ps.
Proof.
  assert (AF : forall t s l v, t < max_seq_len ZS c1 ps - 1 -> 2 <= v < length l -> nth v (adjust ZS c1 ps t s l) None = nth v l None).
  { intros t s l v Ht Hv. unfold adjust. destruct (Nat.eqb_spec t (max_seq_len ZS c1 ps - 1)); [lia|]. cbn [process unk pad eos c1 conf].
    destruct (_ <? _); rewrite ?nth_set_nth; destruct v as [|[|v]]; try lia; reflexivity. }
  split.
  - apply Nat.leb_le. reflexivity.
  - apply Nat.ltb_lt. reflexivity.
  - intros p E. injection E as <-. apply Nat.ltb_lt. reflexivity.
  - apply M_finite.
  - intros i s Ns Hs. exists [2; 3; 4; 5]. split; [repeat constructor; simpl; intuition discriminate|]. split; [reflexivity|]. intros v Hv. simpl in Hv.
    assert (V8 : 2 <= v < 8) by (clear -Hv; destruct Hv as [<-|[<-|[<-|[<-|[]]]]]; lia). split; [exact (proj2 V8)|]. rewrite AF; [|exact Hs|rewrite M_length; exact V8]. unfold M. rewrite prefix_next by exact Ns. apply lm_finite. lia.
  - intros i p j E Hj. destruct i as [|[|i]]; simpl in E; [injection E as <-|injection E as <-; simpl in Hj; lia|destruct i; discriminate].
    simpl in Hj. destruct j as [|[|[|j]]]; try lia; vm_compute; reflexivity.
Qed.
Example C34_example : generate ZS (M 8) c1 ps = Hyps ZS
  [[Hyp ZS [2; 3; 4; 6; 7; 7; 1] (Some (-21)%Z) [Some 0; Some (-7); Some (-5); Some (-1); Some (-1); Some (-2); Some (-5)]%Z;
    Hyp ZS [2; 3; 4; 6; 7; 3; 1] (Some (-22)%Z) [Some 0; Some (-7); Some (-5); Some (-1); Some (-1); Some (-1); Some (-7)]%Z];
   [Hyp ZS [5; 6; 7; 3; 5; 1] (Some (-6)%Z) [Some 0; Some (-1); Some (-1); Some (-1); Some (-1); Some (-2)]%Z;
    Hyp ZS [5; 6; 7; 3; 5; 4; 1] (Some (-6)%Z) [Some 0; Some (-1); Some (-1); Some (-1); Some (-1); Some (-1); Some (-1)]%Z]].
Proof. vm_compute. reflexivity. Qed.
Example C35_example_room : max_prompt_len ps < cfg_max_seq_len c1.
Proof. apply Nat.ltb_lt. reflexivity. Qed.

(** ** Findings *)
(** A prompt that holds EOS inside (as several translation models use it) in a batch with a shorter prompt: its score becomes -inf
    while the prompt is replayed, all candidates tie, and a hypothesis with PAD and one that is too short are returned, although
    the vocabulary is large enough and the model's log probabilities are finite. *)
Theorem C34_replayed_prompt_refuted : exists S D c prompts out, sound S D c prompts /\ prompts <> [] /\ 2 * beam_size c + 2 <= vocab c /\
  (forall i s x, In x (next_lprobs S D i s) -> finite S x) /\ (forall s l, process c s l = l) /\ generate S D c prompts = Hyps _ out /\
  (exists h, In h (nth 0 out []) /\ exists v, pad c = Some v /\ In v (h_seq S h)) /\
  (exists h, In h (nth 0 out []) /\ echo_prompt c = true /\ length (h_seq S h) < max_prompt_len prompts + min_gen_len c /\ length (h_seq S h) < cfg_max_seq_len c).
Proof.
  exists ZS, (M 8), c1, [[2; 1; 3]; [2]]. eexists. split; [apply conf_sound; auto; try lia; repeat constructor; discriminate|]. split; [discriminate|].
  split; [apply Nat.leb_le; reflexivity|]. split; [apply M_finite|]. split; [reflexivity|]. split; [vm_compute; reflexivity|]. split.
  - eexists. split; [right; left; reflexivity|]. exists 0. split; [reflexivity|]. simpl. auto.
  - eexists. split; [left; reflexivity|]. split; [reflexivity|]. split; apply Nat.ltb_lt; reflexivity.
Qed.
Print Assumptions C34_replayed_prompt_refuted.

(** The score of a prompt's hypotheses depends on the other prompts of the batch. *)
Theorem C36_batch_refuted : exists S D c p q out1 out2, sound S D c [p] /\ sound S D c [p; q] /\ (forall i s x, In x (next_lprobs S D i s) -> finite S x) /\
  (forall i j s, next_lprobs S D i s = next_lprobs S D j s) /\ generate S D c [p] = Hyps _ out1 /\ generate S D c [p; q] = Hyps _ out2 /\
  Forall (fun h => finite S (h_score S h)) (nth 0 out1 []) /\ nth 0 out2 [] <> [] /\ Forall (fun h => ~ finite S (h_score S h)) (nth 0 out2 []).
Proof.
  exists ZS, (M 8), c1, [2; 1; 3], [2]. eexists _, _. split; [apply conf_sound; auto; try lia; repeat constructor; discriminate|].
  split; [apply conf_sound; auto; try lia; repeat constructor; discriminate|]. split; [apply M_finite|]. split; [reflexivity|].
  split; [vm_compute; reflexivity|]. split; [vm_compute; reflexivity|]. split; [repeat constructor|]. split; [discriminate|]. repeat constructor; discriminate.
Qed.
Print Assumptions C36_batch_refuted.

(** max_gen_len is counted from the longest prompt, too: a shorter prompt may get more than max_gen_len tokens. *)
Theorem C34_max_gen_len_refuted : exists S D c prompts out i p g h, sound S D c prompts /\ ample S D c prompts /\ generate S D c prompts = Hyps _ out /\
  nth_error prompts i = Some p /\ In h (nth i out []) /\ echo_prompt c = true /\ h_seq S h = p ++ g /\ max_gen_len c < length g.
Proof.
  exists ZS, (M 8), c1, ps. eexists. exists 1, [5], [6; 7; 3; 5; 4; 1]. eexists. split; [apply C34_example_sound|]. split; [apply C34_example_ample|].
  split; [apply C34_example|]. split; [reflexivity|]. split; [right; left; reflexivity|]. split; [reflexivity|]. split; [reflexivity|]. apply Nat.ltb_lt. reflexivity.
Qed.
Print Assumptions C34_max_gen_len_refuted.

(** The score covers the prompt's own tokens: it is not the sum over the generated tokens. And with echo_prompt=False the first of the
    step scores is the sum over the prompt and the first generated token, not the score of that token. *)
Theorem C36_generated_only_refuted : exists S D c prompts out p g h, sound S D c prompts /\ generate S D c prompts = Hyps _ out /\ (forall s l, process c s l = l) /\
  (forall n x, normalize c n x = x) /\ nth_error prompts 0 = Some p /\ In h (nth 0 out []) /\ echo_prompt c = false /\ h_seq S h = g /\
  h_score S h <> total S (map (fun j => nth (nth j (p ++ g) 0) (next_lprobs S D 0 (firstn j (p ++ g))) (ninf S)) (seq (length p) (length g))) /\
  nth 0 (h_steps S h) (zero S) <> nth (nth 0 g 0) (next_lprobs S D 0 p) (ninf S).
Proof.
  exists ZS, (M 8), (conf 2 8 1 1 10 false), ps. eexists. exists [2; 3; 4], [1]. eexists. split; [apply conf_sound; auto; try lia; repeat constructor; discriminate|].
  split; [vm_compute; reflexivity|]. split; [reflexivity|]. split; [reflexivity|]. split; [reflexivity|]. split; [left; reflexivity|]. split; [reflexivity|]. split; [reflexivity|].
  split; vm_compute; discriminate.
Qed.
Print Assumptions C36_generated_only_refuted.
