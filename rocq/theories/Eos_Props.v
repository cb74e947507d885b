(** C34 and C37: generation with a vocabulary whose PAD is its EOS, as it is the
    one of Qwen base models (C81_distinct_refuted). *)
From Coq Require Import List Bool Arith Lia QArith.
From Verif Require Import Beam_Model Beam_Spec Beam_Proofs Beam_Proofs2 Beam_Proofs3 Beam_Props Sampling_Model Sampling_Spec Sampling_Props.
Import ListNotations.
Local Open Scope nat_scope.

Lemma nth_set_default : forall {A} n (x : A) l, nth n (set_nth n x l) x = x.
Proof. intros A n. induction n as [|n IH]; intros x [|a l]; cbn; auto. Qed.

Lemma finite_total : forall S l, score_laws S -> finite S (total S l) -> forall x, In x l -> finite S x.
Proof.
  intros S l L. induction l as [|a l IH]; intros F x I; [contradiction|]. cbn in F.
  apply (add_finite S L) in F. destruct F as [Fa Fl]. destruct I as [<-|I]; [exact Fa|now apply IH].
Qed.

(** The last token of prompt, continuation and EOS. *)
Lemma nth_last_eos : forall (p g : list nat) e, nth (length (p ++ g ++ [e]) - 1) (p ++ g ++ [e]) 0 = e.
Proof.
  intros. rewrite app_assoc. rewrite app_length. cbn [length].
  rewrite app_nth2 by lia. replace (length (p ++ g) + 1 - 1 - length (p ++ g)) with 0 by lia. reflexivity.
Qed.

(** The model is not able to end a sequence: beam search continues every
    sequence up to the greatest length, at which EOS is forced, whatever
    probability the model gives to EOS. *)
Theorem C34_pad_is_eos : forall S D c prompts out,
  sound S D c prompts -> ample S D c prompts -> prompts <> [] -> pad c = Some (eos c) ->
  generate S D c prompts = Hyps _ out ->
  forall i p hs h, nth_error prompts i = Some p -> nth_error out i = Some hs -> In h hs ->
  exists g, h_seq S h = (if echo_prompt c then p else []) ++ g ++ [eos c] /\
    length (p ++ g ++ [eos c]) = Nat.min (cfg_max_seq_len c) (max_prompt_len prompts + max_gen_len c).
Proof.
  intros S D c prompts out Hs Ha N Pe G i p hs h Ep Eh Hh.
  assert (Hl : max_prompt_len prompts < cfg_max_seq_len c). { unfold generate in G. destruct (Nat.leb_spec (cfg_max_seq_len c) (max_prompt_len prompts)); [discriminate|lia]. }
  pose proof (result_ok S D c prompts True Hs (fun _ => Ha) N Hl) as R. rewrite G in R. destruct R as [_ R].
  destruct (R i p hs Ep Eh) as (_ & _ & _ & R4). destruct (R4 h Hh) as (g & [H1 H2 H3 H4 H5] & X). destruct (X Logic.I) as [X1 X2 X3].
  exists g. unfold whole in *. split; [rewrite H1; destruct (echo_prompt c); reflexivity|].
  assert (Mx : max_seq_len S c prompts = Nat.min (cfg_max_seq_len c) (max_prompt_len prompts + max_gen_len c)) by reflexivity.
  rewrite <- Mx.
  destruct (Nat.eq_dec (length (p ++ g ++ [eos c])) (max_seq_len S c prompts)) as [E|E]; [exact E|exfalso].
  set (s := p ++ g ++ [eos c]) in *. set (j := length s - 1).
  assert (Pn : p <> []) by (pose proof (sd_prompts _ _ _ _ Hs) as F; rewrite Forall_forall in F; apply F; eapply nth_error_In; eauto).
  assert (Ls : length s = length p + length g + 1) by (unfold s; rewrite !app_length; cbn; lia).
  assert (Lp : 1 <= length p) by (destruct p; [congruence|cbn; lia]).
  assert (Mp : min_prompt_len prompts <= length p) by (apply min_prompt_le; eapply nth_error_In; eauto).
  unfold seq_score in X3.
  pose proof (finite_total S _ (sd_laws _ _ _ _ Hs) X3 (token_score S D c prompts i j s)) as F.
  assert (I : In (token_score S D c prompts i j s) (map (fun j => token_score S D c prompts i j s) (seq 1 (length s - 1)))).
  { apply in_map_iff. exists j. split; [reflexivity|]. apply in_seq. unfold j. lia. }
  specialize (F I). unfold token_score in F.
  replace (j <? min_prompt_len prompts) with false in F by (symmetry; apply Nat.ltb_ge; unfold j; lia).
  replace (nth j s 0) with (eos c) in F by (symmetry; apply nth_last_eos).
  unfold adjust in F.
  replace (Nat.eqb j (max_seq_len S c prompts - 1)) with false in F by (symmetry; apply Nat.eqb_neq; unfold j; lia).
  cbn zeta in F. rewrite Pe in F.
  assert (Q : forall l, nth (eos c) (if j <? min_seq_len S c prompts - 1 then set_nth (eos c) (ninf S) (set_nth (eos c) (ninf S) l)
      else set_nth (eos c) (ninf S) l) (ninf S) = ninf S).
  { intros l. destruct (j <? _); apply nth_set_default. }
  rewrite Q in F. unfold finite in F. rewrite (ninf_least S (sd_laws _ _ _ _ Hs)) in F. discriminate.
Qed.
Print Assumptions C34_pad_is_eos.

(** The same holds of sampling. *)
Theorem C37_pad_is_eos : forall D c prompts out,
  ssound c prompts -> proper D c prompts -> g_pad c = Some (g_eos c) -> sgenerate D c prompts = SHyps c out ->
  forall i p, nth_error prompts i = Some p -> forall h, In h (nth i out []) ->
  exists g, y_seq c h = (if g_echo c then p else []) ++ g ++ [g_eos c] /\
    length (p ++ g ++ [g_eos c]) = Nat.min (g_max_seq c) (max_prompt_len prompts + g_max_gen c).
Proof.
  intros D c prompts out Hs P Pe G i p Ep h Hh.
  destruct (C37_clean D c prompts out Hs P G i p Ep h Hh) as (g & [H1 H2 H3 H4 H5] & [X1 X2 X3 X4]).
  exists g. unfold swhole in *. split; [rewrite H1; destruct (g_echo c); reflexivity|].
  assert (Mx : smax_seq_len c prompts = Nat.min (g_max_seq c) (max_prompt_len prompts + g_max_gen c)) by reflexivity.
  rewrite <- Mx.
  destruct (Nat.eq_dec (length (p ++ g ++ [g_eos c])) (smax_seq_len c prompts)) as [E|E]; [exact E|exfalso].
  set (s := p ++ g ++ [g_eos c]) in *.
  assert (Pn : p <> []) by (pose proof (ss_prompts _ _ Hs) as F; rewrite Forall_forall in F; apply F; eapply nth_error_In; eauto).
  assert (Ls : length s = length p + length g + 1) by (unfold s; rewrite !app_length; cbn; lia).
  assert (Lp : 1 <= length p) by (destruct p; [congruence|cbn; lia]).
  assert (Mp : min_prompt_len prompts <= length p) by (apply min_prompt_le; eapply nth_error_In; eauto).
  assert (F := X2 ltac:(lia)). unfold token_prob in F.
  replace (length p + length g) with (length s - 1) in F by lia. set (j := length s - 1) in *.
  replace (Nat.eqb j 0) with false in F by (symmetry; apply Nat.eqb_neq; lia).
  replace (j <? min_prompt_len prompts) with false in F by (symmetry; apply Nat.ltb_ge; lia).
  replace (nth j s 0) with (g_eos c) in F by (symmetry; apply nth_last_eos).
  assert (Lf : length (firstn j s) = j) by (rewrite firstn_length; lia).
  unfold offered, sadjust in F. rewrite Lf in F.
  replace (Nat.eqb j (smax_seq_len c prompts - 1)) with false in F by (symmetry; apply Nat.eqb_neq; lia).
  cbn zeta in F. rewrite Pe in F.
  assert (Q : forall l, nth (g_eos c) (if j <? smin_seq_len c prompts - 1 then set_nth (g_eos c) 0%Q (set_nth (g_eos c) 0%Q l)
      else set_nth (g_eos c) 0%Q l) 0%Q = 0%Q).
  { intros l. destruct (j <? _); apply nth_set_default. }
  rewrite Q in F. exact (Qlt_irrefl 0 F).
Qed.
Print Assumptions C37_pad_is_eos.

(** The model and the prompts of [C34_example], with EOS as PAD: the second
    prompt was continued by 5 tokens there, and by 6 tokens here. *)
Definition c2 : config ZS :=
  @Config ZS 2 1 (Some 1) None 8 2 4 10 (Some 1) true (fun x => x) (fun _ x => x) (fun _ l => l) (some_topk ZS) (fun i j => 7 * i + j).
Example C34_pad_is_eos_sound : sound ZS (M 8) c2 ps.
Proof.
  constructor.
  - apply ZS_laws.
  - apply some_topk_ok, ZS_laws.
  - reflexivity.
  - cbn. lia.
  - repeat constructor; discriminate.
  - cbn. lia.
  - intros i s. apply M_length.
  - reflexivity.
Qed.
Example C34_pad_is_eos_ample : ample ZS (M 8) c2 ps.
Proof.
  assert (AF : forall t s l v, t < max_seq_len ZS c2 ps - 1 -> 2 <= v < length l -> nth v (adjust ZS c2 ps t s l) None = nth v l None).
  { intros t s l v Ht Hv. unfold adjust. destruct (Nat.eqb_spec t (max_seq_len ZS c2 ps - 1)); [lia|]. cbn [process unk pad eos c2].
    destruct (_ <? _); rewrite ?nth_set_nth; destruct v as [|[|v]]; try lia; reflexivity. }
  split.
  - apply Nat.leb_le. reflexivity.
  - apply Nat.ltb_lt. reflexivity.
  - intros p E. injection E as <-. apply Nat.ltb_lt. reflexivity.
  - apply M_finite.
  - intros i s Ns Hs. exists [2; 3; 4; 5]. split; [repeat constructor; simpl; intuition discriminate|]. split; [reflexivity|]. intros v Hv. simpl in Hv.
    assert (V8 : 2 <= v < 8) by (clear -Hv; destruct Hv as [<-|[<-|[<-|[<-|[]]]]]; lia). split; [exact (proj2 V8)|]. rewrite AF; [|exact Hs|rewrite M_length; exact V8]. unfold M. rewrite prefix_next by exact Ns. apply lm_finite. lia.
  - intros i p j E Hj. destruct i as [|[|i]]; simpl in E; [injection E as <-|injection E as <-; simpl in Hj; lia|destruct i; discriminate].
    simpl in Hj. destruct j as [|[|[|j]]]; try lia; vm_compute; reflexivity.
Qed.
Example C34_pad_is_eos_case :
  match generate ZS (M 8) c2 ps with
  | Hyps _ out => map (map (fun h => length (h_seq ZS h))) out = [[7; 7]; [7; 7]]
  | _ => False
  end.
Proof. vm_compute. reflexivity. Qed.

(** Sampling: the model and the prompts of [C37_example], with EOS as PAD. *)
Definition SC2 : sconfig :=
  SConfig 2 1 (Some 1) None 5 2 4 16 (Some 2) true true 0%Q (list Q) (fun l => l) (fun _ x => x) (fun a b => Qle_bool (qsum a) (qsum b)) (fun _ l => l) (fun _ _ => 7) nat (fun t k => t + 3 * k)
    (top_k nat some_multinomial some_qtopk some_argmax 4).
Example C37_pad_is_eos_sound : ssound SC2 SP.
Proof. constructor; [reflexivity|simpl; lia|]. repeat constructor; discriminate. Qed.
Lemma SC2_offered i s : length (offered SD SC2 SP i s) = 5 /\ forall x, In x (offered SD SC2 SP i s) -> (0 <= x)%Q.
Proof.
  unfold offered. set (ps := next_probs SD i s). assert (P : length ps = 5 /\ Forall (fun x => 0 <= x)%Q ps).
  { unfold ps, next_probs, SD. cbn [snd sfeed]. destruct (Nat.eqb _ 2); split; try reflexivity; repeat (constructor; [apply Qle_bool_iff; reflexivity|]); constructor. }
  destruct P as [L F]. destruct ps as [|a [|b [|d [|e [|f [|]]]]]]; try discriminate L. inversion F as [|? ? A1 F1]; inversion F1 as [|? ? A2 F2]; inversion F2 as [|? ? A3 F3]; inversion F3 as [|? ? A4 F4]; inversion F4 as [|? ? A5 F5]; subst. unfold sadjust. destruct (Nat.eqb _ _); [|destruct (_ <? _)]; cbn [g_process g_unk g_pad g_eos SC2 set_nth length]; (split; [reflexivity|]); intros x Hx; cbn [In] in Hx;
    repeat (destruct Hx as [<-|Hx]; [first [assumption|apply Qle_refl]|]); destruct Hx.
Qed.
Example C37_pad_is_eos_proper : proper SD SC2 SP.
Proof.
  apply C37_top_k_proper with (mult := some_multinomial) (topk := some_qtopk) (argmax := some_argmax) (k := 4); auto using some_multinomial_ok, some_qtopk_ok, some_argmax_ok.
  - intros i s x. apply SC2_offered.
  - intros i s. rewrite (proj1 (SC2_offered i s)). lia.
Qed.
Example C37_pad_is_eos_case :
  match sgenerate SD SC2 SP with SHyps _ out => map (map (fun h => length (y_seq SC2 h))) out = [[7; 7]; [7; 7]] | _ => False end.
Proof. vm_compute. reflexivity. Qed.
