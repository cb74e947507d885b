(** What sampling promises, stated without its state. *)
From Coq Require Import List Bool Arith Lia QArith Sorted Permutation.
From Verif Require Import Beam_Model Sampling_Model.
Import ListNotations.
Open Scope nat_scope.

Section Spec.
  Variable D : sdecoder.
  Variable c : sconfig.
  Variable prompts : list (list nat).

  (** The probabilities the model gives to the token after [s], for prompt [i]. *)
  Definition sstate_after (i : nat) (s : list nat) : SDS D := fold_left (fun d t => fst (sfeed D d t)) s (sstart D i).
  Definition next_probs (i : nat) (s : list nat) : list Q := snd (sfeed D (sstate_after i (removelast s)) (last s 0)).
  (** What the sampler sees after [s]. *)
  Definition offered (i : nat) (s : list nat) : list Q := sadjust c prompts (length s) s (next_probs i s).
  (** The probability of token number [j] of [s] given the tokens before it: the model's, for tokens after the shortest prompt with
      the user's processors, penalties and bans applied. The first token has none, its score is 0. *)
  Definition token_prob (j : nat) (i : nat) (s : list nat) : Q :=
    if Nat.eqb j 0 then 0%Q
    else nth (nth j s 0) (if j <? min_prompt_len prompts then next_probs i (firstn j s) else offered i (firstn j s)) 0%Q.

  (** The settings pass the constructor's checks and the prompts are not empty. *)
  Record ssound : Prop := {
    ss_args : check_args (g_min_gen c) (g_max_gen c) (g_chunk c) = true;
    ss_gens : 1 <= g_num c;
    ss_prompts : Forall (fun p => p <> []) prompts }.
  (** The sampler returns only tokens of positive probability from what it is offered in the steps before the last. *)
  Definition proper : Prop :=
    forall r i s v, s <> [] -> length s < smax_seq_len c prompts - 1 -> g_sample c r (offered i s) = Some v -> (0 < nth v (offered i s) 0)%Q.

  Definition swhole (p g : list nat) : list nat := p ++ g ++ [g_eos c].
  (** [h] is [p], continued by [g] and EOS. *)
  Record shyp_ok (i : nat) (p g : list nat) (h : shyp c) : Prop := {
    sh_seq : y_seq c h = if g_echo c then swhole p g else g ++ [g_eos c];
    sh_eos : ~ In (g_eos c) g;
    sh_len : length (swhole p g) <= smax_seq_len c prompts;
    sh_steps : y_steps c h = if g_compute_scores c
                             then Some (let b := if g_echo c then 0 else length p in map (fun j => token_prob j i (swhole p g)) (seq b (length (swhole p g) - b)))
                             else None;
    sh_score : y_score c h = if g_compute_scores c
                             then Some (g_normalize c (length (swhole p g) - 1) (g_logsum c (map (fun j => token_prob j i (swhole p g)) (seq 1 (length (swhole p g) - 1)))))
                             else None }.
  (** Every generated token had positive probability, PAD is not generated, EOS not before the minimum length. *)
  Record sclean (i : nat) (p g : list nat) : Prop := {
    sc_prob : forall j, length p <= j < length p + length g -> (0 < token_prob j i (swhole p g))%Q;
    sc_last : length (swhole p g) < smax_seq_len c prompts -> (0 < token_prob (length p + length g) i (swhole p g))%Q;
    sc_pad : forall x, g_pad c = Some x -> ~ In x g;
    sc_min : smin_seq_len c prompts <= length (swhole p g) }.
End Spec.

(** torch.multinomial raises an error unless the numbers are not negative and one is positive; it never returns an index of
    probability zero. *)
Definition multinomial_ok {R} (f : R -> list Q -> option nat) : Prop :=
  forall r l j, f r l = Some j -> (forall x, In x l -> 0 <= x)%Q /\ j < length l /\ (0 < nth j l 0)%Q.
(** torch.sort(descending=True): the indices; equal values in any order. *)
Definition sortd_ok (f : list Q -> list nat) : Prop :=
  forall l, Permutation (seq 0 (length l)) (f l) /\ StronglySorted (fun i j => nth j l 0 <= nth i l 0)%Q (f l).
(** torch.topk: [k] different indices, none of the others has a greater value. *)
Definition qtopk_ok (f : nat -> list Q -> list nat) : Prop :=
  forall k l, k <= length l ->
    length (f k l) = k /\ NoDup (f k l) /\ (forall i, In i (f k l) -> i < length l) /\
    (forall i j, In i (f k l) -> j < length l -> ~ In j (f k l) -> (nth j l 0 <= nth i l 0)%Q).
Definition argmax_ok (f : list Q -> nat) : Prop := forall l, l <> [] -> f l < length l /\ forall i, i < length l -> (nth i l 0 <= nth (f l) l 0)%Q.

(** [N] is a set of most probable tokens. *)
Definition top_set (l : list Q) (N : list nat) : Prop :=
  NoDup N /\ (forall i, In i N -> i < length l) /\ forall i j, In i N -> j < length l -> ~ In j N -> (nth j l 0 <= nth i l 0)%Q.
Definition mass (l : list Q) (N : list nat) : Q := qsum (map (fun i => nth i l 0%Q) N).
(** [N] is a smallest set of most probable tokens whose share of the total exceeds [p], or all tokens if there is none. *)
Definition is_nucleus (p : Q) (l : list Q) (N : list nat) : Prop :=
  top_set l N /\ ((p * qsum l < mass l N)%Q \/ length N = length l) /\
  forall M, NoDup M -> (forall i, In i M -> i < length l) -> length M < length N -> (mass l M <= p * qsum l)%Q.
