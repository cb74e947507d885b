(** What beam search promises, stated without its state. *)
From Coq Require Import List Bool Arith Lia Sorted.
From Verif Require Import Beam_Model.
Import ListNotations.

(** Scores: a totally ordered commutative monoid with a least element -inf that absorbs; sums are exact. *)
Definition finite (S : scores) (x : Sc S) : Prop := leb S x (ninf S) = false.
Record score_laws (S : scores) : Prop := {
  add_comm : forall a b, add S a b = add S b a;
  add_assoc : forall a b d, add S a (add S b d) = add S (add S a b) d;
  add_zero : forall a, add S (zero S) a = a;
  leb_total : forall a b, leb S a b = true \/ leb S b a = true;
  leb_trans : forall a b d, leb S a b = true -> leb S b d = true -> leb S a d = true;
  ninf_least : forall a, leb S (ninf S) a = true;
  zero_finite : finite S (zero S);
  add_finite : forall a b, finite S (add S a b) <-> finite S a /\ finite S b }.

(** torch.topk: [k] different indices in descending order of their values, none of the others has a greater value; which of two
    equal values is chosen is left open. *)
Definition topk_ok (S : scores) (f : nat -> list (Sc S) -> list nat) : Prop :=
  forall k l, k <= length l ->
    length (f k l) = k /\ NoDup (f k l) /\ (forall i, In i (f k l) -> i < length l) /\
    StronglySorted (fun i j => leb S (nth j l (ninf S)) (nth i l (ninf S)) = true) (f k l) /\
    (forall i j, In i (f k l) -> j < length l -> ~ In j (f k l) -> leb S (nth j l (ninf S)) (nth i l (ninf S)) = true).

Section Spec.
  Variable S : scores.
  Variable D : decoder S.
  Variable c : config S.
  Variable prompts : list (list nat).

  (** The log probabilities the model gives to the token after [s], for prompt [i]. *)
  Definition state_after (i : nat) (s : list nat) : DS D := fold_left (fun d t => fst (feed D d t)) s (start D i).
  Definition next_lprobs (i : nat) (s : list nat) : list (Sc S) := snd (feed D (state_after i (removelast s)) (last s 0)).

  (** The score of token number [j] of [s] given the tokens before it: the model's log probability, for tokens after the shortest
      prompt with the user's processors, penalties and bans applied. *)
  Definition token_score (i j : nat) (s : list nat) : Sc S :=
    let raw := next_lprobs i (firstn j s) in
    nth (nth j s 0) (if j <? min_prompt_len prompts then raw else adjust S c prompts j (firstn j s) raw) (ninf S).
  Definition raw_score (i j : nat) (s : list nat) : Sc S := nth (nth j s 0) (next_lprobs i (firstn j s)) (ninf S).
  Definition total (l : list (Sc S)) : Sc S := fold_right (add S) (zero S) l.
  (** The first token has no score. *)
  Definition seq_score (i : nat) (s : list nat) : Sc S := total (map (fun j => token_score i j s) (seq 1 (length s - 1))).

  (** The settings pass the constructor's checks, the prompts are not empty, the model scores the whole vocabulary. *)
  Record sound : Prop := {
    sd_laws : score_laws S;
    sd_topk : topk_ok S (topk c);
    sd_args : check_args (min_gen_len c) (max_gen_len c) (prefill_chunk c) = true;
    sd_beam : 1 <= beam_size c;
    sd_prompts : Forall (fun p => p <> []) prompts;
    sd_vocab : 1 <= vocab c;
    sd_lprobs : forall i s, length (next_lprobs i s) = vocab c;
    sd_process : forall s l, length (process c s l) = length l }.

  (** There are always enough tokens to continue with: the model's log probabilities are finite, and in every step but the last
      2 x beam_size tokens are neither banned nor the excluded PAD or EOS; the prompts hold no banned tokens. *)
  Record ample : Prop := {
    am_vocab : 2 * beam_size c <= vocab c;
    am_eos : eos c < vocab c;
    am_pad : forall p, pad c = Some p -> p < vocab c;
    am_finite : forall i s x, In x (next_lprobs i s) -> finite S x;
    am_enough : forall i s, s <> [] -> length s < max_seq_len S c prompts - 1 ->
      exists l, NoDup l /\ length l = 2 * beam_size c /\
        forall v, In v l -> v < vocab c /\ finite S (nth v (adjust S c prompts (length s) s (next_lprobs i s)) (ninf S));
    am_prompt : forall i p j, nth_error prompts i = Some p -> 1 <= j < length p -> finite S (token_score i j p) }.

  (** [g] is what is generated for prompt [i], EOS not included, in hypothesis [h]. *)
  Definition whole (p g : list nat) : list nat := p ++ g ++ [eos c].
  Definition step_score (i b : nat) (s : list nat) (k : nat) : Sc S :=
    if Nat.eqb k b then seq_score i (firstn (k + 1) s) else sub S (seq_score i (firstn (k + 1) s)) (seq_score i (firstn k s)).
  Record hyp_ok (i : nat) (p g : list nat) (h : hyp S) : Prop := {
    ho_seq : h_seq S h = if echo_prompt c then whole p g else g ++ [eos c];
    ho_eos : ~ In (eos c) g;
    ho_len : length (whole p g) <= max_seq_len S c prompts;
    ho_score : h_score S h = normalize c (length (whole p g) - 1) (seq_score i (whole p g));
    ho_steps : let b := if echo_prompt c then 0 else length p in
               h_steps S h = map (step_score i b (whole p g)) (seq b (length (whole p g) - b)) }.
End Spec.

(** [n] calls of the step function, from step number [t] on, lead from [s] to [s']; only the last may report the end. *)
Inductive steps (S : scores) (D : decoder S) (c : config S) (prompts : list (list nat)) : nat -> nat -> state S D -> state S D -> Prop :=
| steps_none t s : steps S D c prompts t 0 s s
| steps_end t s s' : step S D c prompts t s = Ok _ (s', false) -> steps S D c prompts t 1 s s'
| steps_more t n s s' s'' : step S D c prompts t s = Ok _ (s', true) -> steps S D c prompts (t + 1) n s' s'' -> steps S D c prompts t (n + 1) s s''.
