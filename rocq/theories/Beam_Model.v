(** Model of beam search.
    /repo/src/fairseq2/generation/beam_search/generator.py, algo.py *)
From Coq Require Import List Bool Arith Lia.
Import ListNotations.

(** Scores: floating point numbers idealised to any type with the operations the code uses; [leb] is the order of torch.topk and
    of list.sort. NaN (generator.py 553-554, 602-603) is left out. *)
Record scores := Scores { Sc : Type; zero : Sc; add : Sc -> Sc -> Sc; sub : Sc -> Sc -> Sc; leb : Sc -> Sc -> bool; ninf : Sc }.

(** The model: a decoder with an incremental state. [start i]: the state before any token for prompt [i] (for seq2seq models this
    holds the encoded source [i]). [feed] consumes a token and returns the log probabilities of the next one, i.e. logits divided
    by the temperature after log_softmax. Every row of a batch is decoded on its own. *)
Record decoder (S : scores) := Decoder { DS : Type; start : nat -> DS; feed : DS -> nat -> DS * list (Sc S) }.
Arguments DS {S} _. Arguments start {S} _ _. Arguments feed {S} _ _ _.

Record config (S : scores) := Config {
  beam_size : nat; eos : nat; pad : option nat; unk : option nat; vocab : nat;
  min_gen_len : nat; max_gen_len : nat; cfg_max_seq_len : nat; prefill_chunk : option nat;
  echo_prompt : bool;
  penalize : Sc S -> Sc S;                           (* - unk_penalty *)
  normalize : nat -> Sc S -> Sc S;                   (* / (seq_len - 1) ** len_penalty, or the identity *)
  process : list nat -> list (Sc S) -> list (Sc S);  (* the step processors on one row *)
  topk : nat -> list (Sc S) -> list nat;             (* the indices returned by torch.topk *)
  garbage : nat -> nat -> nat }.                     (* torch.empty and the padding of the prompts *)
Arguments beam_size {S} _. Arguments eos {S} _. Arguments pad {S} _. Arguments unk {S} _. Arguments vocab {S} _.
Arguments min_gen_len {S} _. Arguments max_gen_len {S} _. Arguments cfg_max_seq_len {S} _. Arguments prefill_chunk {S} _.
Arguments echo_prompt {S} _. Arguments penalize {S} _ _. Arguments normalize {S} _ _ _. Arguments process {S} _ _ _.
Arguments topk {S} _ _ _. Arguments garbage {S} _ _ _.

Fixpoint set_nth {A} (i : nat) (v : A) (l : list A) : list A :=
  match l, i with [], _ => [] | _ :: l', O => v :: l' | x :: l', S j => x :: set_nth j v l' end.
Fixpoint mapi_from {A B} (f : nat -> A -> B) (i : nat) (l : list A) : list B :=
  match l with [] => [] | x :: l' => f i x :: mapi_from f (S i) l' end.
Definition mapi {A B} (f : nat -> A -> B) (l : list A) : list B := mapi_from f 0 l.

(** generator.py 114-132: the checks of the generator's constructor. *)
Definition check_args (min_gen max_gen : nat) (chunk : option nat) : bool :=
  negb (min_gen <? 1) && negb (max_gen <? 1) && negb (max_gen <? min_gen) && match chunk with Some c => negb (c <? 1) | None => true end.

Section Beam.
  Variable S : scores.
  Variable D : decoder S.
  Variable c : config S.
  Notation Sc := (Sc S).
  (** The prompts; generator.py 397-498 receives them as a padded batch with its layout. *)
  Variable prompts : list (list nat).

  Definition list_min (l : list nat) : nat := match l with [] => 0 | x :: l' => fold_left Nat.min l' x end.
  Definition list_max (l : list nat) : nat := fold_left Nat.max l 0.
  (** generator.py 428-437 *)
  Definition min_prompt_len : nat := list_min (map (@length nat) prompts).
  Definition max_prompt_len : nat := list_max (map (@length nat) prompts).
  Definition min_seq_len : nat := Nat.min (cfg_max_seq_len c) (max_prompt_len + min_gen_len c).
  Definition max_seq_len : nat := Nat.min (cfg_max_seq_len c) (max_prompt_len + max_gen_len c).

  (** A row of the batch: its entries in _prompt_indices, _prompt_lens, _seqs, _step_scores and in the incremental state.
      generator.py 456-488. The prompt lengths are kept also if the batch is not padded, where they all equal max_prompt_len;
      _prompt_mask[row, j] is j < the prompt length. *)
  Record row := Row { r_prompt : nat; r_len : nat; r_buf : list nat; r_sc : list Sc; r_ds : DS D }.
  Definition init_row (i : nat) (p : list nat) : row :=
    Row i (length p) (p ++ map (garbage c i) (seq (length p) (max_seq_len - length p))) (repeat (zero S) max_seq_len) (start D i).

  (** Hypothesis(seq, score, step_scores) *)
  Record hyp := Hyp { h_seq : list nat; h_score : Sc; h_steps : list Sc }.
  (** The state of the operation: _beam_sizes, the rows, _output. *)
  Record state := State { beam_sizes : list nat; rows : list row; output : list (list hyp) }.

  (** ** Prefill: generator.py 529-583 *)
  Fixpoint feed_all (d : DS D) (toks : list nat) : DS D * list (list Sc) :=
    match toks with
    | [] => (d, [])
    | t :: toks' => let '(d1, o) := feed D d t in let '(d2, os) := feed_all d1 toks' in (d2, o :: os)
    end.
  Fixpoint cumsum (acc : option Sc) (l : list Sc) : list Sc :=
    match l with
    | [] => []
    | x :: l' => let y := match acc with None => x | Some a => add S a x end in y :: cumsum (Some y) l'
    end.
  Definition gather (os : list (list Sc)) (toks : list nat) : list Sc := map (fun ot => nth (snd ot) (fst ot) (ninf S)) (combine os toks).
  (** seqs[:, a : a + n] and its assignment *)
  Definition slice {A} (a n : nat) (l : list A) : list A := firstn n (skipn a l).
  Definition write {A} (a : nat) (vs l : list A) : list A := firstn a l ++ vs ++ skipn (a + length vs) l.
  Definition prefill_chunk_row (b n : nat) (r : row) : row :=
    let '(d, os) := feed_all (r_ds r) (slice b n (r_buf r)) in
    let ps := map (fun x => add S x (nth b (r_sc r) (zero S))) (cumsum None (gather os (slice (b + 1) n (r_buf r)))) in
    Row (r_prompt r) (r_len r) (r_buf r) (write (b + 1) ps (r_sc r)) d.
  Definition chunk_size (b : nat) : nat :=
    let n := min_prompt_len - b - 1 in match prefill_chunk c with Some m => if m <? n then m else n | None => n end.
  (** The loop of generator.py 534-576; [fuel] is never used up because chunks are not empty. *)
  Fixpoint prefill_loop (fuel b : nat) (rs : list row) : list row :=
    match fuel with
    | O => rs
    | Datatypes.S f => if b <? min_prompt_len - 1 then prefill_loop f (b + chunk_size b) (map (prefill_chunk_row b (chunk_size b)) rs) else rs
    end.
  (** generator.py 524-527 *)
  Definition prepare (rs : list row) : list row := if 1 <? min_prompt_len then prefill_loop min_prompt_len 0 rs else rs.

  (** ** One step *)
  (** generator.py 605-625 on one row; [prefix] is seqs[:, :step_nr]. *)
  Definition adjust (t : nat) (prefix : list nat) (lp : list Sc) : list Sc :=
    if Nat.eqb t (max_seq_len - 1) then mapi (fun i x => if Nat.eqb i (eos c) then x else ninf S) lp
    else
      let lp := process c prefix lp in
      let lp := match unk c with Some u => mapi (fun i x => if Nat.eqb i u then penalize c x else x) lp | None => lp end in
      let lp := match pad c with Some p => set_nth p (ninf S) lp | None => lp end in
      if t <? min_seq_len - 1 then set_nth (eos c) (ninf S) lp else lp.
  (** generator.py 587-625: decode the last token, adjust. *)
  Definition decode_row (t : nat) (r : row) : row * list Sc :=
    let '(d, lp) := feed D (r_ds r) (nth (t - 1) (r_buf r) 0) in
    (Row (r_prompt r) (r_len r) (r_buf r) (r_sc r) d, adjust t (firstn t (r_buf r)) lp).

  (** BeamStep: algo.py 44-57, one entry per candidate. *)
  Record cand := Cand { c_seq : nat; c_tok : nat; c_score : Sc }.
  (** StandardBeamSearchAlgorithm.step: algo.py 94-107; (row, its log probabilities) *)
  Definition algo_step (t : nat) (rs : list (row * list Sc)) : list cand :=
    let flat := concat (map (fun rl => map (fun x => add S x (nth (t - 1) (r_sc (fst rl)) (zero S))) (snd rl)) rs) in
    map (fun i => Cand (i / vocab c) (i mod vocab c) (nth i flat (ninf S))) (topk c (Nat.min (2 * beam_size c) (vocab c)) flat).

  (** generator.py 756-799. The code first writes EOS and its score into the row; the row is overwritten or dropped afterwards
      (generator.py 667-673), so only the written copy is modelled. *)
  Definition finish (t : nat) (r : row) (score : Sc) : hyp :=
    let buf := set_nth t (eos c) (r_buf r) in
    let sc := set_nth t score (r_sc r) in
    let b := if echo_prompt c then 0 else r_len r in
    let n := t + 1 - b in
    let st := slice b n sc in
    Hyp (slice b n buf) (normalize c t score)
        (match st with [] => [] | x :: _ => x :: map (fun ab => sub S (snd ab) (fst ab)) (combine st (tl st)) end).
  (** generator.py 739-743: finish one sequence after the other until [beam_size] hypotheses are found. *)
  Fixpoint finish_all (t : nat) (rs : list row) (cs : list cand) (out : list (list hyp)) : list (list hyp) * bool :=
    match cs with
    | [] => (out, false)
    | x :: cs' =>
        match nth_error rs (c_seq x) with
        | None => finish_all t rs cs' out
        | Some r =>
            let hs := nth (r_prompt r) out [] ++ [finish t r (c_score x)] in
            let out := set_nth (r_prompt r) hs out in
            if Nat.eqb (length hs) (beam_size c) then (out, true) else finish_all t rs cs' out
        end
    end.

  Inductive result (A : Type) := Ok (a : A) | InternalError.
  Arguments Ok {A} _. Arguments InternalError {A}.

  (** generator.py 685-751; [all]: the rows of the whole batch, [rs]: those of this beam, which begin at [off]. *)
  Definition search_beam (t off : nat) (all : list row) (rs : list (row * list Sc)) (out : list (list hyp)) : result (list (list hyp) * option (list cand)) :=
    let in_prompt := (t <? max_prompt_len) && match nth_error all off with Some r => t <? r_len r | None => false end in
    if in_prompt then
      match rs with
      | [(r, lp)] => let v := nth t (r_buf r) 0 in Ok (out, Some [Cand off v (add S (nth (t - 1) (r_sc r) (zero S)) (nth v lp (ninf S)))])
      | _ => InternalError
      end
    else
      let next := map (fun x => Cand (c_seq x + off) (c_tok x) (c_score x)) (algo_step t rs) in
      let is_eos x := Nat.eqb (c_tok x) (eos c) in
      let done := filter is_eos (firstn (beam_size c) next) in
      match done with
      | [] => Ok (out, Some (firstn (beam_size c) next))
      | _ =>
          match finish_all t all done out with
          | (out, true) => Ok (out, None)
          | (out, false) => Ok (out, Some (firstn (beam_size c) (filter (fun x => negb (is_eos x)) next)))
          end
      end.

  (** generator.py 627-665: the beams one after the other; returns the output, the new beam sizes and the merged candidates. *)
  Fixpoint search_all (t off : nat) (all : list row) (sizes : list nat) (rs : list (row * list Sc)) (out : list (list hyp)) : result (list (list hyp) * list nat * list cand) :=
    match sizes with
    | [] => Ok (out, [], [])
    | n :: sizes' =>
        match search_beam t off all (firstn n rs) out with
        | InternalError => InternalError
        | Ok (out, next) =>
            match next with
            | Some [] => InternalError
            | _ =>
                match search_all t (off + n) all sizes' (skipn n rs) out with
                | InternalError => InternalError
                | Ok (out, ns, cs) => match next with None => Ok (out, ns, cs) | Some l => Ok (out, length l :: ns, l ++ cs) end
                end
            end
        end
    end.

  (** generator.py 667-673 and 801-819: the rows selected by the candidates, with the new token and score. *)
  Fixpoint select (t : nat) (all : list row) (cs : list cand) : list row :=
    match cs with
    | [] => []
    | x :: cs' =>
        match nth_error all (c_seq x) with
        | None => select t all cs'
        | Some r => Row (r_prompt r) (r_len r) (set_nth t (c_tok x) (r_buf r)) (set_nth t (c_score x) (r_sc r)) (r_ds r) :: select t all cs'
        end
    end.

  (** generator.py 585-683; the boolean is the return value. *)
  Definition step (t : nat) (s : state) : result (state * bool) :=
    let dec := map (decode_row t) (rows s) in
    let all := map fst dec in
    match search_all t 0 all (beam_sizes s) dec (output s) with
    | InternalError => InternalError
    | Ok (out, [], _) => Ok (State (beam_sizes s) all out, false)
    | Ok (out, ns, cs) => Ok (State ns (select t all cs) out, true)
    end.

  (** generator.py 505-507 *)
  Fixpoint loop (ts : list nat) (s : state) : result state :=
    match ts with
    | [] => Ok s
    | t :: ts' => match step t s with InternalError => InternalError | Ok (s', false) => Ok s' | Ok (s', true) => loop ts' s' end
    end.

  (** hypotheses.sort(key=score, reverse=True), which is stable: generator.py 518-520 *)
  Fixpoint insert (h : hyp) (l : list hyp) : list hyp :=
    match l with [] => [h] | x :: l' => if leb S (h_score h) (h_score x) then x :: insert h l' else h :: l end.
  Definition sort_hyps (l : list hyp) : list hyp := fold_left (fun acc h => insert h acc) l [].

  Definition init_state : state := State (map (fun _ => 1) prompts) (prepare (mapi init_row prompts)) (map (fun _ => []) prompts).

  Inductive outcome := Hyps (l : list (list hyp)) | PromptTooLong | Broken.
  (** generator.py 430-433 and 500-522 *)
  Definition generate : outcome :=
    if cfg_max_seq_len c <=? max_prompt_len then PromptTooLong
    else match loop (seq min_prompt_len (max_seq_len - min_prompt_len)) init_state with
         | InternalError => Broken
         | Ok s => Hyps (map sort_hyps (output s))
         end.
End Beam.
