(** Model of sampling generation and of the samplers.
    /repo/src/fairseq2/generation/sampling/generator.py, sampler.py *)
From Coq Require Import List Bool Arith Lia QArith.
From Verif Require Import Beam_Model.
Import ListNotations.
Open Scope nat_scope.

(** Probabilities are idealised to rational numbers; NaN (generator.py 567-568, 615-616) is left out. *)

(** The model: a decoder with an incremental state, as for beam search; [feed] returns the probabilities of the next token, i.e. the
    softmax of the logits divided by the temperature. Every row of a batch is decoded on its own. *)
Record sdecoder := SDecoder { SDS : Type; sstart : nat -> SDS; sfeed : SDS -> nat -> SDS * list Q }.

Record sconfig := SConfig {
  g_num : nat; g_eos : nat; g_pad : option nat; g_unk : option nat; g_vocab : nat;
  g_min_gen : nat; g_max_gen : nat; g_max_seq : nat; g_chunk : option nat;
  g_echo : bool; g_compute_scores : bool;
  g_unk_penalty : Q;
  g_Score : Type; g_logsum : list Q -> g_Score; g_normalize : nat -> g_Score -> g_Score; (* .log().sum(); / (seq_len - 1) ** len_penalty or the identity *)
  g_leb : g_Score -> g_Score -> bool;
  g_process : list nat -> list Q -> list Q;  (* the step processors on one row *)
  g_garbage : nat -> nat -> nat;             (* torch.empty and the padding of the prompts *)
  g_Rand : Type; g_rand : nat -> nat -> g_Rand; (* the random numbers drawn in a step for a row *)
  g_sample : g_Rand -> list Q -> option nat }.  (* the sampler on one row; None: it raises an error *)

Section Sampling.
  Variable D : sdecoder.
  Variable c : sconfig.
  (** The prompts; generator.py 392-497 receives them as a padded batch with its layout. *)
  Variable prompts : list (list nat).
  Notation DS := (SDS D).

  (** generator.py 424-435 *)
  Definition smin_seq_len : nat := Nat.min (g_max_seq c) (max_prompt_len prompts + g_min_gen c).
  Definition smax_seq_len : nat := Nat.min (g_max_seq c) (max_prompt_len prompts + g_max_gen c).

  (** A row of the batch: its entries in _prompt_indices, _prompt_lens, _seqs, _step_scores and in the incremental state:
      generator.py 454-490. The prompt lengths are kept also if the batch is not padded, where they all equal the longest one;
      _prompt_mask[row, j] is j < the prompt length. Step scores are kept also if compute_scores is off, but then not returned. *)
  Record srow := SRow { w_prompt : nat; w_len : nat; w_buf : list nat; w_sc : list Q; w_ds : DS }.
  Definition sinit_row (i : nat) (p : list nat) : srow :=
    SRow i (length p) (p ++ map (g_garbage c i) (seq (length p) (smax_seq_len - length p))) (repeat 0%Q smax_seq_len) (sstart D i).
  (** Hypothesis(seq, score, step_scores) *)
  Record shyp := SHyp { y_seq : list nat; y_score : option (g_Score c); y_steps : option (list Q) }.

  (** ** Prefill: generator.py 541-594 *)
  Fixpoint sfeed_all (d : DS) (toks : list nat) : DS * list (list Q) :=
    match toks with
    | [] => (d, [])
    | t :: toks' => let '(d1, o) := sfeed D d t in let '(d2, os) := sfeed_all d1 toks' in (d2, o :: os)
    end.
  Definition sgather (os : list (list Q)) (toks : list nat) : list Q := map (fun ot => nth (snd ot) (fst ot) 0%Q) (combine os toks).
  Definition sprefill_row (b n : nat) (r : srow) : srow :=
    let '(d, os) := sfeed_all (w_ds r) (slice b n (w_buf r)) in
    SRow (w_prompt r) (w_len r) (w_buf r) (write (b + 1) (sgather os (slice (b + 1) n (w_buf r))) (w_sc r)) d.
  Definition schunk_size (b : nat) : nat :=
    let n := min_prompt_len prompts - b - 1 in match g_chunk c with Some m => if m <? n then m else n | None => n end.
  (** The loop of generator.py 546-580; [fuel] is never used up because chunks are not empty. *)
  Fixpoint sprefill_loop (fuel b : nat) (rs : list srow) : list srow :=
    match fuel with
    | O => rs
    | S f => if b <? min_prompt_len prompts - 1 then sprefill_loop f (b + schunk_size b) (map (sprefill_row b (schunk_size b)) rs) else rs
    end.
  (** generator.py 524-539: prefill, then fan out to [num_gens] rows for each prompt. *)
  Definition sprepare (rs : list srow) : list srow :=
    let rs := if 1 <? min_prompt_len prompts then sprefill_loop (min_prompt_len prompts) 0 rs else rs in
    if 1 <? g_num c then flat_map (fun r => repeat r (g_num c)) rs else rs.

  (** ** One step *)
  (** generator.py 626-640 on one row; [prefix] is seqs[:, :step_nr]. *)
  Definition sadjust (t : nat) (prefix : list nat) (ps : list Q) : list Q :=
    if Nat.eqb t (smax_seq_len - 1) then ps
    else
      let ps := g_process c prefix ps in
      let ps := match g_unk c with Some u => mapi (fun i x => if Nat.eqb i u then x - g_unk_penalty c else x)%Q ps | None => ps end in
      let ps := match g_pad c with Some p => set_nth p 0%Q ps | None => ps end in
      if t <? smin_seq_len - 1 then set_nth (g_eos c) 0%Q ps else ps.
  (** generator.py 596-678 on row number [k]: the new row and whether it has reached EOS. *)
  Definition sstep_row (t k : nat) (r : srow) : option (srow * bool) :=
    let '(d, ps) := sfeed D (w_ds r) (nth (t - 1) (w_buf r) 0) in
    let ps := sadjust t (firstn t (w_buf r)) ps in
    match (if Nat.eqb t (smax_seq_len - 1) then Some (g_eos c) else g_sample c (g_rand c t k) ps) with
    | None => None
    | Some v =>
        let in_prompt := (t <? max_prompt_len prompts) && (t <? w_len r) in
        let v' := if in_prompt then nth t (w_buf r) 0 else v in
        Some (SRow (w_prompt r) (w_len r) (set_nth t v' (w_buf r)) (set_nth t (nth v' ps 0%Q) (w_sc r)) d,
              if in_prompt then false else Nat.eqb v (g_eos c))
    end.
  Fixpoint sstep_rows (t k : nat) (rs : list srow) : option (list (srow * bool)) :=
    match rs with
    | [] => Some []
    | r :: rs' => match sstep_row t k r with
                  | None => None
                  | Some x => match sstep_rows t (k + 1) rs' with None => None | Some l => Some (x :: l) end
                  end
    end.
  (** generator.py 714-755 *)
  Definition sfinish (t : nat) (r : srow) : shyp :=
    let b := if g_echo c then 0 else w_len r in
    let sc := firstn (t + 1) (w_sc r) in
    SHyp (slice b (t + 1 - b) (w_buf r))
         (if g_compute_scores c then Some (g_normalize c t (g_logsum c (skipn 1 sc))) else None)
         (if g_compute_scores c then Some (skipn b sc) else None).
  Definition sappend (out : list (list shyp)) (i : nat) (h : shyp) : list (list shyp) := set_nth i (nth i out [] ++ [h]) out.
  Record sstate := SState { s_rows : list srow; s_out : list (list shyp) }.
  (** generator.py 596-709 and 757-776; the boolean is the return value. *)
  Definition sstep (t : nat) (s : sstate) : option (sstate * bool) :=
    match sstep_rows t 0 (s_rows s) with
    | None => None
    | Some l =>
        let done := map fst (filter snd l) in
        let active := map fst (filter (fun x => negb (snd x)) l) in
        match done with
        | [] => Some (SState active (s_out s), true)
        | _ =>
            let out := fold_left (fun o r => sappend o (w_prompt r) (sfinish t r)) done (s_out s) in
            match active with [] => Some (SState (map fst l) out, false) | _ => Some (SState active out, true) end
        end
    end.
  (** generator.py 504-506 *)
  Fixpoint sloop (ts : list nat) (s : sstate) : option sstate :=
    match ts with
    | [] => Some s
    | t :: ts' => match sstep t s with None => None | Some (s', false) => Some s' | Some (s', true) => sloop ts' s' end
    end.
  (** hypotheses.sort(key=score, reverse=True), which is stable: generator.py 517-520 *)
  Definition below (h x : shyp) : bool := match y_score h, y_score x with Some a, Some b => g_leb c a b | _, _ => true end.
  Fixpoint sinsert (h : shyp) (l : list shyp) : list shyp :=
    match l with [] => [h] | x :: l' => if below h x then x :: sinsert h l' else h :: l end.
  Definition ssort (l : list shyp) : list shyp := fold_left (fun acc h => sinsert h acc) l [].

  Definition sinit_state : sstate := SState (sprepare (mapi sinit_row prompts)) (map (fun _ => []) prompts).
  Inductive soutcome := SHyps (l : list (list shyp)) | SPromptTooLong | SamplerError.
  (** generator.py 427-430 and 499-522 *)
  Definition sgenerate : soutcome :=
    if g_max_seq c <=? max_prompt_len prompts then SPromptTooLong
    else match sloop (seq (min_prompt_len prompts) (smax_seq_len - min_prompt_len prompts)) sinit_state with
         | None => SamplerError
         | Some s => SHyps (if g_compute_scores c then map ssort (s_out s) else s_out s)
         end.
End Sampling.

(** ** The samplers, on one row *)
Section Samplers.
  Variable R : Type.
  (** torch.multinomial(probs, num_samples=1); None: it raises an error. *)
  Variable multinomial : R -> list Q -> option nat.
  Definition qsum (l : list Q) : Q := fold_right Qplus 0%Q l.
  Definition qnorm (l : list Q) : list Q := map (fun x => x / qsum l)%Q l.

  (** torch.sort(descending=True), the indices *)
  Variable sortd : list Q -> list nat.
  (** sampler.py 54-58: [acc] is the sum of the values before. *)
  Fixpoint nucleus (p acc : Q) (l : list Q) : list Q :=
    match l with [] => [] | x :: l' => (if Qle_bool (acc + x - x) p then x else 0%Q) :: nucleus p (acc + x)%Q l' end.
  (** TopPSampler.sample: sampler.py 45-70 *)
  Definition top_p (p : Q) (r : R) (probs : list Q) : option nat :=
    let probs := qnorm probs in
    let idx := sortd probs in
    match multinomial r (qnorm (nucleus p 0%Q (map (fun i => nth i probs 0%Q) idx))) with
    | None => None
    | Some j => Some (nth j idx 0)
    end.

  (** torch.topk(sorted=False) as a list of indices, and torch.argmax *)
  Variable topk : nat -> list Q -> list nat.
  Variable argmax : list Q -> nat.
  (** TopKSampler.sample: sampler.py 84-104 *)
  Definition top_k (k : nat) (r : R) (probs : list Q) : option nat :=
    let k := Nat.min k (length probs) in
    if Nat.eqb k 1 then Some (argmax probs)
    else
      let idx := topk k probs in
      match multinomial r (qnorm (map (fun i => nth i probs 0%Q) idx)) with
      | None => None
      | Some j => Some (nth j idx 0)
      end.
End Samplers.
