(** Greedy decoding of a speech recognition model and its word error rate.

    Models
    - recipes/wav2vec2/asr/wer_calculator.py 25-166 (WerCalculator),
    - src/fairseq2/metrics/text/wer.py 24-126 (WerMetric),
    - src/fairseq2/nn/utils/padding.py 17-55 (pad_seqs),
    - src/fairseq2/nn/batch_layout.py 96-152 (the checks of a padded layout).

    Simplifications.  Scores are integers (the code only compares them).  The
    error rates are rationals instead of floating point numbers.  Files to
    which the transcripts are written are lists of lines; writing does not
    fail.  The decoder of the tokenizer, the splitting of a text into words and
    the edit distance of the external library are parameters. *)

Require Import String List Arith ZArith QArith Bool.
Import ListNotations.
Open Scope nat_scope.

Inductive error := Value_error.
Inductive res (A : Type) := Ok (a : A) | Err (e : error).
Arguments Ok {A}. Arguments Err {A}.

(** wer_calculator.py 150: [logits.argmax(-1)] on one frame; the index of the
    first of the maximal scores.  [i] is the index of the head of [l]. *)
Fixpoint argmax_from (best : Z) (at_ : nat) (i : nat) (l : list Z) : nat :=
  match l with
  | [] => at_
  | x :: l' => if (best <? x)%Z then argmax_from x i (S i) l'
               else argmax_from best at_ (S i) l'
  end.

Definition argmax (l : list Z) : nat :=
  match l with [] => 0 | x :: l' => argmax_from x 0 1 l' end.

(** wer_calculator.py 150: [unique_consecutive()]: of equal neighbours only one
    is kept. *)
Fixpoint unique_consecutive (l : list nat) : list nat :=
  match l with
  | [] => []
  | x :: l' =>
      match l' with
      | [] => [x]
      | y :: _ => if x =? y then unique_consecutive l' else x :: unique_consecutive l'
      end
  end.

(** wer_calculator.py 141-157: one row of the loop of [_generate_hypotheses]. *)
Definition greedy (blank : nat) (logits : list (list Z)) (logits_len : nat) : list nat :=
  let hyp_seq := unique_consecutive (map argmax (firstn logits_len logits)) in
  filter (fun x => negb (x =? blank)) hyp_seq.

(** padding.py 41-55 with [pad_to_multiple = 1] and batch_layout.py 96-152: the
    rows are padded to the longest, then the lengths are checked. *)
Definition pad_seqs (pad : nat) (seqs : list (list nat)) : res (list (list nat) * list nat) :=
  let lens := map (@length nat) seqs in
  let width := list_max lens in
  if width <? 1 then Err Value_error
  else if existsb (fun n => n <? 1) lens then Err Value_error
  else Ok (map (fun s => s ++ repeat pad (width - length s)) seqs, lens).

(** One utterance of a batch: its row of logits with the length of the row in
    the layout of the logits, its row of the targets with the length of the row
    in the layout of the targets. *)
Record utterance := {
  logits_row : list (list Z);
  logits_len : nat;
  ref_row : list nat;
  ref_len : nat
}.

(** wer.py 27-48: the four counters of a metric. *)
Record counters := { unit_err : Z; unit_len : Z; word_err : Z; word_len : Z }.

Definition zero_counters := {| unit_err := 0; unit_len := 0; word_err := 0; word_len := 0 |}%Z.

Section Calculator.
  Context {text word : Type}.
  (** [self._text_decoder], [str.split] and [editdistance.eval]. *)
  Variable decode : list nat -> text.
  Variable split : text -> list word.
  Variable unit_distance : list nat -> list nat -> Z.
  Variable word_distance : list word -> list word -> Z.
  (** [self._blank_label] and [self._pad_idx]. *)
  Variables blank pad : nat.

  (** The calculator with its metric: the counters and the lines of the two
      output streams. *)
  Record calculator := {
    metric : counters;
    ref_lines : list text;
    hyp_lines : list text
  }.

  Definition new_calculator := {| metric := zero_counters; ref_lines := []; hyp_lines := [] |}.

  (** wer.py 82-101: one round of the loop of [update]. *)
  Definition update_one (m : counters) (ref : text) (ref_seq : list nat) (ref_seq_len : nat)
    (hyp : text) (hyp_seq : list nat) (hyp_seq_len : nat) : counters :=
    let ref_words := split ref in
    let hyp_words := split hyp in
    let ref_units := firstn ref_seq_len ref_seq in
    let hyp_units := firstn hyp_seq_len hyp_seq in
    {| unit_err := unit_err m + unit_distance hyp_units ref_units;
       word_err := word_err m + word_distance hyp_words ref_words;
       unit_len := unit_len m + Z.of_nat (length ref_units);
       word_len := word_len m + Z.of_nat (length ref_words) |}%Z.

  (** wer.py 50-103: [update]; [zip] ends with the shortest of its arguments. *)
  Fixpoint update (m : counters) (refs : list text) (ref_seqs : list (list nat)) (ref_lens : list nat)
    (hyps : list text) (hyp_seqs : list (list nat)) (hyp_lens : list nat) : counters :=
    match refs, ref_seqs, ref_lens, hyps, hyp_seqs, hyp_lens with
    | r :: refs', rs :: ref_seqs', rl :: ref_lens', h :: hyps', hs :: hyp_seqs', hl :: hyp_lens' =>
        update (update_one m r rs rl h hs hl) refs' ref_seqs' ref_lens' hyps' hyp_seqs' hyp_lens'
    | _, _, _, _, _, _ => m
    end.

  (** wer_calculator.py 103-139: [compute_wer]. *)
  Definition compute_wer (c : calculator) (batch : list utterance) : res calculator :=
    match pad_seqs pad (map (fun u => greedy blank (logits_row u) (logits_len u)) batch) with
    | Err e => Err e
    | Ok (hyp_seqs, hyp_lens) =>
        let refs := map decode (map ref_row batch) in
        let hyps := map decode hyp_seqs in
        Ok {| metric := update (metric c) refs (map ref_row batch) (map ref_len batch)
                          hyps hyp_seqs hyp_lens;
              ref_lines := ref_lines c ++ refs;
              hyp_lines := hyp_lines c ++ hyps |}
    end.

  (** criterion.py 60-70, validator.py 205-250: the batches of a rank, one after
      another; an error ends the validation. *)
  Fixpoint evaluate (c : calculator) (batches : list (list utterance)) : res calculator :=
    match batches with
    | [] => Ok c
    | b :: bs => match compute_wer c b with Err e => Err e | Ok c' => evaluate c' bs end
    end.
End Calculator.

(** wer.py 116-126: [merge_state]. *)
Fixpoint merge_state (m : counters) (others : list counters) : counters :=
  match others with
  | [] => m
  | o :: os =>
      merge_state
        {| unit_err := unit_err m + unit_err o; unit_len := unit_len m + unit_len o;
           word_err := word_err m + word_err o; word_len := word_len m + word_len o |}%Z os
  end.

(** wer.py 104-114: [compute]: the unit and the word error rate. *)
Definition compute (m : counters) : Q * Q :=
  if negb (unit_len m =? 0)%Z && negb (word_len m =? 0)%Z then
    (inject_Z (unit_err m * 100) / inject_Z (unit_len m),
     inject_Z (word_err m * 100) / inject_Z (word_len m))%Q
  else (inject_Z (-1), inject_Z (-1)).

(** A metric value is a pair of rates or a single number. *)
Inductive value := Pair (uer wer : Q) | Number (x : Q).

Definition Values := list (string * value).

Fixpoint lookup (k : string) (vs : Values) : option value :=
  match vs with
  | [] => None
  | (k', v) :: vs' => if String.eqb k k' then Some v else lookup k vs'
  end.

Definition remove (k : string) (vs : Values) : Values :=
  filter (fun p => negb (String.eqb k (fst p))) vs.

Definition set (k : string) (v : value) (vs : Values) : Values := (k, v) :: remove k vs.

(** wer_calculator.py 159-166: [process_metric_values]. *)
Definition process_metric_values (vs : Values) : Values :=
  match lookup "wer" vs with
  | Some (Pair uer wer) =>
      let vs' := remove "wer" vs in
      if Qle_bool 1 uer && Qle_bool 1 wer
      then set "wer" (Number wer) (set "uer" (Number uer) vs')
      else vs'
  | Some (Number _) => remove "wer" vs (* cannot be unpacked; not reachable *)
  | None => vs
  end.
