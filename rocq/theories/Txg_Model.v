(** Translating and completing texts.

    Models
    - src/fairseq2/generation/text.py 27-356 (SequenceToTextConverter,
      TextTranslator, TextCompleter),
    - src/fairseq2/nn/utils/padding.py 17-55 (pad_seqs) and
      src/fairseq2/nn/batch_layout.py 96-152, through [Wer_Model.pad_seqs].

    Simplifications.  Of the generator's output only the token sequences of the
    hypotheses are kept, and it is returned as it is.  The generator is a
    function of the rows and the lengths of a batch and of its prompts, and
    raises no error of its own.  The text and the token encoders and decoders
    are parameters. *)

Require Import List Arith Bool.
From Verif Require Wer_Model.
Import ListNotations.

Inductive error :=
| Not_one_device | No_prefix | No_pad | Bad_max_source_len  (* ValueError, when created *)
| Empty_batch | Bad_layout                                  (* ValueError, when called *)
| No_hypothesis (idx : nat).                                (* InternalError *)

Inductive res (A : Type) := Ok (a : A) | Err (e : error).
Arguments Ok {A}. Arguments Err {A}.

Notation seq_of_tokens := (list nat) (only parsing).

(** The hypotheses of every row. *)
Notation output := (list (list (list nat))) (only parsing).

Section Generation.
  Context {text : Type}.
  Variable decode : seq_of_tokens -> text.

  (** text.py 147-157, 344-354: the loop over the hypotheses. *)
  Fixpoint first_texts (idx : nat) (o : output) : res (list text) :=
    match o with
    | [] => Ok []
    | hypotheses :: o' =>
        match hypotheses with
        | [] => Err (No_hypothesis idx)
        | h :: _ =>
            match first_texts (S idx) o' with
            | Err e => Err e
            | Ok ts => Ok (decode h :: ts)
            end
        end
    end.

  (** nn/batch_layout.py 96-152 without lengths: [BatchLayout.of(seqs)]; the
      rows have equal length. *)
  Definition full_layout (rows : list (list nat)) : res (list nat) :=
    match rows with
    | [] => Ok []
    | r :: _ => if length r <? 1 then Err Bad_layout else Ok (map (fun _ => length r) rows)
    end.

  (** nn/utils/padding.py 17-55 *)
  Definition padded (pad : nat) (seqs : list (list nat)) : res (list (list nat) * list nat) :=
    match Wer_Model.pad_seqs pad seqs with
    | Wer_Model.Ok x => Ok x
    | Wer_Model.Err _ => Err Bad_layout
    end.

  (** ** Sequence to sequence *)
  Variable generator : list (list nat) -> list nat -> list (list nat) -> list nat -> output.

  (** text.py 30-70: a converter is made of the prefix of the target. *)
  Record converter := { target_prefix_seq : list nat }.

  Definition new_converter (one_device : bool) (prefix_indices : option (list nat)) : res converter :=
    if negb one_device then Err Not_one_device
    else match prefix_indices with
         | None => Err No_prefix
         | Some p => Ok {| target_prefix_seq := p |}
         end.

  (** text.py 116-159: [_do_convert]. *)
  Definition do_convert (c : converter) (source_seqs : list (list nat)) (lens : list nat)
    : res (list text * output) :=
    let prompts := map (fun _ => target_prefix_seq c) source_seqs in
    match full_layout prompts with
    | Err e => Err e
    | Ok prompt_lens =>
        let o := generator source_seqs lens prompts prompt_lens in
        match first_texts 0 o with Err e => Err e | Ok ts => Ok (ts, o) end
    end.

  (** text.py 74-92: [__call__]. *)
  Definition convert (c : converter) (source_seq : list nat) : res (option text * output) :=
    match full_layout [source_seq] with
    | Err e => Err e
    | Ok lens =>
        match do_convert c [source_seq] lens with
        | Err e => Err e
        | Ok (ts, o) => Ok (hd_error ts, o)
        end
    end.

  (** text.py 94-114: [batch_convert]. *)
  Definition batch_convert (c : converter) (source_seqs : list (list nat)) (lens : list nat)
    : res (list text * output) :=
    match source_seqs with
    | [] => Err Empty_batch
    | _ => do_convert c source_seqs lens
    end.

  (** text.py 162-220. *)
  Record translator := {
    the_converter : converter;
    pad_idx : nat;
    source_encode : text -> list nat;
    max_source_len : option nat
  }.

  Definition new_translator (one_device : bool) (prefix_indices : option (list nat)) (pad : option nat)
    (encode : text -> list nat) (max_len : option nat) : res translator :=
    match new_converter one_device prefix_indices with
    | Err e => Err e
    | Ok c =>
        match pad with
        | None => Err No_pad
        | Some p =>
            match max_len with
            | Some 0 => Err Bad_max_source_len
            | _ => Ok {| the_converter := c; pad_idx := p; source_encode := encode; max_source_len := max_len |}
            end
        end
    end.

  (** text.py 231-234, 254-257: [seq[: self._max_source_len]]. *)
  Definition truncate (t : translator) (s : list nat) : list nat :=
    match max_source_len t with
    | Some n => firstn n s
    | None => s
    end.

  (** text.py 222-236: [__call__]. *)
  Definition translate (t : translator) (source_text : text) : res (option text * output) :=
    convert (the_converter t) (truncate t (source_encode t source_text)).

  (** text.py 238-264: [batch_translate]. *)
  Definition batch_translate (t : translator) (source_texts : list text) : res (list text * output) :=
    match source_texts with
    | [] => Err Empty_batch
    | _ =>
        let source_seqs := map (truncate t) (map (source_encode t) source_texts) in
        match padded (pad_idx t) source_seqs with
        | Err e => Err e
        | Ok (rows, lens) => batch_convert (the_converter t) rows lens
        end
    end.

  (** ** Completion *)
  Variable lm_generator : list (list nat) -> list nat -> output.

  (** text.py 267-295. *)
  Record completer := { prompt_encode : text -> list nat }.

  Definition new_completer (one_device : bool) (encode : text -> list nat) : res completer :=
    if negb one_device then Err Not_one_device else Ok {| prompt_encode := encode |}.

  (** text.py 339-356: [_do_complete]. *)
  Definition do_complete (prompt_seqs : list (list nat)) (lens : list nat) : res (list text * output) :=
    let o := lm_generator prompt_seqs lens in
    match first_texts 0 o with Err e => Err e | Ok ts => Ok (ts, o) end.

  (** text.py 297-315: [__call__]. *)
  Definition complete (c : completer) (prompt : text) : res (option text * output) :=
    let prompt_seq := prompt_encode c prompt in
    match full_layout [prompt_seq] with
    | Err e => Err e
    | Ok lens =>
        match do_complete [prompt_seq] lens with
        | Err e => Err e
        | Ok (ts, o) => Ok (hd_error ts, o)
        end
    end.

  (** text.py 317-337: [batch_complete]; [pad_seqs] pads with zero. *)
  Definition batch_complete (c : completer) (prompts : list text) : res (list text * output) :=
    match prompts with
    | [] => Err Empty_batch
    | _ =>
        match padded 0 (map (prompt_encode c) prompts) with
        | Err e => Err e
        | Ok (rows, lens) => do_complete rows lens
        end
    end.
End Generation.
