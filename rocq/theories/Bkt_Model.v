(** Model of create_bucket_sizes: /repo/src/fairseq2/data/data_pipeline.py 646-713. Python's integers are Z; // is Z.div. *)
From Coq Require Import List Bool ZArith.
Import ListNotations.
Local Open Scope Z_scope.

Inductive result := ValueError | Sizes (l : list (Z * Z)) | Endless.
(** The loop of lines 697-705, with at most [fuel] iterations; None: there are more. It ends with the bucket of line 705. *)
Fixpoint loop (fuel : nat) (max_num_elements max_seq_len min_seq_len seq_len bucket_size : Z) : option (list (Z * Z)) :=
  match fuel with
  | O => None
  | S fuel' =>
      if seq_len <? max_seq_len then
        let bucket_size' := max_num_elements / (seq_len + 1) in
        let seq_len' := max_num_elements / bucket_size' in
        option_map (fun l => if seq_len >=? min_seq_len then (bucket_size, seq_len) :: l else l) (loop fuel' max_num_elements max_seq_len min_seq_len seq_len' bucket_size')
      else Some [(bucket_size, max_seq_len)]
  end.
(** Lines 707-718 *)
Definition crop (num_seqs_multiple_of bucket_size : Z) : Z :=
  if bucket_size >? num_seqs_multiple_of then bucket_size - bucket_size mod num_seqs_multiple_of else bucket_size.
Definition create_bucket_sizes (max_num_elements max_seq_len min_seq_len num_seqs_multiple_of : Z) : result :=
  if max_seq_len >? max_num_elements then ValueError
  else if min_seq_len <? 1 then ValueError
  else if min_seq_len >? max_seq_len then ValueError
  else if num_seqs_multiple_of <? 1 then ValueError
  else if negb (max_num_elements mod max_seq_len =? 0) then ValueError
  else match loop (S (Z.to_nat max_seq_len)) max_num_elements max_seq_len min_seq_len 1 max_num_elements with
       | None => Endless
       | Some l => if num_seqs_multiple_of =? 1 then Sizes l else Sizes (map (fun b => (crop num_seqs_multiple_of (fst b), snd b)) l)
       end.
