(** Model of the step processors of sequence generation.
    /repo/src/fairseq2/generation/step_processor.py *)
From Coq Require Import ZArith List Bool Arith Lia.
Import ListNotations.
Local Open Scope Z_scope.

Section StepProc.
  (** Probabilities are never computed with, only overwritten. *)
  Variable R : Type.

  (** Assignment probs[row, i] = v with Python's negative indices; [None] is the IndexError. *)
  Definition index (n : nat) (i : Z) : option nat :=
    if (0 <=? i) && (i <? Z.of_nat n) then Some (Z.to_nat i)
    else if (i <? 0) && (- Z.of_nat n <=? i) then Some (Z.to_nat (Z.of_nat n + i)) else None.
  Fixpoint set_nth (i : nat) (v : R) (l : list R) : list R :=
    match l, i with [], _ => [] | _ :: l', O => v :: l' | x :: l', S j => x :: set_nth j v l' end.
  Definition assign (v : R) (row : option (list R)) (i : Z) : option (list R) :=
    match row with
    | None => None
    | Some l => match index (length l) i with Some k => Some (set_nth k v l) | None => None end
    end.
  (** probs[row, [i1, i2, ..]] = v *)
  Definition assign_all (v : R) (row : list R) (is : list Z) : option (list R) := fold_left (assign v) is (Some row).
  Fixpoint sequence {A} (l : list (option A)) : option (list A) :=
    match l with [] => Some [] | x :: l' => match x, sequence l' with Some a, Some r => Some (a :: r) | _, _ => None end end.

  (** ** BannedSequenceProcessor *)
  (** step_processor.py 37-93: the matrix of banned sequences, padded with 0 on the left, and the mask of the padding, which is
      absent if all sequences have the same length. *)
  Record banned := Banned { seqs_of : list (list Z); mask_of : option (list (list bool)) }.
  Inductive ctor := Disabled | Enabled (b : banned) | CtorError (idx : nat).
  Fixpoint find_empty (idx : nat) (l : list (list Z)) : option nat :=
    match l with [] => None | [] :: _ => Some idx | _ :: l' => find_empty (S idx) l' end.
  Definition max_len (l : list (list Z)) : nat := fold_left (fun m s => Nat.max (length s) m) l 0%nat.
  (** min_seq_len starts at sys.maxsize, here at the length of the first sequence. *)
  Definition min_len (l : list (list Z)) : nat := match l with [] => 0%nat | s :: l' => fold_left (fun m s => Nat.min (length s) m) l' (length s) end.
  Definition left_pad {A} (m : nat) (x : A) (l : list A) : list A := repeat x (m - length l) ++ l.
  Definition banned_ctor (l : list (list Z)) : ctor :=
    match l with
    | [] => Disabled
    | _ =>
        match find_empty 0 l with
        | Some idx => CtorError idx
        | None =>
            let m := max_len l in
            if Nat.eqb m (min_len l) then Enabled (Banned l None)
            else Enabled (Banned (map (left_pad m 0) l) (Some (map (fun s => left_pad m true (map (fun _ => false) s)) l)))
        end
    end.

  (** seqs[:, -n:] for n > 0 and pad(seqs, (n, 0), value=-1) *)
  Definition last_n {A} (n : nat) (l : list A) : list A := skipn (length l - n) l.
  (** step_processor.py 106-111 *)
  Definition fit (n : nat) (row : list Z) : list Z := if (length row <? n)%nat then left_pad n (-1) row else last_n n row.
  (** step_processor.py 113-124, for one row and one banned sequence: the difference is masked and must be zero everywhere. *)
  Definition mask_fill (m : list bool) (d : list Z) : list Z := map (fun xm : Z * bool => if snd xm then 0 else fst xm) (combine d m).
  Definition prefix_matches (row b : list Z) (m : option (list bool)) : bool :=
    let d := map (fun xy => fst xy - snd xy) (combine row (removelast b)) in
    let d := match m with Some m => mask_fill (removelast m) d | None => d end in
    negb (existsb (fun x => negb (x =? 0)) d).
  (** step_processor.py 126-130: the last tokens of the banned sequences whose prefixes match. *)
  Definition matching (b : banned) (row : list Z) : list Z :=
    match mask_of b with
    | None => map (fun s => last s 0) (filter (fun s => prefix_matches row s None) (seqs_of b))
    | Some ms => map (fun sm => last (fst sm) 0) (filter (fun sm => prefix_matches row (fst sm) (Some (snd sm))) (combine (seqs_of b) ms))
    end.
  (** step_processor.py 95-130 on one row of the batch; [ban] is -inf or 0. All rows are treated alike. *)
  Definition banned_row (b : banned) (ban : R) (row : list Z) (probs : list R) : option (list R) :=
    let n := (length (hd [] (seqs_of b)) - 1)%nat in
    if Nat.eqb n 0 then assign_all ban probs (map (fun s => hd 0 s) (seqs_of b))
    else assign_all ban probs (matching b (fit n row)).
  Definition banned_call (c : ctor) (ban : R) (seqs : list (list Z)) (probs : list (list R)) : option (list (list R)) :=
    match c with
    | Enabled b => sequence (map (fun sp : list Z * list R => banned_row b ban (fst sp) (snd sp)) (combine seqs probs))
    | _ => Some probs
    end.

  (** ** NGramRepeatBlockProcessor *)
  (** step_processor.py 142-144: a size of 0 is rejected. *)
  Definition ngram_ctor (n : nat) : bool := negb (Nat.eqb n 0).
  Definition list_eqb (a b : list Z) : bool := negb (existsb (fun xy => negb (fst xy - snd xy =? 0)) (combine a b)).
  (** step_processor.py 148-176 on one row. *)
  Definition ngram_row (n : nat) (ban : R) (row : list Z) (probs : list R) : option (list R) :=
    let seq_len := (length row + 1)%nat in
    if (seq_len <=? n)%nat then Some probs
    else if Nat.eqb n 1 then assign_all ban probs row
    else
      let prefix := last_n (n - 1) row in
      fold_left (fun p i => if list_eqb (firstn (n - 1) (skipn i row)) prefix then assign ban p (nth (i + n - 1) row 0) else p)
        (seq 0 (seq_len - n)) (Some probs).
  Definition ngram_call (n : nat) (ban : R) (seqs : list (list Z)) (probs : list (list R)) : option (list (list R)) :=
    sequence (map (fun sp => ngram_row n ban (fst sp) (snd sp)) (combine seqs probs)).
End StepProc.
