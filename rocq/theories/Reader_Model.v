(** Model of the data pipeline reader on all ranks of the data parallel gang.
    /repo/src/fairseq2/datasets/data_reader.py *)
From Coq Require Import List Bool Arith Lia.
Import ListNotations.

(** What [next(self._pipeline_iter)] does: a batch, StopIteration, or a DataPipelineError (data_reader.py 117-123). *)
Inductive item (B : Type) := Item (b : B) | End | Fail.
Arguments Item {B} _. Arguments End {B}. Arguments Fail {B}.

(** The data pipeline of a rank: any state machine with next and reset. *)
Record pipe := Pipe { PS : Type; B : Type; pnext : PS -> item B * PS; preset : PS -> PS }.

(** data_reader.py 76-103; strict_state only matters to the pipeline. *)
Record config := Config { num_accumulate : nat; drop_remainder : bool; sync : bool; until_last : bool }.

Section Reader.
  Variable P : pipe.
  Variable c : config.

  (** The state of a rank: its pipeline and [_eod]. *)
  Record rank := Rank { ps : PS P; eod : bool }.
  (** What the call of a rank does; [Hang]: it waits in a collective operation for a rank that does not take part. *)
  Inductive outcome := Ret (bs : list (B P)) | Stop | Raised | Hang.

  (** data_reader.py 115-125 *)
  Fixpoint fetch (n : nat) (s : PS P) : option (list (B P)) * PS P :=
    match n with
    | O => (Some [], s)
    | S n' => match pnext P s with
              | (End, s') => (Some [], s')
              | (Fail, s') => (None, s')
              | (Item b, s') => match fetch n' s' with (Some bs, s'') => (Some (b :: bs), s'') | (None, s'') => (None, s'') end
              end
    end.
  (** data_reader.py 127-130 *)
  Definition drop (bs : list (B P)) : list (B P) :=
    if drop_remainder c && negb (Nat.eqb (length bs) (num_accumulate c)) then [] else bs.

  (** data_reader.py 110-132: what a rank does before the ranks meet. *)
  Inductive local := LStop | LRaised (s : PS P) | LRead (bs : list (B P)) (s : PS P).
  Definition local_read (r : rank) : local :=
    if eod r then LStop
    else match fetch (num_accumulate c) (ps r) with (None, s) => LRaised s | (Some bs, s) => LRead (drop bs) s end.

  Definition list_min (l : list nat) : nat := match l with [] => 0 | x :: l' => fold_left Nat.min l' x end.
  Definition list_sum (l : list nat) : nat := fold_left Nat.add l 0.
  (** data_reader.py 146-153: the end of [__next__] given the number of batches agreed on. *)
  Definition finish (n : nat) (bs : list (B P)) (s : PS P) : rank * outcome :=
    if Nat.eqb n 0 then (Rank s true, Stop) else (Rank s false, Ret bs).
  Fixpoint all_read (l : list local) : option (list (list (B P) * PS P)) :=
    match l with
    | [] => Some []
    | LRead bs s :: l' => match all_read l' with Some r => Some ((bs, s) :: r) | None => None end
    | _ => None
    end.
  (** A rank on its own, or one that never reaches the collective operation; [h]: the others wait for one that does not. *)
  Definition alone (h : bool) (r : rank) : rank * outcome :=
    match local_read r with
    | LStop => (r, Stop)
    | LRaised s => (Rank s (eod r), Raised)
    | LRead bs s => if h then (Rank s (eod r), Hang) else finish (length bs) bs s
    end.
  (** data_reader.py 109-153, called on every rank: the counts are exchanged with all_gather (172-196) or all_reduce (199-202)
      if [sync] and there is more than one rank. *)
  Definition next_all (w : list rank) : list (rank * outcome) :=
    if sync c && negb (Nat.leb (length w) 1) then
      match all_read (map local_read w) with
      | None => map (alone true) w
      | Some l =>
          if until_last c then
            let n := list_sum (map (fun x => length (fst x)) l) in map (fun x => finish n (fst x) (snd x)) l
          else
            let n := list_min (map (fun x => length (fst x)) l) in
            map (fun x => finish n (if Nat.eqb n (length (fst x)) then fst x else firstn n (fst x)) (snd x)) l
      end
    else map (alone false) w.

  (** data_reader.py 155-159 and 165-168, on every rank. *)
  Inductive op := Next | Reset | Load (states : list (PS P)).
  Definition step (w : list rank) (o : op) : list rank * list outcome :=
    match o with
    | Next => (map fst (next_all w), map snd (next_all w))
    | Reset => (map (fun r => Rank (preset P (ps r)) false) w, [])
    | Load l => (map (fun rs => Rank (snd rs) false) (combine w l), [])
    end.
  Fixpoint run (w : list rank) (os : list op) : list rank * list (op * list outcome) :=
    match os with
    | [] => (w, [])
    | o :: os' => let '(w1, x) := step w o in let '(w2, xs) := run w1 os' in (w2, (o, x) :: xs)
    end.
  (** data_reader.py 94-103 *)
  Definition init (l : list (PS P)) : list rank := map (fun s => Rank s false) l.
End Reader.
Arguments Ret {P} _. Arguments Stop {P}. Arguments Raised {P}. Arguments Hang {P}.
Arguments Rank {P} _ _. Arguments ps {P} _. Arguments eod {P} _.
Arguments Next {P}. Arguments Reset {P}. Arguments Load {P} _.
