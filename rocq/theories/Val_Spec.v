(** Specification of validation *)
From Coq Require Import List Bool ZArith.
From Verif Require Import Val_Model.
Import ListNotations.

Section S.
  Context {batch bag rng : Type}.
  (** A unit evaluated on a list of batches: all of them in order into one new bag, then finalized *)
  Fixpoint fold_batches (u : @unit_ batch bag rng) (bs : list batch) (m : bag) (g : rng) : option (bag * rng) :=
    match bs with [] => Some (m, g) | b :: bs' => match process u b m g with Some (m', g') => fold_batches u bs' m' g' | None => None end end.
  Definition unit_result (u : @unit_ batch bag rng) (bs : list batch) (g : rng) : option (bag * rng) :=
    match fold_batches u bs (prepare u) g with Some (m, g') => finalize u m g' | None => None end.
  Variables (root tp0 : bool) (synced : nat -> bag -> bag) (noop higher_better : bool).
  (** What a validation without errors does, and its scores *)
  Definition unit_events (i train_step : nat) (bs : list batch) (m : bag) : list (@event batch bag) :=
    map (Process i) bs ++ [Finalize i] ++ (if tp0 then [Sync i m] else []) ++ (if root then [Record_ i train_step (synced i m)] else []) ++ [Barrier].
  Definition unit_score (i : nat) (u : @unit_ batch bag rng) (m : bag) : list Z :=
    if negb noop && root then match metric u (synced i m) with Some x => [if higher_better then x else (- x)%Z] | None => [] end else [].
  Fixpoint expected (i train_step : nat) (us : list (@unit_ batch bag rng)) (data : list (list batch)) (g : rng) : option (list (@event batch bag) * list Z) :=
    match us, data with
    | u :: us', bs :: data' =>
        match unit_result u bs g with
        | Some (m, g') => match expected (S i) train_step us' data' g' with
                          | Some (ev, sc) => Some (unit_events i train_step bs m ++ ev, unit_score i u m ++ sc)
                          | None => None
                          end
        | None => None
        end
    | _, _ => Some ([], [])
    end.
End S.

(** Collective operations *)
Inductive collective := CSync (i : nat) | CBarrier.
Definition collectives {batch bag} (ev : list (@event batch bag)) : list collective :=
  flat_map (fun e => match e with Sync i _ => [CSync i] | Barrier => [CBarrier] | _ => [] end) ev.

(** [(s, n)] is the best of a list of scores and steps: the first of the greatest *)
Definition is_best (l : list (Z * nat)) (s : Z) (n : nat) : Prop :=
  exists before after, l = before ++ (s, n) :: after /\ (forall x, In x before -> (fst x < s)%Z) /\ (forall x, In x after -> (fst x <= s)%Z).
