(** Model of validation during training: StandardValidator, /repo/src/fairseq2/validator.py (line numbers without a file refer to it), one rank. Evaluator (evaluator.py
    131-290) and Generator (generator.py) have the same loops, without scores.
    Metric bags, batches and the random number generators are abstract. A unit that raises gives None. Metric values are integers. Not modelled: timers, logs, progress,
    the profiler, autocast, completing asynchronous checkpoints in the loop (lines 190-192), and errors of gangs. *)
From Coq Require Import List Bool ZArith.
Import ListNotations.

Section V.
  Context {batch bag rng : Type}.
  (** EvalUnit: prepare_metric_bag, process_batch, finalize, and the metric that gives the score after synchronisation and process_metric_values, if there is one *)
  Record unit_ := Unit { prepare : bag; process : batch -> bag -> rng -> option (bag * rng); finalize : bag -> rng -> option (bag * rng); metric : bag -> option Z }.
  (** A data reader: the steps of each of its epochs, each a list of batches; the epoch it is in, and the steps left *)
  Record reader := Reader { r_data : nat -> list (list batch); r_epoch : nat; r_left : list (list batch) }.
  Definition r_reset (r : reader) : reader := Reader (r_data r) (S (r_epoch r)) (r_data r (S (r_epoch r))).
  (** What can be observed *)
  Inductive event := Process (i : nat) (b : batch) | Finalize (i : nat) | Sync (i : nat) (m : bag) | Record_ (i : nat) (step : nat) (m : bag) | Barrier.
  (** Gangs: this rank is rank 0 of the root gang; of its tensor parallel gang. sync_and_compute_metrics: the bag of all ranks, a function of the bag of this one. *)
  Variables (root tp0 : bool).
  Variable synced : nat -> bag -> bag.
  (** NOOP_METRIC_DESCRIPTOR; higher_better *)
  Variables (noop higher_better : bool).
  Variable seeded : rng.
  (** Scores of the kept checkpoints, best first: CheckpointManager.load_scores *)
  Variable load_scores : list (Z * nat).

  Record validator := V { has_run : bool; best_score : option Z (* None: -inf *); best_step_nr : Z; readers : list reader; step_nr : nat }.
  Definition init (rs : list reader) : validator := V false None (-1) rs 0.
  (** reset, lines 404-419 *)
  Definition reset (v : validator) : validator := V false (best_score v) (best_step_nr v) (map r_reset (readers v)) 0.
  (** _maybe_restore_best_score_and_step, lines 136-153 *)
  Definition restore (v : validator) : validator * list event :=
    if noop then (v, []) else if (0 <=? best_step_nr v)%Z then (v, [])
    else let scores := if root then load_scores else [] in
         (match scores with
          | (s, n) :: _ => V (has_run v) (Some s) (Z.of_nat n) (readers v) (step_nr v)
          | [] => V (has_run v) (best_score v) 0 (readers v) (step_nr v)
          end, [Barrier]).
  (** _run_step, lines 231-249: the batches are taken from the end of the reversed list *)
  Fixpoint run_step (i : nat) (u : unit_) (bs : list batch) (m : bag) (g : rng) : list event * option (bag * rng) :=
    match bs with
    | [] => ([], Some (m, g))
    | b :: bs' => match process u b m g with
                  | None => ([Process i b], None)
                  | Some (m', g') => let (ev, o) := run_step i u bs' m' g' in (Process i b :: ev, o)
                  end
    end.
  (** The loop of _run_unit, lines 189-207, to the end of the data; the steps left in the reader *)
  Fixpoint run_steps (i : nat) (u : unit_) (left : list (list batch)) (m : bag) (g : rng) (n : nat) : list event * option (bag * rng) * list (list batch) * nat :=
    match left with
    | [] => ([], Some (m, g), [], n)
    | bs :: left' => match run_step i u bs m g with
                     | (ev, None) => (ev, None, left', S n)
                     | (ev, Some (m', g')) => match run_steps i u left' m' g' (S n) with (ev', o, l, n') => (ev ++ ev', o, l, n') end
                     end
    end.
  (** _run_unit, lines 173-215, _publish_metrics, 269-326, and _maybe_get_unit_score, 339-360. Result: events, None if the unit raises or else the score and the
      generators, the reader *)
  Definition run_unit (i : nat) (u : unit_) (r : reader) (train_step n : nat) (g : rng) : list event * option (option Z * rng) * reader * nat :=
    match run_steps i u (r_left r) (prepare u) g n with
    | (ev, None, l, n') => (ev, None, Reader (r_data r) (r_epoch r) l, n')
    | (ev, Some (m, g'), _, n') =>
        let r' := r_reset r in
        match finalize u m g' with
        | None => (ev ++ [Finalize i], None, r', n')
        | Some (m', g'') =>
            let s := synced i m' in
            let ev' := ev ++ [Finalize i] ++ (if tp0 then [Sync i m'] else []) ++ (if root then [Record_ i train_step s] else []) ++ [Barrier] in
            let score := if noop then None else if root then option_map (fun x => if higher_better then x else (- x)%Z) (metric u s) else None in
            (ev', Some (score, g''), r', n')
        end
    end.
  (** The loop of _do_run, lines 156-165 *)
  Fixpoint run_units (i : nat) (us : list unit_) (rs : list reader) (train_step n : nat) (g : rng) : list event * option (list Z) * list reader * nat :=
    match us, rs with
    | u :: us', r :: rs' =>
        match run_unit i u r train_step n g with
        | (ev, None, r', n') => (ev, None, r' :: rs', n')
        | (ev, Some (score, g'), r', n') =>
            match run_units (S i) us' rs' train_step n' g' with
            | (ev', o, rs'', n'') => (ev ++ ev', option_map (app (match score with Some x => [x] | None => [] end)) o, r' :: rs'', n'')
            end
        end
    | _, _ => ([], Some [], rs, n)
    end.
  Inductive outcome := Score (s : option Z) | AlreadyRun | UnitRaised | NoScore.
  (** _compute_aggregated_score, lines 362-374, and _update_best_score, 376-387 *)
  Definition better (s : Z) (best : option Z) : bool := match best with None => true | Some b => (b <? s)%Z end.
  Definition conclude (train_step : nat) (scores : list Z) (v : validator) : outcome * validator :=
    if noop then (Score None, v)
    else if negb root then (Score (Some 0%Z), v)
    else match scores with
         | [] => (NoScore, v)
         | _ => let s := fold_left Z.add scores 0%Z in
                (Score (Some s), if better s (best_score v) then V (has_run v) (Some s) (Z.of_nat train_step) (readers v) (step_nr v) else v)
         end.
  (** run, lines 122-134, with RngBag.temporary_manual_seed, /repo/src/fairseq2/utils/rng.py 101-111: the generators are set back also if the block raises *)
  Definition run (us : list unit_) (train_step : nat) (v : validator) (g : rng) : list event * outcome * validator * rng :=
    if has_run v then ([], AlreadyRun, v, g)
    else
      let v := V true (best_score v) (best_step_nr v) (readers v) (step_nr v) in
      let (v, ev) := restore v in
      match run_units 0 us (readers v) train_step (step_nr v) seeded with
      | (ev', None, rs, n) => (ev ++ ev', UnitRaised, V (has_run v) (best_score v) (best_step_nr v) rs n, g)
      | (ev', Some scores, rs, n) =>
          let (o, v') := conclude train_step scores (V (has_run v) (best_score v) (best_step_nr v) rs n) in (ev ++ ev', o, v', g)
      end.
End V.
