(** map with num_parallel_calls > 1 and deterministic=True, with the examples of a buffer mapped by concurrent workers.
    /repo/native/src/fairseq2n/data/map_data_source.cc:41-67 and 168-199, /repo/native/src/fairseq2n/detail/parallel.h:19-44. Definitions only. *)
From Coq Require Import List Arith.
Import ListNotations.
From Verif Require Import DP_Base DP_Sources_Model.

Section ParMap.
  Variable f : data -> fres data.

  (** A slot of buffer_: not mapped yet, mapped, or the call for it threw *)
  Inductive slot := Todo (d : data) | Mapped (o : option data) | Threw (d : data) (e : err).
  Definition slots := list slot.
  Definition outcome (d : data) : slot := match f d with FVal d' => Mapped (Some d') | FNone => Mapped None | FThrow e => Threw d e end.
  (** Lines 187-190: some worker finishes some slot. How the range is cut into blocks and which workers take them is left open, so that any slot
      may be the next. *)
  Inductive work : slots -> slots -> Prop := work_slot a d b : work (a ++ Todo d :: b) (a ++ outcome d :: b).
  Inductive works : slots -> slots -> Prop := works_refl s : works s s | works_step s t u : works s t -> work t u -> works s u.
  (** tbb::parallel_for returns when all is done; an exception cancels what has not been started and is rethrown, if there are several any one of them. *)
  Definition is_todo (x : slot) : bool := match x with Todo _ => true | _ => false end.
  (** What is in the slot *)
  Definition content (x : slot) : option data := match x with Todo d => Some d | Mapped o => o | Threw d _ => Some d end.
  Inductive returns : slots -> list (option data) * option err -> Prop :=
  | returns_all s : (forall x, In x s -> is_todo x = false) -> (forall d e, ~ In (Threw d e) s) -> returns s (map content s, None)
  | returns_error s d e : In (Threw d e) s -> returns s (map content s, Some e).
  (** Lines 186-196: what the parallel part may leave behind *)
  Definition parallel (l : list data) (r : list (option data) * option err) : Prop := exists s, works (map Todo l) s /\ returns s r.

  (** Lines 53-67 with [sched] deciding what the parallel part does each time *)
  Variable sched : nat -> list data -> list (option data) * option err.
  Variable npar : nat.
  Variable I : source.
  Fixpoint par_loop (m n : nat) (b : list (option data)) (pos : nat) (s : St I) : option (out * map_st I) :=
    match n with
    | O => None
    | S n' =>
      match map_pick b pos with
      | Some (d, b', q) => Some (Val d, (b', q, s))
      | None =>
        match map_read I m npar s with
        | None => None
        | Some (l, Some e, s') => Some (Err e, (map Some l, 0, s'))
        | Some ([], None, s') => Some (Eod, ([], 0, s'))
        | Some (l, None, s') =>
            match sched n l with
            | (b', Some e) => Some (Err e, (b', 0, s'))
            | (b', None) => par_loop m n' b' 0 s'
            end
        end
      end
    end.
End ParMap.
