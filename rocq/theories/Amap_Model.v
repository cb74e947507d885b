(** Model of map(..., num_parallel_calls=n, deterministic=False): /repo/native/src/fairseq2n/data/map_data_source.cc, with the worker threads of
    /repo/native/src/fairseq2n/detail/thread_pool.h (or the TBB arena) as tasks that make their steps in any order. *)
From Coq Require Import List Bool Arith.
Import ListNotations.

Section Amap.
  Context {A B : Type}.
  (** inner_: its examples by position. f: the function of the user; [None]: it raises. n: num_parallel_calls_, at least 2 here (with 1 the
      function is called in next itself). *)
  Variable src : nat -> option A.
  Variable f : A -> option B.
  Variable n : nat.

  (** AsyncMapTask::operator(), lines 228-246: the function and the push under the lock; the decrement; the notification *)
  Inductive task := Run (x : A) | Decr | Notify.
  (** Where the thread is that uses the pipeline. Fill..Sleep: next, lines 67-84. Filling with the loop variable i, lines 250-264; Test1 and Test2: the
      parts of line 266 before and at has_async_output; Wait: about to take the lock; Sleep: in the condition variable.
      DTest..DSleep: wait_until_done, lines 216-226, called by record_position, reset and reload_position. DHold: the predicate was false, the lock is
      still held. *)
  Inductive pc := Idle | Fill (i : nat) | Test1 | Test2 | Wait | Sleep | DTest | DHold | DSleep.
  (** [failed]: the examples for which the function raised; [out]: what next has returned. These two are not part of the program. *)
  Record state := State { pos : nat; finished : bool; flight : nat; queue : list B; exc : bool; tasks : list task; at_ : pc; failed : list A; out : list B }.
  (** Right after construction, or after reload_position with the queue of the tape: lines 25-39, 135-146 *)
  Definition start (p : nat) (q : list B) : state := State p false 0 q false [] Idle [] [].

  Inductive event := Out (y : B) | End | Raised | Done.
  Definition go (s : state) (c : pc) : state := State (pos s) (finished s) (flight s) (queue s) (exc s) (tasks s) c (failed s) (out s).
  (** notify_one: line 245 *)
  Definition woken (c : pc) : pc := match c with Sleep => Wait | DSleep => DTest | c => c end.

  Inductive step (s : state) : option event -> state -> Prop :=
  (* next is called; line 250: i = tasks_in_flight_ *)
  | s_next : at_ s = Idle -> step s None (go s (Fill (flight s)))
  (* lines 251-264 *)
  | s_pull i x : at_ s = Fill i -> i < n -> src (pos s) = Some x ->
      step s None (State (S (pos s)) (finished s) (S (flight s)) (queue s) (exc s) (tasks s ++ [Run x]) (Fill (S i)) (failed s) (out s))
  (* lines 252-255 *)
  | s_exhausted i : at_ s = Fill i -> i < n -> src (pos s) = None -> step s None (State (pos s) true (flight s) (queue s) (exc s) (tasks s) Test1 (failed s) (out s))
  | s_full i : at_ s = Fill i -> n <= i -> step s None (go s Test1)
  (* line 266 *)
  | s_test1_yes : at_ s = Test1 -> finished s = false \/ 0 < flight s -> step s None (go s Wait)
  | s_test1_no : at_ s = Test1 -> finished s = true -> flight s = 0 -> step s None (go s Test2)
  | s_test2_yes : at_ s = Test2 -> queue s <> [] -> step s None (go s Wait)
  | s_test2_no : at_ s = Test2 -> queue s = [] -> step s (Some End) (go s Idle)
  (* lines 70-83; what the predicate looks at changes under the lock only, so that evaluating it and going to sleep is one step *)
  | s_wait_raise : at_ s = Wait -> exc s = true -> step s (Some Raised) (go s Idle)
  | s_wait_pop y q : at_ s = Wait -> exc s = false -> queue s = y :: q -> step s (Some (Out y)) (State (pos s) (finished s) (flight s) q (exc s) (tasks s) Idle (failed s) (out s ++ [y]))
  | s_wait_sleep : at_ s = Wait -> exc s = false -> queue s = [] -> step s None (go s Sleep)
  (* wait_until_done is called; lines 218-225. tasks_in_flight_ changes without the lock: the predicate and going to sleep are two steps *)
  | s_save : at_ s = Idle -> step s None (go s DTest)
  | s_dtest_raise : at_ s = DTest -> exc s = true -> step s (Some Raised) (go s Idle)
  | s_dtest_done : at_ s = DTest -> exc s = false -> flight s = 0 -> step s (Some Done) (go s Idle)
  | s_dtest_hold : at_ s = DTest -> exc s = false -> flight s <> 0 -> step s None (go s DHold)
  | s_dhold : at_ s = DHold -> step s None (go s DSleep)
  (* the tasks; a push needs the lock *)
  | s_run a x b y : tasks s = a ++ Run x :: b -> f x = Some y -> at_ s <> DHold ->
      step s None (State (pos s) (finished s) (flight s) (queue s ++ [y]) (exc s) (a ++ Decr :: b) (at_ s) (failed s) (out s))
  | s_fail a x b : tasks s = a ++ Run x :: b -> f x = None -> at_ s <> DHold ->
      step s None (State (pos s) (finished s) (flight s) (queue s) true (a ++ Decr :: b) (at_ s) (failed s ++ [x]) (out s))
  | s_decr a b : tasks s = a ++ Decr :: b -> step s None (State (pos s) (finished s) (flight s - 1) (queue s) (exc s) (a ++ Notify :: b) (at_ s) (failed s) (out s))
  | s_notify a b : tasks s = a ++ Notify :: b -> step s None (State (pos s) (finished s) (flight s) (queue s) (exc s) (a ++ b) (woken (at_ s)) (failed s) (out s)).
  (** A condition variable may also wake up without a notification. *)
  Inductive spurious (s : state) : state -> Prop :=
  | sp_wake : at_ s = Sleep -> spurious s (go s Wait)
  | sp_dwake : at_ s = DSleep -> spurious s (go s DTest).
  (** Every schedule *)
  Inductive reach (s0 : state) : list event -> state -> Prop :=
  | r_start : reach s0 [] s0
  | r_step tr s o s' : reach s0 tr s -> step s o s' -> reach s0 (tr ++ match o with Some e => [e] | None => [] end) s'
  | r_spurious tr s s' : reach s0 tr s -> spurious s s' -> reach s0 tr s'.
End Amap.
Arguments task : clear implicits. Arguments state : clear implicits. Arguments event : clear implicits.

(** Two tasks of one map with a selector that selects one element of every example. Both call map_fns_[0] (map_data_source.cc:232), so that they share
    one element_mapper and its buffer_: /repo/native/src/fairseq2n/data/element_mapper.cc:26-61. The operations of the vector are taken to be atomic (the
    program has a data race here, its behaviour is undefined). *)
Section Shared.
  Context {V : Type}.
  Variable f : V -> V.
  (** MVisit: lines 32-35; MSize: lines 51-54; MApply i k: about to apply to buffer_[i], i < k; MClear: line 56; MBack: line 58 *)
  Inductive mpc := MVisit | MSize | MApply (i k : nat) | MClear | MBack.
  (** [cell t]: the selected element of the example of task t; the buffer points to such elements. *)
  Record shared := Shared { buffer : list bool; cell : bool -> V; mat : bool -> mpc }.
  Definition upd {X} (g : bool -> X) (t : bool) (x : X) (u : bool) : X := if Bool.eqb t u then x else g u.
  Inductive mstep (s : shared) (t : bool) : shared -> Prop :=
  | m_visit : mat s t = MVisit -> mstep s t (Shared (buffer s ++ [t]) (cell s) (upd (mat s) t MSize))
  | m_size : mat s t = MSize -> mstep s t (Shared (buffer s) (cell s) (upd (mat s) t (MApply 0 (length (buffer s)))))
  | m_apply i k u : mat s t = MApply i k -> i < k -> nth_error (buffer s) i = Some u ->
      mstep s t (Shared (buffer s) (upd (cell s) u (f (cell s u))) (upd (mat s) t (MApply (S i) k)))
  | m_applied i k : mat s t = MApply i k -> k <= i -> mstep s t (Shared (buffer s) (cell s) (upd (mat s) t MClear))
  | m_clear : mat s t = MClear -> mstep s t (Shared [] (cell s) (upd (mat s) t MBack)).
  Inductive mreach (s0 : shared) : shared -> Prop :=
  | mr_start : mreach s0 s0
  | mr_step s t s' : mreach s0 s -> mstep s t s' -> mreach s0 s'.
  Definition mstart (x y : V) : shared := Shared [] (fun t => if t then x else y) (fun _ => MVisit).
End Shared.
