(** Model of prefetching: /repo/native/src/fairseq2n/data/prefetch_data_source.cc (line numbers refer to it) and prefetch_data_source.h.
    Two threads: the consumer, who calls the operations one after another, and the background thread. A step is what a thread does between two
    points at which the other one can interfere: a critical section is one step, since the queues and the state are only changed under the mutex or
    while no background thread exists. Waiting on a condition variable is explicit, so that a notification can get lost, and a thread may wake up
    without one.
    Simplifications: recording and reloading the inner source do not fail and the tape is well-formed. *)
From Coq Require Import List Bool Arith.
Import ListNotations.

Section Prefetch.
  (** Examples; exceptions; the state of the inner source; what its record_position writes *)
  Context {D E S R : Type}.
  Inductive out := Val (d : D) | Eod | Err (e : E).
  (** inner_->next, reset, record_position, reload_position *)
  Record source := Source { pull : S -> out * S; reset : bool -> S -> S; record : S -> R; reload : S -> R -> S }.
  Variable X : source.
  (** num_examples_ *)
  Variable n : nat.

  (** What the consumer can call, and what comes back. [Tape (Some (fill, next)) r]: a strict record. *)
  Inductive call := Next | Reset (rng : bool) | Record_ (strict : bool) | Reload (buffers : option (list D * list D)) (r : R) | Close.
  Inductive ret := Got (d : D) | End | Raise (e : E) | Done | Tape (buffers : option (list D * list D)) (r : R).

  (** prefetch_state: .h line 23 *)
  Inductive mode := NotRunning | Running | AtEnd | Faulted.
  (** Where the background thread is. [PNone]: not joinable. [PTop]: line 142. [PHave o]: line 151, [o] is maybe_example. [PSleep o]: inside of
      wait, line 153. [PNotify]: line 170. [PEnd]: returned. *)
  Inductive producer := PNone | PTop | PHave (o : option D) | PSleep (o : option D) | PNotify | PEnd.
  (** Where the consumer is. [CNext]: line 30. [CCheck]: line 34. [CSleep]: inside of wait, line 36. [CNotify]: line 47. [CPop]: line 50.
      [CStop]: line 177. [CStopNotify]: line 186. [CJoin]: line 188. [CDo]: after stop_prefetch_thread. *)
  Inductive consumer := Idle | CNext | CCheck | CSleep | CNotify | CPop | CStop (c : call) | CStopNotify (c : call) | CJoin (c : call) | CDo (c : call).
  Record st := St { mode_ : mode; stop : bool; fill : list D; nextq : list D; exn : option E; inner : S; prod : producer; cons : consumer }.
  Definition init (s : S) : st := St NotRunning false [] [] None s PNone Idle.

  Definition set_cons (m : st) (c : consumer) : st := St (mode_ m) (stop m) (fill m) (nextq m) (exn m) (inner m) (prod m) c.
  Definition set_prod (m : st) (p : producer) : st := St (mode_ m) (stop m) (fill m) (nextq m) (exn m) (inner m) p (cons m).
  Definition is_running (x : mode) : bool := match x with Running => true | _ => false end.
  Definition is_empty {A} (l : list A) : bool := match l with [] => true | _ => false end.
  (** fill_queue_condition_.notify_one *)
  Definition notify_producer (p : producer) : producer := match p with PSleep o => PHave o | _ => p end.
  (** read_queue_condition_.notify_one *)
  Definition notify_consumer (c : consumer) : consumer := match c with CSleep => CCheck | _ => c end.

  (** ensure_prefetch_thread_running: lines 125-137 *)
  Definition ensure (m : st) : st :=
    match mode_ m, prod m with
    | (AtEnd | Faulted), _ => m
    | _, PNone => St Running (stop m) (fill m) (nextq m) (exn m) (inner m) PTop (cons m)
    | _, _ => m
    end.
  (** prefetch: lines 139-172 *)
  Definition producer_step (m : st) : option st :=
    match prod m with
    | PTop =>
        if is_running (mode_ m)
        then let (o, s) := pull X (inner m) in
             Some (St (mode_ m) (stop m) (fill m) (nextq m) (match o with Err e => Some e | _ => exn m end) s
               (PHave (match o with Val d => Some d | _ => None end)) (cons m))
        else Some (set_prod m PEnd)
    | PHave o =>
        if stop m || (length (fill m) <? n)
        then Some (match exn m, o with
                   | Some _, _ => St Faulted (stop m) (fill m) (nextq m) (exn m) (inner m) PNotify (cons m)
                   | None, None => St AtEnd (stop m) (fill m) (nextq m) (exn m) (inner m) PNotify (cons m)
                   | None, Some d => St (if stop m then NotRunning else mode_ m) (stop m) (fill m ++ [d]) (nextq m) (exn m) (inner m) PNotify (cons m)
                   end)
        else Some (set_prod m (PSleep o))
    | PNotify => Some (set_cons (set_prod m PTop) (notify_consumer (cons m)))
    | PNone | PSleep _ | PEnd => None
    end.
  (** Returning from a call *)
  Definition return_ (m : st) (c : call) (r : ret) : option (st * list (call * ret)) := Some (set_cons m Idle, [(c, r)]).
  Definition go (m : st) : option (st * list (call * ret)) := Some (m, []).
  Definition raise_if_faulted (m : st) (c : call) (k : option (st * list (call * ret))) : option (st * list (call * ret)) :=
    match mode_ m, exn m with Faulted, Some e => return_ m c (Raise e) | _, _ => k end.
  (** reset: lines 65-73, record_position: lines 81-92, reload_position: lines 100-116, the destructor *)
  Definition perform (c : call) (m : st) : option (st * list (call * ret)) :=
    match c with
    | Next => None
    | Reset b => raise_if_faulted m c (return_ (St NotRunning (stop m) [] [] (exn m) (reset X b (inner m)) (prod m) (cons m)) c Done)
    | Record_ strict => raise_if_faulted m c (return_ m c (Tape (if strict then Some (fill m, nextq m) else None) (record X (inner m))))
    | Reload b r =>
        raise_if_faulted m c
          (let (f, q) := match b with Some fq => fq | None => ([], []) end in
           return_ (St NotRunning (stop m) f q (exn m) (reload X (inner m) r) (prod m) (cons m)) c Done)
    | Close => return_ m c Done
    end.
  (** next: lines 20-58, stop_prefetch_thread: lines 174-191 *)
  Definition consumer_step (m : st) : option (st * list (call * ret)) :=
    match cons m with
    | Idle | CSleep => None
    | CNext =>
        if n =? 0
        then let (o, s) := pull X (inner m) in
             return_ (St (mode_ m) (stop m) (fill m) (nextq m) (exn m) s (prod m) (cons m)) Next (match o with Val d => Got d | Eod => End | Err e => Raise e end)
        else if is_empty (nextq m) then go (set_cons (ensure m) CCheck) else go (set_cons m CPop)
    | CCheck =>
        if negb (is_running (mode_ m)) || negb (is_empty (fill m))
        then raise_if_faulted m Next (go (St (mode_ m) (stop m) (nextq m) (fill m) (exn m) (inner m) (prod m) CNotify))
        else go (set_cons m CSleep)
    | CNotify => go (set_cons (set_prod m (notify_producer (prod m))) CPop)
    | CPop =>
        match nextq m with
        | [] => return_ m Next End
        | d :: q => return_ (St (mode_ m) (stop m) (fill m) q (exn m) (inner m) (prod m) (cons m)) Next (Got d)
        end
    | CStop c =>
        match prod m with
        | PNone => go (set_cons m (CDo c))
        | _ => go (St (mode_ m) true (fill m) (nextq m) (exn m) (inner m) (prod m) (CStopNotify c))
        end
    | CStopNotify c => go (set_cons (set_prod m (notify_producer (prod m))) (CJoin c))
    | CJoin c =>
        match prod m with
        | PEnd => go (St (mode_ m) false (fill m) (nextq m) (exn m) (inner m) PNone (CDo c))
        | _ => None
        end
    | CDo c => perform c m
    end.

  (** Who is next: the consumer makes a call or goes on with it, the background thread goes on, one of them wakes up without a notification *)
  Inductive choice := Call (c : call) | Cons | Prod | WakeCons | WakeProd.
  Definition step (ch : choice) (m : st) : option (st * list (call * ret)) :=
    match ch with
    | Call c => match cons m with Idle => go (set_cons m (match c with Next => CNext | _ => CStop c end)) | _ => None end
    | Cons => consumer_step m
    | Prod => option_map (fun m' => (m', [])) (producer_step m)
    | WakeCons => match cons m with CSleep => go (set_cons m CCheck) | _ => None end
    | WakeProd => match prod m with PSleep o => go (set_prod m (PHave o)) | _ => None end
    end.
  (** A schedule and the calls that returned, in order *)
  Fixpoint run (cs : list choice) (m : st) : option (st * list (call * ret)) :=
    match cs with
    | [] => go m
    | ch :: cs' => match step ch m with
                   | None => None
                   | Some (m', t) => match run cs' m' with None => None | Some (m'', t') => Some (m'', t ++ t') end
                   end
    end.
End Prefetch.
Arguments out : clear implicits. Arguments source : clear implicits. Arguments call : clear implicits. Arguments ret : clear implicits. Arguments st : clear implicits.
Arguments choice : clear implicits.
