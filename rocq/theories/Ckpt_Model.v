(** The checkpoint manager on a local file system, with any number of processes, and the functions that list, rank and expire
    checkpoints. Definitions only.

    Source: /repo/src/fairseq2/checkpoint/manager.py (abbreviated "manager.py" below), /repo/src/fairseq2/file_system.py. *)

From Coq Require Import QArith.
From Coq Require Export ZArith Bool Arith List.
Export ListNotations.
Global Open Scope nat_scope.
Global Open Scope list_scope.

(** ** The checkpoint directory

    A path is the entry of the checkpoint directory it is in and the names below it. The names are those that the manager composes
    with format strings; distinct arguments give distinct names (decimal numbers), so a name is its arguments.
    [Step n] is "step_<n>", [Tmp n] is "step_<n>.tmp", [Scores] is "scores" (manager.py:275-284, 503-504, 532).
    [N_other] stands for names the manager does not write itself ("hg", "hook"; manager.py:680). *)
Inductive top := Step (n : nat) | Tmp (n : nat) | Scores.
Inductive name :=
| N_trainer | N_model | N_optimizer | N_data_reader
| N_rank (i : nat) | N_pp (i : nat) | N_tp (i : nat) | N_sdp (i : nat) | N_dp (i : nat)
| N_score (n : nat)
| N_other (i : nat).

Definition path : Type := top * list name.

Definition top_eq_dec (a b : top) : {a = b} + {a <> b}.
Proof. decide equality; apply Nat.eq_dec. Defined.
Definition name_eq_dec (a b : name) : {a = b} + {a <> b}.
Proof. decide equality; apply Nat.eq_dec. Defined.
Definition path_eq_dec (a b : path) : {a = b} + {a <> b}.
Proof. decide equality; [apply (list_eq_dec name_eq_dec)|apply top_eq_dec]. Defined.

(** What a file contains: nothing usable yet, or everything that was to be written (an opaque value). *)
Inductive content := Partial | Whole (v : Z).
Inductive node := Dir | File (c : content).

Definition fs : Type := path -> option node.
Definition empty_fs : fs := fun _ => None.
Definition upd (f : fs) (p : path) (v : option node) : fs := fun q => if path_eq_dec q p then v else f q.

(** ** Processes

    manager.py uses the ranks of the process in the gangs of [Gangs] (/repo/src/fairseq2/gang.py:654-695). *)
Record grid := Grid { size : nat; dp : nat -> nat; tp : nat -> nat; pp : nat -> nat; rdp : nat -> nat; sdp : nat -> nat }.

Inductive kind := K_trainer | K_model | K_optimizer | K_data_reader.

(** A save operation: the step, whether it is [save_checkpoint] or [save_model_only], and the state of every process. *)
Record save := Save { sv_step : nat; sv_full : bool; sv_state : nat -> kind -> Z }.

Section Programs.
  Variable g : grid.

  (** manager.py:306, 331, 362, 387. *)
  Definition trainer_file (r : nat) : list name := [N_trainer; N_rank r].
  Definition model_file (r : nat) : list name := [N_model; N_pp (pp g r); N_tp (tp g r); N_sdp (sdp g r)].
  Definition optimizer_file (r : nat) : list name := [N_optimizer; N_pp (pp g r); N_tp (tp g r); N_sdp (sdp g r)].
  Definition data_reader_file (r : nat) : list name := [N_data_reader; N_dp (dp g r)].

  (** manager.py:197-205, 225-227 with the guards of 327-328, 358-359, 383-384: the records of process [r]. *)
  Definition records (full : bool) (r : nat) : list (kind * list name) :=
    (if full then [(K_trainer, trainer_file r)] else []) ++
    (if rdp g r =? 0 then [(K_model, model_file r)] else []) ++
    (if full && (rdp g r =? 0) then [(K_optimizer, optimizer_file r)] else []) ++
    (if full && (tp g r =? 0) then [(K_data_reader, data_reader_file r)] else []).

  (** Atomic file system operations; [IRmtree] and [IKeep] stand for many of them.
      [IKeep t] removes everything in [t] but what [keep_model] protects (manager.py:678-688). *)
  Inductive instr :=
  | IMkdir (p : path)
  | IOpen (p : path)
  | IWrite (p : path) (v : Z)
  | IRmtree (t : top)
  | IKeep (t : top)
  | IUnlink (p : path)
  | IRename (n : nat).

  (** file_system.py:614-616: [path.mkdir(parents=True, exist_ok=True)], one directory at a time. *)
  Definition prefixes {A} (l : list A) : list (list A) := map (fun k => firstn k l) (seq 0 (S (length l))).
  Definition mkdirs (t : top) (l : list name) : list instr := map (fun q => IMkdir (t, q)) (prefixes l).

  (** manager.py:654-707 [delete_checkpoint], the part of the coordinator. *)
  Definition delete_prog (n : nat) (keep_model : bool) (r : nat) : list instr :=
    if r =? 0 then
      [IRmtree (Tmp n); if keep_model then IKeep (Step n) else IRmtree (Step n)] ++
      (if keep_model then [] else [IUnlink (Scores, [N_score n])])
    else [].

  (** manager.py:286-298 [_begin_checkpoint] after the deletion, then the directories made while recording
      (310-314, 335-339, 366-370, 391-395). *)
  Definition mkdir_prog (s : save) (r : nat) : list instr :=
    let t := Tmp (sv_step s) in
    (if r =? 0 then mkdirs t [] else []) ++
    (if sv_full s && (r =? 0) then mkdirs t [N_trainer] else []) ++
    (if (rdp g r =? 0) && (sdp g r =? 0) then mkdirs t [N_model; N_pp (pp g r); N_tp (tp g r)] else []) ++
    (if sv_full s && ((rdp g r =? 0) && (sdp g r =? 0)) then mkdirs t [N_optimizer; N_pp (pp g r); N_tp (tp g r)] else []) ++
    (if sv_full s && ((tp g r =? 0) && (dp g r =? 0)) then mkdirs t [N_data_reader] else []).

  (** manager.py:465-484 [_save_state_files], /repo/src/fairseq2/io.py:156-178: each file is opened, then written. *)
  Definition write_prog (s : save) (r : nat) : list instr :=
    flat_map (fun kf : kind * list name =>
      let p := (Tmp (sv_step s), snd kf) in [IOpen p; IWrite p (sv_state s r (fst kf))]) (records (sv_full s) r).

  (** manager.py:486-508 [_commit_checkpoint] between its barriers; file_system.py:607-608 ([Path.replace], atomic). *)
  Definition commit_prog (s : save) (r : nat) : list instr := if r =? 0 then [IRename (sv_step s)] else [].

  (** manager.py:526-555 [save_score]. *)
  Definition score_prog (n : nat) (v : Z) (r : nat) : list instr :=
    if r =? 0 then IMkdir (Scores, []) :: [IOpen (Scores, [N_score n]); IWrite (Scores, [N_score n]) v] else [].

  (** manager.py:557-644: the file that process [r] reads to load its state of kind [k]; [None] when the call raises because the file
      is missing or corrupt. *)
  Definition load_path (k : kind) (r : nat) : list name :=
    match k with
    | K_trainer => trainer_file r | K_model => model_file r | K_optimizer => optimizer_file r | K_data_reader => data_reader_file r
    end.
  Definition load (f : fs) (n : nat) (k : kind) (r : nat) : option Z :=
    match f (Step n, load_path k r) with Some (File (Whole v)) => Some v | _ => None end.

  (** ** Calls

      Between two barriers every process runs a list of operations ([PRun]); the next phase starts when all are done.
      [PSpawn] hands the operations to the background threads (manager.py:438-445); [PJoin] waits for the threads of all
      processes (manager.py:233-262: the blocking and the polling variant both commit only when all are done). *)
  Inductive phase :=
  | PRun (f : nat -> list instr)
  | PSpawn (s : save)
  | PJoin.

  Inductive call :=
  | CSave (s : save) (blocking : bool)
  | CDelete (n : nat) (keep_model : bool)
  | CScore (n : nat) (v : Z)
  | CComplete.

  (** [maybe_complete_save_operation] (manager.py:233-262). *)
  Definition complete_phases (pending : option save) : list phase :=
    match pending with Some s => [PJoin; PRun (commit_prog s)] | None => [] end.

  (** manager.py:181-231, 403-447. *)
  Definition phases (pending : option save) (c : call) : list phase :=
    match c with
    | CSave s blocking =>
        complete_phases pending ++ [PRun (delete_prog (sv_step s) false); PRun (mkdir_prog s)] ++
        (if blocking then [PRun (write_prog s); PRun (commit_prog s)] else [PSpawn s])
    | CDelete n keep => [PRun (delete_prog n keep)]
    | CScore n v => [PRun (score_prog n v)]
    | CComplete => complete_phases pending
    end.

  (** The save operation that is still pending when the call starts to run. *)
  Definition pending_after (pending : option save) (c : call) : option save :=
    match c with CSave _ _ | CComplete => None | _ => pending end.

  (** A call must not delete the step that is being saved in the background. *)
  Definition call_ok (pending : option save) (c : call) : Prop :=
    match c, pending with CDelete n _, Some s => n <> sv_step s | _, _ => True end.

  (** ** Execution *)

  Definition protected (x : name) : bool := match x with N_model | N_other _ => true | _ => false end.
  Definition leaf (f : fs) (t : top) (l : list name) : Prop := f (t, l) <> None /\ forall x, f (t, l ++ [x]) = None.
  Definition rename (f : fs) (n : nat) : fs := fun p =>
    if top_eq_dec (fst p) (Step n) then f (Tmp n, snd p) else if top_eq_dec (fst p) (Tmp n) then None else f p.

  (** One atomic operation of a list of operations. [shutil.rmtree] removes files and empty directories one by one, in an order
      that depends on the file system. An operation whose precondition fails is not executed (it raises). *)
  Inductive exec : fs * list instr -> fs * list instr -> Prop :=
  | ex_mkdir_new f t l k : f (t, l) = None -> (l = [] \/ f (t, removelast l) = Some Dir) ->
      exec (f, IMkdir (t, l) :: k) (upd f (t, l) (Some Dir), k)
  | ex_mkdir_old f p k : f p = Some Dir -> exec (f, IMkdir p :: k) (f, k)
  | ex_open f t l k : l <> [] -> f (t, removelast l) = Some Dir -> f (t, l) <> Some Dir ->
      exec (f, IOpen (t, l) :: k) (upd f (t, l) (Some (File Partial)), k)
  | ex_write f p v c k : f p = Some (File c) -> exec (f, IWrite p v :: k) (upd f p (Some (File (Whole v))), k)
  | ex_rm_one f t l k : leaf f t l -> exec (f, IRmtree t :: k) (upd f (t, l) None, IRmtree t :: k)
  | ex_rm_done f t k : f (t, []) = None -> exec (f, IRmtree t :: k) (f, k)
  | ex_keep_one f t x l k : protected x = false -> leaf f t (x :: l) ->
      exec (f, IKeep t :: k) (upd f (t, x :: l) None, IKeep t :: k)
  | ex_keep_done f t k : (forall x l, protected x = false -> f (t, x :: l) = None) -> exec (f, IKeep t :: k) (f, k)
  | ex_unlink f p k c : f p = Some (File c) -> exec (f, IUnlink p :: k) (upd f p None, k)
  | ex_unlink_none f p k : f p = None -> exec (f, IUnlink p :: k) (f, k)
  | ex_rename f n k : f (Tmp n, []) = Some Dir -> f (Step n, []) = None ->
      exec (f, IRename n :: k) (rename f n, k).

  Inductive event := Called (c : call) | Crashed.

  Record config := Config {
    c_fs : fs;
    c_hist : list event;              (* the calls made and the crashes so far, the last one first *)
    c_cur : nat -> list instr;        (* what every process still has to do in the current phase *)
    c_bg : nat -> list instr;         (* what its background thread still has to do *)
    c_todo : list phase;              (* the phases after the current one *)
    c_pend : option save              (* the save operation that is running in the background, [_save_op] *)
  }.

  Definition none : nat -> list instr := fun _ => [].
  Definition setr (f : nat -> list instr) (r : nat) (l : list instr) : nat -> list instr := fun q => if q =? r then l else f q.
  Definition idle (f : nat -> list instr) : Prop := forall r, r < size g -> f r = [].

  (** What the processes do by themselves, in any order. *)
  Inductive work : config -> config -> Prop :=
  | wk_main f h cur bg todo pd r f' l : r < size g -> exec (f, cur r) (f', l) ->
      work (Config f h cur bg todo pd) (Config f' h (setr cur r l) bg todo pd)
  | wk_bg f h cur bg todo pd r f' l : r < size g -> exec (f, bg r) (f', l) ->
      work (Config f h cur bg todo pd) (Config f' h cur (setr bg r l) todo pd)
  | wk_run f h cur bg p todo pd : idle cur ->
      work (Config f h cur bg (PRun p :: todo) pd) (Config f h p bg todo pd)
  | wk_spawn f h cur bg s todo pd : idle cur ->
      work (Config f h cur bg (PSpawn s :: todo) pd) (Config f h none (write_prog s) todo (Some s))
  | wk_join f h cur bg todo pd : idle cur -> idle bg ->
      work (Config f h cur bg (PJoin :: todo) pd) (Config f h none bg todo pd).

  (** All calls have returned. *)
  Definition quiet (c : config) : Prop := idle (c_cur c) /\ c_todo c = [].

  (** The user makes the next call when the last one has returned. At any time all processes may be killed; they start again
      with the files that are there. *)
  Inductive step : config -> config -> Prop :=
  | st_work c c' : work c c' -> step c c'
  | st_call f h cur bg pd x : idle cur -> call_ok pd x ->
      step (Config f h cur bg [] pd) (Config f (Called x :: h) none bg (phases pd x) (pending_after pd x))
  | st_crash f h cur bg todo pd :
      step (Config f h cur bg todo pd) (Config f (Crashed :: h) none none [] None).

  Definition start : config := Config empty_fs [] none none [] None.

  Inductive reach : config -> Prop :=
  | reach_start : reach start
  | reach_step c c' : reach c -> step c c' -> reach c'.
End Programs.

(** ** Listing, ranking and expiring checkpoints *)

(** [list.sort] on numbers. *)
Fixpoint insert_nat (x : nat) (l : list nat) : list nat :=
  match l with [] => [x] | y :: r => if x <=? y then x :: l else y :: insert_nat x r end.
Definition sort_nat (l : list nat) : list nat := fold_right insert_nat [] l.

(** manager.py:715-741 [get_step_numbers]: [found] are the numbers n for which a directory "step_<n>" was found by [glob], in
    any order; [has_trainer n] tells whether it contains "trainer". *)
Definition get_step_numbers (found : list nat) (has_trainer : nat -> bool) (exclude_model_only : bool) : list nat :=
  sort_nat (if exclude_model_only then filter has_trainer found else found).

(** manager.py:743-751. *)
Definition last_step_number (steps : list nat) : option nat :=
  match rev steps with [] => None | n :: _ => Some n end.

(** Comparison of the tuples (score, step). A score is a rational number: [float] rounding, infinities and NaN are not modelled. *)
Definition pair_ltb (a b : Q * nat) : bool :=
  match Qcompare (fst a) (fst b) with Lt => true | Gt => false | Eq => snd a <? snd b end.

(** [scores.sort(reverse=True)] (manager.py:831): stable, largest first. *)
Fixpoint insert_desc (x : Q * nat) (l : list (Q * nat)) : list (Q * nat) :=
  match l with [] => [x] | y :: r => if pair_ltb x y then y :: insert_desc x r else x :: l end.
Definition sort_desc (l : list (Q * nat)) : list (Q * nat) := fold_right insert_desc [] l.

(** manager.py:800-833 [_do_load_scores]; [score n] is the contents of "scores/step_<n>.txt": [None] when the file does not exist,
    [Some None] when it cannot be parsed. The result is [None] when it raises. *)
Fixpoint collect_scores (score : nat -> option (option Q)) (steps : list nat) : option (list (Q * nat)) :=
  match steps with
  | [] => Some []
  | n :: r => match score n with
              | None => collect_scores score r
              | Some None => None
              | Some (Some q) => match collect_scores score r with Some l => Some ((q, n) :: l) | None => None end
              end
  end.
Definition load_scores (score : nat -> option (option Q)) (steps : list nat) : option (list (Q * nat)) :=
  option_map sort_desc (collect_scores score steps).

(** [l[-n:]] for n >= 1. *)
Definition last_n {A} (n : nat) (l : list A) : list A := skipn (length l - n) l.

(** manager.py:753-798 [get_stale_step_numbers] on the list of existing steps; [None] when it raises. *)
Definition get_stale_step_numbers (steps : list nat) (score : nat -> option (option Q))
  (keep_last keep_best keep_every : option nat) : option (list nat) :=
  match keep_last, keep_best, keep_every with
  | None, None, None => Some []
  | _, _, _ =>
      match steps with
      | [] => Some []
      | _ =>
          let last := last_n 1 steps in
          match (match keep_last with None => Some [] | Some 0 => None | Some n => Some (last_n n steps) end) with
          | None => None
          | Some ls =>
              match (match keep_best with
                     | None => Some []
                     | Some 0 => None
                     | Some n => option_map (fun sc => map snd (firstn n sc)) (load_scores score steps)
                     end) with
              | None => None
              | Some bs =>
                  match (match keep_every with
                         | None => Some []
                         | Some 0 => None
                         | Some n => Some (filter (fun k => k mod n =? 0) steps)
                         end) with
                  | None => None
                  | Some es =>
                      let keep := last ++ ls ++ bs ++ es in
                      Some (filter (fun k => negb (existsb (Nat.eqb k) keep)) steps)
                  end
              end
          end
      end
  end.
