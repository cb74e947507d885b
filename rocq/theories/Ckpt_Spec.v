(** What the checkpoint manager promises, stated without its programs. *)

From Coq Require Import QArith Sorting.Permutation Sorting.Sorted.
From Verif Require Export Ckpt_Model.

(** The processes form a grid as [create_parallel_gangs] and [create_fsdp_gangs] build it (/repo/src/fairseq2/gang.py:907-1180). *)
Record grid_ok (g : grid) : Prop := {
  g_pos : 0 < size g;
  (* the rank in [dp] and the rank in [tp] together identify a process *)
  g_inj : forall r r', r < size g -> r' < size g -> dp g r = dp g r' -> tp g r = tp g r' -> r = r';
  (* the rank in [rdp] and the rank in [sdp] together identify the rank in [dp] *)
  g_dp : forall r r', r < size g -> r' < size g -> rdp g r = rdp g r' -> sdp g r = sdp g r' -> dp g r = dp g r';
  (* in each of the gangs of a process there is a process with rank zero *)
  g_rdp0 : forall r, r < size g -> exists r', r' < size g /\ rdp g r' = 0 /\ sdp g r' = sdp g r /\ tp g r' = tp g r /\ pp g r' = pp g r;
  g_sdp0 : forall r, r < size g -> rdp g r = 0 ->
    exists r', r' < size g /\ rdp g r' = 0 /\ sdp g r' = 0 /\ tp g r' = tp g r /\ pp g r' = pp g r;
  g_tp0 : forall r, r < size g -> exists r', r' < size g /\ tp g r' = 0 /\ dp g r' = dp g r;
  g_dp0 : forall r, r < size g -> tp g r = 0 -> exists r', r' < size g /\ tp g r' = 0 /\ dp g r' = 0
}.

(** [rd] replicas of [sd] shards of [t] tensor parallel processes. *)
Definition standard_grid (rd sd t : nat) : grid := {|
  size := rd * sd * t;
  dp := fun r => r / t; tp := fun r => r mod t; pp := fun _ => 0;
  rdp := fun r => r / t / sd; sdp := fun r => (r / t) mod sd |}.

(** The process whose state of kind [k] process [r] gets back when it loads a checkpoint: itself for the trainer; for the model and
    the optimizer the process of the first replica with the same shard; for the data reader the first process of its [tp] gang. *)
Definition owner (g : grid) (k : kind) (r o : nat) : Prop :=
  o < size g /\
  match k with
  | K_trainer => o = r
  | K_model | K_optimizer => rdp g o = 0 /\ pp g o = pp g r /\ tp g o = tp g r /\ sdp g o = sdp g r
  | K_data_reader => tp g o = 0 /\ dp g o = dp g r
  end.

(** Every process can load its state of kind [k] of step [n] and gets the state that was saved by [s]. *)
Definition loads (g : grid) (f : fs) (n : nat) (s : save) (k : kind) : Prop :=
  forall r, r < size g -> exists o, owner g k r o /\ load g f n k r = Some (sv_state s o k).

(** Step [n] is a complete checkpoint with the state saved by [s]. *)
Definition complete (g : grid) (f : fs) (n : nat) (s : save) : Prop :=
  loads g f n s K_model /\
  (sv_full s = true -> loads g f n s K_trainer /\ loads g f n s K_optimizer /\ loads g f n s K_data_reader).

(** What [get_step_numbers] reports (manager.py:715-741). *)
Definition reported (f : fs) (n : nat) : Prop := f (Step n, []) = Some Dir.
Definition reported_full (f : fs) (n : nat) : Prop := reported f n /\ f (Step n, [N_trainer]) <> None.

(** The call deletes step [n] (saving a step starts by deleting it). *)
Definition deletes (n : nat) (keep_model : bool) (x : event) : Prop :=
  match x with
  | Called (CDelete k b) => k = n /\ b = keep_model
  | Called (CSave s _) => sv_step s = n /\ keep_model = false
  | _ => False
  end.

(** The last thing that the calls say about each step, and the save operation in progress. After a crash the steps that were not
    saved or deleted since are unknown ([None]). *)
Inductive status := Absent | Kept (s : save) | Trimming (s : save) | Trimmed (s : save) | Deleting (s : save).

Definition know := nat -> option status.
Definition setk (k : know) (n : nat) (v : option status) : know := fun q => if q =? n then v else k q.
Definition trim (v : status) : status := match v with Kept s | Trimming s | Trimmed s => Trimmed s | v => v end.
Definition commit_pending (p : option save) (k : know) : know :=
  match p with Some s => setk k (sv_step s) (Some (Kept s)) | None => k end.

Fixpoint expected (h : list event) : know * option save :=
  match h with
  | [] => ((fun _ => Some Absent), None)
  | Crashed :: _ => ((fun _ => None), None)
  | Called x :: h' =>
      let (k, p) := expected h' in
      match x with
      | CSave s true => (setk (commit_pending p k) (sv_step s) (Some (Kept s)), None)
      | CSave s false => (setk (commit_pending p k) (sv_step s) (Some Absent), Some s)
      | CDelete n false => (setk k n (Some Absent), p)
      | CDelete n true => (setk k n (option_map trim (k n)), p)
      | CScore _ _ => (k, p)
      | CComplete => (commit_pending p k, None)
      end
  end.

(** ** Retention and ranking *)

(** (score, step) pairs are compared by score, then by step. *)
Definition better (a b : Q * nat) : Prop := (fst b < fst a)%Q \/ ((fst a == fst b)%Q /\ snd b < snd a).

(** Of the elements of [l] fewer than [k] satisfy [p]. *)
Definition fewer_than {A} (k : nat) (p : A -> Prop) (l : list A) : Prop :=
  forall l', NoDup l' -> (forall x, In x l' -> In x l /\ p x) -> length l' < k.

(** Why a step is kept by [get_stale_step_numbers]. *)
Definition is_last (steps : list nat) (n : nat) : Prop := forall k, In k steps -> k <= n.
Definition in_last (k : nat) (steps : list nat) (n : nat) : Prop := fewer_than k (fun q => n < q) steps.
Definition in_best (k : nat) (score : nat -> option (option Q)) (steps : list nat) (n : nat) : Prop :=
  exists q, score n = Some (Some q) /\
    fewer_than k (fun n' => exists q', score n' = Some (Some q') /\ better (q', n') (q, n)) steps.

(** The score of a step as the manager reads it: an empty file does not parse. *)
Definition score_of (f : fs) (n : nat) : option (option Q) :=
  match f (Scores, [N_score n]) with
  | Some (File (Whole v)) => Some (Some (inject_Z v))
  | Some _ => Some None
  | None => None
  end.
