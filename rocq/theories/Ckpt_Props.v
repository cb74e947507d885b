(** The properties of the checkpoint manager: C26 (crash atomicity), C27 (retention), C28 (ranking by score).
    Model: Ckpt_Model.v. Specification: Ckpt_Spec.v. *)

From Coq Require Import Lia QArith Sorting.Permutation Sorting.Sorted.
From Verif Require Import Ckpt_Spec Ckpt_Proofs Ckpt_List_Proofs Ckpt_Props_Lemmas.
Local Open Scope nat_scope.

(** ** C26. In every state that any number of processes can reach, with crashes at any point, a step that is reported was saved
    by some call, and every process can load all that this call saved unless a later call deletes the step. A later call that
    keeps the model never affects the model. *)
Theorem C26_crash_atomicity : forall g, grid_ok g -> forall c n, reach g c -> reported (c_fs c) n ->
  exists after s b before, c_hist c = after ++ Called (CSave s b) :: before /\ sv_step s = n /\
    (complete g (c_fs c) n s \/ exists e k, In e after /\ deletes n k e) /\
    (loads g (c_fs c) n s K_model \/ exists e, In e after /\ deletes n false e).
Proof. exact crash_safe. Qed.
Print Assumptions C26_crash_atomicity.

(** When all calls have returned, the steps are exactly those that the calls say (after a crash: for the steps that were saved or
    deleted since). *)
Theorem C26_calls_take_effect : forall g, grid_ok g -> forall c n, reach g c -> quiet g c ->
  match fst (expected (c_hist c)) n with
  | None => True
  | Some Absent => ~ reported (c_fs c) n
  | Some (Kept s) => reported (c_fs c) n /\ sv_step s = n /\ complete g (c_fs c) n s /\
      (sv_full s = true -> reported_full (c_fs c) n)
  | Some (Trimmed s) => reported (c_fs c) n /\ sv_step s = n /\ loads g (c_fs c) n s K_model /\ ~ reported_full (c_fs c) n
  | Some _ => False
  end.
Proof. exact quiet_exact. Qed.
Print Assumptions C26_calls_take_effect.

(** No call ever gets stuck: no process waits for ever and no file operation fails, also after crashes. *)
Theorem C26_no_deadlock : forall g, grid_ok g -> forall c, reach g c -> quiet g c \/ exists c', work g c c'.
Proof. exact no_deadlock. Qed.
Print Assumptions C26_no_deadlock.

(** Every grid of replicas, shards and tensor parallel processes meets the hypothesis. *)
Theorem C26_grids : forall rd sd t, 0 < rd -> 0 < sd -> 0 < t -> grid_ok (standard_grid rd sd t).
Proof. exact standard_grid_ok. Qed.
Print Assumptions C26_grids.

(** Eight processes save steps 1 and 2 and the model of step 3, score step 1 and delete a step that does not exist. *)
Example C26_example : exists cur,
  reach eg_grid (Config eg_fs (rev (map Called eg_calls)) cur none [] None) /\
  quiet eg_grid (Config eg_fs (rev (map Called eg_calls)) cur none [] None) /\
  reported eg_fs 1 /\ reported eg_fs 3 /\ ~ reported eg_fs 7 /\
  load eg_grid eg_fs 1 K_data_reader 7 = Some (eg_state 1000 6 K_data_reader) /\
  load eg_grid eg_fs 2 K_optimizer 5 = Some (eg_state 2000 1 K_optimizer) /\
  load eg_grid eg_fs 3 K_trainer 0 = None.
Proof.
  destruct eg_reach as (cur & I & R). exists cur; split; [exact R|]. split; [split; [exact I|reflexivity]|].
  vm_compute; repeat split; discriminate.
Qed.

(** "Every reported step is complete at every instant" is false: deleting a step is not atomic, so a crash during
    [delete_checkpoint] leaves a step that is reported and cannot be loaded. *)
Theorem C26_delete_refuted : exists g c, grid_ok g /\ reach g c /\ quiet g c /\ reported (c_fs c) 3 /\ load g (c_fs c) 3 K_model 0 = None.
Proof. destruct torn_delete as (c & H). exists one, c; split; [exact one_ok|exact H]. Qed.
Print Assumptions C26_delete_refuted.

(** ** C27. Listing and expiring checkpoints. *)
Theorem C27_step_numbers : forall found has_trainer exclude_model_only, NoDup found ->
  StronglySorted lt (get_step_numbers found has_trainer exclude_model_only) /\
  forall n, In n (get_step_numbers found has_trainer exclude_model_only) <->
            In n found /\ (exclude_model_only = true -> has_trainer n = true).
Proof. exact steps_spec. Qed.
Print Assumptions C27_step_numbers.

(** A step is stale exactly if it is not the last one and no policy keeps it. *)
Theorem C27_stale : forall steps score keep_last keep_best keep_every stale,
  StronglySorted lt steps -> steps <> [] -> (keep_last <> None \/ keep_best <> None \/ keep_every <> None) ->
  get_stale_step_numbers steps score keep_last keep_best keep_every = Some stale ->
  StronglySorted lt stale /\
  forall n, In n stale <->
    In n steps /\ ~ is_last steps n /\
    (forall k, keep_last = Some k -> ~ in_last k steps n) /\
    (forall k, keep_best = Some k -> ~ in_best k score steps n) /\
    (forall k, keep_every = Some k -> ~ Nat.divide k n).
Proof. exact stale_spec. Qed.
Print Assumptions C27_stale.

(** It raises exactly for a count of zero, or if the best steps are to be kept and a score cannot be parsed. *)
Theorem C27_stale_raises : forall steps score keep_last keep_best keep_every, steps <> [] ->
  (get_stale_step_numbers steps score keep_last keep_best keep_every = None <->
   keep_last = Some 0 \/ keep_best = Some 0 \/ keep_every = Some 0 \/
   (keep_best <> None /\ exists n, In n steps /\ score n = Some None)).
Proof. exact stale_raises. Qed.
Print Assumptions C27_stale_raises.

(** Without a policy nothing is stale. *)
Theorem C27_no_policy : forall steps score, get_stale_step_numbers steps score None None None = Some [].
Proof. reflexivity. Qed.

Definition eg_scores (n : nat) : option (option Q) :=
  match n with 10 => Some (Some (1 # 2)%Q) | 30 => Some (Some (3 # 4)%Q) | 40 => Some (Some (2 # 4)%Q) | _ => None end.
Example C27_example :
  get_stale_step_numbers [10; 20; 25; 30; 40; 45; 50] eg_scores (Some 2) (Some 2) (Some 25) = Some [10; 20] /\
  get_stale_step_numbers [10; 20; 25; 30; 40; 45; 50] eg_scores None None (Some 20) = Some [10; 25; 30; 45].
Proof. vm_compute; auto. Qed.

(** ** C28. Scores are listed best first, ties by the later step, every scored step once. *)
Theorem C28_scores : forall score steps l, NoDup steps -> load_scores score steps = Some l ->
  StronglySorted better l /\ forall q n, In (q, n) l <-> In n steps /\ score n = Some (Some q).
Proof. exact load_scores_spec. Qed.
Print Assumptions C28_scores.

Theorem C28_raises : forall score steps, load_scores score steps = None <-> exists n, In n steps /\ score n = Some None.
Proof. exact load_scores_raises. Qed.
Print Assumptions C28_raises.

Example C28_example : load_scores eg_scores [10; 20; 30; 40] = Some [((3 # 4)%Q, 30); ((2 # 4)%Q, 40); ((1 # 2)%Q, 10)].
Proof. vm_compute; reflexivity. Qed.

(** Writing a score is not atomic: after a crash in [save_score] the listing raises for ever. *)
Theorem C28_score_crash_refuted : exists g c, grid_ok g /\ reach g c /\ quiet g c /\ reported (c_fs c) 3 /\
  forall steps, In 3 steps -> load_scores (score_of (c_fs c)) steps = None.
Proof.
  destruct torn_score as (c & R & Q & P & S). exists one, c; split; [exact one_ok|]. split; [exact R|]. split; [exact Q|]. split; [exact P|].
  intros steps I. apply load_scores_raises; eauto.
Qed.
Print Assumptions C28_score_crash_refuted.
