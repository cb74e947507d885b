(** Model of the work that the trainer leaves to the background: saving checkpoints, StandardCheckpointManager (/repo/src/fairseq2/checkpoint/manager.py 181-270, 286-298,
    403-447), exporting them to Hugging Face, OutOfProcHuggingFaceExporter (/repo/src/fairseq2/checkpoint/hg.py 79-213), and the calls of the trainer that start and complete
    both (/repo/src/fairseq2/trainer.py, whose line numbers are given without a file name).
    One process is followed; the collective operations make all others take the same turns. Writing a checkpoint does not fail (for crashes see Ckpt_Model). The contents of
    checkpoints, and the deletion of all but the model (809-810), are left out: an export reads the model only. *)
From Coq Require Import List Bool ZArith.
From Verif Require Import Trainer_Model.
Import ListNotations.
Local Open Scope Z_scope.

(** What happens, in order. [ExportStart]: the process that exports is started; [ExportEnd]: it exits, [ok]: with code 0 *)
Inductive ev := Begin (n : Z) | Commit (n : Z) | SaveHook (n : Z) | Delete (n : Z) | ExportStart (n : Z) | ExportEnd (n : Z) (ok : bool) | ExportHook (n : Z).
(** _save_op: its step, and whether the files are written; _export_op: its step, and the result of the process once it has ended; the checkpoints in the directory *)
Record bg := Bg { save_op : option (Z * bool); export_op : option (Z * option bool); disk : list Z; log : list ev }.

Section M.
  (** The exporter is not NOOP_HG_EXPORTER; get_stale_step_numbers with the settings of the trainer, as a function of the checkpoints in the directory; how a process that
      exports ends *)
  Variables (exporting : bool) (stale : list Z -> list Z) (verdict : list ev -> bool).
  Definition emit (b : bg) (e : ev) : bg := Bg (save_op b) (export_op b) (disk b) (log b ++ [e]).
  Definition has (d : list Z) (n : Z) : bool := existsb (Z.eqb n) d.
  (** delete_checkpoint *)
  Definition delete (b : bg) (n : Z) : bg := Bg (save_op b) (export_op b) (filter (fun m => negb (m =? n)) (disk b)) (log b ++ [Delete n]).
  (** The commit function of an export, hg.py 159-168 *)
  Definition export_commit (b : bg) (n : Z) (ok : bool) : bg := if ok then emit b (ExportHook n) else b.
  (** maybe_complete_operation, hg.py 180-207, blocking and not *)
  Definition complete_export (b : bg) : bg :=
    match export_op b with
    | None => b
    | Some (n, Some ok) => export_commit (Bg (save_op b) None (disk b) (log b)) n ok
    | Some (n, None) => let ok := verdict (log b) in export_commit (Bg (save_op b) None (disk b) (log b ++ [ExportEnd n ok])) n ok
    end.
  Definition poll_export (b : bg) : bg :=
    match export_op b with
    | Some (n, Some ok) => export_commit (Bg (save_op b) None (disk b) (log b)) n ok
    | _ => b
    end.
  (** export, hg.py 102-177 *)
  Definition export (b : bg) (n : Z) (blocking : bool) : bg :=
    let b := emit (complete_export b) (ExportStart n) in
    if blocking then let ok := verdict (log b) in export_commit (emit b (ExportEnd n ok)) n ok
    else Bg (save_op b) (Some (n, None)) (disk b) (log b).
  (** _on_checkpoint_saved, 799-812, with 814-845 and _delete_stale_checkpoints, 1031-1046 *)
  Definition on_checkpoint_saved (b : bg) (n : Z) (blocking : bool) : bg :=
    let b := complete_export (emit b (SaveHook n)) in
    let b := fold_left delete (stale (disk b)) b in
    if exporting then export b n blocking else b.
  (** commit, manager.py 431-435; the directory of the checkpoint gets its name *)
  Definition commit (b : bg) (n : Z) (blocking : bool) : bg :=
    on_checkpoint_saved (Bg (save_op b) (export_op b) (if has (disk b) n then disk b else disk b ++ [n]) (log b ++ [Commit n])) n blocking.
  (** maybe_complete_save_operation, manager.py 234-265, blocking and not *)
  Definition complete_save (b : bg) : bg :=
    match save_op b with
    | None => b
    | Some (n, _) => commit (Bg None (export_op b) (disk b) (log b)) n false
    end.
  Definition poll_save (b : bg) : bg :=
    match save_op b with
    | Some (n, true) => commit (Bg None (export_op b) (disk b) (log b)) n false
    | _ => b
    end.
  (** _save_checkpoint, 749-797, with save_checkpoint, manager.py 181-209, _begin_checkpoint, 286-288, that deletes a checkpoint of the same step, and _do_save_checkpoint,
      403-447 *)
  Definition save (b : bg) (n : Z) (blocking : bool) : bg :=
    let b := complete_save b in
    let b := if has (disk b) n then delete b n else b in
    let b := emit b (Begin n) in
    if blocking then commit b n true else Bg (Some (n, false)) (export_op b) (disk b) (log b).

  (** The turns of the trainer in phase [p], at step [n] and in epoch [e], and what happens in the background *)
  Inductive turn := RunStep | PostStep (p : phase) (n e : Z) | Stop (p : phase) (n e : Z) | EarlyStop (n e : Z) | SaveDone | ExportDone (ok : bool).
  Variable c : config.
  Definition should_save (p : phase) (n e : Z) : bool := should_do (checkpoint c) p n e.
  Definition should_validate (p : phase) (n e : Z) : bool := has_validator c && should_do (validation c) p n e.
  Definition maybe_save (b : bg) (p : phase) (n e : Z) (blocking : bool) : bg := if should_save p n e then save b n blocking else b.
  Definition act (b : bg) (t : turn) : bg :=
    match t with
    | RunStep => poll_export (poll_save b)                                     (* 508-511 *)
    | PostStep p n e => maybe_save b p n e false                               (* 688 *)
    | Stop p n e =>                                                            (* 704-719 *)
        if should_validate p n e then complete_export (complete_save (maybe_save b p n e false)) else maybe_save b p n e true
    | EarlyStop n e =>                                                         (* 721-734 *)
        complete_export (if should_save EARLY_STOP n e then save b n true else complete_save b)
    | SaveDone => match save_op b with Some (n, _) => Bg (Some (n, true)) (export_op b) (disk b) (log b) | None => b end
    | ExportDone ok =>
        match export_op b with Some (n, None) => Bg (save_op b) (Some (n, Some ok)) (disk b) (log b ++ [ExportEnd n ok]) | _ => b end
    end.
  (** A run, with the checkpoints [d0] in the directory before it *)
  Definition run (d0 : list Z) (ts : list turn) : bg := fold_left act ts (Bg None None d0 []).
End M.
