(** The parameters with which training begins.

    Models
    - src/fairseq2/models/family.py 404-443 ([create_new_model]), 445-605
      ([load_model], [load_custom_model], [_do_load_model]),
    - src/fairseq2/recipe/internal/train_model.py 90-319 (the bootstrapper),
    - src/fairseq2/recipe/internal/data_parallel.py 35-207 (the wrappers),
    - src/fairseq2/nn/ddp.py 30-101, src/fairseq2/nn/fsdp/unified.py 34-90,
      src/fairseq2/nn/fsdp/fsdp1.py 50-176, src/fairseq2/nn/fsdp/fsdp2.py 60-171,
      src/fairseq2/nn/fsdp/common.py 38-87,
    - src/fairseq2/nn/utils/module.py 98-134, 359-450,
    - src/fairseq2/recipe/internal/reference_model.py 128-260,
    - src/fairseq2/trainer.py 363-398 (restoring the model),
    - src/fairseq2/checkpoint/manager.py 710-742.

    Simplifications.  A model is the origin of its parameters on each rank of the
    data parallel gang; FSDP keeps of them the rank's shard.  Synchronisation is a
    broadcast of rank 0.  Dtypes, devices, compilation, activation checkpointing,
    metadata and errors of files are left out; families and cards are known. *)

Require Import List Arith Bool.
Import ListNotations.

(** Where the parameters of a rank come from.  [Random r] are drawn on rank [r],
    [Empty] is uninitialised memory, [Meta] are parameters without memory. *)
Inductive origin := Meta | Empty | Random (rank : nat) | Pretrained | Saved.

Definition model := nat -> origin.

Definition is_meta (o : origin) : bool := match o with Meta => true | _ => false end.

(** module.py 98-134: parameters on the meta device are created and reset. *)
Definition to_device (m : model) : model := fun r => if is_meta (m r) then Random r else m r.

(** module.py 359-450; with one process nothing is sent. *)
Definition broadcast_module (m : model) : model := fun _ => to_device m 0.

(** family.py 404-443; [None] is the NotSupportedError. *)
Definition create_new_model (supports_meta meta init_rank0_only : bool) : option model :=
  if meta && negb supports_meta then None
  else let m r := if r =? 0 then (if meta then Meta else Random r) else (if supports_meta then Meta else Random r) in
       if meta then Some m
       else if negb init_rank0_only && supports_meta then Some (broadcast_module m) else Some m.

(** family.py 553-605: rank 0 gets the checkpoint. *)
Definition load_model (supports_meta load_rank0_only : bool) : model :=
  let m r := if r =? 0 then Pretrained else if supports_meta then Meta else Random r in
  if negb load_rank0_only then broadcast_module m else m.

(** A checkpoint directory: for each saved step whether it is that of a model
    only. *)
Definition checkpoints := list bool.

(** manager.py 710-742 *)
Definition has_checkpoint (exclude_model_only : bool) (cs : checkpoints) : bool :=
  0 <? length (filter (fun model_only => if exclude_model_only then negb model_only else true) cs).

Inductive section := Section_of (path name family : bool).

(** train_model.py 90-319; [None] is an InternalError, which the validation of the
    section prevents (recipe/config.py 115-124). *)
Definition bootstrap (s : section) (supports_meta : bool) (cs : checkpoints) : option model :=
  let has := has_checkpoint true cs in
  let checkpoint_model := create_new_model supports_meta supports_meta true in
  match s with
  | Section_of path name family =>
      if path then (if family then (if has then checkpoint_model else Some (load_model supports_meta true)) else None)
      else if name then (if has then checkpoint_model else Some (load_model supports_meta true))
      else if family then (if has then checkpoint_model else create_new_model supports_meta false true)
      else None
  end.

(** ddp.py 30-101: DDP broadcasts rank 0; [None] is the NotSupportedError. *)
Definition to_ddp (sdp_size : nat) (m : model) : option model :=
  if 1 <? sdp_size then None
  else let m' r := if is_meta (m r) then (if r =? 0 then Random r else Empty) else m r in
       Some (fun _ => m' 0).

(** fsdp1.py 50-176 and fsdp2.py 60-171, which agree on this; [None] is one of their
    errors. *)
Definition to_fsdp_version (sdp_size : nat) (m : model) (broadcast_state skip_init : bool) : option model :=
  if sdp_size =? 1 then None
  else if broadcast_state && is_meta (m 0) then None
  else let m' r := if is_meta (m r) then (if broadcast_state || skip_init then Empty else Random r) else m r in
       Some (if broadcast_state then fun _ => m' 0 else m').

(** unified.py 34-90: [skip_init] is not passed on. *)
Definition to_fsdp (sdp_size : nat) (m : model) (broadcast_state skip_init : bool) : option model :=
  to_fsdp_version sdp_size m broadcast_state false.

Inductive parallelism := DDP | FSDP.

(** data_parallel.py 47-65 and 135-207 *)
Definition wrap (data_parallelism : parallelism) (rdp_size sdp_size : nat) (cs : checkpoints) (m : model) : option model :=
  if rdp_size * sdp_size =? 1 then Some (to_device m)
  else let data_parallelism := match data_parallelism with
                               | FSDP => if (1 <? rdp_size) && (sdp_size =? 1) then DDP else FSDP
                               | DDP => DDP
                               end in
       match data_parallelism with
       | DDP => to_ddp sdp_size m
       | FSDP => let has := has_checkpoint false cs in to_fsdp sdp_size m (negb has) has
       end.

(** trainer.py 363-398: the last complete checkpoint, if any, is loaded. *)
Definition restore (cs : checkpoints) (m : model) : model :=
  if has_checkpoint true cs then fun _ => Saved else m.

(** The model when the first step begins. *)
Definition start (s : section) (supports_meta : bool) (p : parallelism) (rdp_size sdp_size : nat) (cs : checkpoints) : option model :=
  match bootstrap s supports_meta cs with
  | None => None
  | Some m => option_map (restore cs) (wrap p rdp_size sdp_size cs m)
  end.

(** reference_model.py 128-260: loaded on rank 0 and broadcast. *)
Definition reference_model (supports_meta : bool) (dp_size : nat) : model :=
  let m := load_model supports_meta true in
  if 1 <? dp_size then broadcast_module m else m.

(** ** Resharding *)

(** The strategies of FSDP1: (hybrid, frees the parameters after the forward
    pass).  FULL_SHARD is (false, true), SHARD_GRAD_OP (false, false), HYBRID_SHARD
    (true, true) and _HYBRID_SHARD_ZERO2 (true, false). *)
Definition strategy := (bool * bool)%type.

(** fsdp1.py 69-83 and 120-136: the strategy of a wrapped module; [override] is
    the argument of the wrapper. *)
Definition fsdp1_strategy (rdp_size : nat) (reshard_after_forward : bool) (override : option bool) : strategy :=
  let sharding_strategy := if 1 <? rdp_size then (if reshard_after_forward then (true, true) else (true, false))
                           else (if reshard_after_forward then (false, true) else (false, false)) in
  match override with
  | None => sharding_strategy
  | Some true => if rdp_size =? 1 then (false, false) else (true, false)
  | Some false => if rdp_size =? 1 then (false, true) else (true, true)
  end.

(** fsdp2.py 79-96, 133-154 *)
Definition fsdp2_strategy (rdp_size : nat) (reshard_after_forward : bool) (override : option bool) : strategy :=
  (1 <? rdp_size, match override with None => reshard_after_forward | Some b => b end).
