(** The documented precedence, and the GPUs that processes use. *)

Require Import List Arith ZArith.
From Verif Require Import Ddv_Model.
Import ListNotations.

(** The documentation of detect_default_device, 145-151, with its exceptions. *)
Definition documented (cuda : bool) (gpus : list ref) (e : env) (o : outcome) : Prop :=
  match env_device e with
  | Some (Some d) => o = Device_ok d
  | Some None => o = Bad_device
  | None =>
      if cuda then
        match visible_refs gpus e with
        | [] => o = Device_ok Cpu
        | seen =>
            match env_visible e with
            | Some [_] => o = Device_ok (Cuda 0)
            | _ => match env_local_rank e with
                   | None => o = Device_ok Cpu
                   | Some None => o = Bad_rank
                   | Some (Some r) => if (r <? 0)%Z then o = Bad_rank
                                      else if (r <? Z.of_nat (length seen))%Z then o = Device_ok (Cuda (Z.to_nat r)) else o = Rank_out_of_range
                   end
            end
        end
      else o = Device_ok Cpu
  end.

(** The GPU of a CUDA device of a process. *)
Definition gpu_of (gpus : list ref) (e : env) (o : outcome) : option ref :=
  match o with Device_ok (Cuda i) => nth_error (visible_refs gpus e) i | _ => None end.
