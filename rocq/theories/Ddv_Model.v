(** The default device of a process.

    Models src/fairseq2/device.py 140-248 ([detect_default_device],
    [_DefaultDeviceDetector]) and src/fairseq2/utils/env.py 91-116 ([get_local_rank]).

    Simplifications.  Environment variables are given parsed: a device or a text
    that is none, an integer or a text that is none, a list of devices separated by
    commas, each given by its index or by its UUID.  All the devices listed exist,
    so that CUDA sees exactly these; without the variable it sees those of the host.
    Devices other than the CPU and CUDA devices, which only FAIRSEQ2_DEVICE can
    name, are [Other]. *)

Require Import List Arith ZArith Bool.
Import ListNotations.

Inductive device := Cpu | Cuda (index : nat) | Other (name : nat).

(** How CUDA_VISIBLE_DEVICES refers to a GPU. *)
Inductive ref := By_index (i : nat) | By_uuid (u : nat).

(** FAIRSEQ2_DEVICE, CUDA_VISIBLE_DEVICES and LOCAL_RANK. *)
Record env := Env { env_device : option (option device); env_visible : option (list ref); env_local_rank : option (option Z) }.

Inductive outcome := Device_ok (d : device) | Bad_device | Bad_rank | Rank_out_of_range | Internal_error.

(** env.py 91-116: [inl] is the rank, if any, and [inr tt] the error. *)
Definition get_local_rank (e : env) : option nat + unit :=
  match env_local_rank e with
  | None => inl None
  | Some None => inr tt
  | Some (Some value) => if (value <? 0)%Z then inr tt else inl (Some (Z.to_nat value))
  end.

(** device.py 222-233 *)
Definition get_device_index (e : env) (num_devices : nat) : nat + outcome :=
  if num_devices <=? 0 then inr Internal_error
  else match get_local_rank e with
       | inr _ => inr Bad_rank
       | inl None => inl 0
       | inl (Some rank) => if num_devices <=? rank then inr Rank_out_of_range else inl rank
       end.

(** device.py 202-210: whether CUDA_VISIBLE_DEVICES is an integer. *)
Definition is_int (visible : list ref) : bool := match visible with [By_index _] => true | _ => false end.

(** device.py 193-220; [None] is no device. *)
Definition get_default_cuda_device (e : env) (available : bool) (num_devices : nat) : option outcome :=
  if negb available then None
  else if num_devices =? 0 then None
  else if match env_visible e with Some visible => is_int visible | None => false end then Some (Device_ok (Cuda 0))
  else match get_device_index e num_devices with
       | inr error => Some error
       | inl idx => Some (Device_ok (Cuda idx))
       end.

(** device.py 169-191 *)
Definition detect (e : env) (available : bool) (num_devices : nat) : outcome :=
  match env_device e with
  | Some None => Bad_device
  | Some (Some d) => Device_ok d
  | None => match get_default_cuda_device e available num_devices with
            | Some o => o
            | None => Device_ok Cpu
            end
  end.

(** CUDA itself: the devices a process sees on a host with the GPUs [gpus]; [cuda] is
    whether PyTorch has CUDA. *)
Definition visible_refs (gpus : list ref) (e : env) : list ref := match env_visible e with Some visible => visible | None => gpus end.

(** A process on a host. *)
Definition detect_on (cuda : bool) (gpus : list ref) (e : env) : outcome :=
  let n := length (visible_refs gpus e) in detect e (cuda && (0 <? n)) n.
