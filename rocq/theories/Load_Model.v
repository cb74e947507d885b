(** Model of the loading of model checkpoints: /repo/src/fairseq2/model_checkpoint/common.py, native.py, basic.py, safetensors.py.
    A tensor is a matrix as in Shard_Model (a vector is a matrix of width 1). A tensor object has an identity: parameters that share a tensor
    share the object within one file. A checkpoint file is a dictionary: its keys in order with their objects; [None] is an object that is
    not a tensor. Reading files, mmap, and the state dict converter are left out (the dictionaries are the converted ones). *)
From Coq Require Import List Bool Arith Lia.
From Verif Require Import Shard_Model.
Import ListNotations.

Section Load.
  Context {A : Type}.
  Notation mat := (mat A).

  (** Tensor.narrow *)
  Definition narrow (dim start len : nat) (m : mat) : res mat :=
    if size_of dim m <? start + len then Err RuntimeError
    else Ok (match dim with
             | 0 => Mat (width m) (firstn len (skipn start (rows m)))
             | _ => Mat len (map (fun r => firstn len (skipn start r)) (rows m))
             end).
  (** l[i:j + 1] by indexing: for idx in range(i, j + 1): out.append(l[idx]) *)
  Definition pick {T} (l : list T) (i n : nat) : res (list T) := collect (map (get l) (seq i n)).

  (** The unsharded data parallel tensor: common.py lines 99-105, 110-115, 121-125 *)
  Definition join_dp (s_dp : nat) (l : list mat) : res mat := if s_dp =? 1 then get l 0 else cat 0 l.
  Fixpoint join_all (s_dp : nat) (ls : list (list mat)) : res (list mat) :=
    match ls with [] => Ok [] | l :: ls' => bind (join_dp s_dp l) (fun m => bind (join_all s_dp ls') (fun ms => Ok (m :: ms))) end.
  Definition div (a b : nat) : res nat := if b =? 0 then Err ZeroDivisionError else Ok (a / b).
  (** reshard_tensor: common.py lines 92-166. [tp_dim]: shard_dims.get(key). The data parallel target configuration is not used. *)
  Definition reshard (tp_dim : option nat) (splits : list (list mat)) (s_tp s_dp t_tp t_rank : nat) : res mat :=
    if s_tp =? t_tp then bind (get splits t_rank) (join_dp s_dp)
    else match tp_dim with
    | None => bind (get splits 0) (join_dp s_dp)
    | Some dim =>
        bind (join_all s_dp splits) (fun tp_splits =>
        bind (get tp_splits 0) (fun first =>
        let source := size_of dim first in
        let whole := source * s_tp in
        bind (div whole t_tp) (fun target =>
        let first_target := t_rank * target in
        let last_target := t_rank * target + target - 1 in   (* -1 if 0, which is not modelled: [target] is not 0 *)
        bind (div first_target source) (fun first_shard =>
        bind (div last_target source) (fun last_shard =>
        let first_source := first_shard * source in
        bind (pick tp_splits first_shard (last_shard + 1 - first_shard)) (fun sub =>
        bind (cat dim sub) (narrow dim (first_target - first_source) target)))))))
    end.

  (** ** Loaders *)
  Definition obj : Type := nat * option mat.          (* identity, value *)
  Definition dict := list (nat * obj).                (* keys are numbers *)
  Definition find_key (k : nat) (d : dict) : option obj := option_map snd (find (fun kv => fst kv =? k) d).
  Inductive load_exn := Corrupt | Other (e : exn) | Internal.
  Inductive outcome := Loaded (ps : list (nat * mat)) | Failed (ps : list (nat * mat)) (e : load_exn).   (* what was yielded, then the exception *)
  Definition yield (p : nat * mat) (o : outcome) : outcome := match o with Loaded ps => Loaded (p :: ps) | Failed ps e => Failed (p :: ps) e end.

  (** native.py lines 134-149: the splits of one key of one tensor parallel shard; a missing key ends the loop. Popping only frees memory:
      the keys of a dictionary differ, so no key is asked for twice. *)
  Fixpoint dp_splits (k : nat) (ds : list dict) : option (list (nat * mat)) :=
    match ds with
    | [] => Some []
    | d :: ds' => match find_key k d with
                  | None => Some []
                  | Some (_, None) => None
                  | Some (i, Some m) => option_map (cons (i, m)) (dp_splits k ds')
                  end
    end.
  Fixpoint tp_splits (k : nat) (tps : list (list dict)) : option (list (list (nat * mat))) :=
    match tps with
    | [] => Some []
    | ds :: tps' => match dp_splits k ds with None => None | Some s => option_map (cons s) (tp_splits k tps') end
    end.
  (** native.py lines 130-169. [memo]: the identities of the yielded tensors *)
  Fixpoint load_keys (dims : nat -> option nat) (s_tp s_dp t_tp t_rank : nat) (tps : list (list dict)) (keys : list nat) (memo : list nat) : outcome :=
    match keys with
    | [] => Loaded []
    | k :: keys' =>
        match tp_splits k tps with
        | None => Failed [] Corrupt
        | Some splits =>
            match splits with
            | ((i, _) :: _) :: _ =>
                if existsb (Nat.eqb i) memo then load_keys dims s_tp s_dp t_tp t_rank tps keys' memo
                else match reshard (dims k) (map (map snd) splits) s_tp s_dp t_tp t_rank with
                     | Err e => Failed [] (Other e)
                     | Ok m => yield (k, m) (load_keys dims s_tp s_dp t_tp t_rank tps keys' (i :: memo))
                     end
            | _ => Failed [] (Other IndexError)
            end
        end
    end.
  (** native.py lines 122-128 *)
  Fixpoint load_stages (dims : nat -> option nat) (s_tp s_dp t_tp t_rank : nat) (pps : list (list (list dict))) : outcome :=
    match pps with
    | [] => Loaded []
    | tps :: pps' =>
        match tps with
        | (d :: _) :: _ =>
            match load_keys dims s_tp s_dp t_tp t_rank tps (map fst d) [] with
            | Failed ps e => Failed ps e
            | Loaded ps => match load_stages dims s_tp s_dp t_tp t_rank pps' with Loaded qs => Loaded (ps ++ qs) | Failed qs e => Failed (ps ++ qs) e end
            end
        | _ => Failed [] (Other IndexError)
        end
    end.
  (** _get_checkpoint_files, lines 205-225, with the files that lines 171-203 find: pp_00/tp_00/sdp_00.pt, ..., in each directory up to
      the first gap *)
  Definition regular (pps : list (list (list dict))) : bool :=
    match pps with
    | (((_ :: _) as d) :: _) as t :: _ => forallb (fun t' => (length t' =? length t) && forallb (fun d' => length d' =? length d) t') pps
    | _ => false
    end.
  (** _NativeModelCheckpointLoader.lazy_load: lines 66-169 *)
  Definition native_load (dims : nat -> option nat) (pps : list (list (list dict))) (pp_size pp_rank tp_size tp_rank : nat) : outcome :=
    if negb (regular pps) then Failed [] Corrupt
    else
      let s_tp := match pps with t :: _ => length t | [] => 0 end in
      let s_dp := match pps with (d :: _) :: _ => length d | _ => 0 end in
      if (pp_size =? length pps) && (tp_size =? s_tp)
      then match bind (get pps pp_rank) (fun t => get t tp_rank) with
           | Ok ds => load_stages dims 1 s_dp 1 0 [[ds]]
           | Err e => Failed [] (Other e)
           end
      else load_stages dims s_tp s_dp tp_size tp_rank pps.

  (** basic.py lines 66-99, safetensors.py lines 92-123: one dictionary *)
  Fixpoint single_load (not_tensor : load_exn) (dims : nat -> option nat) (tp_size tp_rank : nat) (d : dict) (memo : list nat) : outcome :=
    match d with
    | [] => Loaded []
    | (k, (i, v)) :: d' =>
        match v with
        | None => Failed [] not_tensor
        | Some m => if existsb (Nat.eqb i) memo then single_load not_tensor dims tp_size tp_rank d' memo
                    else match reshard (dims k) [[m]] 1 1 tp_size tp_rank with
                         | Err e => Failed [] (Other e)
                         | Ok m => yield (k, m) (single_load not_tensor dims tp_size tp_rank d' (i :: memo))
                         end
        end
    end.
  Definition basic_load (dims : nat -> option nat) (tp_size tp_rank : nat) (d : dict) : outcome := single_load Corrupt dims tp_size tp_rank d [].
  (** safetensors.py lines 59-87: the files of a directory; [None]: a key is in more than one file *)
  Fixpoint add_all (shard acc : dict) : option dict :=
    match shard with
    | [] => Some acc
    | (k, v) :: shard' => if existsb (fun kv => fst kv =? k) acc then None else add_all shard' (acc ++ [(k, v)])
    end.
  Fixpoint merge (files : list dict) (acc : dict) : option dict :=
    match files with [] => Some acc | f :: files' => match add_all f acc with None => None | Some acc => merge files' acc end end.
  Definition safetensors_load (dims : nat -> option nat) (tp_size tp_rank : nat) (files : list dict) : outcome :=
    match files with
    | [] => Failed [] Corrupt
    | _ => match merge files [] with None => Failed [] Corrupt | Some d => single_load Internal dims tp_size tp_rank d [] end
    end.

  (** ** Saving *)
  (** A parameter: its name, the identity of its object, the whole tensor, and whether it is a DTensor under FSDP (parameters are, buffers
      are not). *)
  Record param := Param { name : nat; object : nat; whole : mat; dtensor : bool }.
  (** DTensor.to_local(): FSDP2 shards dim 0 in chunks of ceil(n / size) rows *)
  Definition fsdp_chunk (size r : nat) (m : mat) : mat := Mat (width m) (piece ((height m + size - 1) / size) r (rows m)).
  (** The shard of a process that was sharded over [size] processes: the [r]-th of the equal parts along the dimension *)
  Definition tp_part (dim : option nat) (size r : nat) (m : mat) : mat :=
    match dim with
    | None => m
    | Some 0 => Mat (width m) (piece (height m / size) r (rows m))
    | Some _ => Mat (width m / size) (map (piece (width m / size) r) (rows m))
    end.
  (** CheckpointManager._record_model_state, checkpoint/manager.py lines 325-354, with fsdp2_local_state_dict, nn/fsdp/fsdp2.py lines 174-187
      (if the gang has more than one process): the file tp_[t]/sdp_[d].pt *)
  Definition saved_value (dims : nat -> option nat) (s_tp s_dp t d : nat) (p : param) : mat :=
    let m := tp_part (dims (name p)) s_tp t (whole p) in
    if (s_dp =? 1) || negb (dtensor p) then m else fsdp_chunk s_dp d m.
  Definition save (dims : nat -> option nat) (s_tp s_dp : nat) (ps : list param) (t d : nat) : dict :=
    map (fun p => (name p, (object p, Some (saved_value dims s_tp s_dp t d p)))) ps.
  Definition save_all (dims : nat -> option nat) (s_tp s_dp : nat) (ps : list param) : list (list dict) :=
    map (fun t => map (save dims s_tp s_dp ps t) (seq 0 s_dp)) (seq 0 s_tp).
End Load.
Arguments obj : clear implicits. Arguments dict : clear implicits. Arguments outcome : clear implicits. Arguments param : clear implicits.
