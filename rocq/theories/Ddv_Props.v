(** The default device of a process (C100). *)

Require Import List Arith ZArith Bool Lia.
From Verif Require Import Ddv_Model Ddv_Spec.
Import ListNotations.

(** With LOCAL_RANK and devices given by their indices, or without CUDA, the default
    device is the documented one. *)
Theorem C100_documented : forall cuda gpus e,
  (forall u, env_visible e <> Some [By_uuid u]) -> env_local_rank e <> None \/ cuda = false ->
  forall o, documented cuda gpus e o <-> detect_on cuda gpus e = o.
Proof.
  intros cuda gpus [dev vis rank] U R o. unfold documented, detect_on, detect, get_default_cuda_device, get_device_index, get_local_rank, visible_refs in *. cbn in *.
  assert (Sym : forall a b : outcome, a = b <-> b = a) by (intros; split; congruence).
  destruct dev as [[d|]|]; [apply Sym|apply Sym|].
  destruct cuda; [|cbn; apply Sym]. destruct R as [R|R]; [|discriminate]. destruct rank as [rank|]; [|congruence].
  assert (X : forall (seen : list ref), seen <> [] ->
    (match rank with
     | None => o = Bad_rank
     | Some r => if (r <? 0)%Z then o = Bad_rank else if (r <? Z.of_nat (length seen))%Z then o = Device_ok (Cuda (Z.to_nat r)) else o = Rank_out_of_range
     end <->
     match (match match rank with
                  | None => inr tt
                  | Some value => if (value <? 0)%Z then inr tt else inl (Some (Z.to_nat value))
                  end with
            | inl (Some r) => if length seen <=? r then inr Rank_out_of_range else inl r
            | inl None => inl 0
            | inr _ => inr Bad_rank
            end) with
     | inl idx => Device_ok (Cuda idx)
     | inr error => error
     end = o)).
  { intros seen NE. destruct rank as [r|]; [|apply Sym]. destruct (Z.ltb_spec r 0); [apply Sym|].
    destruct (Z.ltb_spec r (Z.of_nat (length seen))), (Nat.leb_spec (length seen) (Z.to_nat r)); try lia; apply Sym. }
  destruct vis as [[|a [|b l]]|].
  - cbn. apply Sym.
  - destruct a as [i|u]; [cbn; apply Sym|]. exfalso. apply (U u). reflexivity.
  - specialize (X (a :: b :: l) ltac:(discriminate)). cbn -[Nat.leb Z.ltb Z.of_nat] in *.
    rewrite X. change (S (S (length l)) <=? 0) with false. cbv iota.
    destruct a; (destruct rank as [r|]; [destruct (r <? 0)%Z; [reflexivity|destruct (S (S (length l)) <=? Z.to_nat r); reflexivity]|reflexivity]).
  - destruct gpus as [|a l]; [cbn; apply Sym|]. specialize (X (a :: l) ltac:(discriminate)). cbn -[Nat.leb Z.ltb Z.of_nat] in *.
    rewrite X. change (S (length l) <=? 0) with false. cbv iota.
    destruct rank as [r|]; [destruct (r <? 0)%Z; [reflexivity|destruct (S (length l) <=? Z.to_nat r); reflexivity]|reflexivity].
Qed.

Example C100_documented_ex : detect_on true [By_index 0; By_index 1] (Env None None (Some (Some 1%Z))) = Device_ok (Cuda 1) /\
  detect_on true [By_index 0; By_index 1] (Env None (Some [By_index 1]) (Some (Some 1%Z))) = Device_ok (Cuda 0).
Proof. split; reflexivity. Qed.

(** A single device that is given by its UUID is not used by any process but the
    first: the others fail. *)
Theorem C100_uuid_refuted : forall gpus u r, (1 <= r)%Z ->
  let e := Env None (Some [By_uuid u]) (Some (Some r)) in
  documented true gpus e (Device_ok (Cuda 0)) /\ detect_on true gpus e = Rank_out_of_range.
Proof.
  intros gpus u r H e. split; [reflexivity|]. unfold detect_on, detect, get_default_cuda_device, get_device_index, get_local_rank, e. cbn -[Nat.leb Z.ltb].
  destruct (Z.ltb_spec r 0); [lia|]. destruct (Nat.leb_spec 1 (Z.to_nat r)); [reflexivity|lia].
Qed.

(** Without LOCAL_RANK and CUDA_VISIBLE_DEVICES the CPU is documented, but the first
    CUDA device is used. *)
Theorem C100_cpu_refuted : forall g gpus,
  let e := Env None None None in
  documented true (g :: gpus) e (Device_ok Cpu) /\ detect_on true (g :: gpus) e = Device_ok (Cuda 0).
Proof. intros. split; reflexivity. Qed.

(** Two processes on a host that see the same devices, more than one and each once,
    never use the same GPU if their local ranks differ. *)
Theorem C100_distinct : forall gpus v e1 e2 r1 r2 g1 g2,
  e1 = Env None v (Some (Some r1)) -> e2 = Env None v (Some (Some r2)) -> r1 <> r2 ->
  NoDup (visible_refs gpus e1) -> (forall i, v <> Some [By_index i]) ->
  gpu_of gpus e1 (detect_on true gpus e1) = Some g1 -> gpu_of gpus e2 (detect_on true gpus e2) = Some g2 -> g1 <> g2.
Proof.
  intros gpus v e1 e2 r1 r2 g1 g2 -> -> N ND V G1 G2.
  set (seen := visible_refs gpus (Env None v (Some (Some r1)))) in *.
  assert (K : forall r g, gpu_of gpus (Env None v (Some (Some r))) (detect_on true gpus (Env None v (Some (Some r)))) = Some g ->
                          (0 <= r)%Z /\ nth_error seen (Z.to_nat r) = Some g).
  { intros r g. unfold gpu_of, detect_on, detect, get_default_cuda_device, get_device_index, get_local_rank.
    change (visible_refs gpus (Env None v (Some (Some r)))) with seen. cbn [env_device env_visible env_local_rank andb].
    replace (match v with Some visible => is_int visible | None => false end) with false.
    2:{ destruct v as [[|[i|u] [|b l]]|]; try reflexivity. exfalso. apply (V i). reflexivity. }
    destruct (length seen) as [|n] eqn:L; [discriminate|]. change (0 <? S n) with true. change (S n =? 0) with false. change (S n <=? 0) with false. cbn [negb].
    destruct (Z.ltb_spec r 0); [discriminate|]. destruct (S n <=? Z.to_nat r); [discriminate|]. auto. }
  destruct (K _ _ G1) as [P1 N1], (K _ _ G2) as [P2 N2]. intros <-. apply N. apply Z2Nat.inj; [assumption|assumption|].
  apply (proj1 (NoDup_nth_error seen) ND); [apply nth_error_Some; congruence|congruence].
Qed.

(** Nor do two processes that each see one device of their own, by its index. *)
Theorem C100_distinct_single : forall gpus i j r1 r2, i <> j ->
  let e1 := Env None (Some [By_index i]) r1 in let e2 := Env None (Some [By_index j]) r2 in
  gpu_of gpus e1 (detect_on true gpus e1) = Some (By_index i) /\ gpu_of gpus e2 (detect_on true gpus e2) = Some (By_index j) /\ By_index i <> By_index j.
Proof. intros. repeat split. congruence. Qed.

Example C100_distinct_ex : let e r := Env None (Some [By_uuid 7; By_index 3]) (Some (Some r)) in
  gpu_of [] (e 0%Z) (detect_on true [] (e 0%Z)) = Some (By_uuid 7) /\ gpu_of [] (e 1%Z) (detect_on true [] (e 1%Z)) = Some (By_index 3).
Proof. split; reflexivity. Qed.

(** But all processes that see the same single device use it, without an error. *)
Theorem C100_distinct_refuted : forall gpus i r1 r2,
  let e r := Env None (Some [By_index i]) (Some (Some r)) in
  gpu_of gpus (e r1) (detect_on true gpus (e r1)) = Some (By_index i) /\ gpu_of gpus (e r2) (detect_on true gpus (e r2)) = Some (By_index i).
Proof. intros. split; reflexivity. Qed.

(** A CUDA device that is detected exists. *)
Theorem C100_exists : forall gpus e i, env_device e = None -> forall cuda, detect_on cuda gpus e = Device_ok (Cuda i) -> cuda = true /\ i < length (visible_refs gpus e).
Proof.
  intros gpus e i E cuda. unfold detect_on, detect, get_default_cuda_device, get_device_index. rewrite E.
  destruct cuda; [|discriminate]. destruct (length (visible_refs gpus e)) as [|n] eqn:L; [discriminate|].
  change (true && (0 <? S n)) with true. change (S n =? 0) with false. change (S n <=? 0) with false. cbn [negb]. 
  destruct (match env_visible e with Some visible => is_int visible | None => false end); [intro H; injection H as <-; split; [reflexivity|lia]|].
  destruct (get_local_rank e) as [[r|]|]; [|intro H; injection H as <-; split; [reflexivity|lia]|discriminate].
  destruct (Nat.leb_spec (S n) r); [discriminate|]. intro H0; injection H0 as <-. split; [reflexivity|lia].
Qed.

Example C100_exists_ex : detect_on true [By_index 0; By_index 1; By_index 2] (Env None None (Some (Some 2%Z))) = Device_ok (Cuda 2) /\
  detect_on true [By_index 0; By_index 1; By_index 2] (Env None None (Some (Some 3%Z))) = Rank_out_of_range.
Proof. split; reflexivity. Qed.

Print Assumptions C100_documented.
Print Assumptions C100_uuid_refuted.
Print Assumptions C100_cpu_refuted.
Print Assumptions C100_distinct.
Print Assumptions C100_distinct_single.
Print Assumptions C100_distinct_refuted.
Print Assumptions C100_exists.
