(** C47: transactional updates of a metric bag. [MV] is the state of a metric, [mreset] its [reset]. A state reached by any
    operations of the caller and the bag is [run mreset ops init]. *)

From Coq Require Import String List Bool ZArith Lia.
From Verif Require Import MetricBag_Model MetricBag_Spec MetricBag_Proofs.
Import ListNotations.

(** After [rollback_updates] every metric has the value it had at [begin_updates], whatever happened in between. *)
Theorem C47_rollback : forall MV (mreset : MV -> MV) ops0 ops, let w := run mreset ops0 init in
  original w = None -> Forall inside ops ->
  let w' := run mreset ([OBegin] ++ ops ++ [ORollback]) w in
  original w' = None /\ names w' = names w /\ forall name, value w' name = value w name.
Proof. exact rollback_lemma. Qed.
Print Assumptions C47_rollback.

(** After [commit_updates] every metric has the value it would have without the transaction. *)
Theorem C47_commit : forall MV (mreset : MV -> MV) ops0 ops, let w := run mreset ops0 init in
  original w = None -> Forall inside ops ->
  let w' := run mreset ([OBegin] ++ ops ++ [OCommit]) w in
  original w' = None /\ names w' = names (run mreset ops w) /\ forall name, value w' name = value (run mreset ops w) name.
Proof. exact commit_lemma. Qed.
Print Assumptions C47_commit.

(** Transactions do not nest, and commit and rollback need one; a rejected call changes nothing. *)
Theorem C47_brackets : forall MV (mreset : MV -> MV) w,
  (original w <> None -> step mreset OBegin w = (w, Some InvalidOperationError)) /\
  (original w = None -> snd (step mreset OBegin w) = None /\ original (fst (step mreset OBegin w)) <> None) /\
  (original w = None -> step mreset OCommit w = (w, Some InvalidOperationError) /\
                        step mreset ORollback w = (w, Some InvalidOperationError)) /\
  (original w <> None -> snd (step mreset OCommit w) = None /\ snd (step mreset ORollback w) = None).
Proof. exact brackets_lemma. Qed.
Print Assumptions C47_brackets.

(** A state dictionary loaded into a bag with the same names restores all values. *)
Theorem C47_state_dict : forall MV (mreset : MV -> MV) ops ops2, let w := run mreset ops init in let w2 := run mreset ops2 init in
  unshared w2 -> (forall n, In n (names w) <-> In n (names w2)) ->
  exists w3, step mreset (OLoad (state_dict w)) w2 = (w3, None) /\ names w3 = names w2 /\ forall n, value w3 n = value w n.
Proof. exact roundtrip_lemma. Qed.
Print Assumptions C47_state_dict.

(** Any other dictionary is rejected. *)
Theorem C47_load_errors : forall MV (mreset : MV -> MV) ops sd, let w := run mreset ops init in unshared w ->
  (snd (step mreset (OLoad sd) w) = None <->
     (forall n, In n (names w) <-> In n (map fst sd)) /\ (forall n, lookup n sd <> Some SBad)) /\
  (snd (step mreset (OLoad sd) w) <> None -> snd (step mreset (OLoad sd) w) = Some StateDictError).
Proof. exact load_error_lemma. Qed.
Print Assumptions C47_load_errors.

(** [reset_metrics] resets every metric, and nothing else. *)
Theorem C47_reset : forall MV (mreset : MV -> MV) ops, let w := run mreset ops init in unshared w ->
  let w' := fst (step mreset OReset w) in
  names w' = names w /\ (forall n, value w' n = option_map mreset (value w n)) /\ original w' = original w /\
  (forall r, ~ In r (map snd (metrics w)) -> nth_error (heap w') r = nth_error (heap w) r).
Proof. exact reset_lemma. Qed.
Print Assumptions C47_reset.

(** Sums as metrics. *)
Definition zreset (_ : Z) : Z := 0%Z.
Definition ex_setup : list (op Z) :=
  [ONew 1%Z; ONew 2%Z; OAdd "loss" 0; OAdd "acc" 1; OUpd 0 (Z.add 10)].
Definition ex_inside : list (op Z) := [OUpd 0 (Z.add 5); ONew 7%Z; OAdd "new" 2; OGet "acc"; OUpd 3 (Z.add 100); OReset].

Example C47_example : original (run zreset ex_setup init) = None /\ Forall inside ex_inside /\
  value (run zreset ex_setup init) "loss" = Some 11%Z /\
  value (run zreset (ex_inside ++ [OUpd 0 (Z.add 3)]) (run zreset ex_setup init)) "loss" = Some 3%Z /\
  value (run zreset ([OBegin] ++ ex_inside ++ [ORollback]) (run zreset ex_setup init)) "loss" = Some 11%Z /\
  unshared (run zreset ex_setup init) /\ names (run zreset ex_setup init) = ["loss"; "acc"]%string.
Proof.
  repeat split; try (vm_compute; reflexivity); [repeat constructor|].
  unfold unshared. vm_compute. repeat constructor; simpl; intuition discriminate.
Qed.

(** A reference obtained from [get] before the transaction no longer belongs to the bag after a rollback: updates made through
    it are lost. *)
Theorem C47_stale_reference_refuted : exists ops : list (op Z), Forall inside ops /\
  let w := run zreset ops init in
  value (run zreset [OUpd 0 (Z.add 5)] w) "loss" = Some 6%Z /\
  value (run zreset ([OBegin; ORollback] ++ [OUpd 0 (Z.add 5)]) w) "loss" = Some 1%Z.
Proof. exists [ONew 1%Z; OAdd "loss" 0]. split; [repeat constructor|]. split; vm_compute; reflexivity. Qed.
Print Assumptions C47_stale_reference_refuted.

(** A rejected state dictionary may have been loaded in part. *)
Theorem C47_partial_load_refuted : exists (ops : list (op Z)) sd, let w := run zreset ops init in
  snd (step zreset (OLoad sd) w) = Some StateDictError /\ value w "loss" = Some 1%Z /\
  value (fst (step zreset (OLoad sd) w)) "loss" = Some 9%Z.
Proof.
  exists [ONew 1%Z; OAdd "loss" 0; ONew 2%Z; OAdd "acc" 1], [("loss"%string, SMetric 9%Z)]. repeat split; vm_compute; reflexivity.
Qed.
Print Assumptions C47_partial_load_refuted.
