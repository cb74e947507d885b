(** C23: all data parallel ranks end an epoch on the same call. *)
From Coq Require Import List Bool Arith Lia.
From Verif Require Import Reader_Model Reader_Spec Reader_Proofs.
Import ListNotations.

(** After any history of next, reset and load_state_dict on all ranks, a further call of next: either all ranks stop, or all
    return the same number of batches, at least one. *)
Theorem C23_until_first : forall P c ss os, never_fails P -> sync c = true -> until_last c = false -> Forall (good_op (length ss)) os ->
  let w := fst (run P c (init P ss) os) in let outs := map snd (next_all P c w) in
  (Forall (fun o => o = Stop) outs /\ Forall (fun r => eod r = true) (map fst (next_all P c w))) \/
  (exists n, 0 < n <= num_accumulate c /\ Forall (fun o => exists bs, o = Ret bs /\ length bs = n) outs).
Proof. exact first_agree. Qed.
Print Assumptions C23_until_first.

(** Either all ranks stop, or none does and some rank returns a batch. *)
Theorem C23_until_last : forall P c ss os, never_fails P -> sync c = true -> until_last c = true -> Forall (good_op (length ss)) os ->
  let w := fst (run P c (init P ss) os) in let outs := map snd (next_all P c w) in
  (Forall (fun o => o = Stop) outs /\ Forall (fun r => eod r = true) (map fst (next_all P c w))) \/
  (Forall (fun o => exists bs, o = Ret bs) outs /\ Exists (fun o => exists bs, o = Ret bs /\ bs <> []) outs).
Proof. exact last_agree. Qed.
Print Assumptions C23_until_last.

(** Ranks that have stopped keep stopping. *)
Theorem C23_stays_stopped : forall P c (w : list (rank P)), Forall (fun r => eod r = true) w ->
  forall k x, In x (snd (run P c w (repeat Next k))) -> snd x = map (fun _ => Stop) w.
Proof. exact stays. Qed.
Print Assumptions C23_stays_stopped.

(** What is returned: every rank reads the next batches of its own pipeline, the shortest list decides. *)
Theorem C23_content_first : forall P c w, never_fails P -> sync c = true -> until_last c = false -> Forall (fun r => eod r = false) w ->
  exists l, Forall2 (reads P c) w l /\ let n := list_min (map (fun x => length (fst x)) l) in
    (n = 0 /\ next_all P c w = map (fun x => (Rank (snd x) true, Stop)) l) \/
    (0 < n /\ next_all P c w = map (fun x => (Rank (snd x) false, Ret (firstn n (fst x)))) l).
Proof. exact next_first. Qed.
Print Assumptions C23_content_first.

Theorem C23_min : forall l, l <> [] -> In (list_min l) l /\ forall y, In y l -> list_min l <= y.
Proof. exact list_min_spec. Qed.
Print Assumptions C23_min.

Theorem C23_content_last : forall P c w, never_fails P -> sync c = true -> until_last c = true -> Forall (fun r => eod r = false) w ->
  exists l, Forall2 (reads P c) w l /\
    ((Forall (fun x => fst x = []) l /\ next_all P c w = map (fun x => (Rank (snd x) true, Stop)) l) \/
     (Exists (fun x => fst x <> []) l /\ next_all P c w = map (fun x => (Rank (snd x) false, Ret (fst x))) l)).
Proof. exact next_last. Qed.
Print Assumptions C23_content_last.

(** Reset and load_state_dict re-arm every rank. *)
Theorem C23_rearm : forall P c w, snd (step P c w Reset) = [] /\ fst (step P c w Reset) = map (fun r => Rank (preset P (ps r)) false) w /\
  forall l, length l = length w -> map ps (fst (step P c w (Load l))) = l /\ Forall (fun r => eod r = false) (fst (step P c w (Load l))).
Proof.
  intros P c w. split; [reflexivity|]. split; [reflexivity|]. intros l HL. simpl. rewrite map_map. simpl. split.
  - revert l HL. induction w as [|r w IH]; intros [|s l] HL; try discriminate; simpl; [reflexivity|]. f_equal. apply IH. injection HL; auto.
  - apply Forall_forall. intros r Hr. apply in_map_iff in Hr. destruct Hr as (x & <- & _). reflexivity.
Qed.
Print Assumptions C23_rearm.

Definition toy : pipe := Pipe (list nat) nat (fun s => match s with [] => (End, []) | x :: s' => (Item x, s') end) (fun s => s).
Definition toy_cfg (l : bool) : config := Config 2 false true l.
Example C23_example_first : never_fails toy /\
  snd (run toy (toy_cfg false) (init toy [[1; 2; 3; 4]; [5; 6; 7]]) [Next; Next; Next; Next]) =
  [(Next, [@Ret toy [1; 2]; @Ret toy [5; 6]]); (Next, [@Ret toy [3]; @Ret toy [7]]); (Next, [Stop; Stop]); (Next, [Stop; Stop])].
Proof. split; [intros [|? ?]; discriminate|reflexivity]. Qed.
Example C23_example_last : snd (run toy (toy_cfg true) (init toy [[1; 2; 3; 4]; [5]]) [Next; Next; Next; Reset]) =
  [(Next, [@Ret toy [1; 2]; @Ret toy [5]]); (Next, [@Ret toy [3; 4]; Ret []]); (Next, [Stop; Stop]); (Reset, [])].
Proof. reflexivity. Qed.

(** If the pipeline of one rank fails, that rank raises and the others wait for it for ever. *)
Definition broken : pipe := Pipe (list nat) nat (fun s => match s with [] => (Fail, []) | x :: s' => (Item x, s') end) (fun s => s).
Theorem C23_failure_refuted : map snd (next_all broken (toy_cfg false) (init broken [[1; 2]; [5]])) = [Hang; Raised].
Proof. reflexivity. Qed.
Print Assumptions C23_failure_refuted.
