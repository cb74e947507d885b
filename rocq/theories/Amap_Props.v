From Coq Require Import List Bool Arith Lia Permutation.
Import ListNotations.
From Verif Require Import Amap_Model Amap_Spec Amap_Proofs Amap_Live.

(** * C62: map(num_parallel_calls=n, deterministic=False), under every schedule of the workers and of the thread that uses the pipeline

    Every example that was read is in exactly one place: it was delivered, its result is in the queue, a worker has it, or the function raised for it.
    ([q]: the results the queue had at the beginning, after a resumption.) At most n examples are being mapped. *)
Theorem C62_exactly_once : forall A B (src : nat -> option A) (f : A -> option B) n p q tr s, reach src f n (start p q) tr s ->
  exists done, map Some (delivered tr ++ queue s) = map Some q ++ map f done /\
    Permutation (done ++ flat_map (fun t => match t with Run x => [x] | _ => [] end) (tasks s) ++ failed s) (items src p (pos s)) /\
    length (flat_map (fun t => match t with Run x => [x] | _ => [] end) (tasks s)) <= n.
Proof.
  intros A B src f n p q tr s R. destruct (inv_reach src f n p q tr s R) as [ip ia (done & E1 & E2) iff ifl ifi ie i2 ib ii io]. exists done. rewrite <- io.
  split; [exact E1|]. split; [exact E2|]. rewrite ifl, inflight_split in ib. unfold running in ib. lia.
Qed.
Print Assumptions C62_exactly_once.

(** When the end is reported the source is exhausted, and what was delivered are the results of all examples, each once, save those for which the
    function raised. *)
Theorem C62_end : forall A B (src : nat -> option A) (f : A -> option B) n p q tr s s', reach src f n (start p q) tr s -> step src f n s (Some End) s' ->
  src (pos s) = None /\ (forall i, p <= i < pos s -> src i <> None) /\
  exists done, map Some (delivered tr) = map Some q ++ map f done /\ Permutation (done ++ failed s) (items src p (pos s)) /\ (forall x, In x (failed s) -> f x = None).
Proof.
  intros A B src f n p q tr s s' R H. destruct (inv_reach src f n p q tr s R) as [ip ia (done & E1 & E2) iff ifl ifi ie i2 ib ii io].
  inversion H as [| | | | | | |E Q| | | | | | | | | | | |]; subst. destruct (i2 E) as (F & Z). split; [auto|]. split; [exact ia|]. exists done.
  rewrite <- io. rewrite Q, app_nil_r in E1. split; [exact E1|]. split; [|exact iff]. rewrite ifl, inflight_split in Z.
  destruct (running (tasks s)) eqn:T; [exact E2|cbn in Z; lia].
Qed.
Print Assumptions C62_end.

(** So with a function that does not raise: the results of all examples, in some order. *)
Theorem C62_complete : forall A B (src : nat -> option A) (g : A -> B) n tr s s',
  reach src (fun x => Some (g x)) n (start 0 []) tr s -> step src (fun x => Some (g x)) n s (Some End) s' ->
  Permutation (delivered tr) (map g (items src 0 (pos s))) /\ src (pos s) = None.
Proof.
  intros A B src g n tr s s' R H. destruct (C62_end _ _ _ _ _ _ _ _ _ _ R H) as (N & _ & done & E & P & F). split; [|exact N].
  destruct (failed s) as [|x l]; [|specialize (F x (or_introl eq_refl)); discriminate]. rewrite app_nil_r in P. rewrite <- P. cbn in E.
  assert (G : map Some (delivered tr) = map Some (map g done)) by (rewrite E, map_map; reflexivity).
  assert (I0 : forall (a b : list B), map Some a = map Some b -> a = b).
  { induction a as [|u a IH]; intros [|v b] X; try discriminate; [reflexivity|]. injection X as <- X. f_equal. auto. }
  rewrite (I0 _ _ G). apply Permutation_refl.
Qed.
Print Assumptions C62_complete.

(** The state is saved when nothing is being mapped: what was delivered and the saved queue are then the results of all examples read. *)
Theorem C62_saved : forall A B (src : nat -> option A) (f : A -> option B) n p q tr s s', reach src f n (start p q) tr s -> step src f n s (Some Done) s' ->
  exists done, map Some (delivered tr ++ queue s') = map Some q ++ map f done /\ Permutation done (items src p (pos s')).
Proof.
  intros A B src f n p q tr s s' R H. destruct (inv_reach src f n p q tr s R) as [ip ia (done & E1 & E2) iff ifl ifi ie i2 ib ii io].
  inversion H as [| | | | | | | | | | | | |E X Z| | | | | |]; subst. exists done. rewrite <- io. split; [exact E1|]. cbn [pos go].
  rewrite ifl, inflight_split in Z. destruct (running (tasks s)) eqn:T; [|cbn in Z; lia]. destruct (failed s) as [|x l]; [|exfalso; destruct ie as [_ ie]; rewrite ie in X; discriminate].
  cbn in E2. rewrite app_nil_r in E2. exact E2.
Qed.
Print Assumptions C62_saved.

(** An interrupted and resumed run delivers, in the two parts together, what an uninterrupted one does. *)
Theorem C62_resumed : forall A B (src : nat -> option A) (g : A -> B) n tr1 s1 s1' tr2 s2 s2', let f := fun x => Some (g x) in
  reach src f n (start 0 []) tr1 s1 -> step src f n s1 (Some Done) s1' ->
  reach src f n (start (pos s1') (queue s1')) tr2 s2 -> step src f n s2 (Some End) s2' ->
  Permutation (delivered tr1 ++ delivered tr2) (map g (items src 0 (pos s2))) /\ src (pos s2) = None.
Proof.
  intros A B src g n tr1 s1 s1' tr2 s2 s2' f R1 H1 R2 H2. destruct (C62_saved _ _ _ _ _ _ _ _ _ _ R1 H1) as (d1 & E1 & P1).
  pose proof (inv_reach src f n _ _ tr2 s2 R2) as J. destruct (C62_end _ _ _ _ _ _ _ _ _ _ R2 H2) as (N & _ & d2 & E2 & P2 & F2). split; [|exact N].
  destruct (failed s2) as [|x l]; [|specialize (F2 x (or_introl eq_refl)); discriminate]. rewrite app_nil_r in P2.
  assert (I0 : forall (a b : list B), map Some a = map Some b -> a = b).
  { induction a as [|u a IH]; intros [|v b] X; try discriminate; [reflexivity|]. injection X as <- X. f_equal. auto. }
  assert (G1 : delivered tr1 ++ queue s1' = map g d1) by (apply I0; rewrite E1; unfold f; rewrite map_map; reflexivity).
  assert (G2 : delivered tr2 = queue s1' ++ map g d2) by (apply I0; rewrite E2, map_app; unfold f; rewrite map_map; reflexivity).
  rewrite G2, app_assoc, G1, <- map_app. rewrite (items_app src 0 (pos s1') (pos s2)) by (try lia; apply (i_pos _ _ _ _ _ _ _ J)). rewrite P1, P2. apply Permutation_refl.
Qed.
Print Assumptions C62_resumed.

(** A schedule without new calls is finite. Where it ends, every call has returned, unless a thread sleeps and nobody is left to wake it: *)
Theorem C62_progress_partial : forall A B (src : nat -> option A) (f : A -> option B) n p q,
  well_founded (fun s' s => internal src f n s s') /\
  forall tr s, reach src f n (start p q) tr s -> stuck src f n s -> tasks s = [] /\ (at_ s = Sleep /\ queue s = [] /\ exc s = false \/ at_ s = DSleep).
Proof.
  intros A B src f n p q. split; [apply internal_wf|]. intros tr s R S. destruct (stuck_where src f n s S) as (T & [W|W]); split; auto.
  left. destruct (sleep_inv src f n p q tr s R W) as [(Q & X)|(t & I0 & _)]; [auto|]. rewrite T in I0. destruct I0.
Qed.
Print Assumptions C62_progress_partial.

(** next never hangs in schedules in which it is only called when no worker is between the push of its result and the decrement after it. Missing: the
    other schedules, in which it may, see C62_hang_refuted. *)
Theorem C62_calm_partial : forall A B (src : nat -> option A) (f : A -> option B) n p q s, 0 < n -> calm src f n (start p q) s -> stuck src f n s -> at_ s = DSleep.
Proof. intros A B src f n p q s. apply calm_not_sleep. Qed.
Print Assumptions C62_calm_partial.

(** After the function has raised nothing is delivered any more, whatever is called. *)
Theorem C62_after_error : forall A B (src : nat -> option A) (f : A -> option B) n p q tr s tr' s',
  reach src f n (start p q) tr s -> failed s <> [] -> reach src f n s tr' s' -> delivered tr' = [] /\ failed s' <> [].
Proof.
  intros A B src f n p q tr s tr' s' R N R'. destruct (inv_reach src f n p q tr s R) as [ip ia _ iff ifl ifi ie i2 ib ii io].
  destruct (exc_after src f n s tr' s' R' (proj2 ie N)) as (X & F). split.
  - clear - F. induction F as [|e l [-> | ->] F IH]; cbn; auto.
  - clear - R' N. induction R' as [|tr0 u o u1 R IH H|tr0 u u1 R IH H]; [exact N| |]; destruct H; cbn; auto. intros E. destruct (failed u); [auto|discriminate].
Qed.
Print Assumptions C62_after_error.

Ltac st R tac := eapply r_step in R; [|tac; fail]; cbn in R.
Definition nats (i : nat) : option nat := Some i.
Definition twice (x : nat) : option nat := Some (2 * x).

(** ** Findings *)

(** next may hang in the middle of the data. Both workers have pushed their results but not yet decremented the count when the results have been
    taken and next is called again: it sees two tasks in flight, starts none, and waits for a queue that nobody will fill. *)
Theorem C62_hang_refuted : exists tr s, reach nats twice 2 (start 0 []) tr s /\ stuck nats twice 2 s /\ at_ s = Sleep /\ delivered tr = [0; 2].
Proof.
  pose proof (r_start nats twice 2 (start 0 [])) as R.
  st R ltac:(eapply s_next; reflexivity). st R ltac:(eapply s_pull; [reflexivity|cbn; lia|reflexivity]). st R ltac:(eapply s_pull; [reflexivity|cbn; lia|reflexivity]).
  st R ltac:(eapply s_full; [reflexivity|cbn; lia]). st R ltac:(eapply s_test1_yes; [reflexivity|left; reflexivity]).
  st R ltac:(eapply (s_run _ _ _ _ [] _ _); [reflexivity|reflexivity|discriminate]). st R ltac:(eapply (s_run _ _ _ _ [_] _ _); [reflexivity|reflexivity|discriminate]).
  st R ltac:(eapply s_wait_pop; reflexivity).
  st R ltac:(eapply s_next; reflexivity). st R ltac:(eapply s_full; [reflexivity|cbn; lia]). st R ltac:(eapply s_test1_yes; [reflexivity|left; reflexivity]). st R ltac:(eapply s_wait_pop; reflexivity).
  st R ltac:(eapply s_next; reflexivity). st R ltac:(eapply s_full; [reflexivity|cbn; lia]). st R ltac:(eapply s_test1_yes; [reflexivity|left; reflexivity]).
  st R ltac:(eapply s_wait_sleep; reflexivity).
  st R ltac:(eapply (s_decr _ _ _ _ []); reflexivity). st R ltac:(eapply (s_decr _ _ _ _ [_]); reflexivity). st R ltac:(eapply (s_notify _ _ _ _ []); reflexivity).
  st R ltac:(eapply s_wait_sleep; reflexivity). st R ltac:(eapply (s_notify _ _ _ _ []); reflexivity). st R ltac:(eapply s_wait_sleep; reflexivity).
  eexists _, _. split; [exact R|]. split; [|split; reflexivity].
  intros o s' H. inversion H; cbn in *; try discriminate; match goal with E : [] = ?a ++ _ :: _ |- _ => destruct a; discriminate end.
Qed.
Print Assumptions C62_hang_refuted.

(** The same at the end of the data: after the only example the end is never reported. *)
Theorem C62_hang_end_refuted : exists tr s, let src := fun i => match i with 0 => Some 5 | _ => None end in
  reach src twice 2 (start 0 []) tr s /\ stuck src twice 2 s /\ at_ s = Sleep /\ finished s = true /\ tr = [Out 10].
Proof.
  pose proof (r_start (fun i => match i with 0 => Some 5 | _ => None end) twice 2 (start 0 [])) as R.
  st R ltac:(eapply s_next; reflexivity). st R ltac:(eapply s_pull; [reflexivity|cbn; lia|reflexivity]). st R ltac:(eapply s_exhausted; [reflexivity|cbn; lia|reflexivity]).
  st R ltac:(eapply s_test1_yes; [reflexivity|right; cbn; lia]). st R ltac:(eapply (s_run _ _ _ _ [] _ _); [reflexivity|reflexivity|discriminate]). st R ltac:(eapply s_wait_pop; reflexivity).
  st R ltac:(eapply s_next; reflexivity). st R ltac:(eapply s_exhausted; [reflexivity|cbn; lia|reflexivity]). st R ltac:(eapply s_test1_yes; [reflexivity|right; cbn; lia]).
  st R ltac:(eapply s_wait_sleep; reflexivity). st R ltac:(eapply (s_decr _ _ _ _ []); reflexivity). st R ltac:(eapply (s_notify _ _ _ _ []); reflexivity). st R ltac:(eapply s_wait_sleep; reflexivity).
  eexists _, _. split; [exact R|]. split; [|repeat split].
  intros o s' H. inversion H; cbn in *; try discriminate; match goal with E : [] = ?a ++ _ :: _ |- _ => destruct a; discriminate end.
Qed.
Print Assumptions C62_hang_end_refuted.

(** Saving the state (or a reset) may hang: the count is decremented and the notification sent after the waiting thread has looked at the count and
    before it sleeps. *)
Theorem C62_save_hang_refuted : exists tr s, reach nats twice 2 (start 0 []) tr s /\ stuck nats twice 2 s /\ at_ s = DSleep /\ flight s = 0.
Proof.
  pose proof (r_start nats twice 2 (start 0 [])) as R.
  st R ltac:(eapply s_next; reflexivity). st R ltac:(eapply s_pull; [reflexivity|cbn; lia|reflexivity]). st R ltac:(eapply s_pull; [reflexivity|cbn; lia|reflexivity]).
  st R ltac:(eapply s_full; [reflexivity|cbn; lia]). st R ltac:(eapply s_test1_yes; [reflexivity|left; reflexivity]).
  st R ltac:(eapply (s_run _ _ _ _ [] _ _); [reflexivity|reflexivity|discriminate]). st R ltac:(eapply (s_run _ _ _ _ [_] _ _); [reflexivity|reflexivity|discriminate]).
  st R ltac:(eapply s_wait_pop; reflexivity). st R ltac:(eapply (s_decr _ _ _ _ []); reflexivity).
  st R ltac:(eapply s_save; reflexivity). st R ltac:(eapply s_dtest_hold; [reflexivity|reflexivity|discriminate]).
  st R ltac:(eapply (s_decr _ _ _ _ [_]); reflexivity). st R ltac:(eapply (s_notify _ _ _ _ []); reflexivity). st R ltac:(eapply (s_notify _ _ _ _ []); reflexivity). st R ltac:(eapply s_dhold; reflexivity).
  eexists _, _. split; [exact R|]. split; [|split; reflexivity].
  intros o s' H. inversion H; cbn in *; try discriminate; match goal with E : [] = ?a ++ _ :: _ |- _ => destruct a; discriminate end.
Qed.
Print Assumptions C62_save_hang_refuted.

(** An error may be lost: if the function raises for the last example before next looks, the end of the data is reported and no error, and the example is
    missing. *)
Theorem C62_lost_error_refuted : exists tr s, let src := fun i => match i with 0 => Some 5 | _ => None end in
  reach src (fun _ => @None nat) 2 (start 0 []) tr s /\ tr = [End] /\ failed s = [5].
Proof.
  pose proof (r_start (fun i => match i with 0 => Some 5 | _ => None end) (fun _ => @None nat) 2 (start 0 [])) as R.
  st R ltac:(eapply s_next; reflexivity). st R ltac:(eapply s_pull; [reflexivity|cbn; lia|reflexivity]). st R ltac:(eapply (s_fail _ _ _ _ []); [reflexivity|reflexivity|discriminate]).
  st R ltac:(eapply (s_decr _ _ _ _ []); reflexivity). st R ltac:(eapply s_exhausted; [reflexivity|cbn; lia|reflexivity]). st R ltac:(eapply s_test1_no; reflexivity). st R ltac:(eapply s_test2_no; reflexivity).
  eexists _, _. split; [exact R|]. split; reflexivity.
Qed.
Print Assumptions C62_lost_error_refuted.

Lemma grow tr p q o : reach nats twice 2 (start 0 []) tr (State p false 0 q false [] Idle [] o) -> exists tr' p' q' o',
  reach nats twice 2 (start 0 []) tr' (State p' false 0 q' false [] Idle [] o') /\ length q' = S (length q) /\ length (delivered tr') = S (length (delivered tr)).
Proof.
  intros R. pose proof R as R0.
  st R ltac:(eapply s_next; reflexivity). st R ltac:(eapply s_pull; [reflexivity|cbn; lia|reflexivity]). st R ltac:(eapply s_pull; [reflexivity|cbn; lia|reflexivity]).
  st R ltac:(eapply s_full; [reflexivity|cbn; lia]). st R ltac:(eapply s_test1_yes; [reflexivity|left; reflexivity]).
  st R ltac:(eapply (s_run _ _ _ _ [] _ _); [reflexivity|reflexivity|discriminate]). st R ltac:(eapply (s_run _ _ _ _ [_] _ _); [reflexivity|reflexivity|discriminate]).
  st R ltac:(eapply (s_decr _ _ _ _ []); reflexivity). st R ltac:(eapply (s_decr _ _ _ _ [_]); reflexivity). st R ltac:(eapply (s_notify _ _ _ _ []); reflexivity). st R ltac:(eapply (s_notify _ _ _ _ []); reflexivity).
  destruct ((q ++ [2 * p]) ++ [2 * S p]) as [|z q'] eqn:E; [destruct q; discriminate|].
  assert (L : length q' = S (length q)) by (apply (f_equal (@length nat)) in E; rewrite !app_length in E; cbn in E; lia).
  cbn in R, E. rewrite E in R. st R ltac:(eapply s_wait_pop; reflexivity). eexists _, _, q', _. split; [exact R|]. split; [exact L|].
  rewrite !app_nil_r, delivered_app, app_length. cbn. lia.
Qed.
(** The read-ahead is not bounded: after k calls to next there may be k results waiting, with num_parallel_calls=2. *)
Theorem C62_unbounded_refuted : forall k, exists tr s, reach nats twice 2 (start 0 []) tr s /\ length (delivered tr) = k /\ length (queue s) = k.
Proof.
  assert (G : forall k, exists tr p q o, reach nats twice 2 (start 0 []) tr (State p false 0 q false [] Idle [] o) /\ length (delivered tr) = k /\ length q = k).
  { induction k as [|k (tr & p & q & o & R & L1 & L2)].
    - exists [], 0, [], []. split; [apply r_start|]. split; reflexivity.
    - destruct (grow tr p q o R) as (tr' & p' & q' & o' & R' & L1' & L2'). exists tr', p', q', o'. split; [exact R'|]. split; congruence. }
  intros k. destruct (G k) as (tr & p & q & o & R & L1 & L2). eexists _, _. split; [exact R|]. split; assumption.
Qed.
Print Assumptions C62_unbounded_refuted.

(** With a selector an example may be returned without having been mapped, and another one mapped twice: the tasks share the buffer of one mapper. *)
Theorem C62_selector_refuted : forall V (f : V -> V) x y,
  (exists s, mreach f (mstart x y) s /\ mat s true = MBack /\ mat s false = MBack /\ cell s true = f x /\ cell s false = y) /\
  (exists s, mreach f (mstart x y) s /\ mat s true = MBack /\ cell s true = f (f x)).
Proof.
  intros V f x y. split.
  - eexists. split.
    + eapply mr_step; [eapply mr_step; [eapply mr_step; [eapply mr_step; [eapply mr_step; [eapply mr_step; [eapply mr_step; [eapply mr_step; [eapply mr_step; [apply mr_start|]|]|]|]|]|]|]|]|].
      * apply (m_visit f _ true). reflexivity.
      * apply (m_size f _ true). reflexivity.
      * eapply (m_apply f _ true); [reflexivity|cbn; lia|reflexivity].
      * eapply (m_applied f _ true); [reflexivity|cbn; lia].
      * apply (m_visit f _ false). reflexivity.
      * apply (m_clear f _ true). reflexivity.
      * apply (m_size f _ false). reflexivity.
      * eapply (m_applied f _ false); [reflexivity|cbn; lia].
      * apply (m_clear f _ false). reflexivity.
    + repeat split.
  - eexists. split.
    + eapply mr_step; [eapply mr_step; [eapply mr_step; [eapply mr_step; [eapply mr_step; [eapply mr_step; [eapply mr_step; [eapply mr_step; [eapply mr_step; [apply mr_start|]|]|]|]|]|]|]|]|].
      * apply (m_visit f _ true). reflexivity.
      * apply (m_visit f _ false). reflexivity.
      * apply (m_size f _ true). reflexivity.
      * apply (m_size f _ false). reflexivity.
      * eapply (m_apply f _ true); [reflexivity|cbn; lia|reflexivity].
      * eapply (m_apply f _ false); [reflexivity|cbn; lia|reflexivity].
      * eapply (m_apply f _ true); [reflexivity|cbn; lia|reflexivity].
      * eapply (m_applied f _ true); [reflexivity|cbn; lia].
      * apply (m_clear f _ true). reflexivity.
    + repeat split.
Qed.
Print Assumptions C62_selector_refuted.

(** A run to the end in which the results come in another order than the examples: *)
Example C62_example : exists tr s s', let src := fun i => match i with 0 => Some 5 | 1 => Some 6 | _ => None end in
  reach src twice 2 (start 0 []) tr s /\ step src twice 2 s (Some End) s' /\ delivered tr = [12; 10].
Proof.
  pose proof (r_start (fun i => match i with 0 => Some 5 | 1 => Some 6 | _ => None end) twice 2 (start 0 [])) as R.
  st R ltac:(eapply s_next; reflexivity). st R ltac:(eapply s_pull; [reflexivity|cbn; lia|reflexivity]). st R ltac:(eapply s_pull; [reflexivity|cbn; lia|reflexivity]).
  st R ltac:(eapply s_full; [reflexivity|cbn; lia]). st R ltac:(eapply s_test1_yes; [reflexivity|left; reflexivity]). st R ltac:(eapply s_wait_sleep; reflexivity).
  st R ltac:(eapply (s_run _ _ _ _ [_] _ _); [reflexivity|reflexivity|discriminate]). st R ltac:(eapply (s_run _ _ _ _ [] _ _); [reflexivity|reflexivity|discriminate]).
  st R ltac:(eapply (s_decr _ _ _ _ []); reflexivity). st R ltac:(eapply (s_decr _ _ _ _ [_]); reflexivity). st R ltac:(eapply (s_notify _ _ _ _ []); reflexivity). st R ltac:(eapply (s_notify _ _ _ _ []); reflexivity).
  st R ltac:(eapply s_wait_pop; reflexivity).
  st R ltac:(eapply s_next; reflexivity). st R ltac:(eapply s_exhausted; [reflexivity|cbn; lia|reflexivity]). st R ltac:(eapply s_test1_no; reflexivity). st R ltac:(eapply s_test2_yes; [reflexivity|discriminate]). st R ltac:(eapply s_wait_pop; reflexivity).
  st R ltac:(eapply s_next; reflexivity). st R ltac:(eapply s_exhausted; [reflexivity|cbn; lia|reflexivity]). st R ltac:(eapply s_test1_no; reflexivity).
  eexists _, _, _. split; [exact R|]. split; [apply s_test2_no; reflexivity|reflexivity].
Qed.

(** The state is saved after the first of three results; what is still in the queue is saved with it. *)
Example C62_saved_example : exists tr s s', let src := fun i => match i with 0 => Some 5 | 1 => Some 6 | 2 => Some 7 | _ => None end in
  reach src twice 2 (start 0 []) tr s /\ step src twice 2 s (Some Done) s' /\ delivered tr = [10] /\ queue s' = [12] /\ pos s' = 2 /\
  calm src twice 2 (start 0 []) s.
Proof.
  eexists _, _, _. intros src.
  pose proof (r_start src twice 2 (start 0 [])) as R. pose proof (calm_start src twice 2 (start 0 [])) as C.
  Ltac sc R C tac := eapply r_step in R; [|tac; fail]; eapply calm_step in C; [|tac; fail|intros ? X Y t T; try discriminate X; try discriminate Y; cbn in T; contradiction]; cbn in R, C.
  sc R C ltac:(eapply s_next; reflexivity). sc R C ltac:(eapply s_pull; [reflexivity|cbn; lia|reflexivity]). sc R C ltac:(eapply s_pull; [reflexivity|cbn; lia|reflexivity]).
  sc R C ltac:(eapply s_full; [reflexivity|cbn; lia]). sc R C ltac:(eapply s_test1_yes; [reflexivity|left; reflexivity]).
  sc R C ltac:(eapply (s_run _ _ _ _ [] _ _); [reflexivity|reflexivity|discriminate]). sc R C ltac:(eapply s_wait_pop; reflexivity).
  sc R C ltac:(eapply s_save; reflexivity). sc R C ltac:(eapply s_dtest_hold; [reflexivity|reflexivity|discriminate]). sc R C ltac:(eapply s_dhold; reflexivity).
  sc R C ltac:(eapply (s_run _ _ _ _ [_] _ _); [reflexivity|reflexivity|discriminate]). sc R C ltac:(eapply (s_decr _ _ _ _ []); reflexivity). sc R C ltac:(eapply (s_notify _ _ _ _ []); reflexivity).
  sc R C ltac:(eapply s_dtest_hold; [reflexivity|reflexivity|discriminate]). sc R C ltac:(eapply s_dhold; reflexivity).
  sc R C ltac:(eapply (s_decr _ _ _ _ []); reflexivity). sc R C ltac:(eapply (s_notify _ _ _ _ []); reflexivity).
  split; [exact R|]. split; [apply s_dtest_done; reflexivity|]. split; [reflexivity|]. split; [reflexivity|]. split; [reflexivity|]. exact C.
Qed.
