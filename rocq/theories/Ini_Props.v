(** The parameters with which training begins (C97). *)

Require Import List Arith Bool Lia.
From Verif Require Import Ini_Model Ini_Spec.
Import ListNotations.

Lemma has_full : forall cs, has_checkpoint true cs = resumable cs.
Proof.
  unfold has_checkpoint, resumable. induction cs as [|[|] cs IH]; cbn -[Nat.ltb]; [reflexivity|exact IH|reflexivity].
Qed.

Lemma has_any : forall cs, has_checkpoint false cs = negb (length cs =? 0).
Proof. unfold has_checkpoint. destruct cs; reflexivity. Qed.

Lemma full_any : forall cs, resumable cs = true -> length cs <> 0.
Proof. intros [|c cs] H; [discriminate|cbn; lia]. Qed.

Lemma boot : forall s sm cs, valid s -> exists m, bootstrap s sm cs = Some m /\
  (resumable cs = false -> m 0 = intended s false).
Proof.
  intros [p n f] sm cs V. unfold bootstrap. rewrite has_full. cbn in V.
  destruct p, n, f; try discriminate V; try (destruct V; discriminate); destruct (resumable cs), sm;
    (eexists; split; [reflexivity|]; intro; solve [discriminate|reflexivity]).
Qed.

(** Every rank begins with the saved model if there is one, else with the
    pretrained model, else with what rank 0 has drawn; for every section, family,
    and shape of the gangs, with DDP, or with FSDP and unless there are only
    checkpoints of the model alone. *)
Theorem C97_start : forall s sm p rdp sdp cs, valid s -> 1 <= rdp -> 1 <= sdp ->
  (p = DDP -> sdp = 1) ->
  (p = FSDP -> 1 < sdp -> resumable cs = true \/ cs = []) ->
  exists m, start s sm p rdp sdp cs = Some m /\ forall rank, rank < rdp * sdp -> m rank = intended s (resumable cs).
Proof.
  intros s sm p rdp sdp cs V Hr Hsd Hd Hf. unfold start. destruct (boot s sm cs V) as (m & -> & M).
  unfold restore. rewrite has_full.
  assert (W : exists w, wrap p rdp sdp cs m = Some w /\ (resumable cs = false -> forall rank, rank < rdp * sdp -> w rank = intended s false)).
  { assert (NM : resumable cs = false -> is_meta (m 0) = false).
    { intro E. rewrite (M E). destruct s as [[] [] f]; reflexivity. }
    assert (D : sdp = 1 -> exists w, to_ddp sdp m = Some w /\ (resumable cs = false -> forall rank, rank < rdp * sdp -> w rank = intended s false)).
    { intros ->. unfold to_ddp. cbn [Nat.ltb Nat.leb]. eexists. split; [reflexivity|]. intros E rank _. rewrite (NM E). exact (M E). }
    unfold wrap. destruct (Nat.eqb_spec (rdp * sdp) 1) as [E1|E1].
    { eexists. split; [reflexivity|]. intros E rank Hk. assert (rank = 0) as -> by lia. unfold to_device. rewrite (NM E). exact (M E). }
    destruct p.
    - apply D. apply Hd. reflexivity.
    - destruct (Nat.eqb_spec sdp 1) as [->|N].
      + destruct (Nat.ltb_spec 1 rdp); [|lia]. apply D. reflexivity.
      + rewrite andb_false_r. rewrite has_any. unfold to_fsdp, to_fsdp_version. destruct (Nat.eqb_spec sdp 1); [lia|].
        destruct (Hf eq_refl ltac:(lia)) as [F| ->].
        * pose proof (full_any cs F). destruct (Nat.eqb_spec (length cs) 0); [lia|]. cbn [negb andb orb]. eexists. split; [reflexivity|]. congruence.
        * cbn [length Nat.eqb negb andb orb]. rewrite (NM eq_refl). eexists. split; [reflexivity|]. intros E rank _. exact (M E). }
  destruct W as (w & -> & W). eexists. split; [reflexivity|]. intros rank Hk. destruct (resumable cs) eqn:E; [destruct s; reflexivity|]. apply W; [reflexivity|exact Hk].
Qed.

Example C97_start_ex : exists m, start (Section_of false true false) true FSDP 2 4 [] = Some m /\ m 5 = Pretrained.
Proof. eexists. split; reflexivity. Qed.
Example C97_resume_ex : exists m, start (Section_of false false true) true FSDP 1 4 [false; true] = Some m /\ m 3 = Saved.
Proof. eexists. split; reflexivity. Qed.

(** With FSDP, if only checkpoints of the model alone exist, the run does not
    resume, and yet nothing is broadcast: rank 0 has its shard of the pretrained
    model, and all others have drawn theirs at random. *)
Theorem C97_model_only_refuted : forall s sm rdp sdp cs, valid s -> intended s false = Pretrained ->
  1 <= rdp -> 2 <= sdp -> cs <> [] -> resumable cs = false ->
  exists m, start s sm FSDP rdp sdp cs = Some m /\ m 0 = Pretrained /\ forall rank, 0 < rank -> m rank = Random rank.
Proof.
  intros s sm rdp sdp cs V I Hr Hs Hc E. unfold start, bootstrap. rewrite !has_full, E.
  assert (B : match s with Section_of path name family =>
      if path then (if family then Some (load_model sm true) else None) else if name then Some (load_model sm true) else if family then create_new_model sm false true else None end
      = Some (load_model sm true)).
  { destruct s as [[] [] []]; cbn in V, I; try discriminate; try reflexivity. }
  destruct s as [path name family]. rewrite B. unfold wrap. destruct (Nat.eqb_spec (rdp * sdp) 1) as [X|X]; [nia|].
  destruct (Nat.eqb_spec sdp 1); [lia|]. rewrite andb_false_r. rewrite has_any. destruct cs as [|c cs]; [contradiction|]. cbn [length Nat.eqb negb].
  unfold to_fsdp, to_fsdp_version. destruct (Nat.eqb_spec sdp 1); [lia|]. cbn [andb option_map]. eexists. split; [reflexivity|].
  unfold restore. rewrite has_full, E. unfold load_model. cbn [negb orb]. split; [reflexivity|]. intros rank Hk.
  destruct rank; [lia|]. cbn [Nat.eqb]. destruct sm; reflexivity.
Qed.

Example C97_model_only_ex : exists m, start (Section_of false true false) true FSDP 1 2 [true] = Some m /\ m 0 = Pretrained /\ m 1 = Random 1.
Proof. eexists. split; [reflexivity|split; reflexivity]. Qed.

(** [skip_init] has no effect: a model that a checkpoint will overwrite is
    initialised first. *)
Theorem C97_skip_init_refuted : forall sdp m b, to_fsdp sdp m b true = to_fsdp sdp m b false.
Proof. reflexivity. Qed.

Example C97_skip_init_ex : to_fsdp_version 2 (fun _ => Meta) false true <> to_fsdp_version 2 (fun _ => Meta) false false.
Proof. cbn. intro H. injection H as H. apply (f_equal (fun f => f 0)) in H. discriminate. Qed.

(** DDP and sharding exclude each other. *)
Theorem C97_ddp_sharded : forall s sm rdp sdp cs, 1 <= rdp -> 2 <= sdp -> start s sm DDP rdp sdp cs = None.
Proof.
  intros s sm rdp sdp cs Hr Hs. unfold start. destruct (bootstrap s sm cs); [|reflexivity]. unfold wrap, to_ddp.
  destruct (Nat.eqb_spec (rdp * sdp) 1); [nia|]. destruct (Nat.ltb_spec 1 sdp); [reflexivity|lia].
Qed.

(** A reference model is the pretrained one on every rank. *)
Theorem C97_reference : forall sm dp rank, rank < dp -> reference_model sm dp rank = Pretrained.
Proof.
  intros sm dp rank H. unfold reference_model. destruct (Nat.ltb_spec 1 dp).
  - reflexivity.
  - assert (rank = 0) as -> by lia. reflexivity.
Qed.

(** ** Creating and loading without a recipe *)

(** A model that is loaded for all ranks is the pretrained one on every rank. *)
Theorem C97_load : forall sm rank, load_model sm false rank = Pretrained.
Proof. reflexivity. Qed.

(** A model that is created for all ranks is equal on all of them if its family
    supports meta initialisation. *)
Theorem C97_create : exists m, create_new_model true false false = Some m /\ forall rank, m rank = Random 0.
Proof. eexists. split; reflexivity. Qed.

(** If it does not, every rank draws its own parameters. *)
Theorem C97_create_refuted : forall rank0_only, exists m, create_new_model false false rank0_only = Some m /\ forall rank, m rank = Random rank.
Proof.
  intros []; (eexists; split; [reflexivity|]; intros [|rank]; reflexivity).
Qed.

(** For one rank only, the others have no parameters yet, or their own. *)
Theorem C97_rank0 : forall sm, (exists m, create_new_model sm false true = Some m /\ m 0 = Random 0 /\ forall rank, 0 < rank -> m rank = if sm then Meta else Random rank) /\
  load_model sm true 0 = Pretrained /\ (forall rank, 0 < rank -> load_model sm true rank = if sm then Meta else Random rank).
Proof.
  intro sm. split; [|split; [reflexivity|intros [|r] H; [lia|reflexivity]]].
  unfold create_new_model. cbn [andb negb]. eexists. split; [reflexivity|]. split; [reflexivity|]. intros [|r] H; [lia|reflexivity].
Qed.

(** ** Resharding *)

(** Both versions of FSDP free parameters after the forward pass as configured,
    where a module is wrapped without saying otherwise. *)
Theorem C97_reshard : forall rdp b, fsdp1_strategy rdp b None = (1 <? rdp, b) /\ fsdp2_strategy rdp b None = (1 <? rdp, b).
Proof. intros rdp b. split; [|reflexivity]. unfold fsdp1_strategy. destruct (1 <? rdp), b; reflexivity. Qed.

(** Where it is said, FSDP2 does that and FSDP1 the opposite. *)
Theorem C97_reshard_refuted : forall rdp b o, 1 <= rdp -> fsdp2_strategy rdp b (Some o) = (1 <? rdp, o) /\ fsdp1_strategy rdp b (Some o) = (1 <? rdp, negb o).
Proof.
  intros rdp b o H. split; [reflexivity|]. unfold fsdp1_strategy. destruct (Nat.eqb_spec rdp 1) as [->|N].
  - destruct o; reflexivity.
  - rewrite (proj2 (Nat.ltb_lt 1 rdp)) by lia. destruct o; reflexivity.
Qed.

(** Whatever the ranks hold, wrapping with DDP gives all of them the model of rank 0,
    initialised if it was not; a model on one device is never left on the meta
    device, and one that was elsewhere keeps its parameters. *)
Theorem C97_wrapped : forall m,
  (exists m', to_ddp 1 m = Some m' /\ forall r, m' r = m' 0 /\ (m 0 = Meta -> m' r = Random 0) /\ (m 0 <> Meta -> m' r = m 0)) /\
  (forall r, to_device m r <> Meta /\ (m r = Meta -> to_device m r = Random r) /\ (m r <> Meta -> to_device m r = m r)).
Proof.
  intro m. split.
  - eexists. split; [reflexivity|]. intro r. cbn. destruct (m 0) eqn:E; cbn; repeat split; congruence.
  - intro r. unfold to_device. destruct (m r) eqn:E; cbn; repeat split; congruence.
Qed.

Print Assumptions C97_start.
Print Assumptions C97_model_only_refuted.
Print Assumptions C97_skip_init_refuted.
Print Assumptions C97_ddp_sharded.
Print Assumptions C97_reference.
Print Assumptions C97_load.
Print Assumptions C97_create.
Print Assumptions C97_create_refuted.
Print Assumptions C97_rank0.
Print Assumptions C97_reshard.
Print Assumptions C97_reshard_refuted.
Print Assumptions C97_wrapped.
