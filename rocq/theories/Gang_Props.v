(** Theorems about gangs. Where a statement has [cuda], both branches of the program are covered. *)
From Coq Require Import List Bool Arith ZArith Lia Sorted.
From Verif Require Import Gang_Model Gang_Spec Gang_Proofs Gang_Proofs2.
Import ListNotations.

(** The gang of all [n] processes, as process [r] sees it. *)
Definition process (r n : nat) : gang := Pg true (seq 0 n) r.

Lemma process_sound r n : r < n -> sound r (process r n).
Proof. intros H. simpl. split; [reflexivity|]. split; [apply seq_NoDup|]. split; [apply in_seq; lia|eauto]. Qed.
Lemma process_rank r n : r < n -> grank (process r n) = r.
Proof. intros H. simpl. apply index_seq, H. Qed.
Lemma process_size r n : gsize (process r n) = n.
Proof. simpl. apply seq_length. Qed.
Lemma row_map n t i : 1 <= t -> n mod t = 0 -> i < n / t -> map (fun k => nth k (seq 0 n) 0) (mesh_row t i) = those n (fun q => Nat.eqb (q / t) i).
Proof.
  intros Ht Hm Hi. pose proof (Nat.div_mod n t ltac:(lia)) as E. rewrite map_nth_seq_id; [|intros x Hx; apply in_row in Hx; [|lia]; pose proof (Nat.div_mod x t ltac:(lia)); pose proof (Nat.mod_upper_bound x t ltac:(lia)); nia].
  rewrite (row_those (n / t) t i Ht Hi). f_equal. lia.
Qed.
Lemma col_map n t j : 1 <= t -> n mod t = 0 -> j < t -> map (fun k => nth k (seq 0 n) 0) (mesh_col (n / t) t j) = those n (fun q => Nat.eqb (q mod t) j).
Proof.
  intros Ht Hm Hj. pose proof (Nat.div_mod n t ltac:(lia)) as E. rewrite map_nth_seq_id; [|intros x Hx; apply in_col in Hx; [|lia]; nia].
  rewrite (col_those (n / t) t j Hj). f_equal. lia.
Qed.

(** C32: process [r] of [n] gets a data parallel gang of the processes with its remainder by tp_size and a tensor parallel gang of those
    with its quotient, at the expected positions. *)
Theorem C32_parallel : forall cuda n t r, 1 <= t -> n mod t = 0 -> r < n ->
  exists g, snd (create_parallel_gangs cuda (process r n) t) = Ok g /\
    root g = process r n /\
    gang_is r (dp g) (those n (fun q => Nat.eqb (q mod t) (r mod t))) (r / t) /\
    gang_is r (tp g) (those n (fun q => Nat.eqb (q / t) (r / t))) (r mod t) /\
    rdp g = dp g /\ gang_is r (sdp g) [r] 0 /\ gang_is r (pp g) [r] 0.
Proof.
  intros cuda n t r Ht Hm Hr. pose proof (parallel_gen r cuda (process r n) t (process_sound _ _ Hr) eq_refl Ht) as K. rewrite process_size, process_rank in K by exact Hr. specialize (K Hm).
  destruct K as (g & E & A1 & A2 & A3 & A4 & B1 & B2 & C1 & C2). exists g. rewrite E. split; [reflexivity|]. split; [exact A1|].
  assert (L : r / t < n / t). { apply Nat.div_lt_upper_bound; [lia|]. pose proof (Nat.div_mod n t ltac:(lia)). lia. }
  destruct B1 as (B3 & _ & _ & B4 & _). destruct C1 as (C3 & _ & _ & C4 & _).
  pose proof (Nat.mod_upper_bound r t ltac:(lia)) as Hmod.
  rewrite col_map in B4 by assumption. rewrite row_map in C4 by assumption.
  split; [|split; [|split; [exact A4|]]].
  - split; [exact B4|]. split; [exact B2|]. rewrite B3, <- (map_length (fun k => nth k (seq 0 n) 0)), col_map by assumption. reflexivity.
  - split; [exact C4|]. split; [exact C2|]. rewrite C3, <- (map_length (fun k => nth k (seq 0 n) 0)), row_map by assumption. reflexivity.
  - rewrite A2, A3. split; (split; [reflexivity|split; reflexivity]).
Qed.
Print Assumptions C32_parallel.
Example C32_parallel_ex : exists g, snd (create_parallel_gangs false (process 5 8) 2) = Ok g /\ members 5 (dp g) = [1; 3; 5; 7] /\ grank (dp g) = 2 /\ members 5 (tp g) = [4; 5] /\ grank (tp g) = 1.
Proof. eexists. split; [reflexivity|]. vm_compute. auto. Qed.

Lemma mesh_row_seq t i : 1 <= t -> mesh_row t i = seq (i * t) t.
Proof.
  intros H. apply sorted_ext; [apply sorted_row|apply sorted_seq|]. intros x. rewrite in_row, in_seq by exact H. pose proof (Nat.div_mod x t ltac:(lia)). pose proof (Nat.mod_upper_bound x t ltac:(lia)). split; [intros; nia|].
  intros. symmetry. apply Nat.div_unique with (r := x - i * t); lia.
Qed.
(** C32: the tensor parallel gang is a run of consecutive processes. *)
Theorem C32_consecutive : forall cuda n t r g, r < n -> snd (create_parallel_gangs cuda (process r n) t) = Ok g ->
  members r (tp g) = seq (r / t * t) t /\ In r (members r (tp g)) /\ In r (members r (dp g)) /\ length (members r (tp g)) * length (members r (dp g)) = n.
Proof.
  intros cuda n t r g Hr E.
  assert (Ht : 1 <= t). { destruct (Nat.lt_ge_cases t 1); [|lia]. unfold create_parallel_gangs in E. destruct (Nat.ltb_spec t 1); [discriminate|lia]. }
  assert (Hm : n mod t = 0). { unfold create_parallel_gangs in E. destruct (Nat.ltb_spec t 1); [lia|]. rewrite process_size in E. destruct (Nat.eqb_spec (n mod t) 0); [assumption|discriminate]. }
  pose proof (parallel_gen r cuda (process r n) t (process_sound _ _ Hr) eq_refl Ht) as K. rewrite process_size, process_rank in K by exact Hr. specialize (K Hm).
  destruct K as (g' & E' & _ & _ & _ & _ & (_ & _ & _ & B & _) & _ & (_ & _ & _ & C & _) & _). rewrite E' in E. injection E as <-.
  assert (L : r / t < n / t). { apply Nat.div_lt_upper_bound; [lia|]. pose proof (Nat.div_mod n t ltac:(lia)). lia. }
  pose proof (Nat.mod_upper_bound r t ltac:(lia)) as Hmod. pose proof (Nat.div_mod n t ltac:(lia)) as En.
  assert (LB : length (members r (dp g')) = n / t) by (rewrite B, map_length; apply col_length).
  assert (C' : members r (tp g') = mesh_row t (r / t)).
  { rewrite C. apply map_nth_seq_id. intros x Hx. apply in_row in Hx; [|lia]. pose proof (Nat.div_mod x t ltac:(lia)). pose proof (Nat.mod_upper_bound x t ltac:(lia)). nia. }
  rewrite col_map in B by assumption. rewrite C'. rewrite LB, row_length, B.
  split; [|split; [|split]].
  - apply mesh_row_seq; lia.
  - apply in_row; lia.
  - apply filter_In. split; [apply in_seq; lia|apply Nat.eqb_refl].
  - lia.
Qed.
Print Assumptions C32_consecutive.
Example C32_consecutive_ex : exists g, snd (create_parallel_gangs true (process 5 12) 4) = Ok g /\ members 5 (tp g) = [4; 5; 6; 7] /\ members 5 (dp g) = [1; 5; 9].
Proof. eexists. split; [reflexivity|]. vm_compute. auto. Qed.

(** C32: the processes of a gang agree on it: whoever process [r] has in its gang has the same gang, at another position. *)
Theorem C32_agree : forall cuda n t r q g g', r < n -> q < n -> 1 <= t -> n mod t = 0 ->
  snd (create_parallel_gangs cuda (process r n) t) = Ok g -> snd (create_parallel_gangs cuda (process q n) t) = Ok g' ->
  (In q (members r (tp g)) <-> members q (tp g') = members r (tp g)) /\
  (In q (members r (dp g)) <-> members q (dp g') = members r (dp g)) /\
  (In q (members r (tp g)) -> In q (members r (dp g)) -> q = r) /\
  (In q (members r (tp g)) -> grank (tp g') = grank (tp g) -> q = r) /\
  (In q (members r (dp g)) -> grank (dp g') = grank (dp g) -> q = r).
Proof.
  intros cuda n t r q g g' Hr Hq Ht Hm Er Eq.
  destruct (C32_parallel cuda n t r Ht Hm Hr) as (h & E & _ & (A1 & A2 & _) & (A3 & A4 & _) & _). rewrite E in Er. injection Er as ->.
  destruct (C32_parallel cuda n t q Ht Hm Hq) as (h' & E' & _ & (B1 & B2 & _) & (B3 & B4 & _) & _). rewrite E' in Eq. injection Eq as ->.
  rewrite A1, A2, A3, A4, B1, B2, B3, B4. pose proof (Nat.div_mod r t ltac:(lia)). pose proof (Nat.div_mod q t ltac:(lia)).
  assert (I : forall f, In q (those n f) <-> f q = true). { intros f. unfold those. rewrite filter_In, in_seq. intuition lia. }
  rewrite !I, !Nat.eqb_eq.
  split; [|split; [|split; [|split]]].
  - split; [intros ->; reflexivity|]. intros K. assert (J : In q (those n (fun q0 => q0 / t =? q / t))) by (apply I, Nat.eqb_refl). rewrite K in J. apply I, Nat.eqb_eq in J. exact J.
  - split; [intros ->; reflexivity|]. intros K. assert (J : In q (those n (fun q0 => q0 mod t =? q mod t))) by (apply I, Nat.eqb_refl). rewrite K in J. apply I, Nat.eqb_eq in J. exact J.
  - intros K1 K2. rewrite K1, K2 in *. lia.
  - intros K1 K2. rewrite K1, K2 in *. lia.
  - intros K1 K2. rewrite K1, K2 in *. lia.
Qed.
Print Assumptions C32_agree.
Example C32_agree_ex : exists g g', snd (create_parallel_gangs true (process 5 12) 4) = Ok g /\ snd (create_parallel_gangs true (process 7 12) 4) = Ok g' /\ In 7 (members 5 (tp g)) /\ members 7 (tp g') = members 5 (tp g).
Proof. do 2 eexists. split; [reflexivity|]. split; [reflexivity|]. vm_compute. auto 10. Qed.

(** C32: all processes make the same collective calls in the same order. *)
Theorem C32_calls : forall cuda n t r q, r < n -> q < n -> fst (create_parallel_gangs cuda (process r n) t) = fst (create_parallel_gangs cuda (process q n) t).
Proof.
  intros cuda n t r q Hr Hq. destruct (Nat.lt_ge_cases t 1) as [Ht|Ht].
  { unfold create_parallel_gangs. destruct (Nat.ltb_spec t 1); [reflexivity|lia]. }
  destruct (Nat.eq_dec (n mod t) 0) as [Hm|Hm].
  2:{ unfold create_parallel_gangs. rewrite !process_size. destruct (Nat.ltb_spec t 1); [lia|]. destruct (Nat.eqb_spec (n mod t) 0); [congruence|reflexivity]. }
  pose proof (parallel_gen r cuda (process r n) t (process_sound _ _ Hr) eq_refl Ht) as K. pose proof (parallel_gen q cuda (process q n) t (process_sound _ _ Hq) eq_refl Ht) as K'.
  rewrite !process_size in K, K'. destruct (K Hm) as (g & -> & _). destruct (K' Hm) as (g' & -> & _). simpl fst. unfold calls_of. rewrite !process_size. reflexivity.
Qed.
Print Assumptions C32_calls.
Example C32_calls_ex : fst (create_parallel_gangs false (process 3 4) 2) = [NewGroup [0; 2]; NewGroup [1; 3]; NewGroup [0; 1]; NewGroup [2; 3]].
Proof. reflexivity. Qed.

(** C32: the only rejected sizes are zero and those that do not divide the number of processes; then no collective call is made. *)
Theorem C32_errors : forall cuda n t r, r < n ->
  ((exists g, snd (create_parallel_gangs cuda (process r n) t) = Ok g) <-> 1 <= t /\ n mod t = 0) /\
  (~ (1 <= t /\ n mod t = 0) -> create_parallel_gangs cuda (process r n) t = ([], Err ValueError)).
Proof.
  intros cuda n t r Hr.
  assert (K : ~ (1 <= t /\ n mod t = 0) -> create_parallel_gangs cuda (process r n) t = ([], Err ValueError)).
  { intros K. unfold create_parallel_gangs. rewrite process_size. destruct (Nat.ltb_spec t 1); [reflexivity|]. destruct (Nat.eqb_spec (n mod t) 0); [tauto|reflexivity]. }
  split; [|exact K]. split.
  - intros (g & E). destruct (Nat.lt_ge_cases t 1) as [Ht|Ht]; [rewrite K in E by lia; discriminate|]. destruct (Nat.eq_dec (n mod t) 0); [tauto|]. rewrite K in E by tauto. discriminate.
  - intros [Ht Hm]. destruct (C32_parallel cuda n t r Ht Hm Hr) as (g & E & _). eauto.
Qed.
Print Assumptions C32_errors.
Example C32_errors_ex : create_parallel_gangs true (process 3 6) 4 = ([], Err ValueError).
Proof. reflexivity. Qed.

(** C32: with a fake root gang the ranks and sizes are the same as with a real one. *)
Theorem C32_fake : forall cuda n t r, 1 <= t -> n mod t = 0 -> r < n ->
  exists g, create_parallel_gangs cuda (Fake r n) t = ([], Ok g) /\ root g = Fake r n /\
    grank (dp g) = r / t /\ gsize (dp g) = n / t /\ grank (tp g) = r mod t /\ gsize (tp g) = t /\ rdp g = dp g /\ sdp g = Fake 0 1 /\ pp g = Fake 0 1.
Proof.
  intros cuda n t r Ht Hm Hr. destruct (parallel_gen r cuda (Fake r n) t Hr I Ht Hm) as (g & E & A1 & A2 & A3 & A4 & (B1 & _) & B2 & (C1 & _) & C2).
  rewrite col_length in B1. rewrite row_length in C1. exists g. rewrite E. cbn [gsize grank] in *.
  split; [|auto 10]. f_equal. unfold calls_of. cbn [supports_pg]. rewrite andb_false_r. repeat (destruct (Nat.eqb _ _)); reflexivity.
Qed.
Print Assumptions C32_fake.
Example C32_fake_ex : exists g, create_parallel_gangs true (Fake 5 12) 4 = ([], Ok g) /\ grank (dp g) = 1 /\ gsize (dp g) = 3.
Proof. eexists. split; [reflexivity|]. auto. Qed.

(** C32 as documented: a Gangs object whose root rank is 0 and one of whose other ranks is not is rejected. It is not, if the tensor
    parallel rank or the pipeline parallel rank alone differs. *)
Theorem C32_post_init_refuted : exists g, grank (root g) = 0 /\ grank (tp g) <> 0 /\ make_gangs g = Ok g.
Proof. exists (Gangs (Fake 0 4) (Fake 0 2) (Fake 0 2) (Fake 0 1) (Fake 1 2) (Fake 0 1)). split; [reflexivity|]. split; [discriminate|reflexivity]. Qed.
Print Assumptions C32_post_init_refuted.
(** The rank that equals the size, which no process has, is accepted by create_gang. *)
Theorem C32_ranks_refuted : exists g l r, In r l /\ ~ r < gsize g /\ snd (create_gang g l) <> Err ValueError.
Proof. exists (Fake 0 2), [0; 2], 2. split; [simpl; auto|]. split; [simpl; lia|]. discriminate. Qed.
Print Assumptions C32_ranks_refuted.

(** ** C33: fully sharded gangs *)
Theorem C33_full : forall cuda cuda' n t r g, r < n -> snd (create_parallel_gangs cuda (process r n) t) = Ok g ->
  create_fsdp_gangs cuda' g None = ([], Ok (Gangs (root g) (dp g) (Fake 0 1) (dp g) (tp g) (pp g))).
Proof.
  intros cuda cuda' n t r g Hr E. destruct (proj1 (proj1 (C32_errors cuda n t r Hr)) (ex_intro _ g E)) as [Ht Hm].
  destruct (C32_parallel cuda n t r Ht Hm Hr) as (h & E' & A0 & (_ & A1 & _) & (_ & A2 & _) & _). rewrite E' in E. injection E as ->.
  unfold create_fsdp_gangs, make_gangs. cbn [root dp tp pp]. f_equal. rewrite A0, A1, A2, process_rank by exact Hr.
  destruct (Nat.eqb_spec r 0) as [->|]; [|reflexivity]. rewrite Nat.div_0_l, Nat.mod_0_l by lia. reflexivity.
Qed.
Print Assumptions C33_full.
Example C33_full_ex : exists g g', snd (create_parallel_gangs true (process 5 8) 2) = Ok g /\ snd (create_fsdp_gangs true g None) = Ok g' /\ members 5 (sdp g') = [1; 3; 5; 7] /\ members 5 (rdp g') = [5].
Proof. do 2 eexists. split; [reflexivity|]. split; [reflexivity|]. vm_compute. auto. Qed.

Lemma nth_col n t j i : i < n / t -> nth i (mesh_col (n / t) t j) 0 = i * t + j.
Proof. intros H. unfold mesh_col. rewrite nth_indep with (d' := 0 * t + j) by (rewrite map_length, seq_length; exact H). rewrite (map_nth (fun i => i * t + j)), seq_nth by exact H. reflexivity. Qed.
(** Positions [P] of a data parallel gang as processes. *)
Lemma compose n t j l (P : nat -> bool) : 1 <= t -> n mod t = 0 -> j < t -> StronglySorted lt l -> (forall i, In i l <-> i < n / t /\ P i = true) ->
  map (fun i => nth i (mesh_col (n / t) t j) 0) l = those n (fun q => Nat.eqb (q mod t) j && P (q / t)).
Proof.
  intros Ht Hm Hj S HI. pose proof (Nat.div_mod n t ltac:(lia)) as En.
  assert (E : map (fun i => nth i (mesh_col (n / t) t j) 0) l = map (fun i => i * t + j) l). { apply map_ext_in. intros i Hi. apply nth_col. apply HI, Hi. }
  rewrite E. apply sorted_ext; [apply sorted_map_mono; [intros; nia|exact S]|apply sorted_filter, sorted_seq|].
  intros x. unfold those. rewrite in_map_iff, filter_In, in_seq, andb_true_iff, Nat.eqb_eq. split.
  - intros (i & <- & Hi). apply HI in Hi. destruct (divmod i j t Hj) as [-> ->]. split; [nia|tauto].
  - intros (Hx & Hx1 & Hx2). exists (x / t). pose proof (Nat.div_mod x t ltac:(lia)). split; [lia|]. apply HI. split; [|exact Hx2]. apply Nat.div_lt_upper_bound; nia.
Qed.

Lemma dp_sound cuda n t r g : r < n -> 1 <= t -> n mod t = 0 -> snd (create_parallel_gangs cuda (process r n) t) = Ok g ->
  sound r (dp g) /\ grank (dp g) = r / t /\ gsize (dp g) = n / t /\ members r (dp g) = mesh_col (n / t) t (r mod t) /\ (n / t <> 1 -> exists w, dp g = Pg w (mesh_col (n / t) t (r mod t)) r) /\
  (t = 1 -> world (dp g)) /\ (grank (root g) = 0 -> grank (dp g) = 0 /\ grank (tp g) = 0) /\ tp g = tp g /\ root g = process r n.
Proof.
  intros Hr Ht Hm E. pose proof (parallel_gen r cuda (process r n) t (process_sound _ _ Hr) eq_refl Ht) as K. rewrite process_size, process_rank in K by exact Hr.
  destruct (K Hm) as (g' & E' & A1 & _ & _ & _ & B & B2 & _ & C2). rewrite E' in E. injection E as ->. pose proof B as (B3 & _ & B4 & B5 & B6).
  rewrite col_length in B3. rewrite col_length in B6.
  pose proof (Nat.mod_upper_bound r t ltac:(lia)) as Hmod. rewrite map_nth_seq_id in B5; [|intros x Hx; apply in_col in Hx; [|lia]; pose proof (Nat.div_mod n t ltac:(lia)); nia].
  split; [exact B4|]. split; [exact B2|]. split; [exact B3|]. split; [exact B5|]. split; [|split; [|split; [|split; [reflexivity|exact A1]]]].
  - intros N. destruct (B6 N) as (w & l & El). exists w. rewrite El in B5. simpl in B5. rewrite El, B5. reflexivity.
  - intros ->. revert E'. unfold create_parallel_gangs, build. rewrite process_size. simpl (1 <? 1). rewrite Nat.mod_1_r. simpl negb. cbn iota. rewrite Nat.div_1_r.
    destruct (Nat.eqb_spec n 1) as [N1|N1]; [|rewrite Nat.eqb_refl]; simpl (1 =? 1); cbn iota; unfold make_gangs; destruct (_ && _); try discriminate; intros E; injection E; intros E1 _; rewrite <- E1; simpl; auto.
  - rewrite A1, process_rank by exact Hr. intros ->. rewrite B2, C2, Nat.div_0_l, Nat.mod_0_l by lia. auto.
Qed.

(** C33: a data parallel gang of [n / t] processes is cut into runs of [k] consecutive ones, the sharding gangs; the replication gang of a
    process has one of each run. *)
Theorem C33_hybrid_partial : forall cuda n t k r g, r < n -> 1 <= t -> n mod t = 0 -> 2 <= k -> (n / t) mod k = 0 -> cuda = true \/ t = 1 ->
  snd (create_parallel_gangs cuda (process r n) t) = Ok g ->
  exists g', snd (create_fsdp_gangs cuda g (Some k)) = Ok g' /\ root g' = root g /\ dp g' = dp g /\ tp g' = tp g /\ pp g' = pp g /\
    gang_is r (sdp g') (those n (fun q => Nat.eqb (q mod t) (r mod t) && Nat.eqb (q / t / k) (r / t / k))) (r / t mod k) /\
    gang_is r (rdp g') (those n (fun q => Nat.eqb (q mod t) (r mod t) && Nat.eqb (q / t mod k) (r / t mod k))) (r / t / k).
Proof.
  intros cuda n t k r g Hr Ht Hm Hk Hmk Hc E. destruct (dp_sound cuda n t r g Hr Ht Hm E) as (S1 & S2 & S3 & S4 & S5 & S6 & S7 & _ & S8).
  pose proof (Nat.mod_upper_bound r t ltac:(lia)) as Hmod. pose proof (Nat.div_mod n t ltac:(lia)) as En. pose proof (Nat.div_mod (n / t) k ltac:(lia)) as Ek.
  assert (N1 : n / t <> 1). { intros X. rewrite X, Nat.mod_small in Hmk by lia. lia. } destruct (S5 N1) as (w & ES).
  pose proof (fsdp_gen r cuda g k S1 ltac:(destruct Hc; auto) Hk) as K. rewrite S2 in S7. rewrite S3, S2 in K. destruct (K Hmk S7) as (g' & E' & R1 & R2 & R3 & R4 & (B1 & _ & _ & B2) & B3 & (C1 & _ & _ & C2) & C3).
  rewrite ES in B2, C2. destruct B2 as [B2 _]. destruct C2 as [C2 _].
  assert (Lr : r / t < n / t) by (apply Nat.div_lt_upper_bound; nia).
  assert (Lk : r / t / k < n / t / k) by (apply Nat.div_lt_upper_bound; nia).
  exists g'. rewrite E'. split; [reflexivity|]. split; [exact R1|]. split; [exact R2|]. split; [exact R3|]. split; [exact R4|].
  rewrite <- (map_length (fun i => nth i (mesh_col (n / t) t (r mod t)) 0)) in B1, C1.
  assert (P1 : map (fun i => nth i (mesh_col (n / t) t (r mod t)) 0) (mesh_col (n / t / k) k (r / t mod k)) = those n (fun q => Nat.eqb (q mod t) (r mod t) && Nat.eqb (q / t mod k) (r / t mod k))).
  { apply (compose n t (r mod t) _ (fun i => Nat.eqb (i mod k) (r / t mod k))); [assumption|assumption|assumption|apply sorted_col; lia|]. intros i. rewrite in_col, Nat.eqb_eq by (apply Nat.mod_upper_bound; lia). replace (n / t / k * k) with (n / t) by lia. reflexivity. }
  assert (P2 : map (fun i => nth i (mesh_col (n / t) t (r mod t)) 0) (mesh_row k (r / t / k)) = those n (fun q => Nat.eqb (q mod t) (r mod t) && Nat.eqb (q / t / k) (r / t / k))).
  { apply (compose n t (r mod t) _ (fun i => Nat.eqb (i / k) (r / t / k))); [assumption|assumption|assumption|apply sorted_row|]. intros i. rewrite in_row, Nat.eqb_eq by lia. split; [|tauto].
    intros Ei. split; [|exact Ei]. pose proof (Nat.div_mod i k ltac:(lia)). pose proof (Nat.mod_upper_bound i k ltac:(lia)). nia. }
  rewrite P1 in B1, B2. rewrite P2 in C1, C2.
  split; (split; [assumption|split; assumption]).
Qed.
Print Assumptions C33_hybrid_partial.
Example C33_hybrid_ex : exists g g', snd (create_parallel_gangs true (process 5 8) 2) = Ok g /\ snd (create_fsdp_gangs true g (Some 2)) = Ok g' /\ members 5 (sdp g') = [5; 7] /\ members 5 (rdp g') = [1; 5] /\ grank (sdp g') = 0 /\ grank (rdp g') = 1.
Proof. do 2 eexists. split; [reflexivity|]. split; [reflexivity|]. vm_compute. auto. Qed.

(** C33: the processes agree on the gangs, and two processes share both gangs only if they are the same. *)
Theorem C33_agree_partial : forall cuda n t k r q g h g' h', r < n -> q < n -> 1 <= t -> n mod t = 0 -> 2 <= k -> (n / t) mod k = 0 -> cuda = true \/ t = 1 ->
  snd (create_parallel_gangs cuda (process r n) t) = Ok g -> snd (create_parallel_gangs cuda (process q n) t) = Ok h ->
  snd (create_fsdp_gangs cuda g (Some k)) = Ok g' -> snd (create_fsdp_gangs cuda h (Some k)) = Ok h' ->
  (In q (members r (sdp g')) <-> members q (sdp h') = members r (sdp g')) /\
  (In q (members r (rdp g')) <-> members q (rdp h') = members r (rdp g')) /\
  (In q (members r (sdp g')) -> In q (members r (rdp g')) -> q = r) /\
  (In q (members r (dp g)) <-> exists p, p < n /\ In p (members r (sdp g')) /\ In p (members q (rdp h'))).
Proof.
  intros cuda n t k r q g h g' h' Hr Hq Ht Hm Hk Hmk Hc Eg Eh Eg' Eh'.
  destruct (C33_hybrid_partial cuda n t k r g Hr Ht Hm Hk Hmk Hc Eg) as (x & Ex & _ & _ & _ & _ & (A1 & A2 & _) & (A3 & A4 & _)). rewrite Ex in Eg'. injection Eg' as ->.
  destruct (C33_hybrid_partial cuda n t k q h Hq Ht Hm Hk Hmk Hc Eh) as (y & Ey & _ & _ & _ & _ & (B1 & B2 & _) & (B3 & B4 & _)). rewrite Ey in Eh'. injection Eh' as ->.
  destruct (dp_sound cuda n t r g Hr Ht Hm Eg) as (_ & _ & _ & D & _).
  pose proof (Nat.mod_upper_bound r t ltac:(lia)) as Hmod. rewrite D. rewrite in_col by exact Hmod.
  pose proof (Nat.div_mod n t ltac:(lia)) as En. pose proof (Nat.div_mod (n / t) k ltac:(lia)) as Ek.
  rewrite A1, A3, B1, B3.
  assert (I : forall p f, p < n -> (In p (those n f) <-> f p = true)). { intros p f Hp. unfold those. rewrite filter_In, in_seq. intuition lia. }
  rewrite !I by exact Hq.
  split; [|split; [|split]].
  - split; [rewrite andb_true_iff, !Nat.eqb_eq; intros [-> ->]; reflexivity|]. intros K. assert (J : In q (those n (fun p => (p mod t =? q mod t) && (p / t / k =? q / t / k)))) by (apply I; [exact Hq|rewrite !Nat.eqb_refl; reflexivity]). rewrite K in J. apply I in J; assumption.
  - split; [rewrite andb_true_iff, !Nat.eqb_eq; intros [-> ->]; reflexivity|]. intros K. assert (J : In q (those n (fun p => (p mod t =? q mod t) && (p / t mod k =? q / t mod k)))) by (apply I; [exact Hq|rewrite !Nat.eqb_refl; reflexivity]). rewrite K in J. apply I in J; assumption.
  - rewrite !andb_true_iff, !Nat.eqb_eq. intros [K1 K2] [_ K3].
    pose proof (Nat.div_mod r t ltac:(lia)) as Xr. pose proof (Nat.div_mod q t ltac:(lia)) as Xq. pose proof (Nat.div_mod (r / t) k ltac:(lia)) as Yr. pose proof (Nat.div_mod (q / t) k ltac:(lia)) as Yq.
    rewrite K1 in Xq. rewrite K2, K3 in Yq. congruence.
  - split.
    + intros [_ K]. exists ((r / t / k * k + q / t mod k) * t + r mod t).
      assert (L1 : q / t mod k < k) by (apply Nat.mod_upper_bound; lia).
      assert (L2 : r / t / k < n / t / k). { apply Nat.div_lt_upper_bound; [lia|]. apply Nat.div_lt_upper_bound; nia. }
      assert (L3 : r / t / k * k + q / t mod k < n / t) by (rewrite Ek, Hmk; clear - L1 L2; nia).
      assert (L : (r / t / k * k + q / t mod k) * t + r mod t < n) by (rewrite En at 1; rewrite Hm; clear - L3 Hmod; nia).
      destruct (divmod (r / t / k * k + q / t mod k) (r mod t) t Hmod) as [X1 X2]. destruct (divmod (r / t / k) (q / t mod k) k L1) as [X3 X4].
      split; [exact L|]. rewrite !I by exact L. rewrite X1, X2, X3, X4, K, !Nat.eqb_refl. auto.
    + intros (p & Lp & K1 & K2). rewrite I in K1, K2 by exact Lp. rewrite andb_true_iff, !Nat.eqb_eq in K1, K2. split; [|lia]. replace (n / t * t) with n by lia. exact Hq.
Qed.
Print Assumptions C33_agree_partial.
Example C33_agree_ex : exists g h g' h', snd (create_parallel_gangs true (process 5 8) 2) = Ok g /\ snd (create_parallel_gangs true (process 3 8) 2) = Ok h /\ snd (create_fsdp_gangs true g (Some 2)) = Ok g' /\ snd (create_fsdp_gangs true h (Some 2)) = Ok h' /\
  members 5 (sdp g') = [5; 7] /\ members 3 (rdp h') = [3; 7].
Proof. do 4 eexists. split; [reflexivity|]. split; [reflexivity|]. split; [reflexivity|]. split; [reflexivity|]. vm_compute. auto. Qed.

(** C33: the processes of a data parallel gang make the same collective calls in the same order. *)
Theorem C33_calls_partial : forall cuda n t k r q g h, r < n -> q < n -> 1 <= t -> n mod t = 0 -> 2 <= k -> cuda = true \/ t = 1 ->
  snd (create_parallel_gangs cuda (process r n) t) = Ok g -> snd (create_parallel_gangs cuda (process q n) t) = Ok h -> In q (members r (dp g)) ->
  fst (create_fsdp_gangs cuda g (Some k)) = fst (create_fsdp_gangs cuda h (Some k)).
Proof.
  intros cuda n t k r q g h Hr Hq Ht Hm Hk Hc Eg Eh I.
  destruct (dp_sound cuda n t r g Hr Ht Hm Eg) as (S1 & S2 & S3 & S4 & S5 & S6 & S7 & _). destruct (dp_sound cuda n t q h Hq Ht Hm Eh) as (T1 & T2 & T3 & T4 & T5 & T6 & T7 & _).
  pose proof (Nat.mod_upper_bound r t ltac:(lia)) as Hmod. rewrite S4 in I. apply in_col in I; [|exact Hmod]. destruct I as [_ I].
  destruct (Nat.eq_dec ((n / t) mod k) 0) as [Hmk|Hmk].
  2:{ unfold create_fsdp_gangs. rewrite S3, T3. destruct (Nat.leb_spec k 1); [lia|]. destruct (Nat.eqb_spec ((n / t) mod k) 0); [congruence|reflexivity]. }
  assert (N1 : n / t <> 1). { intros X. rewrite X, Nat.mod_small in Hmk by lia. lia. } destruct (S5 N1) as (w & ES). destruct (T5 N1) as (w' & ET).
  pose proof (fsdp_gen r cuda g k S1 ltac:(destruct Hc; auto) Hk) as K. pose proof (fsdp_gen q cuda h k T1 ltac:(destruct Hc; auto) Hk) as K'. rewrite S3 in K. rewrite T3 in K'.
  destruct (K Hmk S7) as (g' & -> & _). destruct (K' Hmk T7) as (h' & -> & _). simpl fst. unfold calls_of. rewrite S3, T3, ES, ET, I. reflexivity.
Qed.
Print Assumptions C33_calls_partial.
Example C33_calls_ex : exists g, snd (create_parallel_gangs true (process 5 8) 2) = Ok g /\ fst (create_fsdp_gangs true g (Some 2)) = [SplitGroup [1; 3; 5; 7] [[0; 2]; [1; 3]]; SplitGroup [1; 3; 5; 7] [[0; 1]; [2; 3]]].
Proof. eexists. split; reflexivity. Qed.

(** C33: what is rejected, on CUDA. *)
Theorem C33_errors_partial : forall n t k r g, r < n -> 1 <= t -> n mod t = 0 -> snd (create_parallel_gangs true (process r n) t) = Ok g ->
  ((exists g', snd (create_fsdp_gangs true g (Some k)) = Ok g') <-> 2 <= k /\ (n / t) mod k = 0) /\
  (~ (2 <= k /\ (n / t) mod k = 0) -> create_fsdp_gangs true g (Some k) = ([], Err ValueError)).
Proof.
  intros n t k r g Hr Ht Hm E. destruct (dp_sound true n t r g Hr Ht Hm E) as (_ & _ & S3 & _).
  assert (K : ~ (2 <= k /\ (n / t) mod k = 0) -> create_fsdp_gangs true g (Some k) = ([], Err ValueError)).
  { intros K. unfold create_fsdp_gangs. rewrite S3. destruct (Nat.leb_spec k 1); [reflexivity|]. destruct (Nat.eqb_spec ((n / t) mod k) 0); [exfalso; apply K; split; [lia|assumption]|reflexivity]. }
  split; [|exact K]. split.
  - intros (g' & E'). destruct (Nat.lt_ge_cases k 2) as [L|L]; [rewrite K in E' by lia; discriminate|]. destruct (Nat.eq_dec ((n / t) mod k) 0); [tauto|]. rewrite K in E' by tauto. discriminate.
  - intros [Hk Hmk]. destruct (C33_hybrid_partial true n t k r g Hr Ht Hm Hk Hmk (or_introl eq_refl) E) as (g' & E' & _). eauto.
Qed.
Print Assumptions C33_errors_partial.
Example C33_errors_ex : exists g, snd (create_parallel_gangs true (process 5 8) 2) = Ok g /\ create_fsdp_gangs true g (Some 3) = ([], Err ValueError).
Proof. eexists. split; reflexivity. Qed.

(** C33 without CUDA: with tensor parallelism, sizes that fit are rejected, since create_gang works on the gang of all processes only. *)
Theorem C33_cpu_refuted : exists n t k r g, r < n /\ 1 <= t /\ n mod t = 0 /\ 2 <= k /\ (n / t) mod k = 0 /\
  snd (create_parallel_gangs false (process r n) t) = Ok g /\ snd (create_fsdp_gangs false g (Some k)) = Err InvalidOperation.
Proof. exists 8, 2, 2, 5. eexists. split; [lia|]. split; [lia|]. split; [reflexivity|]. split; [lia|]. split; [reflexivity|]. split; reflexivity. Qed.
Print Assumptions C33_cpu_refuted.

(** ** C56: a fake gang reduces and gathers like a gang of processes that hold the same value. *)
Definition reduce (op : reduce_op) (l : list Z) : option Z :=
  match op with SUM => Some (fold_right Z.add 0%Z l) | PRODUCT => Some (fold_right Z.mul 1%Z l)
  | MIN => match l with [] => None | x :: l' => Some (fold_right Z.min x l') end | MAX => match l with [] => None | x :: l' => Some (fold_right Z.max x l') end
  | MEAN => match l with [] => None | _ => Some (fold_right Z.add 0 l / Z.of_nat (length l))%Z end end.
Theorem C56_fake_partial : forall n x,
  (forall op, op = SUM \/ op = PRODUCT -> exists y, fake_all_reduce n x op = Ok y /\ reduce op (repeat x n) = Some y) /\
  fake_all_gather n n x = Ok (repeat x n) /\ (forall m, m <> n -> fake_all_gather n m x = Err ValueError) /\
  (forall op y, fake_all_reduce n x op = Ok y -> reduce op (repeat x n) = Some y).
Proof.
  intros n x.
  assert (S : (fold_right Z.add 0 (repeat x n) = x * Z.of_nat n)%Z). { induction n as [|n IH]; [simpl; lia|]. cbn [repeat fold_right]. rewrite IH. lia. }
  assert (P : (fold_right Z.mul 1 (repeat x n) = x ^ Z.of_nat n)%Z). { clear S. induction n as [|n IH]; [reflexivity|]. cbn [repeat fold_right]. rewrite IH, Nat2Z.inj_succ, Z.pow_succ_r by lia. reflexivity. }
  assert (Q : forall op y, fake_all_reduce n x op = Ok y -> reduce op (repeat x n) = Some y).
  { intros op y H. destruct op; try discriminate H; injection H as <-; cbn [reduce]; [rewrite S|rewrite P]; reflexivity. }
  split; [|split; [|split; [|exact Q]]].
  - intros op [->| ->]; eexists; (split; [reflexivity|apply Q; reflexivity]).
  - unfold fake_all_gather. rewrite Nat.eqb_refl. reflexivity.
  - intros m Hm. unfold fake_all_gather. destruct (Nat.eqb_spec m n); [congruence|reflexivity].
Qed.
Print Assumptions C56_fake_partial.
Example C56_fake_ex : fake_all_reduce 4 3 SUM = Ok 12%Z /\ fake_all_reduce 4 3 PRODUCT = Ok 81%Z /\ fake_all_gather 2 2 7 = Ok [7; 7]%Z.
Proof. split; [reflexivity|]. split; reflexivity. Qed.
(** The other three reductions are refused. *)
Theorem C56_reduce_refuted : exists n x op y, reduce op (repeat x n) = Some y /\ fake_all_reduce n x op = Err NotSupported.
Proof. exists 2, 3%Z, MAX, 3%Z. split; reflexivity. Qed.
Print Assumptions C56_reduce_refuted.

(** ** C57: current gangs have lexical scope: they are those of the innermost enclosing context for the device, else the default; after a
    context, however it ends, they are as before it. *)
Theorem C57_scope : forall dev fake_gangs p m defs env, (forall d, defaults m d = defs d /\ hd_error (stacks m d) = env d) ->
  let '(m', o, ok) := run dev fake_gangs p m in
  let '(defs', o', ok') := scoped dev fake_gangs p defs env in
  o = o' /\ ok = ok' /\ (forall d, stacks m' d = stacks m d) /\ forall d, defaults m' d = defs' d.
Proof. exact run_scoped. Qed.
Print Assumptions C57_scope.
Example C57_scope_ex : forall b, let p := Get 2 (With 7 true (Get 2 (Get 1 (With 8 false (Get 2 (Get 1 Raise)) Ret))) b) in
  snd (fst (run (fun _ => 2) (fun d => 100 + d) p (Mgr (fun _ => None) (fun _ => [])))) = [102; 7; 7; 8; 7].
Proof. reflexivity. Qed.

(** ** C58: broadcast gives every process of the gang the value of the process with rank source_rank in the gang. For the gang of all
    processes it does. *)
Theorem C58_broadcast_partial : forall n source value, source < n -> pg_broadcast (seq 0 n) source value = Ok (value (nth source (seq 0 n) 0)).
Proof. intros n source value H. unfold pg_broadcast. rewrite seq_nth by exact H. assert (M : mem source (seq 0 n) = true) by (apply mem_iff, in_seq; lia). rewrite M. reflexivity. Qed.
Print Assumptions C58_broadcast_partial.
Example C58_broadcast_ex : pg_broadcast (seq 0 4) 2 (fun r => Z.of_nat (10 * r)) = Ok 20%Z.
Proof. reflexivity. Qed.
(** For the other gangs it is not so: a source is refused, or another process is taken for it. *)
Theorem C58_broadcast_refuted : exists n t r g, r < n /\ snd (create_parallel_gangs true (process r n) t) = Ok g /\
  let m := members r (dp g) in
  (exists source value, source < length m /\ pg_broadcast m source value = Err ValueError) /\
  exists source value v, source < length m /\ pg_broadcast m source value = Ok v /\ v <> value (nth source m 0).
Proof.
  exists 6, 2, 4. eexists. split; [lia|]. split; [reflexivity|]. split.
  - exists 1, (fun _ => 0%Z). split; [simpl; lia|reflexivity].
  - exists 2, Z.of_nat. eexists. split; [simpl; lia|]. split; [reflexivity|]. discriminate.
Qed.
Print Assumptions C58_broadcast_refuted.
