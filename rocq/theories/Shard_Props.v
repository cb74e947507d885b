(** C52, C53: tensor parallel embeddings and projections. *)
From Coq Require Import List Bool Arith ZArith Lia.
From Verif Require Import Shard_Model Shard_Spec Shard_Proofs.
Import ListNotations.

Definition pad_ok (n : nat) (p : option Z) : Prop := match p with Some p => (- Z.of_nat n <= p < Z.of_nat n)%Z | None => True end.
Lemma norm_pad_ok n p : pad_ok n p -> exists q, norm_pad n p = Ok q.
Proof.
  destruct p as [p|]; cbn [pad_ok norm_pad]; intros H; [|eauto]. rewrite Z.gtb_ltb, Z.geb_leb.
  destruct (Z.ltb_spec 0 p); [destruct (Z.ltb_spec p (Z.of_nat n)); [eauto|lia]|]. destruct (Z.ltb_spec p 0); [|eauto]. destruct (Z.leb_spec (- Z.of_nat n) p); [eauto|lia].
Qed.
Lemma nth_block {T} k r n j (l : list T) d : length l = n * k -> r < n -> j < k -> nth j (block k r l) d = nth (r * k + j) l d.
Proof.
  intros E R J. unfold block. rewrite <- (firstn_skipn (r * k) l) at 2. rewrite app_nth2; rewrite firstn_length; [|nia].
  replace (r * k + j - Nat.min (r * k) (length l)) with j by nia. set (m := skipn (r * k) l). clearbody m. revert m J. clear. revert k.
  induction j; intros k m J; destruct k; try lia; destruct m; cbn; try reflexivity. apply IHj. lia.
Qed.
Lemma lookup_ok {A} (w : mat A) i : (0 <= i < Z.of_nat (height w))%Z -> lookup w i = Ok (nth (Z.to_nat i) (rows w) []).
Proof.
  unfold lookup, height. intros H. destruct (Z.ltb_spec i 0); [lia|]. unfold get. now rewrite (nth_error_nth' _ []) by lia.
Qed.
Lemma embedding_ok {A} (w : mat A) p x : pad_ok (height w) p -> Forall (fun i => 0 <= i < Z.of_nat (height w))%Z x ->
  embedding w p x = Ok (Mat (width w) (map (fun i => nth (Z.to_nat i) (rows w) []) x)).
Proof.
  intros P F. unfold embedding. destruct (norm_pad_ok _ _ P) as [q ->]. cbn [bind]. rewrite Forall_forall in F.
  rewrite (collect_map _ (fun i => nth (Z.to_nat i) (rows w) [])); [reflexivity|]. intros i Hi. apply lookup_ok. auto.
Qed.
Lemma local_pad_ok k r p : 0 < k -> pad_ok k (local_pad k r p).
Proof.
  intros K. destruct p as [p|]; cbn [local_pad]; [|exact I]. rewrite Z.geb_leb. destruct (Z.leb_spec (Z.of_nat r * Z.of_nat k) p); cbn [andb]; [|exact I].
  destruct (Z.ltb_spec p ((Z.of_nat r + 1) * Z.of_nat k)); [|exact I]. cbn [pad_ok]. lia.
Qed.
Lemma masked_spec k r i : masked k r i = false <-> (Z.of_nat r * Z.of_nat k <= i < (Z.of_nat r + 1) * Z.of_nat k)%Z.
Proof. unfold masked. rewrite Z.geb_leb, orb_false_iff, Z.ltb_ge, Z.leb_gt. lia. Qed.
Lemma local_idx_range k r i : 0 < k -> (0 <= local_idx k r i < Z.of_nat k)%Z.
Proof. intros K. unfold local_idx. destruct (masked k r i) eqn:E; [lia|]. apply masked_spec in E. lia. Qed.

Lemma row_blocks_cat {A} k size (m : mat A) : height m = size * k -> 0 < size -> cat 0 (map (fun r => row_block k r m) (seq 0 size)) = Ok m.
Proof.
  intros E S. unfold row_block. rewrite <- (map_map (fun r => block k r (rows m)) (Mat (width m))), cat_rows_ok; [|destruct size; [lia|discriminate]].
  rewrite blocks_concat by exact E. now destruct m.
Qed.
Lemma col_blocks_cat {A} k size (m : mat A) : tensor m -> width m = size * k -> 0 < size -> cat 1 (map (fun r => col_block k r m) (seq 0 size)) = Ok m.
Proof.
  intros T E S. unfold col_block. rewrite cat_cols_ok; [|destruct size; [lia|discriminate]]. rewrite seq_length, <- E. f_equal. destruct m as [w R]. cbn [rows width] in *. f_equal.
  rewrite <- map_id. apply map_ext_in. intros l Hl. apply blocks_concat. rewrite <- E. exact (tensor_row _ _ T Hl).
Qed.
Lemma gather_blocks {A} dim (f : nat -> mat A) size m : 0 < size -> (size = 1 -> f 0 = m) -> cat dim (map f (seq 0 size)) = Ok m ->
  gather dim (map f (seq 0 size)) = Ok (repeat m size).
Proof.
  intros S O C. unfold gather. rewrite map_length, seq_length. destruct (Nat.eqb_spec size 1) as [->|N].
  - cbn [seq map repeat]. now rewrite O.
  - rewrite C. cbn [bind]. f_equal. rewrite map_map. symmetry. apply repeat_seq.
Qed.
Lemma row_block_1 {A} k (m : mat A) : height m = k -> row_block k 0 m = m.
Proof. intros E. unfold row_block, block. cbn [skipn Nat.mul]. unfold height in E. rewrite <- E, firstn_all. now destruct m. Qed.
Lemma col_block_1 {A} k (m : mat A) : tensor m -> width m = k -> col_block k 0 m = m.
Proof.
  intros T E. unfold col_block, block. destruct m as [w R]. cbn [rows width] in *. subst w. f_equal. rewrite <- map_id. apply map_ext_in. intros l Hl.
  cbn [skipn Nat.mul]. pose proof (tensor_row _ _ T Hl) as L. cbn [width] in L. rewrite <- L. apply firstn_all.
Qed.
Lemma gather_rows {A} k size (m : mat A) : height m = size * k -> 0 < size -> gather 0 (map (fun r => row_block k r m) (seq 0 size)) = Ok (repeat m size).
Proof. intros E S. apply gather_blocks; [exact S| |now apply row_blocks_cat]. intros ->. apply row_block_1. lia. Qed.
Lemma gather_cols {A} k size (m : mat A) : tensor m -> width m = size * k -> 0 < size -> gather 1 (map (fun r => col_block k r m) (seq 0 size)) = Ok (repeat m size).
Proof. intros T E S. apply gather_blocks; [exact S| |now apply col_blocks_cat]. intros ->. apply col_block_1; [exact T|lia]. Qed.
Lemma block_rows_height {A} k size r (m : mat A) : height m = size * k -> r < size -> height (row_block k r m) = k.
Proof. intros E R. unfold height, row_block. cbn [rows]. now apply block_length with size. Qed.
Lemma vocab_shards {A} size k (e : embed A) : height (table e) = size * k -> 0 < size -> 0 < k ->
  vocab_from_embedding size e = Ok (map (fun r => row_block k r (table e)) (seq 0 size)).
Proof.
  intros E S K. unfold vocab_from_embedding. apply collect_map. intros r Hr. apply in_seq in Hr. unfold vocab_shard. rewrite E, Nat.mul_comm, Nat.mod_mul, Nat.div_mul by lia.
  cbn [Nat.eqb negb]. apply get_split_rows with size; lia.
Qed.
Lemma dim_shards {A} size k (e : embed A) : width (table e) = size * k -> 0 < size -> 0 < k ->
  dim_from_embedding size e = Ok (map (fun r => col_block k r (table e)) (seq 0 size)).
Proof.
  intros E S K. unfold dim_from_embedding. apply collect_map. intros r Hr. apply in_seq in Hr. unfold dim_shard. rewrite E, Nat.mul_comm, Nat.mod_mul, Nat.div_mul by lia.
  cbn [Nat.eqb negb]. apply get_split_cols with size; lia.
Qed.

(** The vocabulary is a multiple of the size of the gang, the indices are in the vocabulary: all ranks hold the rows [r k .. (r + 1) k) of
    the table, get the rows of the table for the indices as the unsharded embedding does, and get back the table. *)
Theorem C52_vocab {A} (zero : A) add (e : embed A) size k x :
  monoid zero add -> tensor (table e) -> height (table e) = size * k -> 0 < size -> 0 < k -> pad_ok (height (table e)) (pad e) ->
  Forall (fun i => 0 <= i < Z.of_nat (height (table e)))%Z x ->
  let y := Mat (width (table e)) (map (fun i => nth (Z.to_nat i) (rows (table e)) []) x) in
  let ws := map (fun r => row_block k r (table e)) (seq 0 size) in
  vocab_from_embedding size e = Ok ws /\
  embedding (table e) (pad e) x = Ok y /\
  vocab_forward zero add (pad e) ws (repeat x size) = Ok (repeat y size) /\
  vocab_to_embedding ws = Ok (repeat (table e) size).
Proof.
  intros M T E S K P F y ws. assert (Ey : embedding (table e) (pad e) x = Ok y) by now apply embedding_ok.
  split; [now apply vocab_shards|]. split; [exact Ey|]. split; [|now apply gather_rows].
  unfold vocab_forward. replace (length ws) with size by (unfold ws; now rewrite map_length, seq_length). cbv zeta. destruct (Nat.leb_spec size 1).
  { assert (size = 1) as -> by lia. unfold ws. cbn [seq map repeat]. unfold map2. cbn [combine map fst snd collect]. rewrite row_block_1 by lia. rewrite Ey. reflexivity. }
  unfold ws. rewrite combine_map_r, repeat_seq, map2_maps.
  set (f := fun r i => if masked k r i then zeros zero (width (table e)) else nth (Z.to_nat i) (rows (table e)) []).
  rewrite (collect_map _ (fun r => Mat (width (table e)) (map (f r) x))).
  - cbn [bind]. f_equal. unfold reduce. rewrite map_map, repeat_seq. apply map_ext. intros _. destruct size as [|n]; [lia|]. cbn [seq]. rewrite total_map. unfold y. f_equal.
    apply map_ext_in. intros i Hi. rewrite Forall_forall in F. specialize (F i Hi).
    set (r0 := Z.to_nat (i / Z.of_nat k)).
    assert (Hr : masked k r0 i = false).
    { apply masked_spec. unfold r0. rewrite Z2Nat.id by (apply Z.div_pos; lia). pose proof (Z.div_mod i (Z.of_nat k)). pose proof (Z.mod_pos_bound i (Z.of_nat k)). nia. }
    apply masked_spec in Hr as Hr'.
    assert (f r0 i = nth (Z.to_nat i) (rows (table e)) []) as <- by (unfold f; now rewrite Hr).
    apply one_row with (zero := zero) (w := width (table e)) (f := fun r => f r i) (r0 := r0); [exact M|nia| |].
    + unfold f. rewrite Hr. apply (tensor_row _ _ T). apply nth_In. unfold height in F. lia.
    + intros r R N. unfold f. destruct (masked k r i) eqn:Q; [reflexivity|]. apply masked_spec in Q. exfalso. apply N. nia.
  - intros r Hr. apply in_seq in Hr. cbn [fst snd]. unfold vocab_local. rewrite (block_rows_height k size) by lia.
    rewrite embedding_ok.
    + cbn [bind]. f_equal. unfold where_mask. cbn [width rows row_block]. rewrite map_map, map2_map_r. f_equal. apply map_ext_in. intros i Hi. unfold f.
      pose proof (local_idx_range k r i K) as L. rewrite nth_block with (n := size) by (unfold height in E; lia).
      destruct (masked k r i) eqn:Q.
      * unfold zeros. rewrite <- repeat_map. f_equal. apply (tensor_row _ _ T). apply nth_In. unfold height in E. nia.
      * f_equal. unfold local_idx in *. rewrite Q in *. apply masked_spec in Q. nia.
    + rewrite (block_rows_height k size) by lia. now apply local_pad_ok.
    + rewrite (block_rows_height k size) by lia. apply Forall_map, Forall_forall. intros i _. now apply local_idx_range.
Qed.
Print Assumptions C52_vocab.
Definition table4 : mat Z := Mat 2 [[1; 2]; [3; 4]; [5; 6]; [7; 8]]%Z.
Lemma z_monoid : monoid 0%Z Z.add.
Proof. split; [exact Z.add_assoc|]. split; [exact Z.add_0_l|exact Z.add_0_r]. Qed.
Example C52_vocab_example : let e := Embed table4 (Some 3%Z) in let x := [2; 0; 3; 2]%Z in
  monoid 0%Z Z.add /\ tensor (table e) /\ height (table e) = 2 * 2 /\ pad_ok (height (table e)) (pad e) /\ Forall (fun i => 0 <= i < Z.of_nat (height (table e)))%Z x /\
  vocab_from_embedding 2 e = Ok [Mat 2 [[1; 2]; [3; 4]]; Mat 2 [[5; 6]; [7; 8]]]%Z /\
  vocab_forward 0%Z Z.add (pad e) [Mat 2 [[1; 2]; [3; 4]]; Mat 2 [[5; 6]; [7; 8]]]%Z [x; x] = Ok (repeat (Mat 2 [[5; 6]; [1; 2]; [7; 8]; [5; 6]]%Z) 2).
Proof. cbv zeta. split; [exact z_monoid|]. split; [repeat constructor|]. split; [reflexivity|]. split; [cbv; split; congruence|]. split; [repeat constructor; cbv; congruence|]. split; reflexivity. Qed.

(** An index out of the vocabulary is an error of the unsharded embedding, but the sharded one returns zeros. *)
Theorem C52_range_refuted : exists (e : embed Z) ws x,
  vocab_from_embedding 2 e = Ok ws /\ embedding (table e) (pad e) x = Err IndexError /\
  vocab_forward 0%Z Z.add (pad e) ws (repeat x 2) = Ok (repeat (Mat 1 [[0%Z]]) 2).
Proof. exists (Embed (Mat 1 [[5%Z]; [7%Z]]) None). eexists. exists [9%Z]. split; [reflexivity|]. split; reflexivity. Qed.
Print Assumptions C52_range_refuted.

(** Sharding over the embedding dimension: the same for all indices, including errors. *)
Lemma embedding_err {A} (w : mat A) p x : embedding w p x = bind (norm_pad (height w) p) (fun _ => embedding w None x).
Proof. unfold embedding. destruct (norm_pad (height w) p); reflexivity. Qed.
Lemma lookup_col {A} k r (w : mat A) i : lookup (col_block k r w) i = bind (lookup w i) (fun l => Ok (block k r l)).
Proof.
  unfold lookup, get, col_block. cbn [rows]. destruct (i <? 0)%Z; [reflexivity|]. rewrite nth_error_map. destruct (nth_error (rows w) (Z.to_nat i)); reflexivity.
Qed.
Lemma collect_bind {T U V} (f : T -> res U) (g : U -> V) l : collect (map (fun x => bind (f x) (fun y => Ok (g y))) l) = bind (collect (map f l)) (fun ys => Ok (map g ys)).
Proof.
  induction l as [|a l IH]; cbn [map collect bind]; [reflexivity|]. rewrite IH. destruct (f a); cbn [bind]; [|reflexivity]. destruct (collect (map f l)); reflexivity.
Qed.
Lemma embedding_col {A} k r (w : mat A) p x : embedding (col_block k r w) p x = bind (embedding w p x) (fun y => Ok (col_block k r y)).
Proof.
  unfold embedding. replace (height (col_block k r w)) with (height w) by (unfold height, col_block; cbn [rows]; now rewrite map_length).
  destruct (norm_pad (height w) p); cbn [bind]; [|reflexivity]. rewrite (map_ext _ _ (lookup_col k r w)), collect_bind. destruct (collect (map (lookup w) x)); reflexivity.
Qed.
Lemma embedding_tensor {A} (w : mat A) p x y : tensor w -> embedding w p x = Ok y -> tensor y /\ width y = width w.
Proof.
  intros T. unfold embedding. destruct (norm_pad (height w) p); cbn [bind]; intros H; [|discriminate H]. destruct (collect (map (lookup w) x)) as [ys|] eqn:C; cbn [bind] in H; [|discriminate H].
  injection H as <-. cbn [width]. split; [|reflexivity]. apply collect_ok in C. unfold tensor. cbn [rows width]. apply Forall_forall. intros v Hv.
  assert (In (Ok v) (map (lookup w) x)) as Q by (rewrite C; now apply in_map). apply in_map_iff in Q as (i & Q & _). unfold lookup in Q. destruct (i <? 0)%Z; [discriminate Q|].
  unfold get in Q. destruct (nth_error (rows w) (Z.to_nat i)) eqn:N; [|discriminate Q]. injection Q as <-. apply (tensor_row _ _ T). now apply nth_error_In in N.
Qed.
Lemma collect_const_err {T U} (e : exn) (l : list T) : l <> [] -> collect (map (fun _ => @Err U e) l) = Err e.
Proof. destruct l; [contradiction|reflexivity]. Qed.
Theorem C52_dim {A} (e : embed A) size k x :
  tensor (table e) -> width (table e) = size * k -> 0 < size -> 0 < k ->
  let ws := map (fun r => col_block k r (table e)) (seq 0 size) in
  dim_from_embedding size e = Ok ws /\
  dim_forward (pad e) ws (repeat x size) = match embedding (table e) (pad e) x with Ok y => Ok (repeat y size) | Err er => Err er end /\
  dim_to_embedding ws = Ok (repeat (table e) size).
Proof.
  intros T E S K ws. split; [now apply dim_shards|]. split; [|now apply gather_cols].
  assert (C : collect (map2 (fun w x0 => embedding w (pad e) x0) ws (repeat x size)) =
              match embedding (table e) (pad e) x with Ok y => Ok (map (fun r => col_block k r y) (seq 0 size)) | Err er => Err er end).
  { unfold ws. rewrite repeat_seq, map2_maps. erewrite map_ext by (intros r; apply embedding_col). destruct (embedding (table e) (pad e) x) as [y|er]; cbn [bind].
    - now apply collect_map.
    - apply collect_const_err. destruct size; [lia|discriminate]. }
  unfold dim_forward. rewrite C. unfold ws. rewrite map_length, seq_length. destruct (embedding (table e) (pad e) x) as [y|er] eqn:Y.
  - destruct (embedding_tensor _ _ _ _ T Y) as [Ty Wy]. rewrite E in Wy. destruct (Nat.leb_spec size 1); cbn [bind]; [|now apply gather_cols].
    assert (size = 1) as -> by lia. cbn [seq map repeat]. rewrite col_block_1; [reflexivity|exact Ty|lia].
  - destruct (size <=? 1); reflexivity.
Qed.
Print Assumptions C52_dim.
Example C52_dim_example : let e := Embed table4 None in tensor (table e) /\ width (table e) = 2 * 1 /\
  dim_from_embedding 2 e = Ok [Mat 1 [[1]; [3]; [5]; [7]]; Mat 1 [[2]; [4]; [6]; [8]]]%Z /\
  dim_forward None [Mat 1 [[1]; [3]; [5]; [7]]; Mat 1 [[2]; [4]; [6]; [8]]]%Z [[3; 1]; [3; 1]]%Z = Ok (repeat (Mat 2 [[7; 8]; [3; 4]]%Z) 2).
Proof. cbv zeta. split; [repeat constructor|]. split; [reflexivity|]. split; reflexivity. Qed.

(** Any other size is rejected. *)
Theorem C52_indivisible {A} (e : embed A) size : 0 < size ->
  (height (table e) mod size <> 0 -> vocab_from_embedding size e = Err ValueError) /\ (width (table e) mod size <> 0 -> dim_from_embedding size e = Err ValueError).
Proof.
  intros Sz. destruct size as [|n]; [lia|]. split; intros H; [unfold vocab_from_embedding|unfold dim_from_embedding]; cbn [seq map collect].
  - unfold vocab_shard at 1. destruct (Nat.eqb_spec (height (table e) mod S n) 0); [contradiction|]. reflexivity.
  - unfold dim_shard at 1. destruct (Nat.eqb_spec (width (table e) mod S n) 0); [contradiction|]. reflexivity.
Qed.
Print Assumptions C52_indivisible.
Example C52_indivisible_example : height table4 mod 3 <> 0 /\ vocab_from_embedding 3 (Embed table4 None) = Err ValueError.
Proof. split; [discriminate|reflexivity]. Qed.

(** ** Gradients of the tables *)
Lemma block_seq k n r : r < n -> block k r (seq 0 (n * k)) = map (fun j => r * k + j) (seq 0 k).
Proof.
  intros R. replace (n * k) with (r * k + (k + (n - r - 1) * k)) by nia. unfold block. rewrite seq_app, skipn_app, seq_length, Nat.sub_diag, skipn_all2 by (rewrite seq_length; lia).
  cbn [app skipn Nat.add]. rewrite seq_app, firstn_app, seq_length, Nat.sub_diag, firstn_all2 by (rewrite seq_length; lia). cbn [firstn]. rewrite app_nil_r.
  clear. generalize (r * k). intros b. replace b with (b + 0) at 1 by lia. generalize 0. induction k; intros a; cbn [seq map]; [reflexivity|]. f_equal. rewrite <- IHk. now replace (b + S a) with (S (b + a)) by lia.
Qed.
Lemma local_vsum {A} (zero : A) add k r j w : monoid zero add -> j < k -> forall x g, Forall (fun l => length l = w) g ->
  vsum zero add w (map snd (filter (fun xg => (fst xg =? Z.of_nat j)%Z) (combine (map (local_idx k r) x) (map2 (fun i row => if masked k r i then map (fun _ => zero) row else row) x g)))) =
  vsum zero add w (map snd (filter (fun xg => (fst xg =? Z.of_nat (r * k + j))%Z) (combine x g))).
Proof.
  intros M J. unfold map2. induction x as [|i x IH]; intros [|l g] F; cbn [map combine filter fst snd]; try reflexivity. inversion F as [|? ? L F']; subst. specialize (IH g F').
  assert (V : length (vsum zero add (length l) (map snd (filter (fun xg => (fst xg =? Z.of_nat (r * k + j))%Z) (combine x g)))) = length l).
  { clear - F'. unfold vsum. assert (G : Forall (fun v => length v = length l) (map snd (filter (fun xg => (fst xg =? Z.of_nat (r * k + j))%Z) (combine x g)))).
    { rewrite Forall_forall in *. intros v Hv. apply in_map_iff in Hv as ((a & b) & <- & Hv). apply filter_In in Hv as [Hv _]. apply in_combine_r in Hv. auto. }
    induction G; cbn [fold_right]; [apply zeros_length|]. unfold vadd at 1. rewrite map2_length. rewrite IHG, H. apply Nat.min_id. }
  unfold local_idx at 1. destruct (masked k r i) eqn:Q.
  - destruct (Z.eqb_spec i (Z.of_nat (r * k + j))) as [->|N]; [assert (masked k r (Z.of_nat (r * k + j)) = false) by (apply masked_spec; nia); congruence|].
    destruct (Z.eqb_spec 0 (Z.of_nat j)); [|exact IH]. cbn [map snd vsum fold_right]. fold (vsum zero add (length l)). rewrite <- repeat_map. fold (zeros zero (length l)).
    change (fold_right (vadd add) (zeros zero (length l))) with (vsum zero add (length l)). rewrite IH. apply vadd_zeros_l; assumption.
  - apply masked_spec in Q. destruct (Z.eqb_spec (i - Z.of_nat r * Z.of_nat k) (Z.of_nat j)); destruct (Z.eqb_spec i (Z.of_nat (r * k + j))); try nia; [|exact IH].
    cbn [map snd vsum fold_right]. f_equal. exact IH.
Qed.
Lemma norm_pad_nonneg n p : match p with Some p => (0 <= p < Z.of_nat n)%Z | None => True end -> norm_pad n p = Ok p.
Proof.
  destruct p as [p|]; cbn [norm_pad]; intros H; [|reflexivity]. rewrite Z.gtb_ltb. destruct (Z.ltb_spec 0 p); [destruct (Z.ltb_spec p (Z.of_nat n)); [reflexivity|lia]|]. destruct (Z.ltb_spec p 0); [lia|reflexivity].
Qed.
Lemma local_pad_nonneg k r p : match local_pad k r p with Some q => (0 <= q < Z.of_nat k)%Z | None => True end.
Proof.
  destruct p as [p|]; cbn [local_pad]; [|exact I]. rewrite Z.geb_leb. destruct (Z.leb_spec (Z.of_nat r * Z.of_nat k) p); cbn [andb]; [|exact I].
  destruct (Z.ltb_spec p ((Z.of_nat r + 1) * Z.of_nat k)); [lia|exact I].
Qed.
(** Given the gradient of the output, which all ranks have, rank [r] gets the rows [r k .. (r + 1) k) of the gradient of the table. *)
Theorem C52_vocab_grad {A} (zero : A) add (e : embed A) size k x g :
  monoid zero add -> height (table e) = size * k -> 0 < size -> 0 < k ->
  match pad e with Some p => (0 <= p < Z.of_nat (height (table e)))%Z | None => True end ->
  tensor g -> width g = width (table e) ->
  exists G, embedding_grad zero add (table e) (pad e) x g = Ok G /\
    vocab_backward zero add (pad e) (map (fun r => row_block k r (table e)) (seq 0 size)) (repeat x size) (repeat g size) = Ok (map (fun r => row_block k r G) (seq 0 size)).
Proof.
  intros M E Sz K P T Wg. unfold embedding_grad at 1. rewrite norm_pad_nonneg by exact P. cbn [bind]. eexists. split; [reflexivity|].
  unfold vocab_backward. rewrite map_length, seq_length. cbv zeta. destruct (Nat.leb_spec size 1).
  - assert (size = 1) as -> by lia. cbn [seq map repeat combine]. unfold map2. cbn [combine map collect fst snd]. rewrite row_block_1 by lia. unfold embedding_grad. rewrite norm_pad_nonneg by exact P. cbn [bind].
    do 2 f_equal. rewrite row_block_1; [reflexivity|]. unfold height at 1. cbn [rows]. rewrite map_length, seq_length. lia.
  - rewrite combine_map_r, !repeat_seq. rewrite combine_maps. unfold reduce_backward. rewrite map2_maps. apply collect_map. intros r Hr. apply in_seq in Hr.
    rewrite (block_rows_height k size) by lia. unfold embedding_grad. rewrite (block_rows_height k size) by lia. rewrite norm_pad_nonneg by apply local_pad_nonneg. cbn [bind]. f_equal.
    unfold row_block. cbn [width rows]. f_equal. rewrite E, <- block_map, block_seq, map_map by lia. apply map_ext_in. intros j Hj. apply in_seq in Hj. unfold grad_row.
    unfold where_mask. cbn [rows]. rewrite local_vsum; [|exact M|lia|rewrite <- Wg; exact T].
    destruct (pad e) as [p|]; cbn [local_pad]; [|reflexivity]. rewrite Z.geb_leb. destruct (Z.leb_spec (Z.of_nat r * Z.of_nat k) p); cbn [andb].
    + destruct (Z.ltb_spec p ((Z.of_nat r + 1) * Z.of_nat k)).
      * destruct (Z.eqb_spec (p - Z.of_nat r * Z.of_nat k) (Z.of_nat j)); destruct (Z.eqb_spec p (Z.of_nat (r * k + j))); try reflexivity; nia.
      * destruct (Z.eqb_spec p (Z.of_nat (r * k + j))); [nia|reflexivity].
    + destruct (Z.eqb_spec p (Z.of_nat (r * k + j))); [nia|reflexivity].
Qed.
Print Assumptions C52_vocab_grad.
Example C52_vocab_grad_example : let e := Embed table4 (Some 3%Z) in let g := Mat 2 [[10; 1]; [20; 2]; [30; 3]; [40; 4]]%Z in
  tensor g /\ width g = width (table e) /\
  embedding_grad 0%Z Z.add (table e) (pad e) [2; 0; 3; 2]%Z g = Ok (Mat 2 [[20; 2]; [0; 0]; [50; 5]; [0; 0]]%Z) /\
  vocab_backward 0%Z Z.add (pad e) [Mat 2 [[1; 2]; [3; 4]]; Mat 2 [[5; 6]; [7; 8]]]%Z (repeat [2; 0; 3; 2]%Z 2) (repeat g 2) = Ok [Mat 2 [[20; 2]; [0; 0]]; Mat 2 [[50; 5]; [0; 0]]]%Z.
Proof. cbv zeta. split; [repeat constructor|]. split; [reflexivity|]. split; reflexivity. Qed.

(** A negative padding index, which counts from the end, has no gradient in the unsharded table, but it has one in the sharded table. *)
Theorem C52_pad_refuted : exists (e : embed Z) ws x g,
  vocab_from_embedding 2 e = Ok ws /\ embedding_grad 0%Z Z.add (table e) (pad e) x g = Ok (Mat 1 [[0%Z]; [0%Z]]) /\
  vocab_backward 0%Z Z.add (pad e) ws (repeat x 2) (repeat g 2) = Ok [Mat 1 [[0%Z]]; Mat 1 [[3%Z]]].
Proof. exists (Embed (Mat 1 [[5%Z]; [7%Z]]) (Some (-1)%Z)). eexists. exists [1%Z], (Mat 1 [[3%Z]]). split; [reflexivity|]. split; reflexivity. Qed.
Print Assumptions C52_pad_refuted.

Lemma scatter_cols {A} k size (m : mat A) : tensor m -> width m = size * k -> 0 < size -> 0 < k -> scatter 1 (repeat m size) = Ok (map (fun r => col_block k r m) (seq 0 size)).
Proof.
  intros T E Sz K. unfold scatter. rewrite repeat_length, repeat_seq, map2_map_r. apply collect_map. intros r Hr. apply in_seq in Hr. unfold scatter1.
  destruct (Nat.eqb_spec size 1) as [->|N].
  - replace r with 0 by lia. rewrite col_block_1; [reflexivity|exact T|lia].
  - cbn [size_of]. rewrite E, Nat.mul_comm, Nat.mod_mul, Nat.div_mul by lia. cbn [Nat.eqb negb splits]. apply get_split_cols with size; lia.
Qed.
Lemma vsum_block {A} (zero : A) add k n r w vs : w = n * k -> r < n -> vsum zero add k (map (block k r) vs) = block k r (vsum zero add w vs).
Proof.
  intros -> R. unfold vsum. induction vs as [|v vs IH]; cbn [map fold_right].
  - unfold zeros, block. assert (Q : forall a b, skipn a (repeat zero b) = repeat zero (b - a)) by (induction a; intros [|b]; cbn; auto). rewrite Q.
    assert (Q2 : forall a b, a <= b -> firstn a (repeat zero b) = repeat zero a) by (induction a; intros [|b] H; cbn; try lia; auto; f_equal; apply IHa; lia). rewrite Q2 by nia. reflexivity.
  - rewrite IH. unfold vadd. apply block_map2.
Qed.
Theorem C52_dim_grad {A} (zero : A) add (e : embed A) size k x g :
  width (table e) = size * k -> 0 < size -> 0 < k -> pad_ok (height (table e)) (pad e) -> tensor g -> width g = width (table e) ->
  exists G, embedding_grad zero add (table e) (pad e) x g = Ok G /\
    dim_backward zero add (pad e) (map (fun r => col_block k r (table e)) (seq 0 size)) (repeat x size) (repeat g size) = Ok (map (fun r => col_block k r G) (seq 0 size)).
Proof.
  intros E Sz K P T Wg. unfold embedding_grad at 1. destruct (norm_pad_ok _ _ P) as [q Eq]. rewrite Eq. cbn [bind]. eexists. split; [reflexivity|].
  unfold dim_backward. rewrite map_length, seq_length.
  assert (Sc : (if size <=? 1 then Ok (repeat g size) else gather_backward 1 (repeat g size)) = Ok (map (fun r => col_block k r g) (seq 0 size))).
  { destruct (Nat.leb_spec size 1); [|apply scatter_cols; lia || assumption]. assert (size = 1) as -> by lia. cbn [repeat seq map]. rewrite col_block_1; [reflexivity|exact T|lia]. }
  rewrite Sc. cbn [bind]. rewrite repeat_seq, combine_maps, map2_maps. apply collect_map. intros r Hr. apply in_seq in Hr. cbn [fst snd]. unfold embedding_grad.
  replace (height (col_block k r (table e))) with (height (table e)) by (unfold height, col_block; cbn [rows]; now rewrite map_length). rewrite Eq. cbn [bind]. f_equal. unfold col_block. cbn [width rows]. f_equal.
  rewrite map_map. apply map_ext. intros i. unfold grad_row. destruct (match q with Some p => (p =? Z.of_nat i)%Z | None => false end).
  - change (zeros zero k) with (vsum zero add k (map (block k r) [])). rewrite (vsum_block zero add k size r _ [] E) by lia. reflexivity.
  - rewrite <- (vsum_block zero add k size r _ _ E) by lia. f_equal. clear. generalize (rows g). induction x as [|a x IH]; intros [|l R]; cbn [map combine filter fst snd]; try reflexivity.
    destruct (a =? Z.of_nat i)%Z; cbn [map snd]; [f_equal|]; apply IH.
Qed.
Print Assumptions C52_dim_grad.
Example C52_dim_grad_example : let g := Mat 2 [[10; 1]; [20; 2]; [30; 3]]%Z in pad_ok 4 (Some (-2)%Z) /\ tensor g /\
  embedding_grad 0%Z Z.add table4 (Some (-2)%Z) [1; 2; 1]%Z g = Ok (Mat 2 [[0; 0]; [40; 4]; [0; 0]; [0; 0]]%Z) /\
  dim_backward 0%Z Z.add (Some (-2)%Z) [Mat 1 [[1]; [3]; [5]; [7]]; Mat 1 [[2]; [4]; [6]; [8]]]%Z (repeat [1; 2; 1]%Z 2) (repeat g 2) = Ok [Mat 1 [[0]; [40]; [0]; [0]]; Mat 1 [[0]; [4]; [0]; [0]]]%Z.
Proof. cbv zeta. split; [cbv; split; congruence|]. split; [repeat constructor|]. split; reflexivity. Qed.
