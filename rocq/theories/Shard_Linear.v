(** C53: sharded projections. *)
From Coq Require Import List Bool Arith ZArith Lia.
From Verif Require Import Shard_Model Shard_Spec Shard_Proofs Shard_Props.
Import ListNotations.

(** The weight is a tensor and the bias has one number for each output. *)
Definition linear_ok {A} (l : lin A) : Prop := tensor (weight l) /\ match bias l with Some b => length b = height (weight l) | None => True end.
Definition column_part {A} (k r : nat) (l : lin A) : lin A := Lin (row_block k r (weight l)) (option_map (block k r) (bias l)).
Definition row_part {A} (k r : nat) (l : lin A) : lin A := Lin (col_block k r (weight l)) (bias l).

Lemma column_shards {A} size k (l : lin A) : linear_ok l -> height (weight l) = size * k -> 0 < size -> 0 < k ->
  column_from_linear size l = Ok (map (fun r => column_part k r l) (seq 0 size)).
Proof.
  intros [T B] E Sz K. unfold column_from_linear. apply collect_map. intros r Hr. apply in_seq in Hr. unfold column_shard. rewrite E, Nat.mul_comm, Nat.mod_mul, Nat.div_mul by lia. cbn [Nat.eqb negb].
  rewrite (get_split_rows k size) by lia. cbn [bind]. destruct l as [W [b|]]; cbn [bias weight option_map opt_get bind] in *; [|reflexivity].
  rewrite (get_split k size) by lia. reflexivity.
Qed.
Lemma row_shards {A} size k (l : lin A) : width (weight l) = size * k -> 0 < size -> 0 < k -> row_from_linear size l = Ok (map (fun r => row_part k r l) (seq 0 size)).
Proof.
  intros E Sz K. unfold row_from_linear. apply collect_map. intros r Hr. apply in_seq in Hr. unfold row_shard. rewrite E, Nat.mul_comm, Nat.mod_mul, Nat.div_mul by lia. cbn [Nat.eqb negb].
  rewrite (get_split_cols k size) by lia. reflexivity.
Qed.

Section L.
  Context {A : Type} (zero : A) (add mul : A -> A -> A).
  Notation linear := (linear zero add mul).

  Lemma linear_tensor x l y : linear_ok l -> linear x l = Ok y -> tensor y /\ width y = height (weight l) /\ height y = height x.
  Proof.
    intros [T B]. unfold Shard_Model.linear. destruct (width x =? width (weight l)); cbn [negb]; intros H; [|discriminate H]. injection H as <-. cbn [width]. split; [|split; [reflexivity|unfold height; cbn [rows]; now rewrite map_length]].
    unfold tensor. cbn [width rows]. apply Forall_map, Forall_forall. intros row _. unfold add_bias. destruct (bias l) as [b|]; [|apply map_length].
    unfold vadd. rewrite map2_length, map_length, B. apply Nat.min_id.
  Qed.
  Lemma linear_column k r x l : linear x (column_part k r l) = match linear x l with Ok y => Ok (Mat (height (row_block k r (weight l))) (map (block k r) (rows y))) | Err e => Err e end.
  Proof.
    unfold Shard_Model.linear, column_part. unfold row_block. cbn [weight bias width rows]. destruct (width x =? width (weight l)); cbn [negb]; [|reflexivity]. f_equal. f_equal. cbn [rows]. rewrite map_map.
    apply map_ext. intros row. rewrite block_map. unfold add_bias. destruct (bias l) as [b|]; cbn [option_map]; [|reflexivity]. unfold vadd. apply block_map2.
  Qed.
  Lemma linear_columns k size x l : linear_ok l -> height (weight l) = size * k -> 0 < size ->
    collect (map2 linear (repeat x size) (map (fun r => column_part k r l) (seq 0 size))) = match linear x l with Ok y => Ok (map (fun r => col_block k r y) (seq 0 size)) | Err e => Err e end.
  Proof.
    intros O E Sz. rewrite repeat_seq, map2_maps. erewrite map_ext by (intros r; apply linear_column). destruct (linear x l) as [y|e] eqn:L.
    - apply collect_map. intros r Hr. apply in_seq in Hr. rewrite (block_rows_height k size) by lia. reflexivity.
    - apply collect_const_err. destruct size; [lia|discriminate].
  Qed.
  Lemma column_forward_ok g k size x l : linear_ok l -> height (weight l) = size * k -> 0 < size ->
    column_forward zero add mul g (map (fun r => column_part k r l) (seq 0 size)) (repeat x size) =
    match linear x l with Ok y => Ok (if g then repeat y size else map (fun r => col_block k r y) (seq 0 size)) | Err e => Err e end.
  Proof.
    intros O E Sz. unfold column_forward. rewrite map_length, seq_length, (linear_columns k size x l O E Sz). destruct (linear x l) as [y|e] eqn:L.
    - destruct (linear_tensor _ _ _ O L) as (Ty & Wy & _). destruct (Nat.leb_spec size 1); cbn [bind].
      + assert (size = 1) as -> by lia. cbn [seq map repeat]. rewrite col_block_1; [now destruct g|exact Ty|lia].
      + destruct g; [|reflexivity]. apply gather_cols; lia || assumption.
    - destruct (size <=? 1); reflexivity.
  Qed.
  Lemma to_linear_column k size (l : lin A) : linear_ok l -> height (weight l) = size * k -> 0 < size ->
    column_to_linear (map (fun r => column_part k r l) (seq 0 size)) = Ok (repeat l size).
  Proof.
    intros [T B] E Sz. unfold column_to_linear, to_linear. rewrite map_length, seq_length. destruct (Nat.leb_spec size 1).
    - assert (size = 1) as -> by lia. cbn [seq map repeat]. unfold column_part. rewrite row_block_1 by lia. destruct l as [W [b|]]; cbn [weight bias option_map] in *; [|reflexivity].
      unfold block. cbn [skipn Nat.mul]. rewrite firstn_all2 by lia. reflexivity.
    - rewrite map_map. cbn [column_part weight]. rewrite gather_rows by lia. cbn [bind]. rewrite repeat_seq, map2_maps. f_equal. rewrite repeat_seq. apply map_ext. intros r. cbn [column_part bias].
      destruct l as [W [b|]]; cbn [weight bias option_map] in *; [|reflexivity]. do 2 f_equal. rewrite map_map. cbn [column_part bias option_map]. apply blocks_concat. lia.
  Qed.
  Lemma to_linear_row k size (l : lin A) : tensor (weight l) -> width (weight l) = size * k -> 0 < size ->
    row_to_linear (map (fun r => row_part k r l) (seq 0 size)) = Ok (repeat l size).
  Proof.
    intros T E Sz. unfold row_to_linear, to_linear. rewrite map_length, seq_length. destruct (Nat.leb_spec size 1).
    - assert (size = 1) as -> by lia. cbn [seq map repeat]. unfold row_part. rewrite col_block_1; [now destruct l|exact T|lia].
    - rewrite map_map. cbn [row_part weight]. rewrite gather_cols by lia || assumption. cbn [bind]. rewrite repeat_seq, map2_maps. f_equal. rewrite repeat_seq. apply map_ext. intros r. cbn [row_part bias]. now destruct l.
  Qed.

  Hypothesis Hm : monoid zero add.
  Lemma row_reduced k n x l : let size := S n in tensor (weight l) -> tensor x -> width (weight l) = size * k -> width x = size * k ->
    total add (map (fun r => Mat (height (weight l)) (map (fun row => map (dot zero add mul row) (rows (col_block k r (weight l)))) (rows (col_block k r x)))) (seq 0 size)) =
    Mat (height (weight l)) (map (fun row => map (dot zero add mul row) (rows (weight l))) (rows x)).
  Proof.
    intros size Tw Tx Ew Ex. unfold col_block. cbn [rows].
    erewrite map_ext by (intros r; rewrite map_map; erewrite map_ext by (intros a; rewrite map_map; reflexivity); reflexivity).
    unfold size. cbn [seq]. rewrite (total_map add (height (weight l)) (fun r row => map (fun w => dot zero add mul (block k r row) (block k r w)) (rows (weight l)))). f_equal. apply map_ext_in. intros row Hrow.
    rewrite (vfold_map add (fun r w => dot zero add mul (block k r row) (block k r w))). apply map_ext_in. intros w Hw. rewrite (fold_add_from zero add Hm).
    rewrite (dot_blocks zero add mul Hm k (S n) row w); [reflexivity| |]; [change (length row = size * k); rewrite <- Ex; now apply (tensor_row x)|change (length w = size * k); rewrite <- Ew; now apply (tensor_row (weight l))].
  Qed.
  Lemma row_forward_ok k size x l y : tensor (weight l) -> tensor x -> width (weight l) = size * k -> width x = size * k -> 0 < size -> linear x l = Ok y ->
    row_forward zero add mul false true (map (fun r => row_part k r l) (seq 0 size)) (map (fun r => col_block k r x) (seq 0 size)) = Ok (repeat y size).
  Proof.
    intros Tw Tx Ew Ex Sz L. unfold row_forward. rewrite map_length, seq_length. destruct (Nat.leb_spec size 1).
    - assert (size = 1) as -> by lia. cbn [seq map repeat]. unfold map2. cbn [combine map collect fst snd]. unfold row_part. rewrite !col_block_1 by (lia || assumption).
      replace (Lin (weight l) (bias l)) with l by now destruct l. rewrite L. reflexivity.
    - cbn [bind]. rewrite map2_maps. cbn [row_part weight].
      rewrite (collect_map _ (fun r => Mat (height (weight l)) (map (fun row => map (dot zero add mul row) (rows (col_block k r (weight l)))) (rows (col_block k r x))))).
      + cbn [bind]. f_equal. unfold reduce. destruct size as [|n]; [lia|]. rewrite (row_reduced k n x l Tw Tx Ew Ex). rewrite map_map, map2_maps, repeat_seq. apply map_ext. intros r. cbn [row_part bias].
        unfold Shard_Model.linear in L. destruct (width x =? width (weight l)); cbn [negb] in L; [|discriminate L]. injection L as <-. unfold plus_bias, add_bias. destruct (bias l); [|reflexivity]. cbn [width rows]. f_equal.
        rewrite map_map. reflexivity.
      + intros r Hr. unfold Shard_Model.linear. cbn [weight bias]. unfold col_block at 1 2. cbn [width]. rewrite Nat.eqb_refl. cbn [negb add_bias]. do 2 f_equal. unfold height, col_block. cbn [rows]. apply map_length.
  Qed.
End L.

(** Sharded over the outputs: all ranks get the output of the unsharded projection, or, without gathering, rank [r] gets its columns
    [r k .. (r + 1) k). *)
Theorem C53_column {A} (zero : A) add mul (l : lin A) size k x : linear_ok l -> height (weight l) = size * k -> 0 < size -> 0 < k ->
  exists ls, column_from_linear size l = Ok ls /\ length ls = size /\
    column_forward zero add mul true ls (repeat x size) = match linear zero add mul x l with Ok y => Ok (repeat y size) | Err e => Err e end /\
    column_forward zero add mul false ls (repeat x size) = match linear zero add mul x l with Ok y => Ok (map (fun r => col_block k r y) (seq 0 size)) | Err e => Err e end /\
    column_to_linear ls = Ok (repeat l size).
Proof.
  intros O E Sz K. eexists. split; [now apply (column_shards size k)|]. split; [now rewrite map_length, seq_length|]. split; [exact (column_forward_ok zero add mul true k size x l O E Sz)|].
  split; [exact (column_forward_ok zero add mul false k size x l O E Sz)|now apply to_linear_column].
Qed.
Print Assumptions C53_column.
Definition lin4 : lin Z := Lin (Mat 2 [[1; 0]; [0; 1]; [1; 1]; [2; 3]])%Z (Some [100; 200; 300; 400]%Z).
Example C53_column_example : linear_ok lin4 /\ height (weight lin4) = 2 * 2 /\
  linear 0%Z Z.add Z.mul (Mat 2 [[3; 4]])%Z lin4 = Ok (Mat 4 [[103; 204; 307; 418]])%Z /\
  bind (column_from_linear 2 lin4) (fun ls => column_forward 0%Z Z.add Z.mul false ls (repeat (Mat 2 [[3; 4]])%Z 2)) = Ok [Mat 2 [[103; 204]]; Mat 2 [[307; 418]]]%Z.
Proof. split; [split; [repeat constructor|reflexivity]|]. split; [reflexivity|]. split; reflexivity. Qed.

(** Sharded over the inputs: all ranks get the output of the unsharded projection if they all have the input, or, without scattering,
    rank [r] has the columns [r k .. (r + 1) k) of it. *)
Theorem C53_row {A} (zero : A) add mul (l : lin A) size k x : monoid zero add -> linear_ok l -> tensor x -> width (weight l) = size * k -> width x = size * k -> 0 < size -> 0 < k ->
  exists ls y, row_from_linear size l = Ok ls /\ length ls = size /\ linear zero add mul x l = Ok y /\
    row_forward zero add mul true true ls (repeat x size) = Ok (repeat y size) /\
    row_forward zero add mul false true ls (map (fun r => col_block k r x) (seq 0 size)) = Ok (repeat y size) /\
    row_to_linear ls = Ok (repeat l size).
Proof.
  intros M [Tw B] Tx Ew Ex Sz K. assert (L : exists y, linear zero add mul x l = Ok y) by (unfold linear; rewrite Ew, Ex, Nat.eqb_refl; cbn [negb]; eauto). destruct L as [y L]. do 2 eexists.
  split; [now apply (row_shards size k)|]. split; [now rewrite map_length, seq_length|]. split; [exact L|]. pose proof (row_forward_ok zero add mul M k size x l y Tw Tx Ew Ex Sz L) as F. split; [|split; [exact F|now apply to_linear_row]].
  rewrite <- F. unfold row_forward. rewrite map_length, seq_length. destruct (Nat.leb_spec size 1).
  - assert (size = 1) as -> by lia. cbn [seq map repeat]. rewrite (col_block_1 k x) by (lia || assumption). reflexivity.
  - rewrite (scatter_cols k size x) by (lia || assumption). reflexivity.
Qed.
Print Assumptions C53_row.
Definition lin24 : lin Z := Lin (Mat 4 [[1; 2; 3; 4]; [5; 6; 7; 8]])%Z (Some [100; 200]%Z).
Example C53_row_example : let x := Mat 4 [[1; 1; 1; 1]; [1; 0; 0; 2]]%Z in monoid 0%Z Z.add /\ linear_ok lin24 /\ tensor x /\ width (weight lin24) = 2 * 2 /\
  linear 0%Z Z.add Z.mul x lin24 = Ok (Mat 2 [[110; 226]; [109; 221]])%Z /\
  bind (row_from_linear 2 lin24) (fun ls => row_forward 0%Z Z.add Z.mul true true ls (repeat x 2)) = Ok (repeat (Mat 2 [[110; 226]; [109; 221]])%Z 2).
Proof. cbv zeta. split; [exact z_monoid|]. split; [split; [repeat constructor|reflexivity]|]. split; [repeat constructor|]. split; [reflexivity|]. split; reflexivity. Qed.

(** ** Gradients *)
Section G.
  Context {A : Type} (zero : A) (add mul : A -> A -> A).
  Lemma col_block_mat k r w (R : list (list A)) : col_block k r (Mat w R) = Mat k (map (block k r) R).
  Proof. reflexivity. Qed.
  Lemma col_row_block k r j (m : mat A) : col zero j (row_block k r m) = block k r (col zero j m).
  Proof. unfold col, row_block. cbn [rows]. apply block_map. Qed.
  Lemma col_col_block k size r j (m : mat A) : tensor m -> width m = size * k -> r < size -> j < k -> col zero j (col_block k r m) = col zero (r * k + j) m.
  Proof.
    intros T E R J. unfold col, col_block. cbn [rows]. rewrite map_map. apply map_ext_in. intros row Hr. apply nth_block with size; [rewrite <- E; now apply (tensor_row m)|exact R|exact J].
  Qed.
  Lemma grad_weight_cols k size r (x g : mat A) : tensor g -> width g = size * k -> r < size ->
    grad_weight zero add mul x (col_block k r g) = row_block k r (grad_weight zero add mul x g).
  Proof.
    intros T E R. unfold grad_weight, row_block. change (width (col_block k r g)) with k. cbn [width rows]. f_equal. rewrite E, <- block_map, block_seq, map_map by exact R. apply map_ext_in. intros o Ho. apply in_seq in Ho.
    apply map_ext. intros i. rewrite (col_col_block k size) by (lia || assumption). reflexivity.
  Qed.
  Lemma grad_weight_inputs k size r (x g : mat A) : tensor x -> width x = size * k -> r < size ->
    grad_weight zero add mul (col_block k r x) g = col_block k r (grad_weight zero add mul x g).
  Proof.
    intros T E R. unfold grad_weight. rewrite col_block_mat. change (width (col_block k r x)) with k. f_equal. rewrite map_map. apply map_ext. intros o.
    rewrite E, <- block_map, block_seq, map_map by exact R. apply map_ext_in. intros i Hi. apply in_seq in Hi. rewrite (col_col_block k size) by (lia || assumption). reflexivity.
  Qed.
  Lemma grad_bias_cols k size r b (g : mat A) : tensor g -> width g = size * k -> r < size ->
    grad_bias zero add (option_map (block k r) b) (col_block k r g) = option_map (block k r) (grad_bias zero add b g).
  Proof.
    intros T E R. destruct b as [b|]; cbn [grad_bias option_map]; [|reflexivity]. f_equal. change (width (col_block k r g)) with k. rewrite E, <- block_map, block_seq, map_map by exact R. apply map_ext_in. intros o Ho. apply in_seq in Ho.
    rewrite (col_col_block k size) by (lia || assumption). reflexivity.
  Qed.
  Lemma grad_input_row k size r l (g : mat A) : tensor (weight l) -> width (weight l) = size * k -> r < size ->
    grad_input zero add mul (row_part k r l) g = col_block k r (grad_input zero add mul l g).
  Proof.
    intros T E R. unfold grad_input, row_part. cbn [weight]. rewrite col_block_mat. change (width (col_block k r (weight l))) with k. f_equal. rewrite map_map. apply map_ext. intros row.
    rewrite E, <- block_map, block_seq, map_map by exact R. apply map_ext_in. intros j Hj. apply in_seq in Hj. rewrite (col_col_block k size) by (lia || assumption). reflexivity.
  Qed.
  Lemma grad_input_column k n l (g : mat A) : let size := S n in monoid zero add -> tensor g -> width g = size * k -> height (weight l) = size * k ->
    total add (map (fun r => grad_input zero add mul (column_part k r l) (col_block k r g)) (seq 0 size)) = grad_input zero add mul l g.
  Proof.
    intros size M T E Eh. unfold grad_input, column_part. cbn [weight].
    rewrite (map_ext _ (fun r => Mat (width (weight l)) (map (fun row => map (fun j => dot zero add mul (block k r row) (block k r (col zero j (weight l)))) (seq 0 (width (weight l)))) (rows g)))).
    2:{ intros r. change (width (row_block k r (weight l))) with (width (weight l)). change (rows (col_block k r g)) with (map (block k r) (rows g)). rewrite map_map. f_equal. apply map_ext. intros row. apply map_ext. intros j. now rewrite col_row_block. }
    unfold size. cbn [seq]. rewrite (total_map add (width (weight l)) (fun r row => map (fun j => dot zero add mul (block k r row) (block k r (col zero j (weight l)))) (seq 0 (width (weight l))))). f_equal. apply map_ext_in. intros row Hrow.
    rewrite (vfold_map add (fun r j => dot zero add mul (block k r row) (block k r (col zero j (weight l))))). apply map_ext. intros j. rewrite (fold_add_from zero add M).
    rewrite (dot_blocks zero add mul M k (S n) row (col zero j (weight l))); [reflexivity| |].
    - change (length row = size * k). rewrite <- E. now apply (tensor_row g).
    - change (length (col zero j (weight l)) = size * k). unfold col. rewrite map_length. exact Eh.
  Qed.
End G.

(** Given the gradient of the output, or its columns [r k .. (r + 1) k) without gathering: all ranks get the gradient of the input, and the
    rows [r k .. (r + 1) k) of the gradients of the weight and of the bias. *)
Theorem C53_column_grad {A} (zero : A) add mul (l : lin A) size k x g (gather_output : bool) : monoid zero add ->
  linear_ok l -> height (weight l) = size * k -> 0 < size -> 0 < k -> tensor g -> width g = size * k ->
  exists ls gx gw gb, column_from_linear size l = Ok ls /\ grads zero add mul l x g = (gx, Lin gw gb) /\
    column_backward zero add mul gather_output ls (repeat x size) (if gather_output then repeat g size else map (fun r => col_block k r g) (seq 0 size)) =
      Ok (map (fun r => (gx, Lin (row_block k r gw) (option_map (block k r) gb))) (seq 0 size)).
Proof.
  intros M O E Sz K T Eg. do 4 eexists. split; [now apply (column_shards size k)|]. split; [reflexivity|]. unfold column_backward. rewrite map_length, seq_length. destruct (Nat.leb_spec size 1).
  - assert (size = 1) as -> by lia. replace (if gather_output then repeat g 1 else map (fun r => col_block k r g) (seq 0 1)) with [g] by (cbn [seq map repeat]; rewrite col_block_1 by (lia || assumption); now destruct gather_output).
    cbn [seq map repeat combine]. unfold map2. cbn [combine map fst snd]. do 2 f_equal. unfold grads, column_part. destruct O as [Tw B].
    rewrite !row_block_1; [|unfold height, grad_weight; cbn [rows]; rewrite map_length, seq_length; lia|lia]. destruct l as [W b]. cbn [weight bias] in *. unfold grad_input. cbn [weight]. f_equal. f_equal.
    destruct b as [b|]; cbn [option_map grad_bias]; [|reflexivity]. f_equal. unfold block. cbn [skipn Nat.mul]. symmetry. apply firstn_all2. rewrite map_length, seq_length. lia.
  - assert (Sc : (if gather_output then gather_backward 1 (if gather_output then repeat g size else map (fun r => col_block k r g) (seq 0 size)) else Ok (if gather_output then repeat g size else map (fun r => col_block k r g) (seq 0 size))) =
                 Ok (map (fun r => col_block k r g) (seq 0 size))) by (destruct gather_output; [now apply scatter_cols|reflexivity]).
    rewrite Sc. cbn [bind]. rewrite (repeat_seq x), combine_maps, map2_maps. cbn [fst snd]. f_equal. rewrite !map_map. unfold grads. cbn [fst snd]. unfold reduce_on_backward_backward, reduce. rewrite map_map.
    destruct size as [|n]; [lia|]. rewrite (grad_input_column zero add mul k n l g M T Eg E). rewrite combine_maps. apply map_ext_in. intros r Hr. apply in_seq in Hr. f_equal. cbn [column_part bias].
    rewrite (grad_weight_cols zero add mul k (S n)), (grad_bias_cols zero add k (S n)) by (lia || assumption). reflexivity.
Qed.
Print Assumptions C53_column_grad.
Example C53_column_grad_example : let g := Mat 4 [[1; 2; 3; 4]]%Z in tensor g /\ width g = 2 * 2 /\
  fst (grads 0%Z Z.add Z.mul lin4 (Mat 2 [[3; 4]])%Z g) = Mat 2 [[12; 17]]%Z /\
  bind (column_from_linear 2 lin4) (fun ls => bind (column_backward 0%Z Z.add Z.mul true ls (repeat (Mat 2 [[3; 4]])%Z 2) (repeat g 2)) (fun l => Ok (map fst l))) = Ok (repeat (Mat 2 [[12; 17]]%Z) 2).
Proof. cbv zeta. split; [repeat constructor|]. split; [reflexivity|]. split; reflexivity. Qed.

(** All ranks get the gradient of the input, or, without scattering, its columns [r k .. (r + 1) k), the columns of the gradient of the
    weight, and the gradient of the bias. *)
Theorem C53_row_grad {A} (zero : A) add mul (l : lin A) size k x g (scatter_input : bool) : monoid zero add ->
  tensor (weight l) -> tensor x -> width (weight l) = size * k -> width x = size * k -> 0 < size -> 0 < k -> 
  exists ls gx gw gb, row_from_linear size l = Ok ls /\ grads zero add mul l x g = (gx, Lin gw gb) /\
    row_backward zero add mul scatter_input ls (if scatter_input then repeat x size else map (fun r => col_block k r x) (seq 0 size)) (repeat g size) =
      Ok (map (fun r => (if scatter_input then gx else col_block k r gx, Lin (col_block k r gw) gb)) (seq 0 size)).
Proof.
  intros M Tw Tx Ew Ex Sz K. do 4 eexists. split; [now apply (row_shards size k)|]. split; [reflexivity|]. unfold row_backward. rewrite map_length, seq_length.
  assert (Tg : tensor (grad_input zero add mul l g)) by (unfold tensor, grad_input; cbn [rows width]; apply Forall_map, Forall_forall; intros; now rewrite map_length, seq_length).
  assert (Tgw : tensor (grad_weight zero add mul x g)) by (unfold tensor, grad_weight; cbn [rows width]; apply Forall_map, Forall_forall; intros; now rewrite map_length, seq_length).
  destruct (Nat.leb_spec size 1).
  - assert (size = 1) as -> by lia. replace (if scatter_input then repeat x 1 else map (fun r => col_block k r x) (seq 0 1)) with [x] by (cbn [seq map repeat]; rewrite col_block_1 by (lia || assumption); now destruct scatter_input).
    cbn [seq map repeat combine]. unfold map2. cbn [combine map fst snd]. do 2 f_equal. unfold grads, row_part. rewrite (col_block_1 k (weight l)) by (lia || assumption).
    replace (Lin (weight l) (bias l)) with l by now destruct l. cbn [bias]. rewrite (col_block_1 k (grad_weight zero add mul x g)); [|exact Tgw|cbn [grad_weight width]; lia].
    rewrite col_block_1; [now destruct scatter_input|exact Tg|cbn [grad_input width]; lia].
  - assert (Sc : (if scatter_input then scatter 1 (if scatter_input then repeat x size else map (fun r => col_block k r x) (seq 0 size)) else Ok (if scatter_input then repeat x size else map (fun r => col_block k r x) (seq 0 size))) =
                 Ok (map (fun r => col_block k r x) (seq 0 size))) by (destruct scatter_input; [now apply scatter_cols|reflexivity]).
    rewrite Sc. cbn [bind]. unfold reduce_backward. rewrite (repeat_seq g), combine_maps, map2_maps. cbn [fst snd]. rewrite !map_map. unfold grads. cbn [fst snd].
    rewrite (map_ext_in (fun r => grad_input zero add mul (row_part k r l) g) (fun r => col_block k r (grad_input zero add mul l g)) (seq 0 size)) by (intros r Hr; apply in_seq in Hr; now apply (grad_input_row zero add mul k size)).
    rewrite (map_ext_in (fun r => Lin (grad_weight zero add mul (col_block k r x) g) (grad_bias zero add (bias (row_part k r l)) g)) (fun r => Lin (col_block k r (grad_weight zero add mul x g)) (grad_bias zero add (bias l) g)) (seq 0 size))
      by (intros r Hr; apply in_seq in Hr; rewrite (grad_weight_inputs zero add mul k size) by (lia || assumption); reflexivity).
    destruct scatter_input.
    + unfold scatter_backward. rewrite gather_cols; [|exact Tg|exact Ew|exact Sz]. cbn [bind]. rewrite repeat_seq, combine_maps. reflexivity.
    + cbn [bind]. rewrite combine_maps. reflexivity.
Qed.
Print Assumptions C53_row_grad.
Example C53_row_grad_example : let x := Mat 4 [[1; 0; 0; 2]]%Z in let g := Mat 2 [[1; 10]]%Z in tensor (weight lin24) /\ tensor x /\
  fst (grads 0%Z Z.add Z.mul lin24 x g) = Mat 4 [[51; 62; 73; 84]]%Z /\
  bind (row_from_linear 2 lin24) (fun ls => bind (row_backward 0%Z Z.add Z.mul true ls (repeat x 2) (repeat g 2)) (fun l => Ok (map fst l))) = Ok (repeat (Mat 4 [[51; 62; 73; 84]]%Z) 2).
Proof. cbv zeta. split; [repeat constructor|]. split; [repeat constructor|]. split; reflexivity. Qed.

(** Without reducing, the outputs of the ranks do not sum up to the output: each of them has the bias. *)
Theorem C53_no_reduce_refuted : exists (l : lin Z) ls x ys, row_from_linear 2 l = Ok ls /\ row_forward 0%Z Z.add Z.mul true false ls (repeat x 2) = Ok ys /\
  linear 0%Z Z.add Z.mul x l <> Ok (total Z.add ys).
Proof. exists (Lin (Mat 2 [[1; 1]])%Z (Some [5%Z])). do 1 eexists. exists (Mat 2 [[3; 4]])%Z. eexists. split; [reflexivity|]. split; [reflexivity|]. vm_compute. discriminate. Qed.
Print Assumptions C53_no_reduce_refuted.

Theorem C53_indivisible {A} (l : lin A) size : 0 < size ->
  (height (weight l) mod size <> 0 -> column_from_linear size l = Err ValueError) /\ (width (weight l) mod size <> 0 -> row_from_linear size l = Err ValueError).
Proof.
  intros Sz. destruct size as [|n]; [lia|]. split; intros H; [unfold column_from_linear|unfold row_from_linear]; cbn [seq map collect].
  - unfold column_shard at 1. destruct (Nat.eqb_spec (height (weight l) mod S n) 0); [contradiction|]. reflexivity.
  - unfold row_shard at 1. destruct (Nat.eqb_spec (width (weight l) mod S n) 0); [contradiction|]. reflexivity.
Qed.
Print Assumptions C53_indivisible.
Example C53_indivisible_example : width (weight lin24) mod 3 <> 0 /\ row_from_linear 3 lin24 = Err ValueError.
Proof. split; [discriminate|reflexivity]. Qed.
