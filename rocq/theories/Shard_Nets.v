(** C53: networks of sharded projections. *)
From Coq Require Import List Bool Arith ZArith Lia.
From Verif Require Import Shard_Model Shard_Spec Shard_Proofs Shard_Props Shard_Linear.
Import ListNotations.

Section N.
  Context {A : Type} (zero : A) (add mul : A -> A -> A).
  Lemma column_one g l x : column_forward zero add mul g [l] [x] = bind (linear zero add mul x l) (fun y => Ok [y]).
  Proof. unfold column_forward, map2. cbn [length Nat.leb combine map collect fst snd]. reflexivity. Qed.
  Lemma row_one s t l x : row_forward zero add mul s t [l] [x] = bind (linear zero add mul x l) (fun y => Ok [y]).
  Proof. unfold row_forward, map2. cbn [length Nat.leb combine map collect fst snd]. reflexivity. Qed.
  Lemma linear_widths x l y : linear zero add mul x l = Ok y -> width x = width (weight l).
  Proof. unfold linear. destruct (Nat.eqb_spec (width x) (width (weight l))); cbn [negb]; [auto|discriminate]. Qed.
  Lemma pointwise_col f k r (m : mat A) : pointwise f (col_block k r m) = col_block k r (pointwise f m).
  Proof. unfold pointwise, col_block. cbn [width rows]. f_equal. rewrite !map_map. apply map_ext. intros row. apply block_map. Qed.
  Lemma pointwise_tensor f (m : mat A) : tensor m -> tensor (pointwise f m).
  Proof. unfold tensor, pointwise. cbn [rows width]. intros T. apply Forall_map. revert T. apply Forall_impl. intros row. now rewrite map_length. Qed.
  Lemma mmul_col k r (a b : mat A) c : mmul mul a b = Ok c -> mmul mul (col_block k r a) (col_block k r b) = Ok (col_block k r c).
  Proof.
    unfold mmul. intros H. destruct (width a =? width b) eqn:Ew; cbn [andb] in H; [|discriminate H]. destruct (height a =? height b) eqn:Eh; [|discriminate H]. injection H as <-.
    change (width (col_block k r a)) with k. change (width (col_block k r b)) with k. rewrite Nat.eqb_refl. unfold height, col_block in *. cbn [rows andb width]. rewrite !map_length, Eh. do 2 f_equal.
    generalize (rows a), (rows b). clear. unfold map2 at 1 3. induction l as [|x l IH]; intros [|y m]; cbn [map combine fst snd]; try reflexivity. rewrite block_map2. f_equal. apply IH.
  Qed.
  Lemma mmul_tensor (a b c : mat A) : tensor a -> tensor b -> mmul mul a b = Ok c -> tensor c /\ width c = width a.
  Proof.
    unfold mmul. intros Ta Tb H. destruct (Nat.eqb_spec (width a) (width b)) as [Ew|]; cbn [andb] in H; [|discriminate H]. destruct (height a =? height b) eqn:Eh; [|discriminate H]. injection H as <-. split; [|reflexivity].
    unfold tensor in *. cbn [rows width]. apply Forall_forall. intros v Hv. unfold map2 in Hv. apply in_map_iff in Hv as ((x & y) & <- & Hv). cbn [fst snd].
    rewrite Forall_forall in Ta, Tb. specialize (Ta x (in_combine_l _ _ _ _ Hv)). specialize (Tb y (in_combine_r _ _ _ _ Hv)). rewrite map_length, combine_length. lia.
  Qed.
End N.

(** A feed-forward network sharded over any gang whose size divides the inner dimension computes what the unsharded one does. *)
Theorem C53_ffn {A} (zero : A) add mul act (inner output : lin A) size k x y : monoid zero add -> linear_ok inner -> linear_ok output -> tensor x ->
  height (weight inner) = size * k -> 0 < size -> 0 < k -> ffn zero add mul act [inner] [output] [x] = Ok [y] ->
  exists inners outputs, column_from_linear size inner = Ok inners /\ row_from_linear size output = Ok outputs /\ ffn zero add mul act inners outputs (repeat x size) = Ok (repeat y size).
Proof.
  intros M Oi Oo Tx E Sz K F. unfold ffn in F. rewrite column_one in F. destruct (linear zero add mul x inner) as [h|] eqn:L; cbn [bind map] in F; [|discriminate F]. rewrite row_one in F.
  destruct (linear zero add mul (pointwise act h) output) as [y'|] eqn:L2; cbn [bind] in F; [|discriminate F]. injection F as <-.
  destruct (linear_tensor zero add mul _ _ _ Oi L) as (Th & Wh & _). pose proof (linear_widths zero add mul _ _ _ L2) as W2. cbn [pointwise width] in W2.
  do 2 eexists. split; [now apply (column_shards size k)|]. split; [apply (row_shards size k); lia|]. unfold ffn. rewrite (column_forward_ok zero add mul false k size x inner Oi E Sz), L. cbn [bind]. rewrite map_map.
  rewrite (map_ext (fun r => pointwise act (col_block k r h)) (fun r => col_block k r (pointwise act h))) by (intros r; apply pointwise_col). apply (row_forward_ok zero add mul M); try assumption; [apply Oo|now apply pointwise_tensor|lia|cbn [pointwise width]; lia].
Qed.
Print Assumptions C53_ffn.
Example C53_ffn_example : let x := Mat 2 [[3; -4]; [1; 1]]%Z in linear_ok lin4 /\ linear_ok lin24 /\ tensor x /\ height (weight lin4) = 2 * 2 /\
  ffn 0%Z Z.add Z.mul (Z.max 0) [lin4] [lin24] [x] = Ok [Mat 2 [[3068; 7136]; [3129; 7265]]]%Z /\
  bind (column_from_linear 2 lin4) (fun a => bind (row_from_linear 2 lin24) (fun b => ffn 0%Z Z.add Z.mul (Z.max 0) a b (repeat x 2))) = Ok (repeat (Mat 2 [[3068; 7136]; [3129; 7265]])%Z 2).
Proof. cbv zeta. split; [split; [repeat constructor|reflexivity]|]. split; [split; [repeat constructor|reflexivity]|]. split; [repeat constructor|]. split; [reflexivity|]. split; reflexivity. Qed.

(** So does a gated network without activation sparsity. *)
Theorem C53_glu {A} (zero : A) add mul act (gate inner output : lin A) size k x y : monoid zero add -> linear_ok gate -> linear_ok inner -> linear_ok output -> tensor x ->
  height (weight inner) = size * k -> 0 < size -> 0 < k -> glu zero add mul act None [gate] [inner] [output] [x] = Ok [y] ->
  exists gates inners outputs, column_from_linear size gate = Ok gates /\ column_from_linear size inner = Ok inners /\ row_from_linear size output = Ok outputs /\
    glu zero add mul act None gates inners outputs (repeat x size) = Ok (repeat y size).
Proof.
  intros M Og Oi Oo Tx E Sz K F. unfold glu in F. rewrite column_one in F. destruct (linear zero add mul x gate) as [g|] eqn:Lg; cbn [bind map] in F; [|discriminate F]. rewrite column_one in F.
  destruct (linear zero add mul x inner) as [h|] eqn:L; cbn [bind map] in F; [|discriminate F]. unfold map2 in F. cbn [combine map fst snd collect] in F. destruct (mmul mul h (pointwise act g)) as [z|] eqn:Z; cbn [bind collect] in F; [|discriminate F].
  rewrite row_one in F. destruct (linear zero add mul z output) as [y'|] eqn:L2; cbn [bind] in F; [|discriminate F]. injection F as <-.
  destruct (linear_tensor zero add mul _ _ _ Oi L) as (Th & Wh & _). destruct (linear_tensor zero add mul _ _ _ Og Lg) as (Tg & Wg & _). destruct (mmul_tensor mul h (pointwise act g) z Th (pointwise_tensor act g Tg) Z) as [Tz Wz].
  assert (Wgh : width h = width g) by (unfold mmul in Z; destruct (Nat.eqb_spec (width h) (width (pointwise act g))) as [Q|]; [exact Q|discriminate Z]).
  pose proof (linear_widths zero add mul _ _ _ L2) as W2.
  do 3 eexists. split; [apply (column_shards size k); lia || assumption|]. split; [now apply (column_shards size k)|]. split; [apply (row_shards size k); lia|]. unfold glu. rewrite (column_forward_ok zero add mul false k size x gate Og) by lia. rewrite Lg. cbn [bind].
  rewrite (column_forward_ok zero add mul false k size x inner Oi E Sz), L. cbn [bind]. rewrite !map_map, map2_maps. rewrite (collect_map _ (fun r => col_block k r z)).
  - cbn [bind]. apply (row_forward_ok zero add mul M); try assumption; [apply Oo|lia|lia].
  - intros r _. rewrite pointwise_col. now apply mmul_col.
Qed.
Print Assumptions C53_glu.
Example C53_glu_example : exists y, glu 0%Z Z.add Z.mul (Z.max 0) None [lin4] [lin4] [lin24] [Mat 2 [[3; -4]]]%Z = Ok [y] /\
  bind (column_from_linear 2 lin4) (fun a => bind (row_from_linear 2 lin24) (fun b => glu 0%Z Z.add Z.mul (Z.max 0) None a a b (repeat (Mat 2 [[3; -4]])%Z 2))) = Ok (repeat y 2).
Proof. eexists. split; reflexivity. Qed.

(** [_gaussian_topk] for a sparsity of one half, where icdf(0.5) = 0: relu(x - mean). The mean of the values on one rank is not the mean of all. *)
Definition topk_half (row : list Z) : list Z := map (fun x => Z.max 0 (x - fold_right Z.add 0 row / Z.of_nat (length row)))%Z row.
Definition identity2 : lin Z := Lin (Mat 2 [[1; 0]; [0; 1]])%Z None.
Theorem C53_sparsity_refuted : exists (gate inner output : lin Z) gates inners outputs x,
  column_from_linear 2 gate = Ok gates /\ column_from_linear 2 inner = Ok inners /\ row_from_linear 2 output = Ok outputs /\
  glu 0%Z Z.add Z.mul (fun x => x) (Some topk_half) [gate] [inner] [output] [x] = Ok [Mat 2 [[0; 12]]]%Z /\
  glu 0%Z Z.add Z.mul (fun x => x) (Some topk_half) gates inners outputs (repeat x 2) = Ok (repeat (Mat 2 [[0; 0]]) 2)%Z.
Proof. exists identity2, identity2, identity2. do 3 eexists. exists (Mat 2 [[2; 6]])%Z. split; [reflexivity|]. split; [reflexivity|]. split; [reflexivity|]. split; reflexivity. Qed.
Print Assumptions C53_sparsity_refuted.

(** The gated network of Dauphin et al. splits the output of the inner projection in halves: on each rank it pairs other columns. *)
Theorem C53_dauphin_refuted : exists (inner output : lin Z) inners outputs x,
  column_from_linear 2 inner = Ok inners /\ row_from_linear 2 output = Ok outputs /\
  dauphin 0%Z Z.add Z.mul (fun x => x) [inner] [output] [x] = Ok [Mat 1 [[34]]]%Z /\
  dauphin 0%Z Z.add Z.mul (fun x => x) inners outputs (repeat x 2) = Ok (repeat (Mat 1 [[46]]) 2)%Z.
Proof.
  exists (Lin (Mat 1 [[2]; [3]; [5]; [8]])%Z None), (Lin (Mat 2 [[1; 1]])%Z None). do 2 eexists. exists (Mat 1 [[1]])%Z.
  split; [reflexivity|]. split; [reflexivity|]. split; reflexivity.
Qed.
Print Assumptions C53_dauphin_refuted.

(** ** Attention *)
Section H.
  Context {A : Type}.
  Lemma heads_cols hd n (m : mat A) : 0 < hd -> 0 < n -> width m = n * hd -> heads hd m = Ok (map (fun s => col_block hd s m) (seq 0 n)).
  Proof.
    intros H N E. unfold heads. destruct (Nat.eqb_spec hd 0); [lia|]. rewrite E, Nat.mod_mul by lia. cbn [Nat.eqb negb]. destruct (Nat.eqb_spec (n * hd) 0); [nia|]. f_equal. now apply split_cols_blocks.
  Qed.
  Lemma col_block_block hd n r s (m : mat A) : s < n -> col_block hd s (col_block (n * hd) r m) = col_block hd (r * n + s) m.
  Proof. intros H. unfold col_block. cbn [rows]. f_equal. rewrite map_map. apply map_ext. intros l. now apply block_block. Qed.
  Lemma heads_block hd n size r (m : mat A) : 0 < hd -> 0 < n -> r < size -> width m = size * n * hd ->
    heads hd (col_block (n * hd) r m) = Ok (block n r (map (fun s => col_block hd s m) (seq 0 (size * n)))).
  Proof.
    intros H N R E. rewrite (heads_cols hd n) by (reflexivity || assumption). f_equal. rewrite <- block_map, block_seq, map_map by exact R. apply map_ext_in. intros s Hs. apply in_seq in Hs. apply col_block_block. lia.
  Qed.
  Lemma interleave_concat {T} g (l : list T) : interleave g l = concat (map (fun x => repeat x g) l).
  Proof. unfold interleave. apply flat_map_concat_map. Qed.
  Lemma interleave_block {T} g n r (l : list T) : interleave g (block n r l) = block (n * g) r (interleave g l).
  Proof. rewrite !interleave_concat, block_concat, block_map; [reflexivity|]. apply Forall_map, Forall_forall. intros. apply repeat_length. Qed.
  Lemma interleave_length {T} g (l : list T) : length (interleave g l) = length l * g.
  Proof. unfold interleave. induction l; cbn; [reflexivity|]. rewrite app_length, repeat_length. lia. Qed.
  Lemma combine_block {T U} n r (l : list T) (m : list U) : combine (block n r l) (block n r m) = block n r (combine l m).
  Proof. unfold block. rewrite skipn_combine, combine_firstn. reflexivity. Qed.
  Definition shaped (w h : nat) (m : mat A) : Prop := width m = w /\ height m = h /\ tensor m.
  Lemma shaped_eq w h (m : mat A) : shaped w h m -> m = Mat w (map (fun i => nth i (rows m) []) (seq 0 h)).
  Proof.
    intros (E & H & _). destruct m as [w' R]. unfold height in H. cbn [width rows] in *. subst. f_equal. clear. 
    rewrite <- (map_id R) at 1. induction R as [|a R IH]; [reflexivity|]. cbn [length seq map]. f_equal. rewrite IH. rewrite <- seq_shift, map_map. reflexivity.
  Qed.
  Lemma cat_shaped w h (L : list (mat A)) : L <> [] -> Forall (shaped w h) L ->
    cat 1 L = Ok (Mat (length L * w) (map (fun i => concat (map (fun m => nth i (rows m) []) L)) (seq 0 h))).
  Proof.
    intros N F. rewrite <- (cat_cols_ok w (fun m i => nth i (rows m) []) (seq 0 h) L N). f_equal. rewrite <- (map_id L) at 1. apply map_ext_in. intros m Hm. rewrite Forall_forall in F. apply shaped_eq. auto.
  Qed.
  Lemma block_in {T} n r (l : list T) x : In x (block n r l) -> In x l.
  Proof.
    intros H. unfold block in H. rewrite <- (firstn_skipn (r * n) l). apply in_or_app. right. rewrite <- (firstn_skipn n). apply in_or_app. now left.
  Qed.
  Lemma cat_block w h n size r (L : list (mat A)) Y : 0 < n -> length L = size * n -> r < size -> Forall (shaped w h) L -> cat 1 L = Ok Y -> cat 1 (block n r L) = Ok (col_block (n * w) r Y).
  Proof.
    intros N E R F C. assert (NL : L <> []) by (intros ->; cbn in E; nia). rewrite (cat_shaped w h L NL F) in C. injection C as <-.
    assert (LB : length (block n r L) = n) by now apply block_length with size.
    rewrite (cat_shaped w h); [|intros Q; rewrite Q in LB; cbn in LB; lia|rewrite Forall_forall in *; intros m Hm; apply F; now apply block_in in Hm].
    rewrite LB. unfold col_block. cbn [rows]. do 2 f_equal. rewrite map_map. apply map_ext_in. intros i Hi. apply in_seq in Hi. rewrite block_concat, block_map; [reflexivity|].
    apply Forall_map. rewrite Forall_forall in *. intros m Hm. destruct (F m Hm) as (Wm & Hh & Tm). rewrite <- Wm. apply (tensor_row m _ Tm). apply nth_In. unfold height in Hh. lia.
  Qed.
  (** What the attention function does with one head: as many rows as the queries, as wide as the values. *)
  Definition head_function (f : mat A -> mat A -> mat A -> mat A) : Prop := forall q k v, shaped (width v) (height q) (f q k v).

  Lemma attention_block f hd g n size r q k v y : head_function f -> 0 < hd -> 0 < g -> 0 < n -> r < size ->
    width q = size * (n * g) * hd -> width k = size * n * hd -> width v = size * n * hd -> attention f hd g q k v = Ok y ->
    attention f hd g (col_block (n * g * hd) r q) (col_block (n * hd) r k) (col_block (n * hd) r v) = Ok (col_block (n * g * hd) r y).
  Proof.
    intros Hf Hd G N R Eq Ek Ev Y. assert (P1 : 0 < n * g) by nia. assert (P2 : 0 < size * n) by nia. assert (P3 : 0 < size * (n * g)) by nia. unfold attention in *. rewrite (heads_cols hd (size * (n * g))) in Y by (nia || assumption). rewrite (heads_cols hd (size * n) k), (heads_cols hd (size * n) v) in Y by (nia || assumption). cbn [bind] in Y.
    rewrite (heads_block hd (n * g) size r q), (heads_block hd n size r k), (heads_block hd n size r v) by (nia || assumption). cbn [bind].
    set (Q := map (fun s => col_block hd s q) (seq 0 (size * (n * g)))) in *. set (K := map (fun s => col_block hd s k) (seq 0 (size * n))) in *. set (V := map (fun s => col_block hd s v) (seq 0 (size * n))) in *.
    assert (LQ : length Q = size * (n * g)) by (unfold Q; now rewrite map_length, seq_length). assert (LK : length K = size * n) by (unfold K; now rewrite map_length, seq_length). assert (LV : length V = size * n) by (unfold V; now rewrite map_length, seq_length).
    rewrite !interleave_block. rewrite !(block_length (n * g) r size) by (try rewrite interleave_length; nia). rewrite Nat.eqb_refl. cbn [andb].
    rewrite !interleave_length, LQ, LK, LV in Y. replace (size * n * g) with (size * (n * g)) in Y by lia. rewrite Nat.eqb_refl in Y. cbn [andb] in Y.
    rewrite combine_block, block_map2. apply (cat_block hd (height q) (n * g) size); [nia| |exact R| |exact Y].
    - rewrite map2_length, combine_length, !interleave_length. nia.
    - apply Forall_forall. intros m Hm. unfold map2 in Hm. apply in_map_iff in Hm as ((a & b & c) & <- & Hm). cbn [fst snd]. pose proof (in_combine_l _ _ _ _ Hm) as Ha. pose proof (in_combine_r _ _ _ _ Hm) as Hc. apply in_combine_r in Hc.
      assert (Wc : width c = hd). { unfold interleave in Hc. apply in_flat_map in Hc as (c' & Hc' & Rc). apply repeat_spec in Rc. subst c'. unfold V in Hc'. apply in_map_iff in Hc' as (s & <- & _). reflexivity. }
      assert (Ea : height a = height q). { unfold Q in Ha. apply in_map_iff in Ha as (s & <- & _). unfold height, col_block. cbn [rows]. apply map_length. }
      rewrite <- Wc, <- Ea. apply Hf.
  Qed.
  Lemma attention_tensor f hd g q k v y : head_function f -> 0 < hd -> attention f hd g q k v = Ok y -> tensor y /\ width y = width q.
  Proof.
    intros Hf Hd. unfold attention. destruct (heads hd q) as [Q|] eqn:EQ; cbn [bind]; [|discriminate]. destruct (heads hd k) as [K|] eqn:EK; cbn [bind]; [|discriminate]. destruct (heads hd v) as [V|] eqn:EV; cbn [bind]; [|discriminate].
    destruct (Nat.eqb_spec (length Q) (length (interleave g K))) as [E1|]; cbn [andb]; [|discriminate]. destruct (Nat.eqb_spec (length (interleave g K)) (length (interleave g V))) as [E2|]; [|discriminate]. intros Y.
    assert (HH : forall (m : mat A) M, heads hd m = Ok M -> Forall (fun a => width a = hd /\ height a = height m) M /\ length M * hd = width m).
    { clear - Hd. intros m M. unfold heads. destruct (Nat.eqb_spec hd 0); [lia|]. destruct (Nat.eqb_spec (width m mod hd) 0) as [E|]; cbn [negb]; [|discriminate]. intros H. injection H as <-.
      destruct (Nat.eqb_spec (width m) 0) as [Z|NZ]; [split; [constructor|cbn; lia]|]. apply Nat.mod_divides in E; [|lia]. destruct E as [c E].
      rewrite (split_cols_blocks hd c) by nia. rewrite map_length, seq_length. split; [|nia]. apply Forall_map, Forall_forall. intros s _. split; [reflexivity|]. unfold height, col_block. cbn [rows]. apply map_length. }
    destruct (HH _ _ EQ) as [FQ WQ]. destruct (HH _ _ EV) as [FV _]. set (L := map2 (fun q kv => f q (fst kv) (snd kv)) Q (combine (interleave g K) (interleave g V))) in Y.
    assert (FL : Forall (shaped hd (height q)) L).
    { apply Forall_forall. intros m Hm. unfold L, map2 in Hm. apply in_map_iff in Hm as ((a & b & c) & <- & Hm). cbn [fst snd]. pose proof (in_combine_l _ _ _ _ Hm) as Ha. pose proof (in_combine_r _ _ _ _ Hm) as Hc. apply in_combine_r in Hc.
      rewrite Forall_forall in FQ, FV. destruct (FQ a Ha) as [_ Ea]. unfold interleave in Hc. apply in_flat_map in Hc as (c' & Hc' & Rc). apply repeat_spec in Rc. subst c'. destruct (FV c Hc') as [Wc _]. rewrite <- Wc, <- Ea. apply Hf. }
    assert (LL : length L = length Q) by (unfold L; rewrite map2_length, combine_length; lia).
    assert (NL : L <> []) by (intros Z; rewrite Z in Y; discriminate Y). rewrite (cat_shaped hd (height q) L NL FL) in Y. injection Y as <-. cbn [width]. split; [|lia].
    unfold tensor. cbn [rows width]. apply Forall_map, Forall_forall. intros i Hi. apply in_seq in Hi. clear - FL Hi. induction FL as [|m L (Wm & Hm & Tm) F IH]; cbn [map concat length]; [reflexivity|].
    rewrite app_length, IH, (tensor_row m); [lia|exact Tm|]. apply nth_In. unfold height in Hm, Hi. lia.
  Qed.
End H.

(** Attention sharded over a gang whose size divides the number of the key/value heads computes what the unsharded one does. *)
Theorem C53_mha {A} (zero : A) add mul f hd g (q k v o : lin A) size n seqs keys values y :
  monoid zero add -> head_function f -> linear_ok q -> linear_ok k -> linear_ok v -> linear_ok o -> 0 < hd -> 0 < g -> 0 < n -> 0 < size ->
  height (weight q) = hd * (size * n * g) -> height (weight k) = hd * (size * n) -> height (weight v) = hd * (size * n) ->
  mha zero add mul f hd g [q] [k] [v] [o] [seqs] [keys] [values] = Ok [y] ->
  exists qs ks vs os, column_from_linear size q = Ok qs /\ column_from_linear size k = Ok ks /\ column_from_linear size v = Ok vs /\ row_from_linear size o = Ok os /\
    mha zero add mul f hd g qs ks vs os (repeat seqs size) (repeat keys size) (repeat values size) = Ok (repeat y size).
Proof.
  intros M Hf Oq Ok_ Ov Oo Hd G N Sz Eq Ek Ev F. unfold mha in F. rewrite !column_one in F.
  destruct (linear zero add mul seqs q) as [a|] eqn:La; cbn [bind] in F; [|discriminate F]. destruct (linear zero add mul keys k) as [b|] eqn:Lb; cbn [bind] in F; [|discriminate F]. destruct (linear zero add mul values v) as [c|] eqn:Lc; cbn [bind] in F; [|discriminate F].
  unfold map2 in F. cbn [combine map fst snd collect] in F. destruct (attention f hd g a b c) as [z|] eqn:Z; cbn [bind] in F; [|discriminate F]. rewrite row_one in F. destruct (linear zero add mul z o) as [y'|] eqn:L; cbn [bind] in F; [|discriminate F]. injection F as <-.
  destruct (linear_tensor zero add mul _ _ _ Oq La) as (_ & Wa & _). destruct (linear_tensor zero add mul _ _ _ Ok_ Lb) as (_ & Wb & _). destruct (linear_tensor zero add mul _ _ _ Ov Lc) as (_ & Wc & _).
  destruct (attention_tensor f hd g a b c z Hf Hd Z) as [Tz Wz]. pose proof (linear_widths zero add mul _ _ _ L) as Wo.
  do 4 eexists. split; [apply (column_shards size (n * g * hd)); nia || assumption|]. split; [apply (column_shards size (n * hd)); nia || assumption|]. split; [apply (column_shards size (n * hd)); nia || assumption|]. split; [apply (row_shards size (n * g * hd)); nia|].
  unfold mha. rewrite (column_forward_ok zero add mul false (n * g * hd) size seqs q Oq), La by nia. cbn [bind]. rewrite (column_forward_ok zero add mul false (n * hd) size keys k Ok_), Lb by nia. cbn [bind]. rewrite (column_forward_ok zero add mul false (n * hd) size values v Ov), Lc by nia. cbn [bind].
  rewrite combine_maps, map2_maps. cbn [fst snd]. rewrite (collect_map _ (fun r => col_block (n * g * hd) r z)).
  - cbn [bind]. apply (row_forward_ok zero add mul M); try assumption; [apply Oo|nia|nia].
  - intros r Hr. apply in_seq in Hr. apply attention_block with (size := size); try assumption; nia || lia.
Qed.
Print Assumptions C53_mha.
(** One query attends to the sum of the values: 4 query heads and 2 key and value heads of dimension 1. *)
Definition sum_values (q k v : mat Z) : mat Z := Mat (width v) (map (fun _ => fold_right (vadd Z.add) (repeat 0%Z (width v)) (map (fun r => firstn (width v) (r ++ repeat 0%Z (width v))) (rows v))) (rows q)).
Lemma sum_values_ok : head_function sum_values.
Proof.
  intros q k v. unfold sum_values. split; [reflexivity|]. split; [unfold height; cbn [rows]; apply map_length|].
  cbn [rows width]. apply Forall_forall. intros r R. apply in_map_iff in R. destruct R as (q0 & <- & _).
  induction (rows v) as [|r l IH]; cbn [map fold_right]; [apply repeat_length|]. unfold vadd at 1, map2. rewrite map_length, combine_length, firstn_length, app_length, repeat_length. rewrite IH. cbn [width]. lia.
Qed.
Definition lin22 : lin Z := Lin (Mat 2 [[1; 2]; [3; 5]])%Z (Some [7; 9]%Z).
Example C53_mha_example : exists y, mha 0%Z Z.add Z.mul sum_values 1 2 [lin4] [lin22] [lin22] [lin24] [Mat 2 [[3; -4]]]%Z [Mat 2 [[1; 2]; [3; 4]]]%Z [Mat 2 [[5; 2]; [0; 4]]]%Z = Ok [y] /\
  bind (column_from_linear 2 lin4) (fun a => bind (column_from_linear 2 lin22) (fun b => bind (row_from_linear 2 lin24) (fun o =>
    mha 0%Z Z.add Z.mul sum_values 1 2 a b b o (repeat (Mat 2 [[3; -4]])%Z 2) (repeat (Mat 2 [[1; 2]; [3; 4]])%Z 2) (repeat (Mat 2 [[5; 2]; [0; 4]])%Z 2)))) = Ok (repeat y 2).
Proof. eexists. split; reflexivity. Qed.

(** If the size of the gang does not divide the number of the key/value heads, attention fails; it never returns something else. *)
Lemma divides_of {A} (l : lin A) size ls : 0 < size -> column_from_linear size l = Ok ls -> exists k, height (weight l) = size * k.
Proof.
  intros Sz C. destruct (Nat.eq_dec (height (weight l) mod size) 0) as [Q|Q]; [apply Nat.mod_divides in Q; [exact Q|lia]|]. destruct (C53_indivisible l size Sz) as [H _]. rewrite (H Q) in C. discriminate C.
Qed.
Theorem C53_mha_heads {A} (zero : A) add mul f hd g (q k v o : lin A) size kv qs ks vs os seqs keys values :
  linear_ok q -> linear_ok k -> linear_ok v -> 0 < hd -> 0 < size -> 0 < height (weight q) -> 0 < height (weight v) -> 0 < kv -> height (weight k) = hd * kv -> kv mod size <> 0 ->
  column_from_linear size q = Ok qs -> column_from_linear size k = Ok ks -> column_from_linear size v = Ok vs ->
  exists e, mha zero add mul f hd g qs ks vs os (repeat seqs size) (repeat keys size) (repeat values size) = Err e.
Proof.
  intros Oq Ok_ Ov Hd Sz Pq Pv Kv E Ndiv Cq Ck Cv. destruct (divides_of _ _ _ Sz Cq) as [kq Eq]. destruct (divides_of _ _ _ Sz Ck) as [kk Ek]. destruct (divides_of _ _ _ Sz Cv) as [kvv Ev].
  rewrite (column_shards size kq) in Cq by (nia || assumption). rewrite (column_shards size kk) in Ck by (nia || assumption). rewrite (column_shards size kvv) in Cv by (nia || assumption). injection Cq as <-. injection Ck as <-. injection Cv as <-.
  unfold mha. rewrite (column_forward_ok zero add mul false kq size seqs q Oq Eq Sz). destruct (linear zero add mul seqs q) as [a|]; cbn [bind]; [|eauto].
  rewrite (column_forward_ok zero add mul false kk size keys k Ok_ Ek Sz). destruct (linear zero add mul keys k) as [b|]; cbn [bind]; [|eauto].
  rewrite (column_forward_ok zero add mul false kvv size values v Ov Ev Sz). destruct (linear zero add mul values v) as [c|]; cbn [bind]; [|eauto].
  rewrite combine_maps, map2_maps. cbn [fst snd]. destruct size as [|m]; [lia|]. cbn [seq map collect].
  assert (Ha : exists e, attention f hd g (col_block kq 0 a) (col_block kk 0 b) (col_block kvv 0 c) = Err e).
  { unfold attention. destruct (heads hd (col_block kq 0 a)); cbn [bind]; [|eauto]. unfold heads at 1. destruct (Nat.eqb_spec hd 0); [lia|]. change (width (col_block kk 0 b)) with kk.
    destruct (Nat.eqb_spec (kk mod hd) 0) as [Q|]; cbn [negb bind]; [|eauto]. exfalso. apply Ndiv. apply Nat.mod_divides in Q; [|lia]. destruct Q as [w ->]. assert (kv = S m * w) as -> by nia. rewrite Nat.mul_comm. apply Nat.mod_mul. lia. }
  destruct Ha as [e ->]. cbn [bind]. eauto.
Qed.
Print Assumptions C53_mha_heads.
(** One key and value head of dimension 2 cannot be split over two processes. *)
Example C53_mha_heads_example : height (weight lin22) = 2 * 1 /\ 1 mod 2 <> 0 /\ exists ks, column_from_linear 2 lin22 = Ok ks.
Proof. split; [reflexivity|]. split; [discriminate|]. eexists. reflexivity. Qed.
