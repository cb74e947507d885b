From Coq Require Import List Bool Arith ZArith Lia.
From Verif Require Import Shard_Model Shard_Spec.
Import ListNotations.

(** ** Lists *)
Lemma map2_maps {T U V W} (f : U -> V -> W) (g : T -> U) (h : T -> V) l : map2 f (map g l) (map h l) = map (fun x => f (g x) (h x)) l.
Proof. unfold map2. induction l; cbn; [reflexivity|f_equal; assumption]. Qed.
Lemma map2_map_r {T V W} (f : T -> V -> W) (h : T -> V) l : map2 f l (map h l) = map (fun x => f x (h x)) l.
Proof. rewrite <- (map_id l) at 1. apply (map2_maps f (fun x => x) h). Qed.
Lemma map2_map_l {T U W} (f : U -> T -> W) (g : T -> U) l : map2 f (map g l) l = map (fun x => f (g x) x) l.
Proof. rewrite <- (map_id l) at 2. apply (map2_maps f g (fun x => x)). Qed.
Lemma map2_length {T U V} (f : T -> U -> V) l m : length (map2 f l m) = Nat.min (length l) (length m).
Proof. unfold map2. now rewrite map_length, combine_length. Qed.
Lemma combine_maps {T U V} (g : T -> U) (h : T -> V) l : combine (map g l) (map h l) = map (fun x => (g x, h x)) l.
Proof. induction l; cbn; [reflexivity|f_equal; assumption]. Qed.
Lemma combine_map_r {T V} (h : T -> V) l : combine l (map h l) = map (fun x => (x, h x)) l.
Proof. induction l; cbn; [reflexivity|f_equal; assumption]. Qed.
Lemma repeat_map {T U} (y : T) (l : list U) : repeat y (length l) = map (fun _ => y) l.
Proof. induction l; cbn; [reflexivity|f_equal; assumption]. Qed.
Lemma repeat_seq {T} (y : T) n : repeat y n = map (fun _ => y) (seq 0 n).
Proof. rewrite <- repeat_map, seq_length. reflexivity. Qed.
Lemma collect_map {T U} (f : T -> res U) (g : T -> U) l : (forall x, In x l -> f x = Ok (g x)) -> collect (map f l) = Ok (map g l).
Proof.
  induction l as [|a l IH]; cbn [map collect]; intros H; [reflexivity|]. rewrite (H a (or_introl eq_refl)). cbn [bind].
  rewrite IH by (intros; apply H; now right). reflexivity.
Qed.
Lemma collect_ok {T} (l : list (res T)) ys : collect l = Ok ys -> l = map Ok ys.
Proof.
  revert ys. induction l as [|[a|e] l IH]; cbn [collect bind]; intros ys H; [now injection H as <-| |discriminate H].
  destruct (collect l) as [xs|]; cbn [bind] in H; [|discriminate H]. injection H as <-. cbn [map]. f_equal. now apply IH.
Qed.
Lemma collect_err {T} (l : list (res T)) : (exists e, In (Err e) l) -> exists e, collect l = Err e.
Proof.
  intros [e H]. induction l as [|[a|e'] l IH]; cbn [collect bind]; [destruct H| |eauto].
  destruct H as [H|H]; [discriminate H|]. destruct (IH H) as [e' ->]. cbn [bind]. eauto.
Qed.

(** ** Blocks *)
Lemma piece_block {T} k i (l : list T) : piece k i l = block k i l.
Proof. reflexivity. Qed.
Lemma block_map {T U} (f : T -> U) k r l : map f (block k r l) = block k r (map f l).
Proof. unfold block. now rewrite <- firstn_map, <- skipn_map. Qed.
Lemma block_length {T} k r n (l : list T) : length l = n * k -> r < n -> length (block k r l) = k.
Proof. intros E H. unfold block. rewrite firstn_length, skipn_length. nia. Qed.
Lemma skipn_combine {T U} n : forall (l : list T) (m : list U), skipn n (combine l m) = combine (skipn n l) (skipn n m).
Proof. induction n; intros [|a l] [|b m]; cbn; try reflexivity; [now destruct (skipn n l)|apply IHn]. Qed.
Lemma block_map2 {T U V} (f : T -> U -> V) k r l m : map2 f (block k r l) (block k r m) = block k r (map2 f l m).
Proof. unfold map2. rewrite <- block_map. unfold block. rewrite skipn_combine, combine_firstn. reflexivity. Qed.
Lemma skipn_skip {T} a : forall b (l : list T), skipn a (skipn b l) = skipn (b + a) l.
Proof. intros b. induction b; intros l; [reflexivity|]. destruct l; cbn [skipn Nat.add]; [now rewrite !skipn_nil|apply IHb]. Qed.
Lemma firstn_plus {T} a : forall b (l : list T), firstn (a + b) l = firstn a l ++ firstn b (skipn a l).
Proof. induction a; intros b l; [reflexivity|]. destruct l; cbn [firstn skipn Nat.add app]; [now rewrite firstn_nil|]. f_equal. apply IHa. Qed.
Lemma blocks_from {T} k n : forall i (l : list T), concat (map (fun r => block k r l) (seq i n)) = firstn (n * k) (skipn (i * k) l).
Proof.
  induction n; intros i l; cbn [seq map concat Nat.mul]; [reflexivity|]. rewrite IHn, firstn_plus, skipn_skip. unfold block.
  now replace (S i * k) with (i * k + k) by lia.
Qed.
Lemma blocks_concat {T} k n (l : list T) : length l = n * k -> concat (map (fun r => block k r l) (seq 0 n)) = l.
Proof. intros E. rewrite blocks_from. cbn [skipn Nat.mul]. rewrite <- E. apply firstn_all. Qed.
Lemma block_concat {T} k n r : forall (ls : list (list T)), Forall (fun l => length l = k) ls -> block (n * k) r (concat ls) = concat (block n r ls).
Proof.
  assert (F : forall m (ls : list (list T)), Forall (fun l => length l = k) ls -> firstn (m * k) (concat ls) = concat (firstn m ls)).
  { induction m; intros ls H; cbn [Nat.mul firstn]; [reflexivity|]. destruct H as [|l ls E H]; cbn [concat]; [now rewrite firstn_nil|].
    rewrite firstn_plus, <- E, firstn_app, skipn_app, Nat.sub_diag, firstn_all, skipn_all. cbn [firstn skipn app]. rewrite app_nil_r. f_equal. rewrite E. now apply IHm. }
  assert (S : forall m (ls : list (list T)), Forall (fun l => length l = k) ls -> skipn (m * k) (concat ls) = concat (skipn m ls)).
  { induction m; intros ls H; cbn [Nat.mul skipn]; [reflexivity|]. destruct H as [|l ls E H]; cbn [concat]; [now rewrite skipn_nil|].
    rewrite <- skipn_skip, <- E, skipn_app, Nat.sub_diag, skipn_all. cbn [skipn app]. rewrite E. now apply IHm. }
  intros ls H. unfold block. replace (r * (n * k)) with (r * n * k) by lia. rewrite S by exact H. apply F. 
  clear - H. revert ls H. induction (r * n); intros ls H; [exact H|]. destruct H; cbn [skipn]; [constructor|auto].
Qed.
Lemma block_block {T} k n r s (l : list T) : s < n -> block k s (block (n * k) r l) = block k (r * n + s) l.
Proof.
  intros H. unfold block. rewrite skipn_firstn_comm, firstn_firstn, skipn_skip. f_equal; [nia|f_equal; nia].
Qed.
Lemma pieces_exact n k : 0 < k -> 0 < n -> pieces (n * k) k = n.
Proof.
  intros K N. unfold pieces. destruct (Nat.eqb_spec (n * k) 0); [nia|]. symmetry. apply (Nat.div_unique _ _ _ (k - 1)); lia.
Qed.
Lemma pieces_none n k : n * k = 0 -> pieces (n * k) k = 1.
Proof. intros H. unfold pieces. now rewrite H. Qed.
Lemma get_map_seq {T} (f : nat -> T) n r : r < n -> get (map f (seq 0 n)) r = Ok (f r).
Proof.
  intros H. unfold get. rewrite (nth_error_nth' _ (f 0)) by (rewrite map_length, seq_length; exact H). rewrite map_nth, seq_nth by exact H. reflexivity.
Qed.
Lemma get_split {T} k n r (l : list T) : length l = n * k -> 0 < k -> r < n -> get (split k l) r = Ok (block k r l).
Proof. intros E K H. unfold split. rewrite E, pieces_exact by lia. exact (get_map_seq (fun i => piece k i l) n r H). Qed.
Lemma div_exact n k : 0 < n -> n * k / n = k.
Proof. intros H. rewrite Nat.mul_comm. apply Nat.div_mul. lia. Qed.

(** ** Tensors *)
Section P.
  Context {A : Type} (zero : A) (add mul : A -> A -> A).
  Hypothesis Hm : monoid zero add.
  Notation madd := (madd add). Notation vadd := (vadd add). Notation dot := (dot zero add mul).

  Lemma tensor_row (m : mat A) r : tensor m -> In r (rows m) -> length r = width m.
  Proof. unfold tensor. rewrite Forall_forall. auto. Qed.

  Lemma get_split_rows k n r (m : mat A) : height m = n * k -> 0 < k -> r < n -> get (split_rows k m) r = Ok (row_block k r m).
  Proof.
    intros E K H. unfold split_rows, split. unfold height in E. rewrite E, pieces_exact by lia. rewrite map_map.
    exact (get_map_seq (fun i => Mat (width m) (piece k i (rows m))) n r H).
  Qed.
  Lemma get_split_cols k n r (m : mat A) : width m = n * k -> 0 < k -> r < n -> get (split_cols k m) r = Ok (col_block k r m).
  Proof.
    intros E K H. unfold split_cols. rewrite E, pieces_exact by lia.
    rewrite (get_map_seq (fun i => Mat (Nat.min k (n * k - i * k)) (map (piece k i) (rows m))) n r H). unfold col_block. do 2 f_equal. nia.
  Qed.
  Lemma split_cols_blocks k n (m : mat A) : width m = n * k -> 0 < k -> 0 < n -> split_cols k m = map (fun r => col_block k r m) (seq 0 n).
  Proof.
    intros E K N. unfold split_cols. rewrite E, pieces_exact by lia. apply map_ext_in. intros i Hi. apply in_seq in Hi. unfold col_block. f_equal. nia.
  Qed.
  Lemma tensor_row_block k r (m : mat A) : tensor m -> tensor (row_block k r m).
  Proof.
    unfold tensor, row_block, block. cbn [rows width]. rewrite !Forall_forall. intros H x Hx. apply H.
    rewrite <- (firstn_skipn (r * k) (rows m)), <- (firstn_skipn k (skipn (r * k) (rows m))). apply in_or_app. right. apply in_or_app. now left.
  Qed.
  Lemma tensor_col_block k n r (m : mat A) : tensor m -> width m = n * k -> r < n -> tensor (col_block k r m).
  Proof.
    unfold tensor, col_block. cbn [rows width]. rewrite !Forall_forall. intros H E L x Hx. apply in_map_iff in Hx as (y & <- & Hy).
    apply block_length with n; [rewrite <- E; auto|exact L].
  Qed.

  Lemma cat_rows_ok w : forall (ls : list (list (list A))), ls <> [] -> cat 0 (map (Mat w) ls) = Ok (Mat w (concat ls)).
  Proof.
    intros [|l ls] H; [contradiction|]. clear H. cbn [map cat]. revert l. induction ls as [|m ls IH]; intros l; cbn [map cat_from concat]; [now rewrite app_nil_r|].
    rewrite IH. cbn [bind cat2]. unfold cat_rows. cbn [width rows]. rewrite Nat.eqb_refl. reflexivity.
  Qed.
  Lemma cat_cols_ok {I J} k (f : J -> I -> list A) (l : list I) : forall (js : list J), js <> [] ->
    cat 1 (map (fun j => Mat k (map (f j) l)) js) = Ok (Mat (length js * k) (map (fun i => concat (map (fun j => f j i) js)) l)).
  Proof.
    intros [|j js] H; [contradiction|]. clear H. cbn [map cat]. revert j. induction js as [|j' js IH]; intros j; cbn [map cat_from concat length].
    - do 2 f_equal; [lia|]. apply map_ext. intros i. now rewrite app_nil_r.
    - rewrite IH. cbn [bind cat2]. unfold cat_cols, height. cbn [width rows]. rewrite !map_length, Nat.eqb_refl. cbn [length].
      do 2 f_equal. rewrite map2_maps. reflexivity.
  Qed.

  (** sums *)
  Lemma total_map {I J} w (f : J -> I -> list A) (l : list I) j js :
    total add (map (fun j => Mat w (map (f j) l)) (j :: js)) = Mat w (map (fun i => fold_left vadd (map (fun j => f j i) js) (f j i)) l).
  Proof.
    cbn [map total]. generalize (f j). induction js as [|j' js IH]; intros g; cbn [map fold_left]; [reflexivity|].
    replace (madd (Mat w (map g l)) (Mat w (map (f j') l))) with (Mat w (map (fun i => vadd (g i) (f j' i)) l)); [apply IH|].
    unfold Shard_Model.madd. cbn [width rows]. rewrite map2_maps. reflexivity.
  Qed.
  Lemma vfold_map {I J} (f : J -> I -> A) (l : list I) g js :
    fold_left vadd (map (fun j => map (f j) l) js) (map g l) = map (fun i => fold_left add (map (fun j => f j i) js) (g i)) l.
  Proof.
    revert g. induction js as [|j js IH]; intros g; cbn [map fold_left]; [reflexivity|]. unfold Shard_Model.vadd at 2. rewrite map2_maps. apply IH.
  Qed.
  Lemma fold_add_from xs : forall a, fold_left add xs a = add a (fold_right add zero xs).
  Proof.
    destruct Hm as (As & Z0 & Z1). induction xs as [|x xs IH]; intros a; cbn [fold_left fold_right]; [now rewrite Z1|]. rewrite IH. symmetry. apply As.
  Qed.
  Lemma fold_add_app xs ys : fold_right add zero (xs ++ ys) = add (fold_right add zero xs) (fold_right add zero ys).
  Proof. destruct Hm as (As & Z0 & Z1). induction xs; cbn; [now rewrite Z0|]. rewrite IHxs. apply As. Qed.
  Lemma fold_add_concat xss : fold_right add zero (concat xss) = fold_right add zero (map (fun xs => fold_right add zero xs) xss).
  Proof. induction xss; cbn [concat map fold_right]; [reflexivity|]. now rewrite fold_add_app, IHxss. Qed.
  Lemma dot_blocks k n x y : length x = n * k -> length y = n * k ->
    dot x y = fold_right add zero (map (fun r => dot (block k r x) (block k r y)) (seq 0 n)).
  Proof.
    intros Ex Ey. unfold Shard_Model.dot.
    rewrite <- (blocks_concat k n (map2 mul x y)) by (rewrite map2_length, Ex, Ey; lia).
    rewrite fold_add_concat, map_map. f_equal. apply map_ext. intros r. now rewrite block_map2.
  Qed.

  Lemma vadd_zeros_l w v : length v = w -> vadd (zeros zero w) v = v.
  Proof.
    destruct Hm as (As & Z0 & Z1). intros <-. unfold Shard_Model.vadd, zeros, map2. induction v; cbn; [reflexivity|]. now rewrite Z0, IHv.
  Qed.
  Lemma vadd_zeros_r w v : length v = w -> vadd v (zeros zero w) = v.
  Proof.
    destruct Hm as (As & Z0 & Z1). intros <-. unfold Shard_Model.vadd, zeros, map2. induction v; cbn; [reflexivity|]. now rewrite Z1, IHv.
  Qed.
  Lemma zeros_length w : length (zeros zero w) = w.
  Proof. apply repeat_length. Qed.
  Lemma all_zero w (f : nat -> list A) l : (forall r, In r l -> f r = zeros zero w) -> forall a, length a = w -> fold_left vadd (map f l) a = a.
  Proof.
    induction l as [|r l IH]; intros H a La; cbn [map fold_left]; [reflexivity|]. rewrite (H r (or_introl eq_refl)), vadd_zeros_r by exact La.
    apply IH; [intros; apply H; now right|exact La].
  Qed.
  Lemma one_row w (f : nat -> list A) r0 n : r0 < S n -> length (f r0) = w -> (forall r, r < S n -> r <> r0 -> f r = zeros zero w) ->
    fold_left vadd (map f (seq 1 n)) (f 0) = f r0.
  Proof.
    intros H0 L H. destruct (Nat.eq_dec r0 0) as [->|N0].
    - apply all_zero with w; [|exact L]. intros r Hr. apply in_seq in Hr. apply H; lia.
    - rewrite (H 0) by lia.
      replace (seq 1 n) with (seq 1 (r0 - 1) ++ r0 :: seq (S r0) (n - r0)).
      2:{ replace n with ((r0 - 1) + S (n - r0)) at 2 by lia. rewrite seq_app. cbn [seq]. do 2 f_equal; [lia|f_equal; lia]. }
      rewrite map_app, fold_left_app. cbn [map fold_left]. rewrite (all_zero w f (seq 1 (r0 - 1))); [|intros r Hr; apply in_seq in Hr; apply H; lia|apply zeros_length].
      rewrite vadd_zeros_l by exact L. apply all_zero with w; [|exact L]. intros r Hr. apply in_seq in Hr. apply H; lia.
  Qed.
End P.
