(** Mixture of experts: every token is the sum of the shared expert and its chosen experts, and sharding over processes changes nothing. *)
From Coq Require Import List Bool Arith Lia Permutation.
From Verif Require Import Moe_Model Moe_Spec.
Import ListNotations.

(** ** Lists *)
Lemma nth_firstn_lt : forall {T} (l : list T) k i d, i < k -> nth i (firstn k l) d = nth i l d.
Proof. induction l; intros [|k] i d H; cbn; try lia; auto. destruct i; auto. apply IHl. lia. Qed.
Lemma nth_skipn' : forall {T} n (l : list T) i d, nth i (skipn n l) d = nth (n + i) l d.
Proof. induction n; intros l i d; auto. destruct l; cbn; auto. destruct i; auto. Qed.
Lemma nth_block : forall {T} (l : list T) k r i d, i < k -> nth i (block k r l) d = nth (r * k + i) l d.
Proof. intros. unfold block. rewrite nth_firstn_lt by auto. apply nth_skipn'. Qed.
Lemma length_block : forall {T} (l : list T) k r, r * k + k <= length l -> length (block k r l) = k.
Proof. intros. unfold block. rewrite firstn_length, skipn_length. lia. Qed.
Lemma block_nil : forall {T} k r, block k r (@nil T) = [].
Proof. intros. unfold block. rewrite skipn_nil. apply firstn_nil. Qed.
Lemma length_concat_const : forall {T} (ls : list (list T)) k, Forall (fun l => length l = k) ls -> length (concat ls) = length ls * k.
Proof. induction 1; cbn; auto. rewrite app_length. lia. Qed.
Lemma block_concat : forall {T} (ls : list (list T)) k e, Forall (fun l => length l = k) ls -> e < length ls -> block k e (concat ls) = nth e ls [].
Proof.
  induction ls as [|l ls IH]; intros k e F H; cbn in H; [lia|]. pose proof (Forall_inv F) as L. apply Forall_inv_tail in F. cbn [concat]. destruct e.
  - unfold block. cbn. rewrite firstn_app, L, Nat.sub_diag, <- L, firstn_all. cbn. apply app_nil_r.
  - cbn [nth]. rewrite <- (IH k e) by (auto; lia). unfold block. cbn [Nat.mul]. rewrite skipn_app, (skipn_all2 l) by (rewrite L; apply Nat.le_add_r). cbn [app]. rewrite L, Nat.add_comm, Nat.add_sub. reflexivity.
Qed.
Lemma map_nth_seq : forall {T} (l : list T) d, map (fun e => nth e l d) (seq 0 (length l)) = l.
Proof. intros. apply nth_ext with (d := d) (d' := d); rewrite map_length, seq_length; auto. intros n H. rewrite (nth_indep _ d (nth 0 l d)) by (rewrite map_length, seq_length; auto).
  rewrite (map_nth (fun e => nth e l d)), seq_nth by auto. reflexivity. Qed.
Lemma view_concat : forall {A} (ls : list (list (list A))) k, Forall (fun l => length l = k) ls -> view (length ls) (concat ls) = ls.
Proof.
  intros A ls k F. unfold view. destruct (Nat.eq_dec (length ls) 0) as [Z|Z]. { apply length_zero_iff_nil in Z. now subst. }
  rewrite (length_concat_const ls k F), Nat.mul_comm, Nat.div_mul by auto. transitivity (map (fun e => nth e ls []) (seq 0 (length ls))); [|apply map_nth_seq]. apply map_ext_in. intros e I. apply in_seq in I. apply block_concat; auto. lia.
Qed.
Lemma concat_blocks : forall {T} n k (w : list T), length w = n * k -> concat (map (fun e => block k e w) (seq 0 n)) = w.
Proof.
  induction n; intros k w L; cbn in *. { destruct w; auto; discriminate. }
  rewrite <- seq_shift, map_map. transitivity (firstn k w ++ skipn k w); [|apply firstn_skipn]. unfold block at 1. cbn. f_equal.
  rewrite <- (IHn k (skipn k w)) by (rewrite skipn_length; lia). f_equal. apply map_ext. intros e. unfold block. f_equal. cbn. clear. generalize (e * k). revert w.
  induction k; intros w m; cbn; auto. destruct w; cbn; auto. now rewrite skipn_nil.
Qed.
Lemma view_eq : forall {A} n k (w : list (list A)), length w = n * k -> view n w = map (fun e => block k e w) (seq 0 n).
Proof. intros A n k w L. unfold view. destruct n; auto. rewrite L, Nat.mul_comm, Nat.div_mul by lia. reflexivity. Qed.
Lemma zip_with_app : forall {T U V} (f : T -> U -> V) a b c d, length a = length c -> zip_with f (a ++ b) (c ++ d) = zip_with f a c ++ zip_with f b d.
Proof. induction a; destruct c; cbn; intros; try discriminate; auto. f_equal. apply IHa. lia. Qed.
Lemma zip_with_concat : forall {K T U V} (f : T -> U -> V) (g : K -> list T) (h : K -> list U) ks, (forall k, length (g k) = length (h k)) ->
  zip_with f (concat (map g ks)) (concat (map h ks)) = concat (map (fun k => zip_with f (g k) (h k)) ks).
Proof. induction ks; cbn; intros; auto. rewrite zip_with_app by auto. f_equal. auto. Qed.
Lemma zip_with_map : forall {K T U V} (f : T -> U -> V) (g : K -> T) (h : K -> U) ks, zip_with f (map g ks) (map h ks) = map (fun k => f (g k) (h k)) ks.
Proof. induction ks; cbn; f_equal; auto. Qed.
Lemma combine_map2 : forall {K T U} (g : K -> T) (h : K -> U) ks, combine (map g ks) (map h ks) = map (fun k => (g k, h k)) ks.
Proof. induction ks; cbn; f_equal; auto. Qed.
Lemma repeat_map : forall {T} (x : T) n s, repeat x n = map (fun _ => x) (seq s n).
Proof. induction n; cbn; intros; f_equal; auto. Qed.
Lemma combine_app' : forall {T U} (a b : list T) (c d : list U), length a = length c -> combine (a ++ b) (c ++ d) = combine a c ++ combine b d.
Proof. induction a; destruct c; cbn; intros; try discriminate; auto. f_equal. apply IHa. lia. Qed.
Lemma zip_seq : forall {T U V} (F : T -> U -> V) (d : T) (x : list T) (h : T -> U) s l, (forall i, nth (s + i) l d = nth i x d) ->
  zip_with (fun t => F (nth t l d)) (seq s (length x)) (map h x) = map (fun r => F r (h r)) x.
Proof.
  induction x as [|a x IH]; intros h s l N; cbn; auto. f_equal.
  - pose proof (N 0) as E. rewrite Nat.add_0_r in E. rewrite E. reflexivity.
  - apply IH. intros i. pose proof (N (S i)) as E. cbn [nth] in E. rewrite <- E. f_equal. lia.
Qed.

Section P.
  Context {A : Type}.
  Variables (zero : A) (add mul : A -> A -> A) (act sigmoid : A -> A) (topk : list A -> list nat).
  Hypothesis L : laws zero add mul.
  Notation sum := (sum zero add). Notation sum_over := (sum_over zero add). Notation lsum := (lsum zero add).
  Notation vadd := (vadd add).
  Let comm := add_comm _ _ _ L. Let assoc := add_assoc _ _ _ L. Let addz := add_zero _ _ _ L.
  Lemma addz_r : forall x, add x zero = x.
  Proof. intros. rewrite comm. apply addz. Qed.
  Lemma swap4 : forall a b c d, add (add a b) (add c d) = add (add a c) (add b d).
  Proof. intros. rewrite <- !assoc. f_equal. rewrite !assoc. f_equal. apply comm. Qed.

  (** ** Sums *)
  Lemma lsum_app : forall {T} (f : T -> A) a b, lsum f (a ++ b) = add (lsum f a) (lsum f b).
  Proof. induction a; intros; cbn. { now rewrite addz. } fold (lsum f (a0 ++ b)). rewrite IHa. apply assoc. Qed.
  Lemma lsum_seq : forall f n, lsum f (seq 0 n) = sum n f.
  Proof. induction n; auto. rewrite seq_S, lsum_app, IHn. cbn. now rewrite addz_r. Qed.
  Lemma lsum_over : forall f l, lsum f l = sum_over l f.
  Proof. induction l; cbn; auto. fold (lsum f l). now rewrite IHl. Qed.
  Lemma lsum_ext : forall {T} (f g : T -> A) l, (forall x, In x l -> f x = g x) -> lsum f l = lsum g l.
  Proof. induction l; intros H; cbn; auto. fold (lsum f l) (lsum g l). rewrite IHl by (intros; apply H; now right). rewrite H by now left. reflexivity. Qed.
  Lemma sum_ext : forall f g n, (forall i, i < n -> f i = g i) -> sum n f = sum n g.
  Proof. induction n; intros H; cbn; auto. rewrite IHn, H by auto. reflexivity. Qed.
  Lemma sum_zero : forall f n, (forall i, i < n -> f i = zero) -> sum n f = zero.
  Proof. induction n; intros H; cbn; auto. rewrite IHn, H by auto. apply addz. Qed.
  Lemma sum_add : forall f g n, sum n (fun i => add (f i) (g i)) = add (sum n f) (sum n g).
  Proof. induction n; cbn. { now rewrite addz. } rewrite IHn. apply swap4. Qed.
  Lemma sum_app : forall f n m, sum (n + m) f = add (sum n f) (sum m (fun i => f (n + i))).
  Proof. induction m; cbn. { now rewrite Nat.add_0_r, addz_r. } rewrite Nat.add_succ_r. cbn. rewrite IHm. symmetry. apply assoc. Qed.
  Lemma sum_blocks : forall f s n, sum n (fun r => sum s (fun j => f (r * s + j))) = sum (n * s) f.
  Proof. induction n; cbn; auto. rewrite IHn, Nat.add_comm, sum_app. reflexivity. Qed.
  Lemma sum_sum_over : forall f n l, sum n (fun r => sum_over l (f r)) = sum_over l (fun e => sum n (fun r => f r e)).
  Proof. induction l; cbn. { apply sum_zero; auto. } rewrite sum_add, IHl. reflexivity. Qed.
  Lemma sum_over_ext : forall f g l, (forall x, In x l -> f x = g x) -> sum_over l f = sum_over l g.
  Proof. induction l; intros H; cbn; auto. rewrite IHl, H by (auto; now left || (intros; apply H; now right)). reflexivity. Qed.
  Lemma sum_over_perm : forall f l l', Permutation l l' -> sum_over l f = sum_over l' f.
  Proof. induction 1; cbn; try congruence. all: rewrite !assoc; f_equal; apply comm. Qed.
  Lemma sum_over_filter : forall p f l, (forall x, p x = false -> f x = zero) -> sum_over l f = sum_over (filter p l) f.
  Proof. induction l; intros H; cbn; auto. destruct (p a) eqn:E; cbn; rewrite IHl by auto; auto. rewrite (H a E). apply addz. Qed.
  (** A sum over all experts whose terms vanish but for the chosen ones *)
  Lemma sum_chosen : forall f n chosen, NoDup chosen -> (forall x, In x chosen -> x < n) -> (forall x, ~ In x chosen -> f x = zero) -> sum_over (seq 0 n) f = sum_over chosen f.
  Proof.
    intros f n chosen ND B Z. rewrite (sum_over_filter (fun x => if in_dec Nat.eq_dec x chosen then true else false)).
    2: { intros x E. destruct (in_dec _ x chosen); [discriminate|auto]. }
    apply sum_over_perm, NoDup_Permutation; auto. { apply NoDup_filter, seq_NoDup. }
    intros x. rewrite filter_In, in_seq. destruct (in_dec Nat.eq_dec x chosen) as [I|I]; split; try tauto; try (intros [_ ?]; discriminate). intros _. specialize (B x I). split; auto. lia.
  Qed.

  (** ** Products *)
  Lemma nth_map_seq : forall (f : nat -> A) n i, i < n -> nth i (map f (seq 0 n)) zero = f i.
  Proof. intros f n i H. rewrite (nth_indep _ zero (f 0)) by (rewrite map_length, seq_length; auto). rewrite map_nth, seq_nth by auto. reflexivity. Qed.
  Lemma matmul_eq : forall n m x w, matmul zero add mul n m x w = map (fun j => sum n (fun i => mul (nth i x zero) (nth j (nth i w []) zero))) (seq 0 m).
  Proof. intros. unfold matmul. apply map_ext. intros j. apply lsum_seq. Qed.
  Lemma linear_eq : forall n m x w, linear zero add mul n m x w = map (fun j => sum n (fun i => mul (nth i x zero) (nth i (nth j w []) zero))) (seq 0 m).
  Proof. intros. unfold linear. apply map_ext. intros j. apply lsum_seq. Qed.
  Lemma glu1_eq : forall e n x, n < num e -> glu1 zero add mul act (model_dim e) (inner_dim e) (block (model_dim e) n (gate e)) (block (model_dim e) n (inner e)) (block (inner_dim e) n (output e)) x
    = map (expert_out zero add mul act e n x) (seq 0 (model_dim e)).
  Proof.
    intros e n x H. unfold glu1. rewrite !matmul_eq, map_map, zip_with_map. apply map_ext. intros k. unfold expert_out. apply sum_ext. intros j J. rewrite nth_map_seq by auto.
    rewrite nth_block by auto. do 2 f_equal. 1: f_equal. all: apply sum_ext; intros i I; now rewrite nth_block.
  Qed.
  Lemma glu_eq : forall g x, glu_forward zero add mul act g x = map (shared_out zero add mul act g x) (seq 0 (s_dim g)).
  Proof. intros g x. unfold glu_forward. rewrite !linear_eq, map_map, zip_with_map. apply map_ext. intros k. unfold shared_out. apply sum_ext. intros j J. now rewrite nth_map_seq. Qed.
  (** An expert without bias maps zero to zero, whatever the activation *)
  Lemma expert_zero : forall e n x k, (forall i, nth i x zero = zero) -> expert_out zero add mul act e n x k = zero.
  Proof.
    intros e n x k Z. unfold expert_out. apply sum_zero. intros j _.
    rewrite (sum_zero (fun i => mul (nth i x zero) (nth j (nth (n * model_dim e + i) (inner e) []) zero))).
    2: { intros i _. rewrite Z. apply (mul_zero_l _ _ _ L). }
    rewrite (mul_zero_r _ _ _ L). apply (mul_zero_l _ _ _ L).
  Qed.

  (** ** Scattering *)
  Lemma update_app : forall pre x post v, update add (pre ++ x :: post) (length pre) v = pre ++ vadd x v :: post.
  Proof. induction pre; intros; cbn; auto. f_equal. apply IHpre. Qed.
  Lemma scatter_pass : forall out vs pre, length vs = length out ->
    fold_left (fun o iv => update add o (fst iv) (snd iv)) (combine (seq (length pre) (length out)) vs) (pre ++ out) = pre ++ zip_with vadd out vs.
  Proof.
    induction out as [|x out IH]; intros [|v vs] pre H; try discriminate; cbn; auto. rewrite update_app. specialize (IH vs (pre ++ [vadd x v])).
    rewrite app_length in IH. cbn [length] in IH. rewrite Nat.add_1_r, <- !app_assoc in IH. cbn [app] in IH. apply IH. cbn in H. lia.
  Qed.
  Lemma length_zip : forall {T U V} (f : T -> U -> V) a b, length a = length b -> length (zip_with f a b) = length a.
  Proof. induction a; destruct b; cbn; intros; try discriminate; auto. Qed.
  Lemma scatter_passes : forall {K} (g : K -> list (list A)) ks out, (forall k, length (g k) = length out) ->
    scatter_add add out (concat (map (fun _ => seq 0 (length out)) ks)) (concat (map g ks)) = fold_left (fun o k => zip_with vadd o (g k)) ks out.
  Proof.
    induction ks as [|k ks IH]; intros out H; auto. cbn [map concat fold_left]. unfold scatter_add. rewrite combine_app' by (rewrite seq_length; auto).
    rewrite fold_left_app. pose proof (scatter_pass out (g k) [] (H k)) as E. cbn in E. rewrite E. clear E.
    assert (length (zip_with vadd out (g k)) = length out) as Z by (apply length_zip; auto). rewrite <- Z. apply IH. intros. rewrite Z. auto.
  Qed.
  Lemma fold_rows : forall {K} (g : K -> list A -> list A) ks h (x : list (list A)),
    fold_left (fun o k => zip_with vadd o (map (g k) x)) ks (map h x) = map (fun r => fold_left (fun a k => vadd a (g k r)) ks (h r)) x.
  Proof. induction ks; intros h x; cbn; auto. rewrite zip_with_map. apply (IHks (fun r => vadd (h r) (g a r))). Qed.
  Lemma fold_elems : forall {K} (g : K -> nat -> A) ks h n,
    fold_left (fun a k => vadd a (map (g k) (seq 0 n))) ks (map h (seq 0 n)) = map (fun i => add (h i) (lsum (fun k => g k i) ks)) (seq 0 n).
  Proof.
    induction ks; intros h n; cbn [fold_left].
    - apply map_ext. intros. cbn. now rewrite addz_r.
    - unfold vadd at 2. rewrite zip_with_map, (IHks (fun i => add (h i) (g a i))). apply map_ext. intros i. cbn. symmetry. apply assoc.
  Qed.

  (** ** The forward pass *)
  Lemma nth_scores : forall l k, k < length l -> nth k (scores zero topk l) None = if existsb (Nat.eqb k) (topk l) then Some (nth k l zero) else None.
  Proof.
    intros l k H. unfold scores. set (f := fun e => _). rewrite (nth_indep _ None (f 0)) by (rewrite map_length, seq_length; auto). rewrite map_nth, seq_nth by auto. reflexivity.
  Qed.
  Lemma existsb_eqb : forall k l, existsb (Nat.eqb k) l = true <-> In k l.
  Proof. intros. rewrite existsb_exists. split. { intros [y [I E]]. apply Nat.eqb_eq in E. now subst. } intros I. exists k. now rewrite Nat.eqb_refl. Qed.

  Lemma forward_spec : forall m x, well_shaped m -> choice topk (num (moe_experts m)) -> Forall (fun r => length r = model_dim (moe_experts m)) x ->
    moe_forward zero add mul act sigmoid topk m x = map (token_out zero add mul act sigmoid topk m) x.
  Proof.
    intros m x W C F. unfold moe_forward. set (e := moe_experts m) in *.
    set (lg := fun row => matmul zero add mul (model_dim e) (num e) row (router m)).
    assert (LG : forall row, lg row = all_logits zero add mul m row) by (intros; apply matmul_eq).
    assert (LL : forall row, length (lg row) = num e) by (intros; rewrite LG; unfold all_logits; rewrite map_length, seq_length; reflexivity).
    cbn zeta. rewrite map_length, (repeat_map _ _ 0).
    set (score := fun k row => sigmoid' zero sigmoid (nth k (scores zero topk (lg row)) None)).
    set (scaled := fun k row => map (fun a => mul a (score k row)) row).
    rewrite (zip_with_concat _ (fun _ => seq 0 (length x))) by (intros; now rewrite seq_length, !map_length).
    rewrite (map_ext (fun k => zip_with _ _ _) (fun k => map (scaled k) x)).
    2: { intros k. rewrite map_map. apply (zip_seq (fun r s => map (fun a => mul a s) r) [] x (score k) 0 x). auto. }
    assert (V : view (num e) (concat (map (fun k => map (scaled k) x) (seq 0 (num e)))) = map (fun k => map (scaled k) x) (seq 0 (num e))).
    { rewrite <- (seq_length (num e) 0) at 1. rewrite <- (map_length (fun k => map (scaled k) x) (seq 0 (num e))). apply view_concat with (length x).
      apply Forall_forall. intros l I. apply in_map_iff in I. destruct I as [k [<- _]]. apply map_length. }
    rewrite V. clear V. unfold experts_forward.
    destruct (ws_gate _ W) as [G _], (ws_inner _ W) as [I _], (ws_output _ W) as [O _]. fold e in G, I, O.
    rewrite (view_eq _ _ _ G), (view_eq _ _ _ I), (view_eq _ _ _ O), !combine_map2, zip_with_map. cbn [fst snd].
    rewrite (map_ext_in _ (fun k => map (fun r => map (expert_out zero add mul act e k (scaled k r)) (seq 0 (model_dim e))) x)).
    2: { intros k Ik. apply in_seq in Ik. rewrite map_map. apply map_ext. intros r. apply glu1_eq. lia. }
    set (out := match shared m with Some s => _ | None => _ end).
    assert (OUT : out = map (fun r => map (fun k => match shared m with Some g => shared_out zero add mul act g r k | None => zero end) (seq 0 (model_dim e))) x).
    { unfold out. destruct (shared m) as [g|] eqn:S.
      - apply map_ext. intros r. rewrite glu_eq. destruct (ws_shared _ W g S) as [-> _]. reflexivity.
      - apply map_ext_in. intros r Ir. rewrite Forall_forall in F. rewrite <- (F r Ir). clear. generalize 0. induction r; intros; cbn; f_equal; auto. }
    rewrite OUT. clear out OUT.
    match goal with |- scatter_add add ?o _ _ = _ => replace (length x) with (length o) by apply map_length end.
    rewrite scatter_passes by (intros; now rewrite !map_length). rewrite fold_rows. apply map_ext. intros r. rewrite fold_elems. unfold token_out. fold e. apply map_ext. intros k. f_equal.
    rewrite lsum_over. destruct (C (all_logits zero add mul m r)) as [ND B]. { rewrite <- LG. apply LL. }
    rewrite (sum_chosen _ _ (topk (all_logits zero add mul m r))); auto.
    - apply sum_over_ext. intros n In_. f_equal. unfold scaled, score. rewrite nth_scores by (rewrite LL; auto). rewrite LG. pose proof (proj2 (existsb_eqb _ _) In_) as ->. cbn [sigmoid'].
      apply map_ext. intros a. do 2 f_equal. unfold all_logits. apply nth_map_seq, B, In_.
    - intros n NI. destruct (Nat.lt_ge_cases n (num e)) as [Hn|Hn].
      + apply expert_zero. intros i. unfold scaled, score. rewrite nth_scores by (rewrite LL; auto). rewrite LG.
        destruct (existsb (Nat.eqb n) (topk (all_logits zero add mul m r))) eqn:X; [apply existsb_eqb in X; contradiction|]. cbn [sigmoid'].
        destruct (Nat.lt_ge_cases i (length r)) as [Hi|Hi].
        * rewrite (nth_indep _ zero (mul zero zero)) by (rewrite map_length; auto). rewrite (map_nth (fun a => mul a zero)). apply (mul_zero_r _ _ _ L).
        * apply nth_overflow. rewrite map_length. auto.
      + apply expert_zero. intros i. unfold scaled, score. rewrite (nth_overflow (scores _ _ _)) by (unfold scores; rewrite map_length, seq_length, LL; auto). cbn [sigmoid'].
        destruct (Nat.lt_ge_cases i (length r)) as [Hi|Hi].
        * rewrite (nth_indep _ zero (mul zero zero)) by (rewrite map_length; auto). rewrite (map_nth (fun a => mul a zero)). apply (mul_zero_r _ _ _ L).
        * apply nth_overflow. rewrite map_length. auto.
  Qed.

  (** ** Sharding *)
  Lemma nth_map_block : forall k r (w : list (list A)) i, nth i (map (block k r) w) [] = block k r (nth i w []).
  Proof. intros. rewrite <- (block_nil k r) at 1. apply map_nth. Qed.
  Lemma concat_map_map : forall {T U} (f : T -> U) ls, concat (map (map f) ls) = map f (concat ls).
  Proof. intros. symmetry. apply concat_map. Qed.
  Lemma copy2_eq : forall s r n k (w : list (list A)), length w = n * k -> copy_weight2 s r n w = map (block s r) w.
  Proof. intros s r n k w H. unfold copy_weight2. rewrite concat_map_map, (view_eq _ _ _ H), concat_blocks; auto. Qed.
  Lemma shape_copy2 : forall size s r n k (w : list (list A)), r < size -> shape (n * k) (size * s) w -> shape (n * k) s (map (block s r) w).
  Proof.
    intros size s r n k w R [H F]. split. { now rewrite map_length. } apply Forall_forall. intros l I. apply in_map_iff in I. destruct I as [row [<- I]]. rewrite Forall_forall in F.
    apply length_block. rewrite (F row I). nia.
  Qed.
  Lemma copy1_blocks : forall size s r n (w : list (list A)), r < size -> length w = n * (size * s) -> Forall (fun l => length l = s) (map (fun e => block s r (block (size * s) e w)) (seq 0 n)).
  Proof.
    intros size s r n w R H. apply Forall_forall. intros l I. apply in_map_iff in I. destruct I as [e [<- I]]. apply in_seq in I. apply length_block. rewrite length_block; [nia|]. rewrite H. nia.
  Qed.
  Lemma copy1_eq : forall size s r n (w : list (list A)), length w = n * (size * s) -> copy_weight1 s r n w = concat (map (fun e => block s r (block (size * s) e w)) (seq 0 n)).
  Proof. intros size s r n w H. unfold copy_weight1. now rewrite (view_eq _ _ _ H), map_map. Qed.
  Lemma nth_copy1 : forall size s r n (w : list (list A)) e j, r < size -> length w = n * (size * s) -> e < n -> j < s -> nth (e * s + j) (copy_weight1 s r n w) [] = nth (e * (size * s) + (r * s + j)) w [].
  Proof.
    intros size s r n w e j R H E J. rewrite (copy1_eq size) by auto. rewrite <- nth_block by auto. rewrite block_concat; [|now apply copy1_blocks|now rewrite map_length, seq_length].
    rewrite (nth_indep _ [] (block s r (block (size * s) 0 w))) by now rewrite map_length, seq_length.
    rewrite (map_nth (fun e => block s r (block (size * s) e w))), seq_nth by auto. cbn [Nat.add]. rewrite nth_block by auto. apply nth_block. nia.
  Qed.
  Lemma shape_copy1 : forall size s r n k (w : list (list A)), r < size -> shape (n * (size * s)) k w -> shape (n * s) k (copy_weight1 s r n w).
  Proof.
    intros size s r n k w R [H F]. rewrite (copy1_eq size) by auto. split.
    - rewrite (length_concat_const _ s) by now apply copy1_blocks. now rewrite map_length, seq_length.
    - apply Forall_forall. intros l I. apply in_concat in I. destruct I as [b [Ib I]]. apply in_map_iff in Ib. destruct Ib as [e [<- _]]. rewrite Forall_forall in F. apply F.
      unfold block in I. assert (forall m (l' : list (list A)), In l (firstn m l') -> In l l') as A1 by (intros m l' X; rewrite <- (firstn_skipn m l'); apply in_or_app; auto).
      assert (forall m (l' : list (list A)), In l (skipn m l') -> In l l') as A2 by (intros m l' X; rewrite <- (firstn_skipn m l'); apply in_or_app; auto). eauto 6.
  Qed.

  Definition cut_experts (s r : nat) (e : @experts A) : @experts A :=
    Experts (num e) (model_dim e) s (copy_weight2 s r (num e) (gate e)) (copy_weight2 s r (num e) (inner e)) (copy_weight1 s r (num e) (output e)).
  Definition cut_glu (s r : nat) (g : @glu A) : @glu A := Glu (s_dim g) s (block s r (s_gate g)) (block s r (s_in g)) (map (block s r) (s_out g)).
  Definition cut (size r : nat) (m : @moe A) : @moe A :=
    Moe (router m) (cut_experts (inner_dim (moe_experts m) / size) r (moe_experts m)) (option_map (fun g => cut_glu (s_inner g / size) r g) (shared m)).
  Definition divides (size : nat) (m : @moe A) : Prop := inner_dim (moe_experts m) mod size = 0 /\ forall g, shared m = Some g -> s_inner g mod size = 0.

  Lemma shard_moe_some : forall size r m, divides size m -> shard_moe size r m = Some (cut size r m).
  Proof.
    intros size r m [D E]. unfold shard_moe, shard_experts, shard_glu, cut. rewrite D. cbn. destruct (shared m) as [g|]; cbn; auto. rewrite (E g) by auto. reflexivity.
  Qed.
  Lemma shard_moe_none : forall size r m, ~ divides size m -> shard_moe size r m = None.
  Proof.
    intros size r m D. unfold shard_moe, shard_experts, shard_glu, divides in *. destruct (inner_dim (moe_experts m) mod size =? 0) eqn:X; cbn.
    - apply Nat.eqb_eq in X. destruct (shared m) as [g|]; cbn.
      + destruct (s_inner g mod size =? 0) eqn:Y; cbn; auto. exfalso. apply D. split; auto. intros g' [= <-]. now apply Nat.eqb_eq.
      + exfalso. apply D. split; auto. discriminate.
    - destruct (shared m) as [g|]; cbn; auto. destruct (s_inner g mod size =? 0); cbn; auto.
  Qed.
  Lemma div_eq : forall a size, size <> 0 -> a mod size = 0 -> a = size * (a / size).
  Proof. intros a size Z D. rewrite (Nat.div_mod a size) at 1 by auto. lia. Qed.
  Lemma cut_shaped : forall size r m, r < size -> divides size m -> well_shaped m -> well_shaped (cut size r m).
  Proof.
    intros size r m R [D E] W. set (s := inner_dim (moe_experts m) / size). assert (I : inner_dim (moe_experts m) = size * s) by (apply div_eq; auto; lia).
    destruct (ws_gate _ W) as [G GF], (ws_inner _ W) as [N NF]. pose proof (ws_output _ W) as O. cbn zeta in *. rewrite I in *.
    constructor; cbn; fold s.
    - rewrite (copy2_eq _ _ _ _ _ G). apply (shape_copy2 size); auto. now split.
    - rewrite (copy2_eq _ _ _ _ _ N). apply (shape_copy2 size); auto. now split.
    - apply (shape_copy1 size); auto.
    - intros g' X. destruct (shared m) as [g|] eqn:S; [|discriminate]. injection X as <-. destruct (ws_shared _ W g S) as [Z [[G1 G2] [[I1 I2] [O1 O2]]]].
      assert (J : s_inner g = size * (s_inner g / size)) by (apply div_eq; auto; lia). set (t := s_inner g / size) in *. cbn. split; auto.
      assert (B : forall w : list (list A), length w = s_inner g -> Forall (fun l => length l = s_dim g) w -> shape t (s_dim g) (block t r w)).
      { intros w Hl HF. split. { apply length_block. rewrite Hl, J. nia. } apply Forall_forall. intros l Il. rewrite Forall_forall in HF. apply HF. unfold block in Il.
        rewrite <- (firstn_skipn (r * t) w). apply in_or_app. right. rewrite <- (firstn_skipn t (skipn (r * t) w)). apply in_or_app. auto. }
      repeat split; try (now apply B); try (rewrite map_length; auto).
      apply Forall_forall. intros l Il. apply in_map_iff in Il. destruct Il as [row [<- Il]]. rewrite Forall_forall in O2. apply length_block. rewrite (O2 row Il), J. nia.
  Qed.
  Lemma expert_cut : forall size e n x k, size <> 0 -> inner_dim e mod size = 0 -> shape (num e * model_dim e) (inner_dim e) (gate e) -> shape (num e * model_dim e) (inner_dim e) (inner e) ->
    shape (num e * inner_dim e) (model_dim e) (output e) -> n < num e ->
    sum size (fun r => expert_out zero add mul act (cut_experts (inner_dim e / size) r e) n x k) = expert_out zero add mul act e n x k.
  Proof.
    intros size e n x k Z D [G _] [I _] [O _] Hn. set (s := inner_dim e / size). assert (E : inner_dim e = size * s) by (apply div_eq; auto).
    unfold expert_out at 2. rewrite E. rewrite <- sum_blocks. apply sum_ext. intros r R. unfold expert_out. cbn. apply sum_ext. intros j J.
    rewrite (nth_copy1 size) by (auto; now rewrite <- E). rewrite (copy2_eq _ _ _ _ _ G), (copy2_eq _ _ _ _ _ I). f_equal. f_equal. 1: f_equal.
    all: apply sum_ext; intros i Hi; rewrite nth_map_block, nth_block by auto; reflexivity.
  Qed.
  Lemma shared_cut : forall size g x k, size <> 0 -> s_inner g mod size = 0 -> sum size (fun r => shared_out zero add mul act (cut_glu (s_inner g / size) r g) x k) = shared_out zero add mul act g x k.
  Proof.
    intros size g x k Z D. set (s := s_inner g / size). assert (E : s_inner g = size * s) by (apply div_eq; auto).
    unfold shared_out at 2. rewrite E. rewrite <- sum_blocks. apply sum_ext. intros r R. unfold shared_out. cbn. apply sum_ext. intros j J.
    rewrite nth_map_block, !nth_block by auto. reflexivity.
  Qed.
  Lemma all_some_map : forall {T U} (f : T -> option U) (g : T -> U) l, (forall x, f x = Some (g x)) -> all_some (map f l) = Some (map g l).
  Proof. induction l; intros H; cbn; auto. rewrite H, IHl by auto. reflexivity. Qed.
  Lemma fold_map_zip : forall {K} (G : K -> list (list A)) ks o, fold_left (zip_with vadd) (map G ks) o = fold_left (fun o k => zip_with vadd o (G k)) ks o.
  Proof. induction ks; intros o; cbn; auto. Qed.
  Lemma total_eq : forall (T : nat -> list A -> nat -> A) n size (x : list (list A)), size <> 0 ->
    total add (map (fun r => map (fun row => map (T r row) (seq 0 n)) x) (seq 0 size)) = map (fun row => map (fun k => sum size (fun r => T r row k)) (seq 0 n)) x.
  Proof.
    intros T n [|size] x Z; [contradiction|]. cbn [seq map total]. rewrite fold_map_zip, fold_rows. apply map_ext. intros row. rewrite fold_elems. apply map_ext. intros k.
    change (add (T 0 row k) (lsum (fun r => T r row k) (seq 1 size))) with (lsum (fun r => T r row k) (seq 0 (S size))). apply lsum_seq.
  Qed.
  Lemma sharded_spec : forall size m x, size <> 0 -> divides size m -> well_shaped m -> choice topk (num (moe_experts m)) -> Forall (fun r => length r = model_dim (moe_experts m)) x ->
    sharded_forward zero add mul act sigmoid topk size m x = Some (moe_forward zero add mul act sigmoid topk m x).
  Proof.
    intros size m x Z D W C F. unfold sharded_forward. rewrite (all_some_map _ (fun r => cut size r m)) by (intros; now apply shard_moe_some). cbn [option_map]. f_equal.
    rewrite map_map. rewrite (forward_spec m x W C F). 
    rewrite (map_ext_in _ (fun r => map (token_out zero add mul act sigmoid topk (cut size r m)) x)).
    2: { intros r R. apply in_seq in R. apply forward_spec; auto. apply cut_shaped; auto. lia. }
    unfold token_out. cbn [moe_experts cut model_dim cut_experts].
    rewrite (total_eq (fun r row k => add (match shared (cut size r m) with Some g => shared_out zero add mul act g row k | None => zero end)
       (sum_over (topk (all_logits zero add mul (cut size r m) row)) (fun n => expert_out zero add mul act (cut_experts (inner_dim (moe_experts m) / size) r (moe_experts m)) n
           (map (fun a => mul a (sigmoid (logit zero add mul (cut size r m) row n))) row) k)))) by auto.
    apply map_ext. intros row. apply map_ext. intros k. rewrite sum_add. f_equal.
    - cbn [shared cut]. destruct (shared m) as [g|] eqn:S; cbn [option_map]; [|now apply sum_zero]. apply shared_cut; auto. now apply D.
    - assert (EL : forall r, all_logits zero add mul (cut size r m) row = all_logits zero add mul m row) by reflexivity.
      rewrite (sum_ext _ (fun r => sum_over (topk (all_logits zero add mul m row)) (fun n => expert_out zero add mul act (cut_experts (inner_dim (moe_experts m) / size) r (moe_experts m)) n
           (map (fun a => mul a (sigmoid (logit zero add mul m row n))) row) k))) by (intros; reflexivity).
      rewrite sum_sum_over. apply sum_over_ext. intros n In_. apply expert_cut; auto; try apply D; try apply W.
      destruct (C (all_logits zero add mul m row)) as [_ B]; auto. unfold all_logits. now rewrite map_length, seq_length.
  Qed.
End P.

(** Every token gets the output of the shared expert, and those of exactly the experts that were chosen for it, each applied to the token weighted by the sigmoid of its score: the
    experts that were not chosen contribute nothing, and no token is mixed with another *)
Theorem C73_forward : forall {A} (zero : A) add mul act sigmoid topk m x, laws zero add mul -> well_shaped m -> choice topk (num (moe_experts m)) ->
  Forall (fun r => length r = model_dim (moe_experts m)) x ->
  moe_forward zero add mul act sigmoid topk m x = map (token_out zero add mul act sigmoid topk m) x.
Proof. intros. now apply forward_spec. Qed.
Print Assumptions C73_forward.

(** Sharding over any number of processes is possible exactly if it divides the inner dimensions, and then each process has the output of the model that is not sharded *)
Theorem C73_sharded : forall {A} (zero : A) add mul act sigmoid topk size m x, laws zero add mul -> well_shaped m -> choice topk (num (moe_experts m)) ->
  Forall (fun r => length r = model_dim (moe_experts m)) x -> size <> 0 ->
  let possible := inner_dim (moe_experts m) mod size = 0 /\ forall g, shared m = Some g -> s_inner g mod size = 0 in
  (possible -> sharded_forward zero add mul act sigmoid topk size m x = Some (map (token_out zero add mul act sigmoid topk m) x)) /\
  (~ possible -> sharded_forward zero add mul act sigmoid topk size m x = None).
Proof.
  intros A zero add mul act sigmoid topk size m x L W C F Z possible. split; intros H.
  - rewrite <- forward_spec by auto. now apply sharded_spec.
  - unfold sharded_forward. destruct size as [|size]; [contradiction|]. cbn [seq map]. rewrite (shard_moe_none (S size) 0 m H). reflexivity.
Qed.
Print Assumptions C73_sharded.

(** Two experts and a shared one, over natural numbers: the first token goes to expert 1, the second to expert 0; two processes compute the same *)
Definition ex_topk (l : list nat) : list nat := if nth 0 l 0 <? nth 1 l 0 then [1] else [0].
Definition ex_moe : @moe nat :=
  Moe [[0; 1]; [1; 0]] (Experts 2 2 2 [[1; 2]; [0; 1]; [3; 1]; [1; 0]] [[1; 1]; [2; 0]; [0; 1]; [1; 2]] [[1; 0]; [2; 1]; [1; 1]; [0; 3]])
      (Some (Glu 2 4 [[1; 0]; [0; 1]; [1; 1]; [2; 0]] [[1; 1]; [0; 1]; [1; 0]; [0; 2]] [[1; 0; 2; 0]; [0; 1; 0; 3]])).
Example C73_case : laws 0 Nat.add Nat.mul /\ well_shaped ex_moe /\ choice ex_topk 2 /\
  moe_forward 0 Nat.add Nat.mul (fun a => a) S ex_topk ex_moe [[2; 1]; [1; 3]] = [[81; 304]; [284; 125]] /\
  sharded_forward 0 Nat.add Nat.mul (fun a => a) S ex_topk 2 ex_moe [[2; 1]; [1; 3]] = Some [[81; 304]; [284; 125]] /\
  sharded_forward 0 Nat.add Nat.mul (fun a => a) S ex_topk 3 ex_moe [[2; 1]; [1; 3]] = None.
Proof.
  split; [constructor; intros; lia|]. split.
  { constructor; cbn; unfold shape; intros; repeat (split || constructor). all: try (injection H as <-; cbn; repeat (split || constructor)). }
  split. { intros l _. unfold ex_topk. destruct (_ <? _); (split; [repeat constructor; cbn; tauto|cbn; intros n [<-|[]]; lia]). }
  repeat split; vm_compute; reflexivity.
Qed.
