(** Relative positions (C91, C92). *)

Require Import List Arith ZArith Bool Reals Lia Lra.
From Verif Require Import Rel_Model Rel_Spec.
Import ListNotations.

(** ** Flat lists *)
Lemma nth_concat : forall {A} (n : nat) (m : list (list A)) i j d, Forall (fun r => length r = n) m -> i < length m -> j < n ->
  nth (i * n + j) (concat m) d = nth j (nth i m []) d.
Proof.
  intros A n. induction m as [|r m IH]; intros i j d F Li Lj; [cbn in Li; lia|]. inversion F as [|? ? Fr Fm]; subst. cbn [concat].
  destruct i as [|i].
  - cbn. apply app_nth1. exact Lj.
  - rewrite app_nth2 by (cbn; lia). cbn [nth]. replace (S i * length r + j - length r) with (i * length r + j) by (cbn; lia).
    apply IH; auto. cbn in Li. lia.
Qed.

Lemma reshape_length : forall {A} rows cols (l : list A), length (reshape rows cols l) = rows.
Proof. intros A. induction rows as [|rows IH]; intros; cbn; auto. Qed.

Lemma concat_reshape : forall {A} rows cols (l : list A), length l = rows * cols -> concat (reshape rows cols l) = l.
Proof.
  intros A. induction rows as [|rows IH]; intros cols l L; cbn.
  - destruct l; [reflexivity|discriminate].
  - rewrite IH; [apply firstn_skipn|]. rewrite skipn_length. cbn in L. lia.
Qed.

Lemma reshape_rows : forall {A} rows cols (l : list A), length l = rows * cols -> Forall (fun r => length r = cols) (reshape rows cols l).
Proof.
  intros A. induction rows as [|rows IH]; intros cols l L; cbn; constructor.
  - rewrite firstn_length. cbn in L. lia.
  - apply IH. rewrite skipn_length. cbn in L. lia.
Qed.

Lemma nth_reshape : forall {A} rows cols (l : list A) i j d, length l = rows * cols -> i < rows -> j < cols ->
  nth j (nth i (reshape rows cols l) []) d = nth (i * cols + j) l d.
Proof.
  intros A rows cols l i j d L Li Lj. rewrite <- (nth_concat cols) by (rewrite ?reshape_length; auto using reshape_rows).
  rewrite concat_reshape by exact L. reflexivity.
Qed.

Lemma concat_length : forall {A} n (m : list (list A)), Forall (fun r => length r = n) m -> length (concat m) = length m * n.
Proof. intros A n m F. induction F as [|r m R F IH]; cbn; [reflexivity|]. rewrite app_length, IH, R. reflexivity. Qed.

Lemma nth_firstn_lt : forall {A} n (l : list A) i d, i < n -> nth i (firstn n l) d = nth i l d.
Proof. intros A. induction n as [|n IH]; intros [|x l] [|i] d L; try lia; cbn; auto. apply IH. lia. Qed.

Lemma nth_skipn_add : forall {A} n (l : list A) i d, nth i (skipn n l) d = nth (n + i) l d.
Proof. intros A. induction n as [|n IH]; intros [|x l] i d; cbn; auto. destruct i; reflexivity. Qed.

Lemma nth_map_seq : forall {A} (f : nat -> A) n i d, i < n -> nth i (map f (seq 0 n)) d = f i.
Proof. intros A f n i d L. rewrite nth_indep with (d' := f 0) by (rewrite map_length, seq_length; exact L). rewrite map_nth, seq_nth by exact L. reflexivity. Qed.

(** ** C91: the encodings *)
Lemma freqs_nth : forall {E} (encode : Z -> E) m r d, r < 2 * m - 1 ->
  nth r (freqs encode m) d = encode (Z.of_nat m - 1 - Z.of_nat r)%Z.
Proof.
  intros E encode m r d L. unfold freqs. destruct (Nat.lt_ge_cases r m) as [H|H].
  - rewrite app_nth1 by (rewrite map_length, rev_length, seq_length; exact H).
    rewrite nth_indep with (d' := encode (Z.of_nat 0)) by (rewrite map_length, rev_length, seq_length; exact H).
    rewrite map_nth with (f := fun s => encode (Z.of_nat s)). rewrite rev_nth by (rewrite seq_length; exact H). rewrite seq_length, seq_nth by lia.
    f_equal. lia.
  - rewrite app_nth2 by (rewrite map_length, rev_length, seq_length; exact H). rewrite map_length, rev_length, seq_length.
    destruct m as [|m]; [lia|]. cbn [seq tl].
    rewrite nth_indep with (d' := encode (- Z.of_nat 0)%Z) by (rewrite map_length, seq_length; lia).
    rewrite map_nth with (f := fun s => encode (- Z.of_nat s)%Z), seq_nth by lia. f_equal. lia.
Qed.

(** Up to the maximal length, the rows for sequences of [n] elements encode the
    positions from [n - 1] down to [1 - n]. *)
Theorem C91_encodings : forall (E : Type) (encode : Z -> E) max n, 1 <= n <= max ->
  pos_encoding encode max n = Some (map (fun r => encode (Z.of_nat n - 1 - Z.of_nat r)%Z) (seq 0 (2 * n - 1))).
Proof.
  intros E encode max n H. unfold pos_encoding. assert (X : (max <? n) = false) by (apply Nat.ltb_ge; lia). rewrite X. f_equal.
  replace (max + n - 1 - (max - n)) with (2 * n - 1) by lia.
  assert (LF : length (freqs encode max) = 2 * max - 1).
  { unfold freqs. rewrite app_length, !map_length, rev_length, seq_length. destruct max; [lia|]. cbn [seq tl]. rewrite seq_length. lia. }
  apply nth_ext with (d := encode 0%Z) (d' := encode 0%Z).
  - rewrite firstn_length, skipn_length, LF, map_length, seq_length. lia.
  - intros r Hr. rewrite firstn_length, skipn_length, LF in Hr. rewrite nth_firstn_lt, nth_skipn_add by lia.
    rewrite freqs_nth by lia. rewrite nth_map_seq by lia. f_equal. lia.
Qed.

(** Longer sequences are refused. *)
Theorem C91_too_long : forall (E : Type) (encode : Z -> E) max n, max < n -> pos_encoding encode max n = None.
Proof. intros E encode max n H. unfold pos_encoding. apply Nat.ltb_lt in H. rewrite H. reflexivity. Qed.

(** ** C91: the shift *)
Lemma shift_spec : forall {N} (zero : N) w (bd : list (list N)) i j d, Forall (fun r => length r = w) bd ->
  i < length bd -> j < length bd -> length bd <= w ->
  length bd - i + j <= w ->
  nth j (nth i (shift_bd zero bd) []) d = nth (length bd - 1 - i + j) (nth i bd []) d.
Proof.
  intros N zero w bd i j d F Li Lj Lw Lk. unfold shift_bd. set (s := length bd) in *.
  assert (W : length (hd [] bd) = w) by (destruct F; [cbn in Li; lia|assumption]). rewrite W.
  set (x1 := map (fun row => zero :: row) bd).
  assert (F1 : Forall (fun r => length r = S w) x1) by (unfold x1; apply Forall_map; eapply Forall_impl; [|exact F]; cbn; intros; f_equal; assumption).
  assert (L1 : length (concat x1) = S w * s) by (rewrite (concat_length (S w)) by exact F1; unfold x1; rewrite map_length; fold s; lia).
  set (x2 := reshape (S w) s (concat x1)).
  assert (C2 : concat x2 = concat x1) by (apply concat_reshape; exact L1).
  assert (E2 : concat x2 = nth 0 x2 [] ++ concat (tl x2)) by (unfold x2; reflexivity).
  assert (L20 : length (nth 0 x2 []) = s) by (unfold x2; cbn [reshape nth]; rewrite firstn_length, L1; lia).
  assert (L3 : length (concat (tl x2)) = s * w) by (apply (f_equal (@length N)) in E2; rewrite C2, app_length, L20, L1 in E2; lia).
  assert (Z : forall (l : list (list N)) k, nth k (map (firstn s) l) [] = firstn s (nth k l [])).
  { intros l k. rewrite <- (map_nth (firstn s)), firstn_nil. reflexivity. }
  rewrite Z, nth_firstn_lt by exact Lj. rewrite nth_reshape by (auto; lia).
  assert (K : nth (i * w + j) (concat (tl x2)) d = nth (s + (i * w + j)) (concat x1) d).
  { rewrite <- C2, E2, app_nth2 by lia. f_equal. lia. }
  rewrite K. replace (s + (i * w + j)) with (i * S w + (s - i + j)) by nia.
  rewrite (nth_concat (S w)); [|exact F1|unfold x1; rewrite map_length; exact Li|lia].
  assert (Y : nth i x1 [] = zero :: nth i bd []).
  { unfold x1. rewrite nth_indep with (d' := zero :: []) by (rewrite map_length; exact Li). rewrite map_nth with (f := fun row => zero :: row). reflexivity. }
  rewrite Y. replace (s - i + j) with (S (s - 1 - i + j)) by lia. reflexivity.
Qed.

Lemma shift_dims : forall {N} (zero : N) w (bd : list (list N)), Forall (fun r => length r = w) bd -> length bd <= w -> bd <> [] ->
  length (shift_bd zero bd) = length bd /\ Forall (fun r => length r = length bd) (shift_bd zero bd).
Proof.
  intros N zero w bd F L NE. unfold shift_bd. rewrite map_length, reshape_length. split; [reflexivity|].
  assert (W : length (hd [] bd) = w) by (destruct F; [congruence|assumption]). rewrite W. set (s := length bd) in *.
  set (x1 := map (fun row => zero :: row) bd).
  assert (F1 : Forall (fun r => length r = S w) x1) by (unfold x1; apply Forall_map; eapply Forall_impl; [|exact F]; cbn; intros; f_equal; assumption).
  assert (L1 : length (concat x1) = S w * s) by (rewrite (concat_length (S w)) by exact F1; unfold x1; rewrite map_length; fold s; lia).
  assert (L3 : length (concat (tl (reshape (S w) s (concat x1)))) = s * w).
  { pose proof (concat_reshape (S w) s _ L1) as C2. cbn [reshape] in *. cbn [tl concat] in *.
    apply (f_equal (@length N)) in C2. rewrite app_length, firstn_length, L1 in C2. lia. }
  apply Forall_map. eapply Forall_impl; [|exact (reshape_rows s w _ L3)]. cbn. intros r R. rewrite firstn_length, R. lia.
Qed.

(** The score that is added for a query and a key is that of the encoding of
    their distance, for all lengths up to the maximal one. *)
Theorem C91_distances : forall (N Q E : Type) (zero : N) (product : Q -> E -> N) (encode : Z -> E) max (q : list Q),
  1 <= length q <= max ->
  exists scores, position_scores zero product encode max q (length q) = Some scores
    /\ length scores = length q
    /\ forall i x, nth_error q i = Some x ->
         nth_error scores i = Some (map (fun j => product x (encode (Z.of_nat i - Z.of_nat j)%Z)) (seq 0 (length q))).
Proof.
  intros N Q E zero product encode max q H. unfold position_scores. rewrite C91_encodings by exact H.
  set (r := map _ (seq 0 (2 * length q - 1))). set (bd := map (fun x => map (product x) r) q).
  assert (Lr : length r = 2 * length q - 1) by (unfold r; rewrite map_length, seq_length; reflexivity).
  assert (F : Forall (fun row => length row = 2 * length q - 1) bd).
  { unfold bd. apply Forall_map. apply Forall_forall. intros x _. rewrite map_length. exact Lr. }
  assert (Lb : length bd = length q) by (unfold bd; apply map_length).
  assert (NE : bd <> []) by (intro X; rewrite X in Lb; cbn in Lb; lia).
  destruct (shift_dims zero _ bd F ltac:(lia) NE) as [D1 D2].
  exists (shift_bd zero bd). split.
  { unfold broadcast. assert (X : length (hd [] (shift_bd zero bd)) = length q).
    { destruct (shift_bd zero bd) as [|row rows]; [cbn in D1; lia|]. cbn. rewrite (Forall_inv D2). exact Lb. }
    rewrite X, Nat.eqb_refl. reflexivity. }
  split; [lia|]. intros i x Hx. assert (Li : i < length q) by (apply nth_error_Some; congruence).
  rewrite (nth_error_nth' _ []) by lia. f_equal. 
  apply nth_ext with (d := zero) (d' := zero).
  - rewrite map_length, seq_length. rewrite Forall_forall in D2. rewrite (D2 (nth i (shift_bd zero bd) [])) by (apply nth_In; lia). exact Lb.
  - intros j Hj. rewrite Forall_forall in D2. rewrite (D2 (nth i (shift_bd zero bd) [])) in Hj by (apply nth_In; lia).
    rewrite (shift_spec zero (2 * length q - 1)) by (auto; lia). rewrite nth_map_seq by lia.
    assert (B : nth i bd [] = map (product x) r).
    { unfold bd. apply nth_error_nth. rewrite nth_error_map, Hx. reflexivity. }
    rewrite B. rewrite nth_indep with (d' := product x (encode 0%Z)) by (rewrite map_length, Lr; lia).
    rewrite map_nth. f_equal. unfold r. rewrite nth_map_seq by lia. f_equal. lia.
Qed.

Example C91_distances_ex :
  position_scores 99%Z (fun x e => (100 * x + e)%Z) (fun z => z) 5 [1; 2; 3]%Z 3
  = Some [[100; 99; 98]; [201; 200; 199]; [302; 301; 300]]%Z.
Proof. reflexivity. Qed.

(** A single query over several keys, as in the decoding of one element after the
    other, is scored with the greatest distance for all keys. *)
Theorem C91_single_query_refuted : forall (N Q E : Type) (zero : N) (product : Q -> E -> N) (encode : Z -> E) max n (x : Q),
  2 <= n <= max ->
  position_scores zero product encode max [x] n = Some [repeat (product x (encode (Z.of_nat n - 1)%Z)) n].
Proof.
  intros N Q E zero product encode max n x H. unfold position_scores. rewrite C91_encodings by lia.
  destruct n as [|n]; [lia|]. replace (2 * S n - 1) with (S (2 * n)) by lia. cbn [seq map]. set (r := map _ (map _ (seq 1 (2 * n)))).
  assert (S : exists c, shift_bd zero [product x (encode (Z.of_nat (S n) - 1 - Z.of_nat 0)%Z) :: r] = [[c]] /\ c = product x (encode (Z.of_nat (S n) - 1)%Z)).
  { exists (product x (encode (Z.of_nat (S n) - 1 - Z.of_nat 0)%Z)). split; [|do 2 f_equal; lia]. unfold shift_bd. cbn [length hd map concat app].
    rewrite app_nil_r. cbn [reshape tl firstn skipn]. set (c := product x _). clearbody c.
    assert (X : concat (reshape (S (length r)) 1 (c :: r)) = c :: r) by (apply concat_reshape; cbn; lia). cbn [reshape skipn firstn] in X |- *.
    rewrite X. reflexivity. }
  destruct S as (c & S1 & S2). rewrite S1. unfold broadcast. cbn [hd length map].
  destruct (Nat.eqb_spec 1 (S n)) as [X|X]; [lia|]. cbn [Nat.eqb]. rewrite S2. reflexivity.
Qed.

(** ** C91: clipped distances *)
Theorem C91_clipped : forall max_lhs max_rhs q_len kv_len, (0 <= max_lhs)%Z -> (0 <= max_rhs)%Z -> 1 <= q_len <= kv_len ->
  length (shaw_indices max_lhs max_rhs q_len kv_len) = q_len /\
  forall i j, i < q_len -> j < kv_len ->
    let distance := (Z.of_nat j - Z.of_nat (kv_len - q_len + i))%Z in
    let index := nth j (nth i (shaw_indices max_lhs max_rhs q_len kv_len) []) 0%Z in
    (0 <= index < max_lhs + 1 + max_rhs)%Z
    /\ ((- max_lhs <= distance <= max_rhs)%Z -> index = (distance + max_lhs)%Z)
    /\ ((distance < - max_lhs)%Z -> index = 0%Z) /\ ((max_rhs < distance)%Z -> index = (max_lhs + max_rhs)%Z).
Proof.
  intros l r n m Hl Hr H. unfold shaw_indices, last_rows. assert (X : (n =? 0) = false) by (apply Nat.eqb_neq; lia). rewrite X.
  assert (L : length (relative_indices l r m) = m) by (unfold relative_indices; rewrite map_length, seq_length; reflexivity).
  rewrite L, skipn_length, L. split; [lia|]. intros i j Hi Hj. cbv zeta. rewrite nth_skipn_add. unfold relative_indices.
  rewrite nth_map_seq by lia. rewrite nth_map_seq by lia. unfold clamp. lia.
Qed.

Example C91_clipped_ex : shaw_indices 2 1 2 4 = [[0; 1; 2; 3]; [0; 0; 1; 2]]%Z.
Proof. reflexivity. Qed.

(** ** C92: chunked local attention *)

Lemma rsum_app : forall a b, rsum (a ++ b) = (rsum a + rsum b)%R.
Proof. induction a as [|x a IH]; intro b; unfold rsum in *; cbn; [ring|]. rewrite IH. ring. Qed.

(** Sums over ranges of integers. *)
Definition zsum (a : Z) (n : nat) (h : Z -> R) : R := rsum (map (fun i => h (a + Z.of_nat i)%Z) (seq 0 n)).

Lemma zsum_split : forall h n m a, zsum a (n + m) h = (zsum a n h + zsum (a + Z.of_nat n) m h)%R.
Proof.
  intros h n m a. unfold zsum. rewrite seq_app, map_app, rsum_app. f_equal. cbn [Nat.add]. f_equal.
  replace (seq n m) with (map (Nat.add n) (seq 0 m)).
  - rewrite map_map. apply map_ext. intro i. f_equal. lia.
  - clear. revert n. induction m as [|m IH]; intro n; [reflexivity|]. cbn. f_equal; [lia|]. rewrite <- (IH (S n)), <- seq_shift, map_map. apply map_ext. intro; lia.
Qed.

Lemma zsum_zero : forall h n a, (forall i, i < n -> h (a + Z.of_nat i)%Z = 0%R) -> zsum a n h = 0%R.
Proof.
  intros h. induction n as [|n IH]; intros a H; [reflexivity|]. replace (S n) with (n + 1) by lia. rewrite zsum_split, IH by (intros; apply H; lia).
  unfold zsum, rsum. cbn. rewrite Z.add_0_r, H by lia. ring.
Qed.

Lemma zsum_support : forall h a n lo hi, (a <= lo)%Z -> (lo <= hi)%Z -> (hi <= a + Z.of_nat n)%Z ->
  (forall z, (z < lo \/ hi <= z)%Z -> h z = 0%R) -> zsum a n h = zsum lo (Z.to_nat (hi - lo)) h.
Proof.
  intros h a n lo hi H1 H2 H3 Z0.
  replace n with (Z.to_nat (lo - a) + (Z.to_nat (hi - lo) + (n - Z.to_nat (lo - a) - Z.to_nat (hi - lo)))) by lia.
  rewrite zsum_split, zsum_split. rewrite (zsum_zero h (Z.to_nat (lo - a))) by (intros; apply Z0; lia).
  rewrite (zsum_zero h (n - _ - _)) by (intros; apply Z0; lia).
  replace (a + Z.of_nat (Z.to_nat (lo - a)))%Z with lo by lia. lra.
Qed.

Section Local.
  Context {Q K : Type}.
  Variables (zero_q : Q) (zero_k : K).
  Variable content : Q -> K -> R.
  Variable position : Q -> Z -> R.
  Variable softcap : R -> R.
  Variables (W P F : nat).
  Hypothesis HW : 1 <= W.
  Notation C := (context_size W P F).

  Lemma nth_pad : forall {A} (z : A) x l r i, nth i (pad_dim1 z x l r) z = if (l <=? i) && (i <? l + length x) then nth (i - l) x z else z.
  Proof.
    intros A z x l r i. unfold pad_dim1. destruct (Nat.leb_spec l i) as [H|H]; cbn [andb].
    - rewrite app_nth2 by (rewrite repeat_length; exact H). rewrite repeat_length. destruct (Nat.ltb_spec i (l + length x)).
      + rewrite app_nth1 by lia. reflexivity.
      + rewrite app_nth2 by lia. apply nth_repeat.
    - rewrite app_nth1 by (rewrite repeat_length; exact H). apply nth_repeat.
  Qed.

  Lemma pad_length : forall {A} (z : A) x l r, length (pad_dim1 z x l r) = l + length x + r.
  Proof. intros. unfold pad_dim1. rewrite !app_length, !repeat_length. lia. Qed.

  Lemma context_nth : forall {A} (z : A) x u c, u * W < length x -> c < C ->
    nth c (nth u (extract_block_context W P F z x) []) z
    = if (P <=? u * W + c) && (u * W + c <? P + length x) then nth (u * W + c - P) x z else z.
  Proof.
    intros A z x u c Hu Hc. unfold extract_block_context, unfold. rewrite pad_length.
    assert (B : u < (P + length x + (F + W - 1) - C) / W + 1).
    { unfold context_size. replace (P + length x + (F + W - 1) - (W + P + F)) with (length x - 1) by lia.
      assert (u <= (length x - 1) / W) by (apply Nat.div_le_lower_bound; nia). lia. }
    rewrite nth_map_seq by exact B. rewrite nth_firstn_lt by exact Hc. rewrite nth_skipn_add. apply nth_pad.
  Qed.

  Lemma context_row_length : forall {A} (z : A) x u, u * W < length x -> length (nth u (extract_block_context W P F z x) []) = C.
  Proof.
    intros A z x u Hu. unfold extract_block_context, unfold. rewrite pad_length.
    assert (B : u < (P + length x + (F + W - 1) - C) / W + 1).
    { unfold context_size. replace (P + length x + (F + W - 1) - (W + P + F)) with (length x - 1) by lia.
      assert (u <= (length x - 1) / W) by (apply Nat.div_le_lower_bound; nia). lia. }
    rewrite nth_map_seq by exact B. rewrite firstn_length, skipn_length, pad_length. unfold context_size.
    apply Nat.min_l. nia.
  Qed.

  Lemma ceil : forall t, 1 <= t -> (t + W - 1) / W * W < t + W /\ t <= (t + W - 1) / W * W.
  Proof.
    intros t Ht. pose proof (Nat.div_mod (t + W - 1) W ltac:(lia)) as D. pose proof (Nat.mod_upper_bound (t + W - 1) W ltac:(lia)) as M.
    rewrite Nat.mul_comm in D. lia.
  Qed.

  Lemma block_nth : forall {A} (z : A) x t, t < length x ->
    nth (t mod W) (nth (t / W) (convert_to_block W z x) []) z = nth t x z
    /\ length (nth (t / W) (convert_to_block W z x) []) = W
    /\ t / W < length (convert_to_block W z x).
  Proof.
    intros A z x t Ht. unfold convert_to_block. destruct (ceil (length x) ltac:(lia)) as [C1 C2].
    set (U := (length x + W - 1) / W) in *.
    pose proof (Nat.div_mod t W ltac:(lia)) as D. pose proof (Nat.mod_upper_bound t W ltac:(lia)) as M.
    assert (TU : t / W < U) by nia.
    assert (L : length (pad_dim1 z x 0 (U * W - length x)) = U * W) by (rewrite pad_length; lia).
    split; [|split].
    - rewrite nth_reshape by (auto; lia). rewrite nth_pad. cbn [Nat.leb andb Nat.add]. replace (t / W * W + t mod W) with t by lia.
      apply Nat.ltb_lt in Ht. rewrite Ht. f_equal. lia.
    - pose proof (reshape_rows U W _ L) as R. rewrite Forall_forall in R. apply R. apply nth_In. rewrite reshape_length. exact TU.
    - rewrite reshape_length. exact TU.
  Qed.

  Lemma pos_length : length (pos_indices P F) = P + F + 1.
  Proof. unfold pos_indices. rewrite map_length, seq_length. reflexivity. Qed.

  Lemma shifted_nth : forall q_block w c, length q_block = W -> w < W -> w <= c <= w + (P + F) -> c < C ->
    nth c (nth w (relative_shift W C (P + F + 1) (map (fun q => map (position q) (pos_indices P F)) q_block)) []) 0%R
    = position (nth w q_block zero_q) (Z.of_nat P - Z.of_nat (c - w))%Z.
  Proof.
    intros qb w c Lq Lw Lc LC. unfold relative_shift. set (padded := map _ (map _ qb)).
    assert (Fp : Forall (fun r => length r = C + 1) padded).
    { unfold padded. rewrite map_map. apply Forall_map, Forall_forall. intros q _. rewrite app_length, map_length, repeat_length, pos_length.
      unfold context_size in *. lia. }
    assert (Lp : length padded = W) by (unfold padded; rewrite !map_length; exact Lq).
    assert (Lc' : length (concat padded) = W * (C + 1)) by (rewrite (concat_length (C + 1)) by exact Fp; rewrite Lp; reflexivity).
    rewrite nth_reshape; [|rewrite firstn_length, Lc'; nia|exact Lw|exact LC].
    rewrite nth_firstn_lt by nia. replace (w * C + c) with (w * (C + 1) + (c - w)) by lia.
    rewrite (nth_concat (C + 1)) by (auto; lia).
    assert (Y : nth w padded [] = map (position (nth w qb zero_q)) (pos_indices P F) ++ repeat 0%R (C + 1 - (P + F + 1))).
    { unfold padded. rewrite map_map. apply nth_error_nth. rewrite nth_error_map, (nth_error_nth' qb zero_q) by lia. reflexivity. }
    rewrite Y, app_nth1 by (rewrite map_length, pos_length; lia).
    rewrite nth_indep with (d' := position (nth w qb zero_q) 0%Z) by (rewrite map_length, pos_length; lia).
    rewrite map_nth. f_equal. unfold pos_indices. rewrite nth_map_seq by lia. reflexivity.
  Qed.

  (** If there is such a key, the output for an element of a sequence is the attention of its query over
      the valid keys from [P] elements before to [F] elements after it, with the
      encodings of their distances: how the sequence is cut into chunks does not
      matter. *)
  Theorem C92_local : forall (q : list Q) (k : list K) (v : list R) (valid : list bool) t,
    length k = length q -> length v = length q -> length valid = length q -> t < length q ->
    (exists s, attends P F (fun s => nth s valid false) t s = true) ->
    nth_error (forward zero_q zero_k content position softcap W P F q k v valid) t
    = Some (local_attention content position softcap P F (length q)
              (fun s => nth s q zero_q) (fun s => nth s k zero_k) (fun s => nth s v 0%R) (fun s => nth s valid false) t).
  Proof.
    intros q k v valid t Lk Lv Lm Ht Some_key. unfold forward.
    destruct (block_nth zero_q q t Ht) as (B1 & B2 & B3). set (u := t / W) in *. set (w := t mod W) in *.
    assert (Hw : w < W) by (apply Nat.mod_upper_bound; lia).
    assert (Et : t = u * W + w) by (unfold u, w; pose proof (Nat.div_mod t W ltac:(lia)); lia).
    set (blocks := map _ (seq 0 _)).
    assert (Fb : Forall (fun r => length r = W) blocks).
    { unfold blocks. apply Forall_map, Forall_forall. intros i _. unfold block_out. rewrite map_length, seq_length. reflexivity. }
    assert (Lb : length blocks = length (convert_to_block W zero_q q)) by (unfold blocks; rewrite map_length, seq_length; reflexivity).
    assert (Lc : length (concat blocks) = length blocks * W) by (apply concat_length; exact Fb).
    assert (Ls : t < length (concat blocks)) by (rewrite Lc, Lb; nia).
    rewrite (nth_error_nth' _ 0%R) by (rewrite firstn_length; lia). f_equal.
    rewrite nth_firstn_lt by exact Ht. rewrite Et at 1. rewrite (nth_concat W) by (auto; lia).
    unfold blocks. rewrite nth_map_seq by exact B3. unfold block_out. rewrite nth_map_seq by exact Hw. cbv zeta.
    assert (Ex : existsb (fun c => nth c (nth u (extract_block_context W P F false valid) []) false && local_causal_valid P F w c) (seq 0 C) = true).
    { destruct Some_key as (s & A). unfold attends in A. apply andb_prop in A as [A A3]. apply andb_prop in A as [A1 A2]. apply Nat.leb_le in A2, A3.
      assert (Hs : s < length valid) by (destruct (Nat.lt_ge_cases s (length valid)) as [|G]; [assumption|rewrite nth_overflow in A1 by exact G; discriminate]).
      apply existsb_exists. exists (s + P - u * W). assert (s + P - u * W < C) by (unfold context_size; lia). split; [apply in_seq; lia|].
      rewrite context_nth by (auto; lia). rewrite (proj2 (Nat.leb_le _ _)), (proj2 (Nat.ltb_lt _ _)) by lia. cbn [andb].
      replace (u * W + (s + P - u * W) - P) with s by lia. rewrite A1. unfold local_causal_valid.
      rewrite (proj2 (Nat.leb_le _ _)), (proj2 (Nat.leb_le _ _)) by lia. reflexivity. }
    rewrite Ex. clear Ex Some_key.
    rewrite B1. assert (Hu : u * W < length q) by lia.
    rewrite (context_row_length zero_k k u) by (rewrite Lk; exact Hu). rewrite pos_length.
    set (cond := fun z : Z => (0 <=? z)%Z && (z <? Z.of_nat (length q))%Z && nth (Z.to_nat z) valid false
                              && (Z.of_nat t <=? z + Z.of_nat P)%Z && (z <=? Z.of_nat t + Z.of_nat F)%Z).
    set (wz := fun z : Z => if cond z then exp (softcap (content (nth t q zero_q) (nth (Z.to_nat z) k zero_k) + position (nth t q zero_q) (Z.of_nat t - z)%Z)) else 0%R).
    set (base := (Z.of_nat (u * W) - Z.of_nat P)%Z).
    (* the weights of the model *)
    assert (Wt : forall c, c < C ->
      (if nth c (nth u (extract_block_context W P F false valid) []) false && local_causal_valid P F w c
       then exp (softcap (content (nth t q zero_q) (nth c (nth u (extract_block_context W P F zero_k k) []) zero_k)
              + nth c (nth w (relative_shift W C (P + F + 1) (map (fun q0 => map (position q0) (pos_indices P F)) (nth u (convert_to_block W zero_q q) []))) []) 0))
       else 0)%R = wz (base + Z.of_nat c)%Z).
    { intros c Hc. unfold wz. rewrite context_nth by (rewrite ?Lm; auto). rewrite Lm. unfold local_causal_valid.
      assert (Ec : cond (base + Z.of_nat c)%Z
        = (if (P <=? u * W + c) && (u * W + c <? P + length q) then nth (u * W + c - P) valid false else false)
          && ((w <=? c) && (c <=? w + (P + F)))).
      { unfold cond, base. destruct (Nat.leb_spec P (u * W + c)); cbn [andb].
        - replace (Z.to_nat (Z.of_nat (u * W) - Z.of_nat P + Z.of_nat c)) with (u * W + c - P) by lia.
          destruct (Nat.ltb_spec (u * W + c) (P + length q)).
          + rewrite (proj2 (Z.leb_le 0 _)) by lia. rewrite (proj2 (Z.ltb_lt _ _)) by lia. cbn [andb]. rewrite <- andb_assoc. f_equal. f_equal.
            * destruct (Nat.leb_spec w c); [apply Z.leb_le|apply Z.leb_gt]; lia.
            * destruct (Nat.leb_spec c (w + (P + F))); [apply Z.leb_le|apply Z.leb_gt]; lia.
          + rewrite (proj2 (Z.ltb_ge _ _)) by lia. rewrite !andb_false_r. reflexivity.
        - rewrite (proj2 (Z.leb_gt 0 _)) by lia. reflexivity. }
      rewrite Ec. clear Ec.
      destruct (Nat.leb_spec P (u * W + c)) as [H1|H1]; cbn [andb]; [|reflexivity].
      destruct (Nat.ltb_spec (u * W + c) (P + length q)) as [H2|H2]; cbn [andb]; [|reflexivity].
      destruct (nth (u * W + c - P) valid false); cbn [andb]; [|reflexivity].
      destruct (Nat.leb_spec w c) as [H3|H3]; cbn [andb]; [|reflexivity].
      destruct (Nat.leb_spec c (w + (P + F))) as [H4|H4]; [|reflexivity].
      rewrite shifted_nth by (auto; lia). rewrite B1. rewrite context_nth by (rewrite ?Lk; auto). rewrite Lk.
      rewrite (proj2 (Nat.leb_le _ _) H1), (proj2 (Nat.ltb_lt _ _) H2). cbn [andb].
      unfold base. replace (Z.to_nat (Z.of_nat (u * W) - Z.of_nat P + Z.of_nat c)) with (u * W + c - P) by lia.
      do 4 f_equal. lia. }
    assert (Z0 : forall z, (z < Z.max 0 (Z.of_nat t - Z.of_nat P) \/ Z.min (Z.of_nat (length q)) (Z.of_nat t + Z.of_nat F + 1) <= z)%Z -> wz z = 0%R).
    { intros z Hz. unfold wz. replace (cond z) with false; [reflexivity|]. symmetry. apply not_true_is_false. intro X. unfold cond in X.
      apply andb_prop in X as [X X5]. apply andb_prop in X as [X X4]. apply andb_prop in X as [X X3]. apply andb_prop in X as [X1 X2].
      apply Z.leb_le in X1, X4, X5. apply Z.ltb_lt in X2. lia. }
    assert (SumEq : forall g : Z -> R, (forall z, wz z = 0%R -> g z = 0%R) ->
      rsum (map (fun c => g (base + Z.of_nat c)%Z) (seq 0 C)) = rsum (map (fun s => g (Z.of_nat s)) (seq 0 (length q)))).
    { intros g Hg. change (zsum base C g = rsum (map (fun s => g (0 + Z.of_nat s)%Z) (seq 0 (length q)))).
      change (zsum base C g = zsum 0 (length q) g).
      set (lo := Z.max 0 (Z.of_nat t - Z.of_nat P)) in *. set (hi := Z.min (Z.of_nat (length q)) (Z.of_nat t + Z.of_nat F + 1)) in *.
      rewrite (zsum_support g base C lo hi), (zsum_support g 0 (length q) lo hi); [reflexivity| | | | | | | |];
        try (intros z Hz; apply Hg, Z0; exact Hz); unfold lo, hi, base, context_size; lia. }
    unfold local_attention. f_equal.
    - transitivity (rsum (map (fun c => wz (base + Z.of_nat c)%Z * (if cond (base + Z.of_nat c)%Z then nth (Z.to_nat (base + Z.of_nat c)) v 0 else 0))%R (seq 0 C))).
      + f_equal. apply map_ext_in. intros c Hc. apply in_seq in Hc. rewrite nth_map_seq by lia. rewrite Wt by lia.
        unfold wz. destruct (cond (base + Z.of_nat c)%Z) eqn:Ec; [|lra]. f_equal. rewrite context_nth by (rewrite ?Lv; lia). rewrite Lv.
        unfold cond in Ec. apply andb_prop in Ec as [X X5]. apply andb_prop in X as [X X4]. apply andb_prop in X as [X X3]. apply andb_prop in X as [X1 X2].
        apply Z.leb_le in X1. apply Z.ltb_lt in X2. unfold base in *.
        rewrite (proj2 (Nat.leb_le P (u * W + c))) by lia. rewrite (proj2 (Nat.ltb_lt (u * W + c) (P + length q))) by lia. cbn [andb]. f_equal. lia.
      + rewrite (SumEq (fun z => wz z * (if cond z then nth (Z.to_nat z) v 0 else 0))%R) by (intros z Hz; rewrite Hz; lra).
        f_equal. apply map_ext_in. intros s Hs. apply in_seq in Hs. unfold wz, weight, attends, cond. rewrite Nat2Z.id.
        rewrite (proj2 (Z.leb_le 0 _)) by lia. rewrite (proj2 (Z.ltb_lt (Z.of_nat s) _)) by lia. cbn [andb].
        replace (Z.of_nat t <=? Z.of_nat s + Z.of_nat P)%Z with (t <=? s + P) by (destruct (Nat.leb_spec t (s + P)); symmetry; [apply Z.leb_le|apply Z.leb_gt]; lia).
        replace (Z.of_nat s <=? Z.of_nat t + Z.of_nat F)%Z with (s <=? t + F) by (destruct (Nat.leb_spec s (t + F)); symmetry; [apply Z.leb_le|apply Z.leb_gt]; lia).
        destruct (nth s valid false && (t <=? s + P) && (s <=? t + F)); [reflexivity|lra].
    - transitivity (rsum (map (fun c => wz (base + Z.of_nat c)%Z) (seq 0 C))).
      + f_equal. apply map_ext_in. intros c Hc. apply in_seq in Hc. apply Wt. lia.
      + rewrite (SumEq wz) by auto. f_equal. apply map_ext_in. intros s Hs. apply in_seq in Hs. unfold wz, weight, attends, cond. rewrite Nat2Z.id.
        rewrite (proj2 (Z.leb_le 0 _)) by lia. rewrite (proj2 (Z.ltb_lt (Z.of_nat s) _)) by lia. cbn [andb].
        replace (Z.of_nat t <=? Z.of_nat s + Z.of_nat P)%Z with (t <=? s + P) by (destruct (Nat.leb_spec t (s + P)); symmetry; [apply Z.leb_le|apply Z.leb_gt]; lia).
        replace (Z.of_nat s <=? Z.of_nat t + Z.of_nat F)%Z with (s <=? t + F) by (destruct (Nat.leb_spec s (t + F)); symmetry; [apply Z.leb_le|apply Z.leb_gt]; lia).
        reflexivity.
  Qed.

  Theorem C92_length : forall (q : list Q) (k : list K) (v : list R) (valid : list bool),
    length (forward zero_q zero_k content position softcap W P F q k v valid) = length q.
  Proof.
    intros q k v valid. unfold forward. set (blocks := map _ (seq 0 _)).
    assert (Fb : Forall (fun r => length r = W) blocks).
    { unfold blocks. apply Forall_map, Forall_forall. intros i _. unfold block_out. rewrite map_length, seq_length. reflexivity. }
    rewrite firstn_length, (concat_length W) by exact Fb. unfold blocks. rewrite map_length, seq_length. unfold convert_to_block. rewrite reshape_length.
    destruct (length q) as [|n] eqn:E; [reflexivity|]. pose proof (ceil (S n) ltac:(lia)). lia.
  Qed.

  (** The output for an element depends only on its query and on the valid keys
      and values of its window: padding, and what lies outside of the window, in
      particular later elements if no future is attended to, do not matter. *)
  Theorem C92_window : forall (q q' : list Q) (k k' : list K) (v v' : list R) (valid valid' : list bool) t,
    length k = length q -> length v = length q -> length valid = length q ->
    length k' = length q' -> length v' = length q' -> length valid' = length q' ->
    nth_error q t <> None -> nth_error q' t = nth_error q t ->
    (exists s, t <= s + P /\ s <= t + F /\ nth s valid false = true) ->
    (forall s, t <= s + P -> s <= t + F -> nth s valid false = nth s valid' false) ->
    (forall s, t <= s + P -> s <= t + F -> nth s valid false = true -> nth_error k s = nth_error k' s /\ nth_error v s = nth_error v' s) ->
    nth_error (forward zero_q zero_k content position softcap W P F q k v valid) t
    = nth_error (forward zero_q zero_k content position softcap W P F q' k' v' valid') t.
  Proof.
    intros q q' k k' v v' m m' t Lk Lv Lm Lk' Lv' Lm' Nq Eq Key Em Ek.
    assert (Ht : t < length q) by (apply nth_error_Some; exact Nq).
    assert (Ht' : t < length q') by (apply nth_error_Some; rewrite Eq; exact Nq).
    assert (Key1 : exists s, attends P F (fun s => nth s m false) t s = true).
    { destruct Key as (s & A1 & A2 & A3). exists s. unfold attends. rewrite A3. apply Nat.leb_le in A1, A2. rewrite A1, A2. reflexivity. }
    assert (Key2 : exists s, attends P F (fun s => nth s m' false) t s = true).
    { destruct Key as (s & A1 & A2 & A3). exists s. unfold attends. rewrite <- Em, A3 by assumption. apply Nat.leb_le in A1, A2. rewrite A1, A2. reflexivity. }
    rewrite !C92_local by auto. f_equal.
    assert (Q1 : nth t q zero_q = nth t q' zero_q).
    { rewrite (nth_error_nth' q zero_q Ht), (nth_error_nth' q' zero_q Ht') in Eq. congruence. }
    assert (Far : forall (x : list bool) n s, length x <= s -> attends P F (fun s => nth s x false) n s = false)
      by (intros x n s H; unfold attends; rewrite nth_overflow by exact H; reflexivity).
    assert (A : forall s, attends P F (fun s => nth s m false) t s = attends P F (fun s => nth s m' false) t s).
    { intro s. unfold attends. destruct (Nat.leb_spec t (s + P)); [|rewrite !andb_false_r; reflexivity].
      destruct (Nat.leb_spec s (t + F)); [|rewrite !andb_false_r; reflexivity]. rewrite Em by auto. reflexivity. }
    assert (Wq : forall s, weight content position softcap P F (fun s => nth s q zero_q) (fun s => nth s k zero_k) (fun s => nth s m false) t s
                 = weight content position softcap P F (fun s => nth s q' zero_q) (fun s => nth s k' zero_k) (fun s => nth s m' false) t s).
    { intro s. unfold weight. rewrite <- A. destruct (attends P F (fun s => nth s m false) t s) eqn:At; [|reflexivity].
      unfold attends in At. apply andb_prop in At as [At A3]. apply andb_prop in At as [A1 A2]. apply Nat.leb_le in A2, A3.
      destruct (Ek s A2 A3 A1) as [K1 _]. rewrite <- Q1.
      replace (nth s k' zero_k) with (nth s k zero_k); [reflexivity|].
      destruct (nth_error k s) as [x|] eqn:E1.
      - rewrite (nth_error_nth k s zero_k E1), (nth_error_nth k' s zero_k (eq_sym K1)). reflexivity.
      - apply nth_error_None in E1. symmetry in K1. apply nth_error_None in K1. rewrite !nth_overflow by assumption. reflexivity. }
    assert (Wv : forall s, (weight content position softcap P F (fun s => nth s q zero_q) (fun s => nth s k zero_k) (fun s => nth s m false) t s * nth s v 0
                 = weight content position softcap P F (fun s => nth s q' zero_q) (fun s => nth s k' zero_k) (fun s => nth s m' false) t s * nth s v' 0)%R).
    { intro s. rewrite <- Wq. unfold weight. destruct (attends P F (fun s => nth s m false) t s) eqn:At; [|rewrite !Rmult_0_l; reflexivity].
      unfold attends in At. apply andb_prop in At as [At A3]. apply andb_prop in At as [A1 A2]. apply Nat.leb_le in A2, A3.
      destruct (Ek s A2 A3 A1) as [_ V1]. f_equal. destruct (nth_error v s) as [x|] eqn:E1.
      - rewrite (nth_error_nth v s 0%R E1), (nth_error_nth v' s 0%R (eq_sym V1)). reflexivity.
      - apply nth_error_None in E1. symmetry in V1. apply nth_error_None in V1. rewrite !nth_overflow by assumption. reflexivity. }
    assert (Ext : forall (g : nat -> R) n n', (forall s, n <= s -> g s = 0%R) -> n <= n' -> rsum (map g (seq 0 n)) = rsum (map g (seq 0 n'))).
    { intros g n n' H0 Hn. replace n' with (n + (n' - n)) by lia. rewrite seq_app, map_app, rsum_app. cbn [Nat.add].
      replace (rsum (map g (seq n (n' - n)))) with 0%R; [ring|].
      symmetry. generalize (n' - n) as d. assert (G : forall d a, n <= a -> rsum (map g (seq a d)) = 0%R).
      { induction d as [|d IH]; intros a Ha; [reflexivity|]. unfold rsum in *. cbn. rewrite H0, IH by lia. ring. }
      intro d. apply G. lia. }
    unfold local_attention.
    assert (Z1 : forall s, length q <= s -> weight content position softcap P F (fun s => nth s q zero_q) (fun s => nth s k zero_k) (fun s => nth s m false) t s = 0%R)
      by (intros s Hs; unfold weight; rewrite Far by lia; reflexivity).
    assert (Z2 : forall s, length q' <= s -> weight content position softcap P F (fun s => nth s q' zero_q) (fun s => nth s k' zero_k) (fun s => nth s m' false) t s = 0%R)
      by (intros s Hs; unfold weight; rewrite Far by lia; reflexivity).
    set (n := Nat.max (length q) (length q')).
    f_equal.
    - rewrite (Ext _ (length q) n), (Ext _ (length q') n); try (unfold n; lia); try (intros s Hs; rewrite ?Z1, ?Z2 by exact Hs; apply Rmult_0_l).
      f_equal. apply map_ext. exact Wv.
    - rewrite (Ext _ (length q) n), (Ext _ (length q') n); try (unfold n; lia); try assumption. f_equal. apply map_ext. exact Wq.
  Qed.
End Local.

(** Three elements in chunks of two, one past element: the hypotheses of the
    theorems are met, and the second element's output mixes the first two. *)
Example C92_ex :
  nth_error (forward 0%R 0%R (fun _ _ => 0%R) (fun _ _ => 0%R) (fun x => x) 2 1 0 [0; 0; 0]%R [0; 0; 0]%R [1; 3; 5]%R [true; true; true]) 1 = Some 2%R.
Proof.
  rewrite C92_local by (cbn; lia || (exists 0; reflexivity)). unfold local_attention, weight, attends, rsum. cbn. rewrite !Rplus_0_r, exp_0. f_equal. field.
Qed.

Print Assumptions C91_encodings.
Print Assumptions C91_too_long.
Print Assumptions C91_distances.
Print Assumptions C91_single_query_refuted.
Print Assumptions C91_clipped.
Print Assumptions C92_local.
Print Assumptions C92_length.
Print Assumptions C92_window.
