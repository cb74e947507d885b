From Coq Require Import ZArith List Bool Arith Lia.
From Verif Require Import Batch_Model Batch_Spec Batch_Props Pos_Model Pos_Spec.
Import ListNotations.
Local Open Scope Z_scope.

Lemma map2_nth {A B C} (f : A -> B -> C) a b i : nth_error (map2 f a b) i =
  match nth_error a i, nth_error b i with Some x, Some y => Some (f x y) | _, _ => None end.
Proof.
  revert b i. induction a as [|x a IH]; intros [|y b] [|i]; simpl; try reflexivity.
  - now destruct (nth_error a i).
  - apply IH.
Qed.
Lemma map2_length {A B C} (f : A -> B -> C) a b : length a = length b -> length (map2 f a b) = length a.
Proof. intro H. unfold map2. rewrite map_length, combine_length. lia. Qed.
Lemma map2_map_r {A B B' C} (f : A -> B' -> C) (g : B -> B') a b : map2 f a (map g b) = map2 (fun x y => f x (g y)) a b.
Proof. revert b. induction a as [|x a IH]; intros [|y b]; try reflexivity. unfold map2 in *. cbn [map combine fst snd]. f_equal. apply IH. Qed.
Lemma sequence_map {A B} (f : A -> res B) g l : (forall x, In x l -> f x = Ok (g x)) -> sequence (map f l) = Ok (map g l).
Proof.
  induction l as [|x l IH]; intro H; [reflexivity|]. simpl. rewrite H by now left. rewrite IH; [reflexivity|].
  intros y Hy. apply H. now right.
Qed.
Lemma sequence_map2 {A B C} (f : A -> B -> res C) g a b : (forall x y, In (x, y) (combine a b) -> f x y = Ok (g x y)) -> sequence (map2 f a b) = Ok (map2 g a b).
Proof. intro H. unfold map2. apply sequence_map. intros [x y] I. now apply H. Qed.
Lemma nth_error_ext' {A} (a b : list A) : (forall i, nth_error a i = nth_error b i) -> a = b.
Proof.
  revert b. induction a as [|x a IH]; intros [|y b] H; [reflexivity|specialize (H O); discriminate H|specialize (H O); discriminate H|].
  pose proof (H O) as H0. simpl in H0. injection H0 as ->. f_equal. apply IH. intro i. exact (H (S i)).
Qed.

Section P.
Context {A F : Type} (comb : A -> F -> A) (table : list F) (M : Z) (d : F).
Hypothesis T : Z.of_nat (length table) = M + 1.

Lemma row_ok i : 0 <= i <= M -> row_at table i = Ok (nth (Z.to_nat i) table d).
Proof.
  intro H. unfold row_at. destruct (Z.ltb_spec i 0); [lia|].
  rewrite (nth_error_nth' table d) by lia. reflexivity.
Qed.
Lemma zip_ok (x : list A) (f : list F) : length x = length f -> zip_row comb x f = Ok (map2 comb x f).
Proof. intro H. unfold zip_row. rewrite H, Nat.eqb_refl. reflexivity. Qed.

(** The position of every element lies between -1 and the maximum. *)
Lemma pos_bounds shape lens p y : batch_layout shape lens p = Batch_Model.Ok y -> seq_lens y <> [] ->
  forall r q, In r (positions y) -> In q r -> -1 <= q < max_len y.
Proof.
  intros H N r q Hr Hq. destruct p.
  - destruct (proj1 (C24_accept_packed shape lens)) as (w & -> & Hw & Hl & Ht); [eauto|].
    destruct (C24_packed w lens y H) as (_ & _ & Es & _ & Ep & Em & _). rewrite Es in N. destruct (Em N) as [_ [_ Mx]]. rewrite Ep in Hr.
    destruct Hr as [<-|[]]. unfold packed_row in Hq. apply in_app_or in Hq as [Hq|Hq].
    + apply in_concat in Hq as (l' & Hl' & Hq). apply in_map_iff in Hl' as (n & <- & Hn). unfold iota in Hq.
      apply in_map_iff in Hq as (j & <- & Hj). apply in_seq in Hj. specialize (Mx n Hn). lia.
    + apply repeat_spec in Hq. destruct Em as [[I _] _]; [exact N|].
      destruct (match lens with Some l => l | None => [w] end) as [|n l'] eqn:E; [congruence|]. inversion_clear Hl. specialize (Mx n (or_introl eq_refl)). lia.
  - destruct (proj1 (C24_accept_padded shape lens)) as (n & w & -> & Hw & Hn & Hl); [eauto|].
    destruct (C24_padded n w lens y H) as (_ & _ & Es & _ & Ep & Em & _). rewrite Es in N. destruct (Em N) as [_ [_ Mx]]. rewrite Ep in Hr.
    apply in_map_iff in Hr as (m & <- & Hm). unfold padded_row in Hq. rewrite Forall_forall in Hl. specialize (Hl m Hm). specialize (Mx m Hm). apply in_app_or in Hq as [Hq|Hq].
    + unfold iota in Hq. apply in_map_iff in Hq as (j & <- & Hj). apply in_seq in Hj. lia.
    + apply repeat_spec in Hq. lia.
Qed.

(** Looking up by position. *)
Definition out (s : Z) (y : layout) (seqs : list (list A)) : list (list A) :=
  map2 (fun x r => map2 comb x (map (fun q => nth (Z.to_nat (q + 1 + s)) table d) r)) seqs (positions y).

Lemma by_index_ok shape lens p y training step seqs : batch_layout shape lens p = Batch_Model.Ok y -> fits y seqs ->
  seq_lens y <> [] -> (forall s, step = Some s -> 0 <= s) -> start_step training step + max_len y <= M ->
  by_index comb table y training step seqs = Ok (out (start_step training step) y seqs).
Proof.
  intros H Fi N S0 L. unfold by_index. set (s := start_step training step) in *. cbv zeta.
  assert (Hs : 0 <= s) by (unfold s, start_step; destruct step as [z|]; [destruct training; [lia|now apply S0]|lia]).
  replace (match step with Some s0 => if training then map (map (fun q => q + 1)) (positions y) else map (map (fun i => s0 + i)) (map (map (fun q => q + 1)) (positions y)) | None => map (map (fun q => q + 1)) (positions y) end)
    with (map (map (fun q => q + 1 + s)) (positions y)).
  2:{ unfold s, start_step. destruct step as [z|]; [destruct training|]; rewrite ?map_map; apply map_ext; intro r; rewrite ?map_map; apply map_ext; intro q; lia. }
  assert (E : sequence (map (fun r => sequence (map (row_at table) r)) (map (map (fun q => q + 1 + s)) (positions y)))
    = Ok (map (map (fun q => nth (Z.to_nat (q + 1 + s)) table d)) (positions y))).
  { rewrite map_map. apply sequence_map. intros r Hr. rewrite map_map. apply sequence_map. intros q Hq.
    apply row_ok. pose proof (pos_bounds _ _ _ _ H N r q Hr Hq). lia. }
  rewrite E. rewrite map_length. assert (Ls : length seqs = length (positions y)) by (unfold fits in Fi; rewrite <- (map_length (@length A)), Fi; apply map_length).
  rewrite Ls, Nat.eqb_refl. unfold out. rewrite map2_map_r. apply sequence_map2.
  intros x r I. apply zip_ok. rewrite map_length. unfold fits in Fi.
  clear - Fi I. revert Fi I. generalize (positions y). induction seqs as [|x0 l IH]; intros [|r0 l'] Fi I; simpl in *; try contradiction; try discriminate.
  injection Fi as E1 E2. destruct I as [I|I]; [injection I as -> ->; exact E1|exact (IH l' E2 I)].
Qed.

(** Without padding all rows are full. *)
Lemma full_rows shape lens y : batch_layout shape lens false = Batch_Model.Ok y -> padded y = false ->
  0 <= width y /\ (forall r, In r (positions y) -> r = iota (width y)) /\ (seq_lens y <> [] -> max_len y = width y).
Proof.
  intros H Np. destruct (proj1 (C24_accept_padded shape lens)) as (n & w & -> & Hw & Hn & Hl); [eauto|].
  destruct (C24_padded n w lens y H) as (Ew & _ & Es & _ & Ep & Em & Epad).
  set (l := match lens with Some l => l | None => repeat w (Z.to_nat n) end) in *. rewrite Ew.
  assert (All : forall x, In x l -> x = w).
  { intros x Hx. rewrite Forall_forall in Hl. specialize (Hl x Hx). destruct (Z.eq_dec x w) as [->|Ne]; [reflexivity|]. exfalso.
    assert (0 < num_padding y); [|assert (padded y = true) by (now apply Epad); congruence].
    unfold num_padding. rewrite Ep. assert (I : In (-1) (filter (fun x => x =? -1) (concat (map (padded_row w) l)))).
    { apply filter_In. split; [|reflexivity]. apply in_concat. exists (padded_row w x). split; [now apply in_map|].
      unfold padded_row. apply in_or_app. right. destruct (Z.to_nat (w - x)) eqn:Q; [lia|]. now left. }
    destruct (filter _ _); [destruct I|simpl; lia]. }
  split; [lia|]. split.
  - intros r Hr. rewrite Ep in Hr. apply in_map_iff in Hr as (x & <- & Hx). rewrite (All x Hx). unfold padded_row. rewrite Z.sub_diag. apply app_nil_r.
  - intro Nn. rewrite Es in Nn. destruct (Em Nn) as [_ [I _]]. now apply All.
Qed.

Lemma slice_iota s w : 0 <= s -> 0 <= w -> s + w <= M ->
  firstn (Z.to_nat w) (skipn (Z.to_nat (1 + s)) table) = map (fun q => nth (Z.to_nat (q + 1 + s)) table d) (iota w).
Proof.
  intros Hs Hw L. unfold iota. rewrite map_map. apply nth_error_ext'. intro i.
  destruct (Nat.lt_ge_cases i (Z.to_nat w)) as [Hi|Hi].
  - assert (E1 : forall (l : list F) k j, (j < k)%nat -> nth_error (firstn k l) j = nth_error l j).
    { induction l as [|x l IH]; intros [|k] [|j] Hj; simpl; try reflexivity; try lia. apply IH. lia. }
    assert (E2 : forall (l : list F) k j, nth_error (skipn k l) j = nth_error l (k + j)).
    { induction l as [|x l IH]; intros [|k] j; simpl; [reflexivity|now destruct j|reflexivity|apply IH]. }
    rewrite E1, E2 by exact Hi. rewrite nth_error_map, (nth_error_nth' (seq 0 (Z.to_nat w)) 0%nat), seq_nth by (rewrite ?seq_length; exact Hi).
    cbn [option_map]. rewrite (nth_error_nth' table d) by lia. f_equal. f_equal. lia.
  - rewrite !(proj2 (nth_error_None _ _)); [reflexivity|rewrite map_length, seq_length; lia|rewrite firstn_length; lia].
Qed.

Lemma by_slice_ok shape lens y training step seqs : batch_layout shape lens false = Batch_Model.Ok y -> padded y = false -> fits y seqs ->
  seq_lens y <> [] -> (forall s, step = Some s -> 0 <= s) -> start_step training step + max_len y <= M ->
  by_slice comb table y training step seqs = Ok (out (start_step training step) y seqs).
Proof.
  intros H Np Fi N S0 L. destruct (full_rows _ _ _ H Np) as (Hw & Rows & Mx). specialize (Mx N).
  unfold by_slice. set (s := start_step training step) in *. cbv zeta.
  assert (Hs : 0 <= s) by (unfold s, start_step; destruct step as [z|]; [destruct training; [lia|now apply S0]|lia]).
  rewrite slice_iota by lia. unfold out, fits in *. revert Fi Rows. clear - d. generalize (positions y). intros ps Fi Rows.
  revert seqs Fi. induction ps as [|r ps IH]; intros [|x seqs] Fi; simpl in *; try discriminate; [reflexivity|].
  injection Fi as E1 E2. pose proof (Rows r (or_introl eq_refl)) as Er. rewrite Er in E1 |- *.
  rewrite zip_ok by (rewrite map_length; exact E1). rewrite IH; [reflexivity|intros r' Hr'; apply Rows; now right|exact E2].
Qed.

Lemma forward_ok shape lens p y training step seqs : batch_layout shape lens p = Batch_Model.Ok y -> fits y seqs -> seq_lens y <> [] ->
  (forall s, step = Some s -> 0 <= s) ->
  forward comb table M y training step seqs = (if M <? start_step training step + max_len y then Err TooLong else Ok (out (start_step training step) y seqs)) /\
  forward_learned comb table M y training step seqs = (if M <? start_step training step + max_len y then Err TooLong else Ok (out (start_step training step) y seqs)).
Proof.
  intros H Fi N S0. unfold forward, forward_learned. destruct (Z.ltb_spec M (start_step training step + max_len y)) as [G|L]; [split; reflexivity|].
  rewrite (by_index_ok _ _ _ _ _ _ _ H Fi N S0 L). split; [|reflexivity].
  destruct (packed y) eqn:Pk; cbn [orb]; [reflexivity|]. destruct (padded y) eqn:Pd; [reflexivity|].
  apply (by_slice_ok shape lens); try assumption. destruct p; [|exact H].
  destruct (proj1 (C24_accept_packed shape lens)) as (w & -> & _); [eauto|]. destruct (C24_packed w lens y H) as (_ & Q & _). congruence.
Qed.

(** The output of one sequence. *)
Lemma concat_out s y seqs : fits y seqs -> concat (out s y seqs) = map2 comb (concat seqs) (map (fun q => nth (Z.to_nat (q + 1 + s)) table d) (concat (positions y))).
Proof.
  unfold fits, out. generalize (positions y). induction seqs as [|x l IH]; intros [|r l'] Fi; try discriminate Fi; [reflexivity|].
  cbn [map] in Fi. injection Fi as E1 E2. change (map2 ?f (x :: l) (r :: l')) with (f x r :: map2 f l l'). cbv beta. cbn [concat]. rewrite (IH l' E2).
  rewrite map_app. generalize (map (fun q => nth (Z.to_nat (q + 1 + s)) table d) (concat l')). intro g.
  assert (E : length x = length (map (fun q => nth (Z.to_nat (q + 1 + s)) table d) r)) by now rewrite map_length.
  revert E. generalize (map (fun q => nth (Z.to_nat (q + 1 + s)) table d) r). intro f. revert f. clear. induction x as [|a x IH]; intros [|b f] E; try discriminate E; [reflexivity|].
  injection E as E. unfold map2 in *. cbn [app combine map]. f_equal. now apply IH.
Qed.
Lemma encoded_nth s x i : nth_error (encoded comb table d s x) i = option_map (fun a => comb a (nth (S s + i)%nat table d)) (nth_error x i).
Proof.
  revert s i. induction x as [|a x IH]; intros s [|i]; cbn [encoded nth_error option_map]; try reflexivity.
  - now rewrite Nat.add_0_r.
  - rewrite IH. now replace (S (S s) + i)%nat with (S s + S i)%nat by lia.
Qed.
Lemma seq_of_nth {B} y k (seqs : list (list B)) i : (i < Z.to_nat (nth k (seq_lens y) 0%Z))%nat ->
  nth_error (seq_of y k seqs) i = nth_error (concat seqs) (Z.to_nat (nth k (seq_begin y) 0) + i).
Proof.
  intro Hi. unfold seq_of.
  assert (E1 : forall (l : list B) n j, (j < n)%nat -> nth_error (firstn n l) j = nth_error l j).
  { induction l as [|x l IH]; intros [|n] [|j] Hj; simpl; try reflexivity; try lia. apply IH. lia. }
  assert (E2 : forall (l : list B) n j, nth_error (skipn n l) j = nth_error l (n + j)).
  { induction l as [|x l IH]; intros [|n] j; simpl; [reflexivity|now destruct j|reflexivity|apply IH]. }
  rewrite E1 by exact Hi. apply E2.
Qed.
Lemma seq_of_out shape lens p y s seqs k : batch_layout shape lens p = Batch_Model.Ok y -> fits y seqs -> 0 <= s -> (k < length (seq_lens y))%nat ->
  seq_of y k (out s y seqs) = encoded comb table d (Z.to_nat s) (seq_of y k seqs).
Proof.
  intros H Fi Hs Hk. destruct (C24_positions _ _ _ _ H) as [P _]. destruct (C24_disjoint _ _ _ _ H) as (LB & B0 & Bk & _).
  assert (Bn : 0 <= nth k (seq_begin y) 0).
  { assert (Ln : forall x, In x (seq_lens y) -> 1 <= x).
    { destruct p.
      - destruct (proj1 (C24_accept_packed shape lens)) as (w & -> & Hw & Hl & Ht); [eauto|]. destruct (C24_packed w lens y H) as (_ & _ & -> & _). now rewrite Forall_forall in Hl.
      - destruct (proj1 (C24_accept_padded shape lens)) as (n & w & -> & Hw & Hn & Hl); [eauto|]. destruct (C24_padded n w lens y H) as (_ & _ & -> & _).
        rewrite Forall_forall in Hl. intros x Hx. now apply Hl. }
    clear - B0 Bk Hk Ln. induction k as [|k IH]; [lia|]. specialize (IH ltac:(lia)). specialize (Bk k ltac:(lia)).
    assert (1 <= nth k (seq_lens y) 0) by (apply Ln; apply nth_In; lia). lia. }
  apply nth_error_ext'. intro i. rewrite encoded_nth.
  destruct (Nat.lt_ge_cases i (Z.to_nat (nth k (seq_lens y) 0))) as [Hi|Hi].
  - rewrite !seq_of_nth by exact Hi. rewrite concat_out by exact Fi. rewrite map2_nth, nth_error_map.
    set (idx := (Z.to_nat (nth k (seq_begin y) 0%Z) + i)%nat).
    destruct (nth_error (concat seqs) idx) as [a|] eqn:Ea; cbn [option_map]; [|reflexivity].
    assert (Li : (idx < length (concat (positions y)))%nat).
    { assert (Len : length (concat seqs) = length (concat (positions y))).
      { clear - Fi. unfold fits in Fi. revert Fi. generalize (positions y). induction seqs as [|x l IH]; intros [|r l'] Fi; try discriminate Fi; [reflexivity|].
        cbn [map concat] in *. injection Fi as E1 E2. rewrite !app_length, E1, (IH _ E2). reflexivity. }
      rewrite <- Len. apply nth_error_Some. congruence. }
    rewrite (nth_error_nth' _ 0 Li). cbn [option_map]. do 3 f_equal.
    specialize (P k (Z.of_nat i) Hk ltac:(lia)). replace (Z.to_nat (nth k (seq_begin y) 0 + Z.of_nat i)) with idx in P by (unfold idx; lia).
    rewrite P. lia.
  - rewrite !(proj2 (nth_error_None _ _)); [reflexivity| |]; unfold seq_of; rewrite firstn_length; lia.
Qed.
End P.

Lemma encoded_app {A F} (comb : A -> F -> A) table d s x y :
  encoded comb table d s (x ++ y) = encoded comb table d s x ++ encoded comb table d (s + length x) y.
Proof.
  revert s. induction x as [|a x IH]; intro s; simpl; [now rewrite Nat.add_0_r|]. rewrite IH. now replace (s + S (length x))%nat with (S s + length x)%nat by lia.
Qed.
