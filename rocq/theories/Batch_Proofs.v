From Coq Require Import ZArith List Bool Arith Lia ZifyBool.
From Verif Require Import Batch_Model Batch_Spec.
Import ListNotations.
Local Open Scope Z_scope.

Lemma total_app a b : total (a ++ b) = total a + total b.
Proof. induction a; simpl; lia. Qed.
Lemma total_nonneg l : Forall (fun n => 1 <= n) l -> 0 <= total l.
Proof. induction 1; simpl; lia. Qed.
Lemma begins_last b l n : begins b (l ++ [n]) = begins b l ++ [b + total l + n].
Proof. revert b. induction l; intros b; simpl; [do 2 f_equal; lia|]. rewrite IHl. simpl. do 3 f_equal. lia. Qed.
Lemma iota_length n : length (iota n) = Z.to_nat n.
Proof. unfold iota. rewrite map_length, seq_length. reflexivity. Qed.
Lemma concat_iota_length l : Forall (fun n => 1 <= n) l -> length (concat (map iota l)) = Z.to_nat (total l).
Proof. induction 1; simpl; [reflexivity|]. rewrite app_length, iota_length, IHForall. pose proof (total_nonneg _ H0). lia. Qed.

Definition min_of (w : Z) (l : list Z) : Z := fold_left Z.min l w.
Definition max_of (l : list Z) : Z := fold_left Z.max l 0.
Definition iota_from (b n : Z) : list Z := map Z.of_nat (seq (Z.to_nat b) (Z.to_nat n)).

Lemma iota_from_split b n m : 0 <= b -> 0 <= n -> 0 <= m -> iota_from b (n + m) = iota_from b n ++ iota_from (b + n) m.
Proof. intros. unfold iota_from. rewrite !Z2Nat.inj_add by lia. rewrite seq_app, map_app. reflexivity. Qed.
Lemma iota_from_sub b n : 0 <= b -> map (fun x => x - b) (iota_from b n) = iota n.
Proof.
  intros. unfold iota_from, iota. rewrite map_map. generalize (Z.to_nat n) as k. intros k.
  replace (Z.to_nat b) with (Z.to_nat b + 0)%nat by lia. generalize 0%nat as c. induction k; intros c; simpl; [reflexivity|].
  f_equal; [lia|]. rewrite <- (IHk (S c)). do 2 f_equal. lia.
Qed.
Lemma iota_from_length b n : length (iota_from b n) = Z.to_nat n.
Proof. unfold iota_from. rewrite map_length, seq_length. reflexivity. Qed.

Definition pk_of (w : Z) (l : list Z) : pk :=
  Pk (begins 0 l) l (concat (map iota l) ++ iota_from (total l) (w - total l)) (min_of w l) (max_of l) (total l) (total l).

Lemma firstn_app_exact {A} (a b : list A) n : length a = n -> firstn n (a ++ b) = a.
Proof. intros <-. rewrite firstn_app, Nat.sub_diag, firstn_all. simpl. apply app_nil_r. Qed.
Lemma skipn_app_exact {A} (a b : list A) n : length a = n -> skipn n (a ++ b) = b.
Proof. intros <-. rewrite skipn_app, Nat.sub_diag, skipn_all. reflexivity. Qed.

Lemma sub_slice_step w l n : Forall (fun n => 1 <= n) l -> 1 <= n -> total l + n <= w ->
  sub_slice (total l) (total l + n) (total l) (concat (map iota l) ++ iota_from (total l) (w - total l)) =
  concat (map iota (l ++ [n])) ++ iota_from (total (l ++ [n])) (w - total (l ++ [n])).
Proof.
  intros HF Hn Hw. pose proof (total_nonneg l HF). unfold sub_slice.
  rewrite (firstn_app_exact _ _ _ (concat_iota_length l HF)), (skipn_app_exact _ _ _ (concat_iota_length l HF)).
  replace (w - total l) with (n + (w - total l - n)) by lia. rewrite iota_from_split by lia.
  rewrite (firstn_app_exact (iota_from (total l) n)) by (rewrite iota_from_length; lia).
  assert (HS : skipn (Z.to_nat (total l + n)) (concat (map iota l) ++ iota_from (total l) n ++ iota_from (total l + n) (w - total l - n)) = iota_from (total l + n) (w - total l - n)).
  { rewrite app_assoc. apply skipn_app_exact. rewrite app_length, (concat_iota_length l HF), iota_from_length. lia. }
  rewrite HS.
  rewrite iota_from_sub by lia. rewrite map_app, concat_app, total_app. simpl. rewrite app_nil_r, <- app_assoc. f_equal. f_equal. f_equal; lia.
Qed.

Lemma packed_loop_ok w : forall l idx done, Forall (fun n => 1 <= n) done -> total done <= w -> Forall (fun n => 1 <= n) l -> total (done ++ l) <= w ->
  packed_loop w idx l (pk_of w done) = Ok (pk_of w (done ++ l)).
Proof.
  induction l as [|n l IH]; intros idx done HD HT HL HW; simpl; [rewrite app_nil_r; reflexivity|].
  inversion HL as [|? ? Hn HL']; subst. pose proof (total_nonneg l HL'). rewrite total_app in HW. simpl in HW.
  destruct (n <? 1) eqn:E1; [lia|]. destruct (w <? total done + n) eqn:E2; [lia|].
  rewrite (sub_slice_step w done n HD Hn) by lia.
  specialize (IH (S idx) (done ++ [n])). rewrite <- app_assoc in IH. simpl in IH.
  rewrite <- IH.
  - f_equal. unfold pk_of. rewrite !total_app. simpl. rewrite begins_last. unfold min_of, max_of. rewrite !fold_left_app. simpl. f_equal; lia || (repeat f_equal; lia).
  - apply Forall_app; auto.
  - rewrite total_app. simpl. lia.
  - assumption.
  - rewrite total_app. simpl. lia.
Qed.

Lemma packed_loop_inv w : forall l idx s s', packed_loop w idx l s = Ok s' -> p_beg s <= w -> Forall (fun n => 1 <= n) l /\ p_beg s + total l <= w.
Proof.
  induction l as [|n l IH]; intros idx s s' H HB; simpl in *; [split; [constructor|lia]|].
  destruct (n <? 1) eqn:E1; [discriminate|]. destruct (w <? p_beg s + n) eqn:E2; [discriminate|].
  apply IH in H; simpl in *; [|lia]. destruct H. split; [constructor; [lia|assumption]|lia].
Qed.

Lemma fill_packed w l : Forall (fun n => 1 <= n) l -> total l <= w ->
  fill_from (total l) (-1) (concat (map iota l) ++ iota_from (total l) (w - total l)) = packed_row w l.
Proof.
  intros HF HW. unfold fill_from, packed_row. rewrite (firstn_app_exact _ _ _ (concat_iota_length l HF)), (skipn_app_exact _ _ _ (concat_iota_length l HF)).
  f_equal. unfold iota_from. rewrite map_map. generalize (Z.to_nat (total l)) as b. induction (Z.to_nat (w - total l)) as [|k IH]; intros b; simpl; [reflexivity|]. rewrite IH. reflexivity.
Qed.

Definition packed_layout (w : Z) (l : list Z) : layout :=
  Layout w (begins 0 l) l [packed_row w l] (min_of w l) (max_of l) (total l <? w) true.
Definition default_lens (d : list Z) (ls : option (list Z)) : list Z := match ls with Some l => l | None => d end.

Lemma packed_layout_lemma w ls y : batch_layout [w] ls true = Ok y <->
  (1 <= w /\ Forall (fun n => 1 <= n) (default_lens [w] ls) /\ total (default_lens [w] ls) <= w) /\ y = packed_layout w (default_lens [w] ls).
Proof.
  unfold batch_layout. fold (default_lens [w] ls). generalize (default_lens [w] ls) as l. intros l.
  assert (H0 : Pk [0] [] (arange w) w 0 0 0 = pk_of w []).
  { unfold pk_of, arange, iota_from. simpl. rewrite Z.sub_0_r. reflexivity. }
  destruct (w <? 1) eqn:EW; [split; [discriminate|intros [[? ?] ?]; lia]|].
  split.
  - destruct (packed_loop w 0 l (Pk [0] [] (arange w) w 0 0 0)) as [s|e] eqn:EL; [|discriminate]. intros HY. injection HY as <-.
    destruct (packed_loop_inv _ _ _ _ _ EL) as [HF HT]; [simpl; lia|]. simpl in HT.
    rewrite H0 in EL. rewrite (packed_loop_ok w l 0 []) in EL by (simpl; auto; lia). injection EL as <-. simpl.
    split; [lia || (split; [lia|auto])|]. rewrite fill_packed by assumption. reflexivity.
  - intros [(_ & HF & HT) ->]. rewrite H0, (packed_loop_ok w l 0 []) by (simpl; auto; lia). simpl. rewrite fill_packed by assumption. reflexivity.
Qed.

(** ** Padded *)
Lemma upd_app {A} i (f : A -> A) a x b : length a = i -> upd i f (a ++ x :: b) = a ++ f x :: b.
Proof. revert a. induction i; intros [|y a] H; try discriminate; simpl; [reflexivity|]. f_equal. apply IHi. injection H; auto. Qed.
Lemma fill_arange w n : 1 <= n <= w -> fill_from n (-1) (arange w) = padded_row w n.
Proof.
  intros H. change (arange w) with (iota_from 0 w). replace w with (n + (w - n)) at 1 by lia. rewrite iota_from_split by lia.
  unfold fill_from. rewrite (firstn_app_exact (iota_from 0 n)), (skipn_app_exact (iota_from 0 n)) by apply iota_from_length.
  unfold padded_row. f_equal. unfold iota_from. rewrite map_map. generalize (Z.to_nat (0 + n)) as b. induction (Z.to_nat (w - n)) as [|k IH]; intros b; simpl; [reflexivity|]. rewrite IH. reflexivity.
Qed.

Definition pd_of (n w : Z) (done : list Z) : pd :=
  Pd done (existsb (fun x => x <? w) done) (map (padded_row w) done ++ repeat (arange w) (Z.to_nat n - length done)) (min_of w done) (max_of done).

Lemma padded_loop_ok n w : forall l done, Forall (fun x => 1 <= x <= w) l -> Z.to_nat n = (length done + length l)%nat ->
  padded_loop w (length done) l (pd_of n w done) = Ok (pd_of n w (done ++ l)).
Proof.
  induction l as [|x l IH]; intros done HL HN; simpl; [rewrite app_nil_r; reflexivity|].
  inversion HL as [|? ? Hx HL']; subst. destruct (x <? 1) eqn:E1; [lia|]. destruct (w <? x) eqn:E2; [lia|]. simpl in HN.
  specialize (IH (done ++ [x])). rewrite <- app_assoc in IH. rewrite app_length in IH. simpl in IH. replace (length done + 1)%nat with (S (length done)) in IH by lia.
  rewrite <- IH by (assumption || lia). f_equal. unfold pd_of. f_equal.
  - rewrite existsb_app. simpl. destruct (x <? w); [rewrite orb_true_r; reflexivity|]. rewrite !orb_false_r. reflexivity.
  - replace (Z.to_nat n - length done)%nat with (S (Z.to_nat n - length (done ++ [x])))%nat by (rewrite app_length; simpl; lia). simpl.
    rewrite upd_app by apply map_length. rewrite fill_arange by assumption. rewrite map_app, <- app_assoc. reflexivity.
  - unfold min_of. rewrite fold_left_app. reflexivity.
  - unfold max_of. rewrite fold_left_app. reflexivity.
Qed.
Lemma padded_loop_inv w : forall l idx s s', padded_loop w idx l s = Ok s' -> Forall (fun x => 1 <= x <= w) l.
Proof.
  induction l as [|n l IH]; intros idx s s' H; simpl in *; [constructor|].
  destruct (n <? 1) eqn:E1; [discriminate|]. destruct (w <? n) eqn:E2; [discriminate|]. constructor; [lia|]. eapply IH. exact H.
Qed.

Definition padded_layout (n w : Z) (l : list Z) : layout :=
  Layout w (map (fun i => Z.of_nat i * w) (seq 0 (S (length l)))) l (map (padded_row w) l) (min_of w l) (max_of l) (existsb (fun x => x <? w) l) false.

Lemma padded_layout_lemma n w ls y : batch_layout [n; w] ls false = Ok y <->
  (1 <= w /\ n = Z.of_nat (length (default_lens (repeat w (Z.to_nat n)) ls)) /\ Forall (fun x => 1 <= x <= w) (default_lens (repeat w (Z.to_nat n)) ls)) /\
  y = padded_layout n w (default_lens (repeat w (Z.to_nat n)) ls).
Proof.
  unfold batch_layout. fold (default_lens (repeat w (Z.to_nat n)) ls). generalize (default_lens (repeat w (Z.to_nat n)) ls) as l. intros l.
  destruct (w <? 1) eqn:EW; [split; [discriminate|intros [[? ?] ?]; lia]|].
  destruct (Z.of_nat (length l) =? n) eqn:EN; simpl; [|split; [discriminate|intros [(? & ? & ?) ?]; lia]].
  assert (Hn : n = Z.of_nat (length l)) by lia.
  assert (H0 : Pd [] false (repeat (arange w) (Z.to_nat n)) w 0 = pd_of n w []) by (unfold pd_of; simpl; rewrite Nat.sub_0_r; reflexivity).
  assert (HY : forall s, Forall (fun x => 1 <= x <= w) l -> padded_loop w 0 l (Pd [] false (repeat (arange w) (Z.to_nat n)) w 0) = Ok s ->
    Layout w (range_begin n w) (d_lens s) (d_pos s) (d_min s) (d_max s) (d_padded s) false = padded_layout n w l).
  { intros s HF EL. rewrite H0 in EL. change 0%nat with (length (@nil Z)) in EL. rewrite (padded_loop_ok n w l [] HF) in EL by (simpl; lia). injection EL as <-. unfold pd_of. cbn [d_lens d_padded d_pos d_min d_max app].
    unfold padded_layout, range_begin. replace (Z.to_nat n) with (length l) by lia. rewrite Nat.sub_diag. cbn [repeat]. rewrite app_nil_r. reflexivity. }
  split.
  - destruct (padded_loop w 0 l (Pd [] false (repeat (arange w) (Z.to_nat n)) w 0)) as [s|e] eqn:EL; [|discriminate]. intros H. injection H as <-.
    pose proof (padded_loop_inv _ _ _ _ _ EL) as HF. split; [split; [lia|split; assumption]|]. apply HY; auto.
  - intros [(_ & _ & HF) ->]. pose proof (padded_loop_ok n w l [] HF) as HL. rewrite H0. simpl in HL. rewrite HL by lia. f_equal. rewrite <- (HY (pd_of n w l) HF); [reflexivity|]. rewrite H0. apply HL. lia.
Qed.

(** ** Extrema *)
Lemma min_of_acc l : forall w, (min_of w l = w \/ In (min_of w l) l) /\ min_of w l <= w /\ forall x, In x l -> min_of w l <= x.
Proof.
  induction l as [|n l IH]; intros w; unfold min_of in *; simpl. { split; [auto|split; [lia|intros ? []]]. }
  destruct (IH (Z.min w n)) as (H1 & H2 & H3). split; [|split; [lia|]].
  - destruct H1 as [H1|H1]; [|auto]. rewrite H1. destruct (Z.min_spec w n) as [[? ->]|[? ->]]; auto.
  - intros x [->|Hx]; [lia|auto].
Qed.
Lemma max_of_acc l : forall w, (fold_left Z.max l w = w \/ In (fold_left Z.max l w) l) /\ w <= fold_left Z.max l w /\ forall x, In x l -> x <= fold_left Z.max l w.
Proof.
  induction l as [|n l IH]; intros w; simpl. { split; [auto|split; [lia|intros ? []]]. }
  destruct (IH (Z.max w n)) as (H1 & H2 & H3). split; [|split; [lia|]].
  - destruct H1 as [H1|H1]; [|auto]. rewrite H1. destruct (Z.max_spec w n) as [[? ->]|[? ->]]; auto.
  - intros x [->|Hx]; [lia|auto].
Qed.
Lemma min_max_lemma w l : l <> [] -> Forall (fun n => 1 <= n <= w) l -> is_min (min_of w l) l /\ is_max (max_of l) l.
Proof.
  intros HN HF. rewrite Forall_forall in HF. destruct l as [|n l]; [congruence|]. split.
  - destruct (min_of_acc (n :: l) w) as (H1 & H2 & H3). split; [|assumption]. destruct H1 as [H1|H1]; [|assumption].
    assert (n = w) as -> by (pose proof (H3 n (or_introl eq_refl)); pose proof (HF n (or_introl eq_refl)); lia). rewrite H1. left; reflexivity.
  - destruct (max_of_acc (n :: l) 0) as (H1 & H2 & H3). split; [|assumption]. destruct H1 as [H1|H1]; [|assumption].
    unfold max_of in *. pose proof (H3 n (or_introl eq_refl)). pose proof (HF n (or_introl eq_refl)). lia.
Qed.
Lemma le_total l : Forall (fun n => 1 <= n) l -> forall x, In x l -> x <= total l.
Proof.
  induction 1 as [|n l Hn HF IH]; intros x Hx; [destruct Hx|]. simpl. pose proof (total_nonneg l HF). destruct Hx as [->|Hx]; [lia|]. specialize (IH x Hx). lia.
Qed.
