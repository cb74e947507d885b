From Coq Require Import List Bool Arith Lia.
From Verif Require Import Attn_Model Attn_Spec.
Import ListNotations.

(** * One tensor *)
Definition holds {A} (m : mat (option A)) (n w t : nat) (c : nat -> list A) : Prop :=
  width m = w /\ length (rows m) = n /\ t <= w /\
  forall i, i < n -> length (c i) = t /\ exists junk, nth_error (rows m) i = Some (map Some (c i) ++ junk) /\ length junk = w - t.

Lemma nth_error_ext {A} (a b : list A) : length a = length b -> (forall i, i < length a -> nth_error a i = nth_error b i) -> a = b.
Proof.
  revert b. induction a as [|x a IH]; intros [|y b] L H; simpl in L; try discriminate; [reflexivity|].
  pose proof (H 0 (Nat.lt_0_succ _)) as H0. simpl in H0. injection H0 as ->. f_equal. apply IH; [lia|].
  intros i Hi. apply (H (S i)). simpl. lia.
Qed.
Lemma nth_error_seq_map {A} (f : nat -> A) n i : i < n -> nth_error (map f (seq 0 n)) i = Some (f i).
Proof. intro H. rewrite nth_error_map. erewrite nth_error_nth' with (d := 0) by (rewrite seq_length; exact H). now rewrite seq_nth. Qed.

Lemma holds_ext {A} (m : mat (option A)) n w t c c' : (forall i, i < n -> c i = c' i) -> holds m n w t c -> holds m n w t c'.
Proof. intros E (W & L & T & H). split; [exact W|split; [exact L|split; [exact T|]]]. intros i Hi. rewrite <- (E i Hi). now apply H. Qed.

Lemma holds_get {A} (m : mat (option A)) n w t c s : holds m n w t c -> s = t \/ (t = w /\ w <= s) ->
  holds_exactly n t c (slice_to s m).
Proof.
  intros (W & L & T & H) S. split; [simpl; lia|]. simpl.
  apply nth_error_ext; rewrite ?map_length, ?seq_length; [exact L|]. rewrite L. intros i Hi.
  destruct (H i Hi) as (Lc & junk & E & Lj). rewrite nth_error_map, E, (nth_error_seq_map _ n i Hi). cbn [option_map]. f_equal.
  rewrite firstn_app, map_length, Lc.
  rewrite (firstn_all2 (map Some (c i))) by (rewrite map_length; lia).
  destruct S as [->|[-> S]].
  - rewrite Nat.sub_diag. simpl. apply app_nil_r.
  - replace junk with (@nil (option A)) by (symmetry; apply length_zero_iff_nil; lia). rewrite firstn_nil. apply app_nil_r.
Qed.

Lemma holds_new {A} n w : holds (@new_empty A n w) n w 0 (fun _ => []).
Proof.
  split; [reflexivity|split; [apply repeat_length|split; [lia|]]]. intros i Hi. split; [reflexivity|]. exists (repeat None w). simpl.
  split; [|rewrite repeat_length; lia]. apply nth_error_repeat. exact Hi.
Qed.
Lemma holds_forget {A} (m : mat (option A)) n w t c : holds m n w t c -> holds m n w 0 (fun _ => []).
Proof.
  intros (W & L & T & H). split; [exact W|split; [exact L|split; [lia|]]]. intros i Hi. split; [reflexivity|].
  destruct (H i Hi) as (Lc & junk & E & Lj). exists (map Some (c i) ++ junk). split; [exact E|].
  rewrite app_length, map_length. lia.
Qed.

Lemma map2_length {A B C} (f : A -> B -> C) a b : length a = length b -> length (map2 f a b) = length a.
Proof. intro H. unfold map2. rewrite map_length, combine_length. lia. Qed.
Lemma map2_nth {A B C} (f : A -> B -> C) a b i x y : nth_error a i = Some x -> nth_error b i = Some y -> nth_error (map2 f a b) i = Some (f x y).
Proof.
  revert b i. induction a as [|u a IH]; intros [|z b] [|i] Hx Hy; simpl in *; try discriminate.
  - injection Hx as ->. injection Hy as ->. reflexivity.
  - now apply (IH b i).
Qed.
Lemma expand_same {A} (l : list A) n : length l = n -> expand n l = Some l.
Proof. intro H. unfold expand. now rewrite H, Nat.eqb_refl. Qed.
Lemma widen_same {A} (m : mat A) w : width m = w -> widen w m = Some (rows m).
Proof. intro H. unfold widen. now rewrite H, Nat.eqb_refl. Qed.

(** Writing a rectangle behind what is held. *)
Lemma assign_ok {A} (m : mat (option A)) n w t c (src : mat (option A)) x (d : nat -> list A) :
  holds m n w t c -> width src = x -> length (rows src) = n -> t + x <= w ->
  (forall i, i < n -> nth_error (rows src) i = Some (map Some (d i)) /\ length (d i) = x) ->
  exists m', assign t (t + x) src m = Ok m' /\ holds m' n w (t + x) (fun i => c i ++ d i).
Proof.
  intros (W & L & T & H) Wx Lx TX D. unfold assign. rewrite W.
  rewrite (Nat.min_l t w) by lia. rewrite (Nat.min_l (t + x) w) by lia. replace (t + x - t) with x by lia.
  rewrite (widen_same src x Wx), expand_same by (unfold batch; lia).
  eexists. split; [reflexivity|]. split; [reflexivity|]. cbn [rows].
  split; [rewrite map2_length; lia|]. split; [exact TX|]. intros i Hi.
  destruct (H i Hi) as (Lc & junk & E & Lj). destruct (D i Hi) as (Es & Ld).
  split; [rewrite app_length; lia|]. exists (skipn x junk).
  split; [|rewrite skipn_length; lia].
  rewrite (map2_nth _ _ _ i _ _ E Es). f_equal.
  rewrite firstn_app, map_length, Lc, Nat.sub_diag, firstn_O, app_nil_r, firstn_all2 by (rewrite map_length; lia).
  rewrite skipn_app, map_length, Lc, skipn_all2 by (rewrite map_length; lia). cbn [app].
  replace (t + x - t) with x by lia. rewrite map_app, app_assoc. reflexivity.
Qed.

(** Copying what is held to a new tensor. *)
Lemma copy_ok {A} (m : mat (option A)) n w t c cap : holds m n w t c -> t <= cap ->
  exists m', assign 0 t (slice_to t m) (new_empty n cap) = Ok m' /\ holds m' n cap t c.
Proof.
  intros Hm Hc. destruct (holds_get m n w t c t Hm (or_introl eq_refl)) as [Ew Er].
  destruct (assign_ok (new_empty n cap) n cap 0 (fun _ => []) (slice_to t m) t c (holds_new n cap)) as (m' & E & Hm').
  - exact Ew.
  - rewrite Er, map_length, seq_length. reflexivity.
  - lia.
  - intros i Hi. rewrite Er, (nth_error_seq_map _ n i Hi). split; [reflexivity|]. now apply Hm.
  - exists m'. split; [exact E|exact Hm'].
Qed.

Lemma select_ok {A} (l : list A) o : (forall i, In i o -> i < length l) ->
  exists l', select l o = Some l' /\ length l' = length o /\ forall i, i < length o -> nth_error l' i = nth_error l (nth i o 0).
Proof.
  induction o as [|j o IH]; intro H; simpl.
  - exists []. repeat split. intros i Hi. lia.
  - destruct IH as (l' & E & L & N); [intros i Hi; apply H; now right|]. rewrite E.
    destruct (nth_error l j) as [x|] eqn:Ej.
    + exists (x :: l'). repeat split; [simpl; lia|]. intros [|i] Hi; simpl; [now rewrite Ej|]. apply N. lia.
    + apply nth_error_None in Ej. specialize (H j (or_introl eq_refl)). lia.
Qed.
Lemma index_ok {A} (m : mat (option A)) n w t c o : holds m n w t c -> (forall i, In i o -> i < n) ->
  exists m', index_select o m = Ok m' /\ holds m' (length o) w t (fun i => c (nth i o 0)).
Proof.
  intros (W & L & T & H) O. unfold index_select.
  destruct (select_ok (rows m) o) as (l' & E & Ll & N); [intros i Hi; rewrite L; now apply O|].
  rewrite E. eexists. split; [reflexivity|]. split; [exact W|]. cbn [rows]. split; [exact Ll|split; [exact T|]].
  intros i Hi. rewrite (N i Hi). apply H. apply O. now apply nth_In.
Qed.

Lemma roll_ok {A} (m : mat (option A)) n w c x : holds m n w w c -> x < w ->
  holds (roll_left x m) n w (w - x) (fun i => skipn x (c i)).
Proof.
  intros (W & L & T & H) X. unfold roll_left. rewrite W, (Nat.mod_small x w X).
  split; [reflexivity|]. cbn [rows]. split; [now rewrite map_length|split; [lia|]]. intros i Hi.
  destruct (H i Hi) as (Lc & junk & E & Lj). rewrite Nat.sub_diag in Lj. apply length_zero_iff_nil in Lj. subst junk. rewrite app_nil_r in E.
  split; [rewrite skipn_length; lia|]. exists (firstn x (map Some (c i))).
  split; [|rewrite firstn_length, map_length; lia]. rewrite nth_error_map, E. cbn [option_map]. now rewrite skipn_map.
Qed.

(** Sources. *)
Lemma given_rows {A} (k : mat A) n : rect k -> length (rows k) = n -> forall i, i < n ->
  nth_error (rows (given k)) i = Some (map Some (nth i (rows k) [])) /\ length (nth i (rows k) []) = width k.
Proof.
  intros R L i Hi. unfold given. cbn [rows]. rewrite nth_error_map, (nth_error_nth' _ []) by lia. split; [reflexivity|].
  apply R. apply nth_In. lia.
Qed.
Lemma last_rect {A} (k : mat A) x : rect k -> x <= width k -> 0 < x \/ width k = 0 ->
  rect (slice_last x k) /\ width (slice_last x k) = x /\ length (rows (slice_last x k)) = length (rows k) /\
  forall i, nth i (rows (slice_last x k)) [] = lastn x (nth i (rows k) []).
Proof.
  intros R X P. destruct x as [|x].
  - destruct P as [P|P]; [lia|]. cbn [slice_last]. repeat split; [exact R|lia|].
    intro i. unfold lastn. rewrite Nat.sub_0_r, skipn_all.
    destruct (Nat.lt_ge_cases i (length (rows k))) as [Hi|Hi]; [|now apply nth_overflow].
    apply length_zero_iff_nil. rewrite (R _ (nth_In _ _ Hi)). exact P.
  - cbn [slice_last width rows]. rewrite (Nat.min_l _ _ X). repeat split.
    + intros r Hr. cbn [rows] in Hr. apply in_map_iff in Hr as (r' & <- & Hr'). cbn [width]. rewrite skipn_length, (R _ Hr'). lia.
    + now rewrite map_length.
    + intro i. unfold lastn. destruct (Nat.lt_ge_cases i (length (rows k))) as [Hi|Hi].
      * rewrite (nth_indep _ [] (skipn (width k - S x) [])) by (rewrite map_length; exact Hi). rewrite map_nth.
        now rewrite (R _ (nth_In _ _ Hi)).
      * rewrite !nth_overflow by (rewrite ?map_length; exact Hi). now rewrite skipn_nil.
Qed.

(** * The specification *)
Section S.
Context {K V : Type}.
Implicit Types h : list (event K V).

Lemma legal_lens h : legal h -> forall i, i < size h -> length (keys h i) = total h /\ length (values h i) = total h.
Proof.
  induction h as [|[k v|o] h IH]; intros L i Hi; simpl in *; [lia| |].
  - destruct L as ((Rk & Rv & Wv & Lv & Hs) & L). rewrite !app_length.
    destruct (given_rows k _ Rk eq_refl i Hi) as [_ E1]. rewrite E1.
    destruct (given_rows v _ Rv Lv i Hi) as [_ E2]. rewrite E2, Wv.
    destruct Hs as [->|Hs]; [simpl; lia|]. rewrite Hs in Hi. destruct (IH L i Hi) as [-> ->]. lia.
  - destruct L as ((Hh & O) & L). apply IH; [exact L|]. apply O. now apply nth_In.
Qed.
Lemma stepwise_smooth w h : stepwise h -> smooth w h.
Proof.
  induction h as [|[k v|o] h IH]; simpl; [trivial| |exact IH]. intros [[->|E] S]; split; auto. right. lia.
Qed.
Lemma lastn_all {A} (l : list A) n : length l <= n -> lastn n l = l.
Proof. intro H. unfold lastn. now replace (length l - n) with 0 by lia. Qed.
Lemma lastn_length {A} (l : list A) n : length (lastn n l) = Nat.min n (length l).
Proof. unfold lastn. rewrite skipn_length. lia. Qed.
Lemma lastn_app_long {A} (a b : list A) n : n <= length b -> lastn n (a ++ b) = lastn n b.
Proof.
  intro H. unfold lastn. rewrite app_length, skipn_app, skipn_all2 by lia. cbn [app]. f_equal. lia.
Qed.
Lemma lastn_app_short {A} (a b : list A) n : length b <= n -> lastn n (a ++ b) = lastn (n - length b) a ++ b.
Proof.
  intro H. unfold lastn. rewrite app_length, skipn_app. replace (length a + length b - n) with (length a - (n - length b)) by lia.
  f_equal. replace (length a - (n - length b) - length a) with 0 by lia. reflexivity.
Qed.
Lemma skipn_skipn' {A} (l : list A) a b : skipn a (skipn b l) = skipn (b + a) l.
Proof. revert l. induction b as [|b IH]; intro l; [reflexivity|]. destruct l; simpl; [apply skipn_nil|apply IH]. Qed.
Lemma skipn_lastn {A} (l : list A) n x : n <= length l -> skipn x (lastn n l) = lastn (n - x) l.
Proof.
  intro H. unfold lastn. rewrite skipn_skipn'. destruct (Nat.le_gt_cases x n) as [X|X].
  - f_equal. lia.
  - rewrite !skipn_all2 by lia. reflexivity.
Qed.

Lemma round_up_ge n i : 0 < i -> n <= round_up n i /\ round_up n i < n + i.
Proof.
  intro H. unfold round_up. pose proof (Nat.div_mod (n + i - 1) i ltac:(lia)) as D. pose proof (Nat.mod_upper_bound (n + i - 1) i ltac:(lia)) as B.
  rewrite (Nat.mul_comm _ i). lia.
Qed.
Lemma round_up_mod n i : 0 < i -> (round_up n i) mod i = 0.
Proof. intro H. unfold round_up. apply Nat.mod_mul. lia. Qed.

(** * The full state *)
Definition cap_ok (inc : option nat) (max_len t w : nat) : Prop :=
  match inc with None => w = max_len | Some i => 0 < i /\ w mod i = 0 /\ (w = 0 \/ w < t + i) end.
Definition full_inv (max_len : nat) (inc : option nat) h (s : full K V) : Prop :=
  f_len s = total h /\ f_inc s = inc /\ cap_ok inc max_len (total h) (width (f_k s)) /\
  holds (f_k s) (size h) (width (f_k s)) (total h) (keys h) /\ holds (f_v s) (size h) (width (f_k s)) (total h) (values h).

(** The state before the first step is fed: no content. *)
Definition full_raw (max_len : nat) (inc : option nat) (n t : nat) (ck : nat -> list K) (cv : nat -> list V) (s : full K V) : Prop :=
  f_len s = t /\ f_inc s = inc /\ cap_ok inc max_len t (width (f_k s)) /\
  holds (f_k s) n (width (f_k s)) t ck /\ holds (f_v s) n (width (f_k s)) t cv.

Lemma cap_mono inc mx t t' w : t <= t' -> cap_ok inc mx t w -> cap_ok inc mx t' w.
Proof. destruct inc as [i|]; simpl; [|auto]. intros H (A & B & C). repeat split; auto. lia. Qed.

Lemma full_expand_ok mx inc n t ck cv x s : full_raw mx inc n t ck cv s -> (inc = None -> t + x <= mx) ->
  exists s', full_expand x s = Ok s' /\ f_len s' = t /\ f_inc s' = inc /\ cap_ok inc mx (t + x) (width (f_k s')) /\ t + x <= width (f_k s') /\
    holds (f_k s') n (width (f_k s')) t ck /\ holds (f_v s') n (width (f_k s')) t cv.
Proof.
  intros (El & Ei & C & Hk & Hv) F. unfold full_expand. rewrite Ei. destruct inc as [i|].
  - rewrite El. destruct (Nat.leb_spec (t + x) (width (f_k s))) as [Le|Gt].
    + exists s. split; [reflexivity|]. split; [exact El|]. split; [exact Ei|]. split; [|split; [exact Le|split; assumption]].
      destruct C as (A & B & C). split; [exact A|]. split; [exact B|]. lia.
    + destruct C as (Ip & _). destruct (round_up_ge (t + x) i Ip) as [R1 R2].
      assert (Lb : batch (f_k s) = n) by apply Hk. rewrite Lb. cbv zeta.
      destruct (Nat.ltb_spec 0 t) as [Tp|Tz].
      * destruct (copy_ok _ _ _ _ _ (round_up (t + x) i) Hk ltac:(lia)) as (k' & Ek & Hk').
        destruct (copy_ok _ _ _ _ _ (round_up (t + x) i) Hv ltac:(lia)) as (v' & Ev & Hv').
        rewrite Ek. cbn [bind]. rewrite Ev. cbn [bind]. eexists. split; [reflexivity|]. cbn [f_len f_inc f_k f_v].
        assert (Wk : width k' = round_up (t + x) i) by apply Hk'. rewrite Wk.
        split; [reflexivity|]. split; [reflexivity|]. split; [|split; [lia|split; assumption]].
        split; [exact Ip|]. split; [now apply round_up_mod|]. lia.
      * assert (Z0 : t = 0) by lia. rewrite Z0 in *. eexists. split; [reflexivity|]. cbn [f_len f_inc f_k f_v new_empty width].
        assert (G : forall A (c : nat -> list A) (m : mat (option A)) w, holds m n w 0 c -> holds (new_empty n (round_up (0 + x) i)) n (round_up (0 + x) i) 0 c).
        { intros A c m w (_ & _ & _ & Hm). apply (holds_ext _ _ _ _ (fun _ => [])); [|apply holds_new].
          intros j Hj. symmetry. apply length_zero_iff_nil. now apply Hm. }
        split; [first [reflexivity|assumption]|]. split; [reflexivity|]. split; [|split; [lia|split; [exact (G _ _ _ _ Hk)|exact (G _ _ _ _ Hv)]]].
        split; [exact Ip|]. split; [now apply round_up_mod|]. lia.
  - exists s. cbn in C. split; [reflexivity|]. split; [assumption|]. split; [assumption|]. split; [exact C|]. split; [|split; assumption].
    rewrite C. now apply F.
Qed.

Lemma full_write_ok mx inc h k v s t : legal_event (Fed k v) h -> f_len s = t ->
  t = total h -> cap_ok inc mx (t + width k) (width (f_k s)) -> t + width k <= width (f_k s) -> f_inc s = inc ->
  holds (f_k s) (length (rows k)) (width (f_k s)) t (keys h) -> holds (f_v s) (length (rows k)) (width (f_k s)) t (values h) ->
  exists k' v', assign t (t + width k) (given k) (f_k s) = Ok k' /\ assign t (t + width k) (given v) (f_v s) = Ok v' /\
    full_inv mx inc (Fed k v :: h) (Full (t + width k) k' v' (f_inc s)).
Proof.
  intros (Rk & Rv & Wv & Lv & Hs) El -> C Le Ei Hk Hv.
  destruct (assign_ok _ _ _ _ _ (given k) (width k) (fun i => nth i (rows k) []) Hk) as (k' & Ek & Hk'); try reflexivity; [unfold given; simpl; apply map_length|exact Le| |].
  { intros i Hi. exact (given_rows k _ Rk eq_refl i Hi). }
  destruct (assign_ok _ _ _ _ _ (given v) (width k) (fun i => nth i (rows v) []) Hv) as (v' & Ev & Hv'); [exact Wv|unfold given; simpl; now rewrite map_length|exact Le| |].
  { intros i Hi. rewrite <- Wv. exact (given_rows v _ Rv Lv i Hi). }
  exists k', v'. split; [exact Ek|]. split; [exact Ev|].
  assert (Wk : width k' = width (f_k s)) by apply Hk'.
  unfold full_inv. cbn [f_len f_inc f_k f_v total size]. rewrite Wk.
  split; [first [reflexivity|assumption]|]. split; [first [reflexivity|assumption]|]. split; [assumption|]. split; assumption.
Qed.

Lemma full_init_ok mx inc k v : inc <> Some 0 -> legal_event (Fed k v) [] -> (inc = None -> width k <= mx) ->
  exists s, full_init k v mx inc = Ok s /\ full_inv mx inc [Fed k v] s.
Proof.
  intros I L F. set (w0 := match inc with Some _ => 0 | None => mx end).
  assert (R : full_raw mx inc (length (rows k)) 0 (keys (@nil (event K V))) (values (@nil (event K V)))
     (Full 0 (new_empty (batch k) w0) (new_empty (batch k) w0) inc)).
  { unfold full_raw. cbn [f_len f_inc f_k f_v]. change (width (@new_empty K (batch k) w0)) with w0.
    split; [reflexivity|]. split; [reflexivity|]. split; [|split; [exact (holds_new (batch k) w0)|exact (holds_new (batch k) w0)]].
    unfold w0, cap_ok. destruct inc as [i|]; [|reflexivity]. destruct i as [|i]; [congruence|].
    split; [lia|]. split; [apply Nat.mod_0_l; lia|now left]. }
  destruct (full_expand_ok _ _ _ _ _ _ (width k) _ R F) as (s' & E & El & Ei & C & Le & Hk & Hv).
  destruct (full_write_ok mx inc [] k v s' 0 L El eq_refl C Le Ei Hk Hv) as (k' & v' & Ek & Ev & Inv).
  exists (Full (width k) k' v' (f_inc s')). split; [|exact Inv].
  unfold full_init. fold w0. cbn [Nat.add] in Ek, Ev. 
  assert (G : bind (full_expand (width k) (Full 0 (new_empty (batch k) w0) (new_empty (batch k) w0) inc)) (fun s =>
      bind (assign 0 (width k) (given k) (f_k s)) (fun k' => bind (assign 0 (width k) (given v) (f_v s)) (fun v' =>
      Ok (Full (width k) k' v' (f_inc s))))) = Ok (Full (width k) k' v' (f_inc s'))).
  { rewrite E. cbn [bind]. rewrite Ek. cbn [bind]. rewrite Ev. reflexivity. }
  destruct inc as [[|i]|]; [congruence|exact G|exact G].
Qed.

Lemma full_append_ok mx inc h k v s : full_inv mx inc h s -> h <> [] -> legal_event (Fed k v) h -> (inc = None -> total h + width k <= mx) ->
  exists s', full_append k v s = Ok s' /\ full_inv mx inc (Fed k v :: h) s'.
Proof.
  intros Inv Hh L F. destruct (full_expand_ok mx inc _ _ _ _ (width k) s Inv F) as (s' & E & El & Ei & C & Le & Hk & Hv).
  assert (Ls : length (rows k) = size h) by (destruct L as (_ & _ & _ & _ & [->|L]); [congruence|exact L]).
  rewrite <- Ls in Hk, Hv.
  destruct (full_write_ok mx inc h k v s' _ L El eq_refl C Le Ei Hk Hv) as (k' & v' & Ek & Ev & Inv').
  exists (Full (total h + width k) k' v' (f_inc s')). split; [|exact Inv'].
  unfold full_append. rewrite E. cbn [bind]. cbv zeta. rewrite El, Ek. cbn [bind]. rewrite Ev. reflexivity.
Qed.

Lemma full_reorder_ok mx inc h o s : full_inv mx inc h s -> legal_event (Reordered o) h ->
  exists s', full_reorder o s = Ok s' /\ full_inv mx inc (Reordered o :: h) s'.
Proof.
  intros (El & Ei & C & Hk & Hv) (_ & O). unfold full_reorder.
  destruct (index_ok _ _ _ _ _ o Hk O) as (k' & Ek & Hk'). destruct (index_ok _ _ _ _ _ o Hv O) as (v' & Ev & Hv').
  rewrite Ek. cbn [bind]. rewrite Ev. cbn [bind]. eexists. split; [reflexivity|].
  assert (Wk : width k' = width (f_k s)) by apply Hk'.
  unfold full_inv. cbn [f_len f_inc f_k f_v total size]. rewrite Wk.
  split; [first [reflexivity|assumption]|]. split; [first [reflexivity|assumption]|]. split; [assumption|]. split; assumption.
Qed.

(** * The local state *)
Definition local_inv (win : nat) (inc : option nat) h (s : local K V) : Prop :=
  l_len s = total h /\ l_win s = win /\ l_inc s = inc /\
  width (l_k s) <= win /\ (inc = None -> width (l_k s) = win) /\ Nat.min win (total h) <= width (l_k s) /\
  holds (l_k s) (size h) (width (l_k s)) (Nat.min win (total h)) (fun i => lastn win (keys h i)) /\
  holds (l_v s) (size h) (width (l_k s)) (Nat.min win (total h)) (fun i => lastn win (values h i)).

Lemma local_expand_ok win inc n t ck cv x (s : local K V) :
  l_len s = t -> l_win s = win -> l_inc s = inc -> inc <> Some 0 -> width (l_k s) <= win -> (inc = None -> width (l_k s) = win) ->
  holds (l_k s) n (width (l_k s)) (Nat.min win t) ck -> holds (l_v s) n (width (l_k s)) (Nat.min win t) cv ->
  exists s', local_expand x s = Ok s' /\ l_len s' = t /\ l_win s' = win /\ l_inc s' = inc /\ width (l_k s') <= win /\ (inc = None -> width (l_k s') = win) /\
    Nat.min win (t + x) <= width (l_k s') /\
    holds (l_k s') n (width (l_k s')) (Nat.min win t) ck /\ holds (l_v s') n (width (l_k s')) (Nat.min win t) cv.
Proof.
  intros El Ew Ei In Wl Wn Hk Hv. unfold local_expand. rewrite Ei. destruct inc as [i|].
  - rewrite El, Ew. destruct (Nat.leb_spec (t + x) (width (l_k s))) as [Le|Gt]; [|destruct (Nat.eqb_spec (width (l_k s)) win) as [Eq|Ne]]; cbn [orb].
    + exists s. split; [reflexivity|]. split; [exact El|]. split; [exact Ew|]. split; [exact Ei|]. split; [exact Wl|]. split; [exact Wn|]. split; [lia|]. split; assumption.
    + exists s. split; [reflexivity|]. split; [exact El|]. split; [exact Ew|]. split; [exact Ei|]. split; [exact Wl|]. split; [exact Wn|]. split; [lia|]. split; assumption.
    + assert (Ip : 0 < i) by (destruct i; [congruence|lia]). destruct (round_up_ge (t + x) i Ip) as [R1 R2].
      assert (Lb : batch (l_k s) = n) by apply Hk. rewrite Lb. cbv zeta.
      assert (Tw : Nat.min win t <= width (l_k s)) by apply Hk. assert (Ht : t <= width (l_k s)) by lia.
      rewrite (Nat.min_r win t) in * by lia.
      destruct (Nat.ltb_spec 0 t) as [Tp|Tz].
      * destruct (copy_ok _ _ _ _ _ (Nat.min (round_up (t + x) i) win) Hk ltac:(lia)) as (k' & Ek & Hk').
        destruct (copy_ok _ _ _ _ _ (Nat.min (round_up (t + x) i) win) Hv ltac:(lia)) as (v' & Ev & Hv').
        rewrite Ek. cbn [bind]. rewrite Ev. cbn [bind]. eexists. split; [reflexivity|]. cbn [l_len l_win l_inc l_k l_v].
        assert (Wk : width k' = Nat.min (round_up (t + x) i) win) by apply Hk'. rewrite Wk.
        split; [reflexivity|]. split; [reflexivity|]. split; [reflexivity|]. split; [lia|]. split; [discriminate|]. split; [lia|]. split; assumption.
      * assert (Z0 : t = 0) by lia. rewrite Z0 in *. eexists. split; [reflexivity|]. cbn [l_len l_win l_inc l_k l_v new_empty width].
        assert (G : forall A (c : nat -> list A) (m : mat (option A)) w w', holds m n w 0 c -> holds (new_empty n w') n w' 0 c).
        { intros A c m w w' (_ & _ & _ & Hm). apply (holds_ext _ _ _ _ (fun _ => [])); [|apply holds_new].
          intros j Hj. symmetry. apply length_zero_iff_nil. now apply Hm. }
        split; [first [reflexivity|assumption]|]. split; [reflexivity|]. split; [reflexivity|]. split; [lia|]. split; [discriminate|]. split; [lia|].
        split; [exact (G _ _ _ _ _ Hk)|exact (G _ _ _ _ _ Hv)].
  - exists s. split; [reflexivity|]. split; [exact El|]. split; [exact Ew|]. split; [exact Ei|]. split; [exact Wl|]. split; [exact Wn|]. rewrite (Wn eq_refl) in *. split; [lia|]. split; assumption.
Qed.

Lemma local_write_ok {A} (m : mat (option A)) n w pos c (k : mat A) copy : holds m n w pos c -> rect k -> length (rows k) = n ->
  copy <= width k -> 0 < copy \/ width k = 0 -> pos + copy <= w ->
  exists m', assign pos (pos + copy) (given (slice_last copy k)) m = Ok m' /\
    holds m' n w (pos + copy) (fun i => c i ++ lastn copy (nth i (rows k) [])).
Proof.
  intros Hm R L Cw Cp Le. destruct (last_rect k copy R Cw Cp) as (R' & W' & L' & N').
  destruct (assign_ok m n w pos c (given (slice_last copy k)) copy (fun i => nth i (rows (slice_last copy k)) []) Hm) as (m' & E & Hm');
    [exact W'|unfold given; cbn [rows]; rewrite map_length; lia|exact Le| |].
  { intros i Hi. destruct (given_rows _ n R' ltac:(lia) i Hi) as [G1 G2]. rewrite W' in G2. split; [exact G1|exact G2]. }
  exists m'. split; [exact E|]. eapply holds_ext; [|exact Hm']. intros i Hi. cbv beta. now rewrite N'.
Qed.

Lemma local_init_ok mx win0 inc k v : inc <> Some 0 -> legal_event (Fed k v) [] -> 0 < Nat.min mx win0 ->
  exists s, local_init k v mx win0 inc = Ok s /\ local_inv (Nat.min mx win0) inc [Fed k v] s.
Proof.
  intros I (Rk & Rv & Wv & Lv & _) Wp. set (win := Nat.min mx win0) in *. set (w0 := match inc with Some _ => 0 | None => win end).
  assert (Hk0 : holds (@new_empty K (batch k) w0) (batch k) w0 (Nat.min win 0) (fun _ => [])) by (rewrite Nat.min_0_r; apply holds_new).
  assert (Hv0 : holds (@new_empty V (batch k) w0) (batch k) w0 (Nat.min win 0) (fun _ => [])) by (rewrite Nat.min_0_r; apply holds_new).
  destruct (local_expand_ok win inc (batch k) 0 (fun _ => []) (fun _ => []) (width k) (Local 0 win (new_empty (batch k) w0) (new_empty (batch k) w0) inc))
    as (s' & E & El & Ew & Ei & Wl & Wn & Le & Hk & Hv); try reflexivity; try assumption; cbn [l_k new_empty width].
  { unfold w0. destruct inc; lia. } { intros ->. reflexivity. }
  rewrite Nat.min_0_r in Hk, Hv. cbn [Nat.add] in Le.
  set (copy := Nat.min (width k) win).
  destruct (local_write_ok _ _ _ 0 _ k copy Hk Rk eq_refl) as (k' & Ek & Hk'); [unfold copy; lia|unfold copy; lia|unfold copy; lia|].
  destruct (local_write_ok _ _ _ 0 _ v copy Hv Rv Lv) as (v' & Ev & Hv'); [unfold copy; lia|unfold copy; lia|unfold copy; lia|].
  exists (Local (width k) win k' v' (l_inc s')). split.
  - assert (G : bind (local_expand (width k) (Local 0 win (new_empty (batch k) w0) (new_empty (batch k) w0) inc)) (fun s =>
      let copy := Nat.min (width k) win in
      bind (assign 0 copy (given (slice_last copy k)) (l_k s)) (fun k' =>
      bind (assign 0 copy (given (slice_last copy v)) (l_v s)) (fun v' =>
      Ok (Local (width k) win k' v' (l_inc s))))) = Ok (Local (width k) win k' v' (l_inc s'))).
    { rewrite E. cbn [bind]. cbv zeta. fold copy. cbn [Nat.add] in Ek, Ev. rewrite Ek. cbn [bind]. rewrite Ev. reflexivity. }
    unfold local_init. destruct inc as [[|i]|]; [congruence|exact G|exact G].
  - assert (Wk : width k' = width (l_k s')) by apply Hk'.
    unfold local_inv. cbn [l_len l_win l_inc l_k l_v total size Nat.add]. rewrite Wk.
    split; [reflexivity|]. split; [reflexivity|]. split; [exact Ei|]. split; [exact Wl|]. split; [exact Wn|]. split; [exact Le|].
    unfold copy in Hk', Hv'. rewrite (Nat.min_comm (width k) win) in Hk', Hv'. cbn [Nat.add] in Hk', Hv'.
    split; (eapply holds_ext; [|eassumption]); intros i Hi; cbv beta; cbn [keys values app].
    + destruct (given_rows k _ Rk eq_refl i Hi) as [_ Ln]. destruct (Nat.le_ge_cases win (width k)) as [Q|Q]; [now rewrite Nat.min_l by lia|].
      rewrite Nat.min_r by lia. rewrite !lastn_all by lia. reflexivity.
    + destruct (given_rows v _ Rv Lv i Hi) as [_ Ln]. rewrite Wv in Ln. destruct (Nat.le_ge_cases win (width k)) as [Q|Q]; [now rewrite Nat.min_l by lia|].
      rewrite Nat.min_r by lia. rewrite !lastn_all by lia. reflexivity.
Qed.

Lemma local_append_ok win inc h k v s : 0 < win -> inc <> Some 0 -> local_inv win inc h s -> h <> [] -> legal h -> legal_event (Fed k v) h ->
  total h + width k <= win \/ win <= total h \/ win <= width k ->
  exists s', local_append k v s = Ok s' /\ local_inv win inc (Fed k v :: h) s'.
Proof.
  intros Wp I (El & Ew & Ei & Wl & Wn & Lm & Hk & Hv) Hh Lg (Rk & Rv & Wv & Lv & Hs) Sm.
  assert (Ls : length (rows k) = size h) by (destruct Hs as [->|L]; [congruence|exact L]).
  assert (Lens := legal_lens h Lg).
  destruct (local_expand_ok win inc (size h) (total h) _ _ (width k) s El Ew Ei I Wl Wn Hk Hv)
    as (s' & E & El' & Ew' & Ei' & Wl' & Wn' & Le' & Hk' & Hv').
  unfold local_append. rewrite E. cbn [bind]. cbv zeta. rewrite El', Ew'. clear E.
  assert (Fin : forall pos copy sk sv ck cv,
    holds sk (size h) (width (l_k s')) pos ck -> holds sv (size h) (width (l_k s')) pos cv ->
    copy <= width k -> 0 < copy \/ width k = 0 -> pos + copy = Nat.min win (total h + width k) ->
    (forall i, i < size h -> ck i ++ lastn copy (nth i (rows k) []) = lastn win (keys h i ++ nth i (rows k) [])) ->
    (forall i, i < size h -> cv i ++ lastn copy (nth i (rows v) []) = lastn win (values h i ++ nth i (rows v) [])) ->
    exists s'', (bind (assign pos (pos + copy) (given (slice_last copy k)) sk) (fun k' =>
      bind (assign pos (pos + copy) (given (slice_last copy v)) sv) (fun v' =>
      Ok (Local (total h + width k) win k' v' (l_inc s'))))) = Ok s'' /\ local_inv win inc (Fed k v :: h) s'').
  { intros pos copy sk sv ck cv Hsk Hsv Cw Cp Ec Ek Ev.
    destruct (local_write_ok _ _ _ _ _ k copy Hsk Rk Ls) as (k' & Ek' & Hk2); [lia|lia|lia|].
    destruct (local_write_ok _ _ _ _ _ v copy Hsv Rv ltac:(lia)) as (v' & Ev' & Hv2); [lia|lia|lia|].
    rewrite Ek'. cbn [bind]. rewrite Ev'. cbn [bind]. eexists. split; [reflexivity|].
    assert (Wk : width k' = width (l_k s')) by apply Hk2.
    unfold local_inv. cbn [l_len l_win l_inc l_k l_v total size]. rewrite Wk, Ls, <- Ec.
    split; [reflexivity|]. split; [reflexivity|]. split; [exact Ei'|]. split; [exact Wl'|]. split; [exact Wn'|]. split; [lia|].
    split; [eapply holds_ext; [|exact Hk2]|eapply holds_ext; [|exact Hv2]]; intros i Hi; cbv beta; cbn [keys values]; auto. }
  assert (Lk : forall i, i < size h -> length (nth i (rows k) []) = width k).
  { intros i Hi. rewrite <- Ls in Hi. exact (proj2 (given_rows k _ Rk eq_refl i Hi)). }
  assert (Lvv : forall i, i < size h -> length (nth i (rows v) []) = width k).
  { intros i Hi. rewrite <- Ls in Hi. rewrite <- Wv. exact (proj2 (given_rows v _ Rv Lv i Hi)). }
  destruct (Nat.ltb_spec win (total h + width k)) as [Ov|Fit].
  - cbv zeta. destruct (Nat.eqb_spec (Nat.min (width k) win) win) as [Eq|Ne].
    + apply (Fin 0 _ _ _ (fun _ => []) (fun _ => [])).
      * exact (holds_forget _ _ _ _ _ Hk').
      * exact (holds_forget _ _ _ _ _ Hv').
      * lia.
      * lia.
      * lia.
      * intros i Hi. cbn [app]. rewrite Eq, lastn_app_long; [reflexivity|]. rewrite (Lk i Hi). lia.
      * intros i Hi. cbn [app]. rewrite Eq, lastn_app_long; [reflexivity|]. rewrite (Lvv i Hi). lia.
    + assert (Wt : win <= total h) by lia. rewrite (Nat.min_l win (total h)) in * by lia. rewrite (Nat.min_l win (total h + _)) in Le' by lia.
      assert (Ww : width (l_k s') = win) by lia. rewrite Ww in *.
      assert (Ec : Nat.min (width k) win = width k) by lia. rewrite Ec.
      apply (Fin (win - width k) (width k) _ _ (fun i => skipn (width k) (lastn win (keys h i))) (fun i => skipn (width k) (lastn win (values h i)))).
      * apply roll_ok; [exact Hk'|lia].
      * apply roll_ok; [exact Hv'|lia].
      * lia.
      * lia.
      * rewrite Nat.min_l by lia. lia.
      * intros i Hi. destruct (Lens i Hi) as [Q _]. rewrite skipn_lastn by lia. rewrite lastn_app_short by (rewrite (Lk i Hi); lia).
        rewrite (Lk i Hi), (lastn_all (nth i (rows k) [])) by (rewrite (Lk i Hi); lia). reflexivity.
      * intros i Hi. destruct (Lens i Hi) as [_ Q]. rewrite skipn_lastn by lia. rewrite lastn_app_short by (rewrite (Lvv i Hi); lia).
        rewrite (Lvv i Hi), (lastn_all (nth i (rows v) [])) by (rewrite (Lvv i Hi); lia). reflexivity.
  - rewrite (Nat.min_r win (total h)) in * by lia.
    apply (Fin _ _ _ _ _ _ Hk' Hv').
    * lia.
    * lia.
    * lia.
    * intros i Hi. destruct (Lens i Hi) as [Q _]. pose proof (Lk i Hi). rewrite !lastn_all; rewrite ?app_length; try lia. reflexivity.
    * intros i Hi. destruct (Lens i Hi) as [_ Q]. pose proof (Lvv i Hi). rewrite !lastn_all; rewrite ?app_length; try lia. reflexivity.
Qed.

Lemma local_reorder_ok win inc h o s : local_inv win inc h s -> legal_event (Reordered o) h ->
  exists s', local_reorder o s = Ok s' /\ local_inv win inc (Reordered o :: h) s'.
Proof.
  intros (El & Ew & Ei & Wl & Wn & Lm & Hk & Hv) (_ & O). unfold local_reorder.
  destruct (index_ok _ _ _ _ _ o Hk O) as (k' & Ek & Hk'). destruct (index_ok _ _ _ _ _ o Hv O) as (v' & Ev & Hv').
  rewrite Ek. cbn [bind]. rewrite Ev. cbn [bind]. eexists. split; [reflexivity|].
  assert (Wk : width k' = width (l_k s)) by apply Hk'.
  unfold local_inv. cbn [l_len l_win l_inc l_k l_v total size]. rewrite Wk.
  repeat (split; [assumption|]). assumption.
Qed.
End S.
