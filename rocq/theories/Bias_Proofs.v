From Coq Require Import ZArith List Bool Arith Lia Reals Lra.
From Verif Require Import Batch_Model Batch_Spec Batch_Props Pos_Spec Bias_Model Bias_Spec.
From Verif Require Pos_Proofs.
Import ListNotations.

Lemma mapi_length {A B} (f : nat -> A -> B) i l : length (mapi f i l) = length l.
Proof. revert i. induction l; intros i; simpl; [reflexivity|]. now rewrite IHl. Qed.
Lemma mapi_app {A B} (f : nat -> A -> B) i a b : mapi f i (a ++ b) = mapi f i a ++ mapi f (i + length a) b.
Proof. revert i. induction a as [|x a IH]; intros i; cbn [app mapi length]; [now rewrite Nat.add_0_r|]. rewrite IH. do 3 f_equal. lia. Qed.
Lemma mapi_ext {A B} (f g : nat -> A -> B) i l : (forall j x, i <= j < i + length l -> nth_error l (j - i) = Some x -> f j x = g j x) -> mapi f i l = mapi g i l.
Proof.
  revert i. induction l as [|x l IH]; intros i H; [reflexivity|]. cbn [mapi]. f_equal.
  - apply H; [simpl; lia|]. now rewrite Nat.sub_diag.
  - apply IH. intros j y Hj E. apply H; [simpl; lia|]. replace (j - i) with (S (j - S i)) by lia. exact E.
Qed.
Lemma mapi_shift {A B} (f : nat -> A -> B) i d l : mapi f (d + i) l = mapi (fun j => f (d + j)) i l.
Proof. revert i. induction l as [|x l IH]; intros i; [reflexivity|]. cbn [mapi]. f_equal. rewrite <- IH. f_equal. lia. Qed.
Lemma mapi_firstn {A B} (f : nat -> A -> B) i n l : firstn n (mapi f i l) = mapi f i (firstn n l).
Proof. revert i l. induction n; intros i [|x l]; try reflexivity. cbn [mapi firstn]. now rewrite IHn. Qed.
Lemma mapi_skipn {A B} (f : nat -> A -> B) i n l : n <= length l -> skipn n (mapi f i l) = mapi f (i + n) (skipn n l).
Proof.
  revert i l. induction n; intros i l L; [now rewrite Nat.add_0_r|]. destruct l as [|x l]; [simpl in L; lia|]. cbn [mapi skipn].
  rewrite IHn by (simpl in L; lia). f_equal. lia.
Qed.
Lemma mapi_map {A B} (g : A -> B) i l : mapi (fun _ x => g x) i l = map g l.
Proof. revert i. induction l as [|x l IH]; intros i; [reflexivity|]. cbn [mapi map]. now rewrite IH. Qed.
Lemma rsum_app a b : (rsum (a ++ b) = rsum a + rsum b)%R.
Proof. unfold rsum. induction a as [|x a IH]; cbn [app fold_right]; [lra|]. rewrite IH. lra. Qed.
Lemma rsum_zero {A} (f : nat -> A -> R) i l : (forall j x, i <= j < i + length l -> f j x = 0%R) -> rsum (mapi f i l) = 0%R.
Proof. revert i. induction l as [|x l IH]; intros i H; [reflexivity|]. cbn [mapi]. unfold rsum in *. cbn [fold_right]. rewrite IH by (intros; apply H; simpl; lia). rewrite H by (simpl; lia). lra. Qed.
Lemma rsum_pos {A} (f : A -> R) l : (forall x, (0 < f x)%R) -> l <> [] -> (0 < rsum (map f l))%R.
Proof. intros H. induction l as [|x l IH]; [congruence|]. intros _. unfold rsum in *. cbn [map fold_right]. specialize (H x). destruct l; [cbn; lra|]. specialize (IH ltac:(discriminate)). cbn [map fold_right] in *. lra. Qed.

Section Attend.
Context {Q K : Type}.
Variable score : nat -> Q -> K -> R.
Variable value : nat -> K -> R.
Notation attend := (Bias_Model.attend score value).

Lemma attend_ext h r r' q ks : (forall j, j < length ks -> r j = r' j) -> attend h r q ks = attend h r' q ks.
Proof.
  intros H. unfold Bias_Model.attend. cbv zeta.
  rewrite (mapi_ext (fun j k => match r j with None => 0%R | Some b => exp (score h q k + b) end) (fun j k => match r' j with None => 0%R | Some b => exp (score h q k + b) end)) by (intros; rewrite H by lia; reflexivity).
  rewrite (mapi_ext (fun j k => (match r j with None => 0%R | Some b => exp (score h q k + b) end * value h k)%R) (fun j k => (match r' j with None => 0%R | Some b => exp (score h q k + b) end * value h k)%R)) by (intros; rewrite H by lia; reflexivity).
  reflexivity.
Qed.
Lemma attend_mid h r q a b c : (forall j, j < length a -> r j = None) -> (forall j, length a + length b <= j < length (a ++ b ++ c) -> r j = None) ->
  attend h r q (a ++ b ++ c) = attend h (fun j => r (length a + j)) q b.
Proof.
  intros Ha Hc. unfold Bias_Model.attend. cbv zeta. rewrite !mapi_app, !rsum_app.
  rewrite !(rsum_zero _ 0 a) by (intros; rewrite Ha by lia; lra).
  rewrite !app_length in Hc. rewrite !(rsum_zero _ (0 + length a + length b) c) by (intros; rewrite Hc by lia; lra).
  rewrite !Rplus_0_l, !Rplus_0_r. replace (0 + length a) with (length a + 0) by lia. rewrite !mapi_shift. reflexivity.
Qed.
Lemma attend_const h x q ks : attend h (fun _ => Some x) q ks = attends (score h q) (value h) ks.
Proof.
  unfold Bias_Model.attend. cbv zeta. rewrite !mapi_map. destruct ks as [|k ks]; [cbn; destruct (Req_EM_T 0 0); [reflexivity|lra]|].
  destruct (Req_EM_T _ 0) as [E|_].
  { exfalso. pose proof (rsum_pos (fun k => exp (score h q k + x)) (k :: ks) (fun k => exp_pos _) ltac:(discriminate)). lra. }
  unfold attends. f_equal. set (l := k :: ks).
  assert (N : (0 < rsum (map (fun k => exp (score h q k)) l))%R) by (apply rsum_pos; [intros; apply exp_pos|discriminate]).
  assert (E1 : rsum (map (fun k => exp (score h q k + x)) l) = (exp x * rsum (map (fun k => exp (score h q k)) l))%R).
  { clear N. induction l as [|y l IH]; unfold rsum in *; cbn [map fold_right]; [lra|]. rewrite IH, exp_plus. lra. }
  assert (E2 : rsum (map (fun k => (exp (score h q k + x) * value h k)%R) l) = (exp x * rsum (map (fun k => (exp (score h q k) * value h k)%R) l))%R).
  { clear N E1. induction l as [|y l IH]; unfold rsum in *; cbn [map fold_right]; [lra|]. rewrite IH, exp_plus. lra. }
  rewrite E1, E2. unfold rsum, sum in *. pose proof (exp_pos x). field. split; lra.
Qed.
(** A row that is 0 for the keys from [lo] to before [hi] and minus infinity for the others. *)
Lemma attend_between h r q ks lo hi : lo <= hi -> hi <= length ks -> (forall j, j < length ks -> r j = log01 (Nat.leb lo j && Nat.ltb j hi)) ->
  attend h r q ks = attends (score h q) (value h) (firstn (hi - lo) (skipn lo ks)).
Proof.
  intros L1 L2 H. set (a := firstn lo ks). set (b := firstn (hi - lo) (skipn lo ks)). set (c := skipn (hi - lo) (skipn lo ks)).
  assert (E : ks = a ++ b ++ c) by (unfold a, b, c; now rewrite !firstn_skipn).
  assert (La : length a = lo) by (unfold a; rewrite firstn_length; lia). assert (Lb : length b = hi - lo) by (unfold b; rewrite firstn_length, skipn_length; lia).
  rewrite E at 1. rewrite attend_mid.
  - rewrite (attend_ext h _ (fun _ => Some 0%R)), attend_const; [reflexivity|]. intros j Hj. rewrite H by lia. rewrite La.
    destruct (Nat.leb_spec lo (lo + j)); [|lia]. destruct (Nat.ltb_spec (lo + j) hi); [reflexivity|lia].
  - intros j Hj. rewrite H by lia. destruct (Nat.leb_spec lo j); [lia|reflexivity].
  - rewrite <- E. intros j Hj. rewrite H by lia. destruct (Nat.ltb_spec j hi); [lia|]. now rewrite andb_false_r.
Qed.
End Attend.

(** ** Bias tensors *)
Definition srow (t : tens) (h i j : nat) : entry := match t with T2 m => at_ m i j | T3 H _ _ f => f (clip H h) i j end.
Definition dims (t : tens) : nat * nat := match t with T2 m => (nr m, nc m) | T3 _ r c _ => (r, c) end.
Lemma create_dims b q k t : create b q k = Bias_Model.Ok t -> dims t = (q, k).
Proof. destruct b as [|w|n|H]; cbn [create]; try (intros [= <-]; reflexivity). destruct (Nat.eqb_spec q k); [|discriminate]. intros [= <-]. reflexivity. Qed.
Lemma clip_lt n i : i < n -> clip n i = i.
Proof. intros L. unfold clip. destruct (Nat.eqb_spec n 1); [lia|reflexivity]. Qed.
Lemma tens_row_ok t h s sk i : dims t = (s, sk) -> i < s -> exists r, tens_row t h s sk i = Bias_Model.Ok r /\ forall j, j < sk -> r j = srow t h i j.
Proof.
  intros D Hi. destruct t as [m|H r c f]; cbn [dims] in D; injection D as D1 D2; cbn [tens_row srow]; unfold broadcasts; rewrite D1, D2, !Nat.eqb_refl; cbn [orb andb];
    (eexists; split; [reflexivity|]); intros j Hj; cbv beta; rewrite (clip_lt s i), (clip_lt sk j) by lia; reflexivity.
Qed.
Definition flat (t : tens) : Prop := heads_of t = 1.
Lemma assignable_flat t h : flat t -> exists f, assignable t = Bias_Model.Ok f /\ forall i j, f i j = srow t h i j.
Proof.
  unfold flat. destruct t as [m|H r c f]; cbn [heads_of assignable srow]; [intros _; eauto|]. intros ->. cbn. eauto.
Qed.

Definition begin (b : nat) (l : list nat) (s : nat) : nat := b + list_sum (firstn s l).
(** What the blocks of sequences hold. *)
Lemma block_loop_ok b h ql kl : forall qlens klens qb kb m,
  length qlens = length klens -> Forall (fun n => 1 <= n) qlens -> Forall (fun n => 1 <= n) klens ->
  (forall s, s < length qlens -> exists t, create b (nth s qlens 0) (nth s klens 0) = Bias_Model.Ok t /\ flat t) ->
  exists f, block_loop b (seq_ranges qb qlens ++ [(ql, ql)]) (seq_ranges kb klens ++ [(kl, kl)]) qb kb m = Bias_Model.Ok f /\
    (forall i j, i < qb -> f i j = m i j) /\
    forall s t, s < length qlens -> create b (nth s qlens 0) (nth s klens 0) = Bias_Model.Ok t ->
      forall i, i < nth s qlens 0 ->
        (forall j, j < nth s klens 0 -> f (begin qb qlens s + i) (begin kb klens s + j) = srow t h i j) /\
        (forall j, j < begin kb klens s \/ begin kb klens s + nth s klens 0 <= j -> f (begin qb qlens s + i) j = m (begin qb qlens s + i) j).
Proof.
  induction qlens as [|q qlens IH]; intros [|k klens] qb kb m L Fq Fk G; try discriminate L.
  - cbn [seq_ranges app block_loop]. rewrite !Nat.eqb_refl. cbn [negb andb bind]. eexists. split; [reflexivity|]. split; [|intros s t Hs; simpl in Hs; lia].
    intros i j Hi. destruct (negb _ && negb _); [|reflexivity]. unfold write. destruct (Nat.leb_spec qb i); [lia|reflexivity].
  - cbn [seq_ranges app block_loop]. rewrite !Nat.eqb_refl. cbn [negb andb]. inversion_clear Fq as [|? ? Q1 Fq']. inversion_clear Fk as [|? ? K1 Fk'].
    destruct (Nat.eqb_spec qb (qb + q)); [lia|]. destruct (Nat.eqb_spec kb (kb + k)); [lia|]. cbn [negb andb].
    destruct (G 0 ltac:(simpl; lia)) as (t0 & E0 & Fl). cbn [nth] in E0. replace (qb + q - qb) with q by lia. replace (kb + k - kb) with k by lia. rewrite E0. cbn [bind].
    destruct (assignable_flat t0 h Fl) as (f0 & -> & H0). cbn [bind].
    set (m' := write qb (qb + q) kb (kb + k) f0 m).
    destruct (IH klens (qb + q) (kb + k) m' ltac:(simpl in L; lia) Fq' Fk') as (f & -> & Old & New).
    { intros s Hs. exact (G (S s) ltac:(simpl; lia)). }
    exists f. split; [reflexivity|]. split.
    + intros i j Hi. rewrite Old by lia. unfold m', write. destruct (Nat.leb_spec qb i); [lia|reflexivity].
    + intros [|s] t Hs Et i Hi; cbn [nth] in *; unfold begin in *; cbn [firstn list_sum fold_right] in *.
      * rewrite E0 in Et. injection Et as <-. rewrite !Nat.add_0_r. split.
        -- intros j Hj. rewrite Old by lia. unfold m', write. destruct (Nat.leb_spec qb (qb + i)); [|lia]. destruct (Nat.ltb_spec (qb + i) (qb + q)); [|lia].
           destruct (Nat.leb_spec kb (kb + j)); [|lia]. destruct (Nat.ltb_spec (kb + j) (kb + k)); [|lia]. cbn [andb].
           replace (qb + i - qb) with i by lia. replace (kb + j - kb) with j by lia. apply H0.
        -- intros j Hj. rewrite Old by lia. unfold m', write. destruct (Nat.leb_spec kb j); [|now rewrite andb_false_r]. destruct (Nat.ltb_spec j (kb + k)); [lia|]. now rewrite andb_false_r.
      * destruct (New s t ltac:(simpl in Hs; lia) Et i Hi) as [N1 N2]. fold (list_sum (firstn s qlens)) in *. fold (list_sum (firstn s klens)) in *.
        rewrite !Nat.add_assoc in *. split; [exact N1|]. intros j Hj. rewrite N2 by lia. unfold m', write.
        destruct (Nat.ltb_spec (qb + q + list_sum (firstn s qlens) + i) (qb + q)); [lia|]. now rewrite andb_false_r.
Qed.

(** ** Layouts *)
Lemma total_sum l : Forall (fun n => (1 <= n)%Z) l -> Z.to_nat (total l) = list_sum (map Z.to_nat l).
Proof.
  intros F. assert (G : (0 <= total l)%Z /\ Z.to_nat (total l) = list_sum (map Z.to_nat l)); [|apply G].
  induction F as [|x l Hx F [I1 I2]]; [split; [cbn; lia|reflexivity]|]. cbn [map]. change (total (x :: l)) with (x + total l)%Z.
  change (list_sum (Z.to_nat x :: map Z.to_nat l)) with (Z.to_nat x + list_sum (map Z.to_nat l)). lia.
Qed.
Lemma begins_nth l : forall b k, (0 <= b)%Z -> Forall (fun n => (1 <= n)%Z) l -> k <= length l -> Z.to_nat (nth k (begins b l) 0%Z) = Z.to_nat b + list_sum (firstn k (map Z.to_nat l)).
Proof.
  induction l as [|x l IH]; intros b [|k] Hb F L; cbn [begins nth map firstn]; try (cbn; lia); [simpl in L; lia|]. inversion_clear F.
  rewrite IH by (try assumption; simpl in L; lia). change (list_sum (Z.to_nat x :: firstn k (map Z.to_nat l))) with (Z.to_nat x + list_sum (firstn k (map Z.to_nat l))). lia.
Qed.
Lemma nat_lens_nth y k : Z.to_nat (nth k (seq_lens y) 0%Z) = nth k (nat_lens y) 0.
Proof. unfold nat_lens. now rewrite <- (map_nth Z.to_nat). Qed.
Lemma iota_length n : length (iota n) = Z.to_nat n.
Proof. unfold iota. now rewrite map_length, seq_length. Qed.

Lemma layout_packed shape lens y : batch_layout shape lens true = Batch_Model.Ok y ->
  packed y = true /\ Forall (fun n => 1 <= n) (nat_lens y) /\ list_sum (nat_lens y) <= Z.to_nat (width y) /\
  (forall A (xs : list (list A)), fits y xs -> exists row, xs = [row] /\ length row = Z.to_nat (width y)) /\
  forall k, k < length (seq_lens y) -> Z.to_nat (nth k (seq_begin y) 0%Z) = list_sum (firstn k (nat_lens y)).
Proof.
  intros H. destruct (proj1 (C24_accept_packed shape lens)) as (w & -> & Hw & Hl & Ht); [eauto|]. destruct (C24_packed w lens y H) as (Ew & Ek & Es & Eb & Ep & _).
  set (l := match lens with Some l => l | None => [w] end) in *. split; [exact Ek|]. unfold nat_lens. rewrite Es, Ew. split; [|split; [|split]].
  - apply Forall_map. eapply Forall_impl; [|exact Hl]. cbv beta. intros; lia.
  - rewrite <- total_sum by exact Hl. lia.
  - intros A xs Fi. unfold fits in Fi. rewrite Ep in Fi. destruct xs as [|row [|? ?]]; try discriminate Fi. exists row. split; [reflexivity|]. cbn [map] in Fi. injection Fi as Fi. rewrite Fi.
    unfold packed_row. rewrite app_length, repeat_length.
    assert (E : length (concat (map iota l)) = Z.to_nat (total l)).
    { rewrite total_sum by exact Hl. clear. induction l as [|x l IH]; [reflexivity|]. cbn [map concat]. rewrite app_length, IH, iota_length. reflexivity. }
    assert (0 <= total l)%Z; [|lia]. clear - Hl. induction Hl; [cbn; lia|]. change (total (x :: l)) with (x + total l)%Z. lia.
  - intros k Hk. rewrite Eb, begins_nth by (try assumption; lia). reflexivity.
Qed.
Lemma layout_padded shape lens y : batch_layout shape lens false = Batch_Model.Ok y ->
  packed y = false /\ Forall (fun n => 1 <= n <= Z.to_nat (width y)) (nat_lens y) /\
  (forall A (xs : list (list A)), fits y xs -> length xs = length (nat_lens y) /\ Forall (fun r => length r = Z.to_nat (width y)) xs) /\
  (forall k, k < length (seq_lens y) -> Z.to_nat (nth k (seq_begin y) 0%Z) = k * Z.to_nat (width y)) /\
  (padded y = false -> Forall (fun n => n = Z.to_nat (width y)) (nat_lens y)) /\
  (max_len y = 1%Z -> Forall (fun n => n = 1) (nat_lens y)) /\
  (padded y = false -> seq_lens y <> [] -> max_len y = width y).
Proof.
  intros H. destruct (proj1 (C24_accept_padded shape lens)) as (n & w & -> & Hw & Hn & Hl); [eauto|]. destruct (C24_padded n w lens y H) as (Ew & Ek & Es & Eb & Ep & Em & _).
  set (l := match lens with Some l => l | None => repeat w (Z.to_nat n) end) in *. split; [exact Ek|]. unfold nat_lens. rewrite Es, Ew. split; [|split; [|split; [|split; [|split]]]].
  - apply Forall_map. eapply Forall_impl; [|exact Hl]. cbv beta. intros; lia.
  - intros A xs Fi. unfold fits in Fi. rewrite Ep in Fi. split; [apply (f_equal (@length _)) in Fi; rewrite !map_length in Fi; now rewrite map_length|].
    clear - Fi Hl. revert xs Fi. induction Hl as [|x l Hx Hl IH]; intros [|r xs] Fi; try discriminate Fi; constructor.
    + cbn [map] in Fi. injection Fi as Fi _. rewrite Fi. unfold padded_row. rewrite app_length, repeat_length, iota_length. lia.
    + cbn [map] in Fi. injection Fi as _ Fi. now apply IH.
  - intros k Hk. rewrite Eb. rewrite (nth_indep _ 0%Z (Z.of_nat 0 * w)%Z) by (rewrite map_length, seq_length; lia). rewrite (map_nth (fun i => (Z.of_nat i * w)%Z)), seq_nth by lia. lia.
  - intros Np. destruct (Pos_Proofs.full_rows (@nil unit) _ _ _ H Np) as (_ & Fr & _). rewrite Ep in Fr. apply Forall_map. apply Forall_forall. intros x Hx.
    specialize (Fr (padded_row w x) (in_map _ _ _ Hx)). apply (f_equal (fun l => nth (Z.to_nat x) l (-2)%Z)) in Fr. rewrite Forall_forall in Hl. specialize (Hl x Hx). rewrite Ew in Fr.
    destruct (Z.eq_dec x w) as [->|Ne]; [reflexivity|]. exfalso. unfold padded_row in Fr. rewrite app_nth2, iota_length, Nat.sub_diag in Fr by (rewrite iota_length; lia).
    destruct (Z.to_nat (w - x)) eqn:Q; [lia|]. cbn [repeat nth] in Fr. unfold iota in Fr. rewrite (nth_indep _ (-2)%Z (Z.of_nat 0)) in Fr by (rewrite map_length, seq_length; lia). rewrite map_nth in Fr. lia.
  - intros E. apply Forall_map. apply Forall_forall. intros x Hx. assert (Nn : l <> []) by (destruct l; [destruct Hx|discriminate]). destruct (Em Nn) as [_ [_ M]]. specialize (M x Hx). rewrite Forall_forall in Hl. specialize (Hl x Hx). lia.
  - intros Np Nn. destruct (Pos_Proofs.full_rows (@nil unit) _ _ _ H Np) as (_ & _ & Fm). rewrite Es in Fm. rewrite Ew in Fm. now apply Fm.
Qed.

Lemma seq_of_packed {A} y k (row : list A) b : Z.to_nat (nth k (seq_begin y) 0%Z) = b -> seq_of y k [row] = firstn (nth k (nat_lens y) 0) (skipn b row).
Proof. intros <-. unfold seq_of. cbn [concat]. now rewrite app_nil_r, nat_lens_nth. Qed.
Lemma seq_of_padded {A} y k (xs : list (list A)) w : Z.to_nat (nth k (seq_begin y) 0%Z) = k * w -> Forall (fun r => length r = w) xs -> nth k (nat_lens y) 0 <= w -> k < length xs ->
  seq_of y k xs = firstn (nth k (nat_lens y) 0) (nth k xs []).
Proof.
  intros Eb F L. unfold seq_of. rewrite Eb, nat_lens_nth. generalize dependent (nth k (nat_lens y) 0). intros n L. clear Eb.
  assert (Ef : forall (a b : list A), n <= length a -> firstn n (a ++ b) = firstn n a). { intros a b La. rewrite firstn_app. replace (n - length a) with 0 by lia. cbn [firstn]. apply app_nil_r. }
  revert k. induction F as [|r xs Hr F IH]; intros [|k] Lk; cbn [concat nth]; try (simpl in Lk; lia).
  - cbn [Nat.mul skipn]. apply Ef. lia.
  - cbn [Nat.mul]. rewrite skipn_app. rewrite skipn_all2 by lia. replace (w + k * w - length r) with (k * w) by lia. cbn [app]. apply IH. simpl in Lk. lia.
Qed.

(** ** The bias of a query *)
Definition whole_rows (y : layout) : Prop := packed y = false /\ padded y = false.
(** [row] is, over the keys of the whole row of the batch, [e] for those of a sequence. *)
Definition row_of (e : nat -> entry) (kb kn sk : nat) (row : nat -> entry) : Prop :=
  (forall j, j < kn -> row (kb + j) = e j) /\ forall j, j < sk -> j < kb \/ kb + kn <= j -> row j = None.

Lemma block_single b h qn ql kn kl t : 1 <= qn <= ql -> 1 <= kn <= kl -> create b qn kn = Bias_Model.Ok t -> flat t ->
  exists t', block_tensor b [qn] ql [kn] kl = Bias_Model.Ok t' /\ dims t' = (ql, kl) /\ heads_of t' = 1 /\
    forall p, p < qn -> (forall j, j < kn -> srow t' h p j = srow t h p j) /\ forall j, j < kl -> kn <= j -> srow t' h p j = None.
Proof.
  intros Lq Lk Ec Fl. unfold block_tensor. cbn [seq_ranges]. cbv zeta. cbn [Nat.add]. rewrite !Nat.eqb_refl. cbn [andb].
  destruct (Nat.eqb_spec qn ql) as [->|Nq]; [destruct (Nat.eqb_spec kn kl) as [->|Nk]|]; cbn [andb].
  - rewrite Ec. exists t. split; [reflexivity|]. split; [exact (create_dims _ _ _ _ Ec)|]. split; [exact Fl|]. intros p Hp. split; [reflexivity|]. intros; lia.
  - destruct (block_loop_ok b h ql kl [ql] [kn] 0 0 (fun _ _ => None) eq_refl ltac:(repeat constructor; lia) ltac:(repeat constructor; lia)) as (f & E & _ & New).
    { intros [|s] Hs; [|simpl in Hs; lia]. exists t. split; assumption. }
    cbn [seq_ranges app Nat.add] in *. rewrite E. cbn [bind]. eexists. split; [reflexivity|]. split; [reflexivity|]. split; [reflexivity|]. intros p Hp.
    destruct (New 0 t ltac:(simpl; lia) Ec p ltac:(exact Hp)) as [N1 N2]. unfold begin in *. cbn [nth firstn list_sum fold_right Nat.add] in *. split; [exact N1|]. intros j _ Hj. cbn [srow at_]. apply N2. lia.
  - destruct (block_loop_ok b h ql kl [qn] [kn] 0 0 (fun _ _ => None) eq_refl ltac:(repeat constructor; lia) ltac:(repeat constructor; lia)) as (f & E & _ & New).
    { intros [|s] Hs; [|simpl in Hs; lia]. exists t. split; assumption. }
    cbn [seq_ranges app Nat.add] in *. rewrite E. cbn [bind]. eexists. split; [reflexivity|]. split; [reflexivity|]. split; [reflexivity|]. intros p Hp.
    destruct (New 0 t ltac:(simpl; lia) Ec p ltac:(exact Hp)) as [N1 N2]. unfold begin in *. cbn [nth firstn list_sum fold_right Nat.add] in *. split; [exact N1|]. intros j _ Hj. cbn [srow at_]. apply N2. lia.
Qed.
Lemma list_sum_firstn l k : k < length l -> list_sum (firstn k l) + nth k l 0 <= list_sum l.
Proof. revert k. induction l as [|x l IH]; intros [|k] H; cbn [length] in H; [lia|lia|cbn [firstn nth list_sum fold_right]; fold (list_sum l); lia|]. specialize (IH k ltac:(lia)). cbn [firstn nth]. change (list_sum (x :: firstn k l)) with (x + list_sum (firstn k l)). change (list_sum (x :: l)) with (x + list_sum l). lia. Qed.
Lemma block_many b h qs ql ks kl : length qs = length ks -> Forall (fun n => 1 <= n) qs -> Forall (fun n => 1 <= n) ks -> list_sum qs <= ql -> list_sum ks <= kl -> qs <> [] ->
  (forall s, s < length qs -> exists t, create b (nth s qs 0) (nth s ks 0) = Bias_Model.Ok t /\ flat t) ->
  exists t', block_tensor b qs ql ks kl = Bias_Model.Ok t' /\ dims t' = (ql, kl) /\
    forall s t, s < length qs -> create b (nth s qs 0) (nth s ks 0) = Bias_Model.Ok t -> forall p, p < nth s qs 0 ->
      row_of (srow t h p) (list_sum (firstn s ks)) (nth s ks 0) kl (srow t' h (list_sum (firstn s qs) + p)).
Proof.
  intros L Fq Fk Sq Sk N G. destruct (block_loop_ok b h ql kl qs ks 0 0 (fun _ _ => None) L Fq Fk G) as (f & E & _ & New).
  assert (B : exists t', bind (block_loop b (seq_ranges 0 qs ++ [(ql, ql)]) (seq_ranges 0 ks ++ [(kl, kl)]) 0 0 (fun _ _ => None)) (fun f => Bias_Model.Ok (T2 (Mat ql kl f))) = Bias_Model.Ok t' /\
    dims t' = (ql, kl) /\ forall s t, s < length qs -> create b (nth s qs 0) (nth s ks 0) = Bias_Model.Ok t -> forall p, p < nth s qs 0 ->
      row_of (srow t h p) (list_sum (firstn s ks)) (nth s ks 0) kl (srow t' h (list_sum (firstn s qs) + p))).
  { rewrite E. cbn [bind]. eexists. split; [reflexivity|]. split; [reflexivity|]. intros s t Hs Et p Hp. destruct (New s t Hs Et p Hp) as [N1 N2]. unfold begin in *. cbn [Nat.add] in *.
    split; [exact N1|]. intros j _ Hj. now apply N2. }
  destruct qs as [|q qs]; [congruence|]. destruct ks as [|k ks]; [discriminate L|]. destruct qs as [|q' qs].
  - destruct ks; [|discriminate L]. destruct (G 0 ltac:(simpl; lia)) as (t & Et & Fl). cbn [nth] in Et. inversion_clear Fq. inversion_clear Fk. cbn in Sq, Sk.
    destruct (block_single b h q ql k kl t ltac:(lia) ltac:(lia) Et Fl) as (t' & E1 & E2 & _ & E3). exists t'. split; [exact E1|]. split; [exact E2|].
    intros [|s] t'' Hs Et' p Hp; [|simpl in Hs; lia]. cbn [nth] in *. rewrite Et in Et'. injection Et' as <-. destruct (E3 p Hp) as [E4 E5]. cbn [firstn list_sum fold_right Nat.add]. split; [exact E4|]. intros j Hj Hj'. apply E5; lia.
  - unfold block_tensor. cbv zeta. destruct ks as [|k' ks]; [discriminate L|]. cbn [seq_ranges] in *. exact B.
Qed.

(** The bias is defined for all queries, and [e s p] is what a query at position [p] of sequence [s] sees of the keys of that sequence. *)
Definition good (tb : btens) (h : nat) (qy ky : layout) (e : nat -> nat -> nat -> entry) : Prop :=
  (forall n i, n < (if packed qy then 1 else length (seq_lens qy)) -> i < Z.to_nat (width qy) -> exists r, bias_row tb h (Z.to_nat (width qy)) (Z.to_nat (width ky)) n i = Bias_Model.Ok r) /\
  forall s p, s < length (seq_lens qy) -> p < nth s (nat_lens qy) 0 ->
    let at_row n i kb := exists r, bias_row tb h (Z.to_nat (width qy)) (Z.to_nat (width ky)) n i = Bias_Model.Ok r /\ row_of (e s p) kb (nth s (nat_lens ky) 0) (Z.to_nat (width ky)) r in
    if packed qy then at_row 0 (list_sum (firstn s (nat_lens qy)) + p) (list_sum (firstn s (nat_lens ky))) else at_row s p 0.
Definition entries (b : bias) (h qn kn p j : nat) : entry := match create b qn kn with Bias_Model.Ok t => srow t h p j | Bias_Model.Err _ => None end.
Lemma bias_rows b h qsh qle qp qy ksh kle kp ky :
  batch_layout qsh qle qp = Batch_Model.Ok qy -> batch_layout ksh kle kp = Batch_Model.Ok ky -> packed qy = packed ky -> length (seq_lens qy) = length (seq_lens ky) -> seq_lens qy <> [] ->
  (forall s, s < length (seq_lens qy) -> exists t, create b (nth s (nat_lens qy) 0) (nth s (nat_lens ky) 0) = Bias_Model.Ok t /\ (flat t \/ whole_rows qy /\ whole_rows ky)) ->
  exists tb, materialize b qy ky = Bias_Model.Ok tb /\ good tb h qy ky (fun s => entries b h (nth s (nat_lens qy) 0) (nth s (nat_lens ky) 0)).
Proof.
  intros Hq Hk Ep El Nn G. unfold materialize. rewrite Ep, xorb_nilpotent, El, Nat.eqb_refl. cbn [negb].
  assert (Ll : length (nat_lens qy) = length (nat_lens ky)) by (unfold nat_lens; rewrite !map_length; exact El).
  assert (Lq : length (nat_lens qy) = length (seq_lens qy)) by (unfold nat_lens; now rewrite map_length).
  destruct (Nat.eqb_spec (length (seq_lens ky)) 0) as [Z0|_]; [destruct (seq_lens qy); [congruence|simpl in El; lia]|].
  assert (Eqp : packed qy = qp). { destruct qp; [destruct (layout_packed _ _ _ Hq) as (? & _)|destruct (layout_padded _ _ _ Hq) as (? & _)]; assumption. }
  assert (Ekp : packed ky = kp). { destruct kp; [destruct (layout_packed _ _ _ Hk) as (? & _)|destruct (layout_padded _ _ _ Hk) as (? & _)]; assumption. }
  rewrite <- Ep, Eqp. assert (Eqk : kp = qp) by congruence. rewrite Eqk in Hk, Ekp. clear Eqk kp. destruct qp.
  - destruct (layout_packed _ _ _ Hq) as (_ & Fq & Sq & _ & _). destruct (layout_packed _ _ _ Hk) as (_ & Fk & Sk & _ & _).
    destruct (block_many b h (nat_lens qy) (Z.to_nat (width qy)) (nat_lens ky) (Z.to_nat (width ky)) Ll Fq Fk Sq Sk) as (t' & -> & Ed & R).
    { unfold nat_lens. destruct (seq_lens qy); [congruence|discriminate]. }
    { rewrite Lq. intros s Hs. destruct (G s Hs) as (t & Et & [Fl|[[Q _] _]]); [eauto|congruence]. }
    cbn [bind]. eexists. split; [reflexivity|]. unfold good, entries. rewrite Eqp. split.
    { intros n i _ Hi. cbn [bias_row]. destruct (tens_row_ok t' h _ _ i Ed Hi) as (r & -> & _). eauto. }
    intros s p Hs Hp. destruct (G s Hs) as (t & Et & _). rewrite Et. cbv zeta. cbn [bias_row].
    pose proof (list_sum_firstn (nat_lens qy) s ltac:(lia)) as Ls.
    destruct (tens_row_ok t' h _ _ (list_sum (firstn s (nat_lens qy)) + p) Ed ltac:(lia)) as (r & -> & Hr). exists r. split; [reflexivity|].
    destruct (R s t ltac:(lia) Et p Hp) as [R1 R2]. pose proof (list_sum_firstn (nat_lens ky) s ltac:(lia)). split.
    + intros j Hj. rewrite Hr by lia. now apply R1.
    + intros j Hj Hj'. rewrite Hr by lia. now apply R2.
  - destruct (layout_padded _ _ _ Hq) as (_ & Fq & _ & _ & Wq & _). destruct (layout_padded _ _ _ Hk) as (_ & Fk & _ & _ & Wk & _).
    destruct (negb (padded qy) && negb (padded ky)) eqn:Pd.
    + apply andb_true_iff in Pd as [P1 P2]. rewrite negb_true_iff in P1, P2. specialize (Wq P1). specialize (Wk P2). rewrite Forall_forall in Wq, Wk.
      assert (Wqs : forall s, s < length (seq_lens qy) -> nth s (nat_lens qy) 0 = Z.to_nat (width qy)) by (intros; apply Wq, nth_In; lia).
      assert (Wks : forall s, s < length (seq_lens qy) -> nth s (nat_lens ky) 0 = Z.to_nat (width ky)) by (intros; apply Wk, nth_In; lia).
      destruct (G 0) as (t0 & E0 & _); [destruct (seq_lens qy); [congruence|simpl; lia]|]. rewrite Wqs, Wks in E0 by (destruct (seq_lens qy); [congruence|simpl; lia]).
      rewrite E0. cbn [bind]. eexists. split; [reflexivity|]. unfold good, entries. rewrite Eqp. split.
      { intros n i _ Hi. cbn [bias_row]. destruct (tens_row_ok t0 h _ _ i (create_dims _ _ _ _ E0) Hi) as (r & -> & _). eauto. }
      intros s p Hs Hp. destruct (G s Hs) as (t & Et & _). rewrite Et. cbv zeta. cbn [bias_row]. rewrite (Wqs s Hs), (Wks s Hs) in Et. rewrite (Wqs s Hs) in Hp. rewrite (Wks s Hs). rewrite E0 in Et. injection Et as <-.
      destruct (tens_row_ok t0 h _ _ p (create_dims _ _ _ _ E0) Hp) as (r & -> & Hr). exists r. split; [reflexivity|]. split; [|intros; lia]. intros j Hj. cbn [Nat.add]. now apply Hr.
    + assert (G' : forall s, s < length (nat_lens qy) -> exists t, create b (nth s (nat_lens qy) 0) (nth s (nat_lens ky) 0) = Bias_Model.Ok t /\ flat t).
      { intros s Hs. destruct (G s ltac:(lia)) as (t & Et & [Fl|[[_ Q1] [_ Q2]]]); [eauto|]. rewrite Q1, Q2 in Pd. discriminate Pd. }
      set (ql := Z.to_nat (width qy)) in *. set (kl := Z.to_nat (width ky)) in *.
      assert (C : exists l, collect (map (fun p => block_tensor b [fst p] ql [snd p] kl) (combine (nat_lens qy) (nat_lens ky))) = Bias_Model.Ok l /\ length l = length (nat_lens qy) /\ Forall (fun t => heads_of t = 1) l /\
        forall s t, s < length (nat_lens qy) -> create b (nth s (nat_lens qy) 0) (nth s (nat_lens ky) 0) = Bias_Model.Ok t -> exists t', nth_error l s = Some t' /\ dims t' = (ql, kl) /\
          forall p, p < nth s (nat_lens qy) 0 -> (forall j, j < nth s (nat_lens ky) 0 -> srow t' h p j = srow t h p j) /\ forall j, j < kl -> nth s (nat_lens ky) 0 <= j -> srow t' h p j = None).
      { clear - Fq Fk G' Ll. revert Fq Fk G' Ll. generalize (nat_lens ky). generalize (nat_lens qy). induction l as [|q l IH]; intros [|k l'] Fq Fk G Ll; try discriminate Ll.
        - exists []. repeat split; [constructor|]. intros s t Hs. simpl in Hs. lia.
        - inversion_clear Fq. inversion_clear Fk. destruct (IH l' H0 H2 (fun s Hs => G (S s) ltac:(simpl; lia)) ltac:(simpl in Ll; lia)) as (r & Er & Lr & Hr & Rr).
          destruct (G 0 ltac:(simpl; lia)) as (t & Et & Fl). cbn [nth] in Et. destruct (block_single b h q ql k kl t H H1 Et Fl) as (t' & E1 & E2 & E3 & E4).
          cbn [combine map fst snd collect]. rewrite E1. cbn [bind]. rewrite Er. cbn [bind]. exists (t' :: r). split; [reflexivity|]. split; [simpl; lia|]. split; [now constructor|].
          intros [|s] t2 Hs Et2; cbn [nth nth_error] in *; [|apply Rr; [simpl in Hs; lia|exact Et2]]. rewrite Et in Et2. injection Et2 as <-. exists t'. split; [reflexivity|]. split; [exact E2|]. exact E4. }
      destruct C as (l & -> & Le & Hh & R). cbn [bind]. assert (Nl : l <> []) by (intros ->; cbn in Le; destruct (seq_lens qy); [congruence|simpl in Lq; lia]).
      destruct l as [|t0 l]; [congruence|]. assert (Fb : forallb (fun t' => heads_of t' =? heads_of t0) (t0 :: l) = true).
      { apply forallb_forall. rewrite Forall_forall in Hh. intros x Hx. rewrite (Hh x Hx), (Hh t0 (or_introl eq_refl)). reflexivity. }
      rewrite Fb. eexists. split; [reflexivity|]. unfold good, entries. rewrite Eqp. split.
      { fold ql kl. intros n i Hn Hi. cbn [bias_row]. rewrite clip_lt by (rewrite Le; lia). destruct (G' n ltac:(lia)) as (t & Et & _). destruct (R n t ltac:(lia) Et) as (t' & -> & Ed & _).
        destruct (tens_row_ok t' h _ _ i Ed Hi) as (r & -> & _). eauto. }
      fold ql kl. intros s p Hs Hp. destruct (G s Hs) as (t & Et & _). rewrite Et. cbv zeta. cbn [bias_row]. cbn [length] in Le |- *. rewrite clip_lt by lia.
      destruct (R s t ltac:(lia) Et) as (t' & -> & Ed & R'). rewrite Forall_forall in Fq. assert (Hs1 : s < length (nat_lens qy)) by lia. assert (Hs2 : s < length (nat_lens ky)) by lia. specialize (Fq (nth s (nat_lens qy) 0) (nth_In _ _ Hs1)).
      rewrite Forall_forall in Fk. specialize (Fk (nth s (nat_lens ky) 0) (nth_In _ _ Hs2)).
      destruct (tens_row_ok t' h _ _ p Ed ltac:(lia)) as (r & -> & Hr). exists r. split; [reflexivity|]. destruct (R' p Hp) as [R1 R2]. split.
      * intros j Hj. cbn [Nat.add]. rewrite Hr by lia. now apply R1.
      * intros j Hj [Q|Hj']; [lia|]. rewrite Hr by lia. apply R2; lia.
Qed.

(** ** Attention of a batch *)
Lemma collect_mapi {A B} (F : nat -> A -> res B) G i l : (forall j x, i <= j < i + length l -> nth_error l (j - i) = Some x -> F j x = Bias_Model.Ok (G j x)) -> collect (mapi F i l) = Bias_Model.Ok (mapi G i l).
Proof.
  revert i. induction l as [|x l IH]; intros i H; [reflexivity|]. cbn [mapi collect]. rewrite (H i x); [|simpl; lia|now rewrite Nat.sub_diag]. cbn [bind].
  rewrite IH; [reflexivity|]. intros j y Hj E. apply H; [simpl; lia|]. replace (j - i) with (S (j - S i)) by lia. exact E.
Qed.
Lemma mapi_nth {A B} (f : nat -> A -> B) i l k da db : k < length l -> nth k (mapi f i l) db = f (i + k) (nth k l da).
Proof. revert i k. induction l as [|x l IH]; intros i [|k] H; cbn [length] in H; try lia; cbn [mapi nth]; [now rewrite Nat.add_0_r|]. rewrite IH by lia. f_equal. lia. Qed.

Section Batch.
Context {Q K : Type}.
Variable score : nat -> Q -> K -> R.
Variable value : nat -> K -> R.
Notation attend := (Bias_Model.attend score value).

Lemma split3 {A} b n (l : list A) : b + n <= length l -> l = firstn b l ++ firstn n (skipn b l) ++ skipn n (skipn b l) /\ length (firstn b l) = b /\ length (firstn n (skipn b l)) = n.
Proof. intros H. rewrite !firstn_skipn. split; [reflexivity|]. rewrite !firstn_length, skipn_length. lia. Qed.

Lemma attention_ok tb h e qsh qle qp qy ksh kle kp ky (qs : list (list Q)) (ks : list (list K)) :
  batch_layout qsh qle qp = Batch_Model.Ok qy -> batch_layout ksh kle kp = Batch_Model.Ok ky -> packed qy = packed ky -> length (seq_lens qy) = length (seq_lens ky) ->
  fits qy qs -> fits ky ks -> good tb h qy ky e ->
  exists out, attention score value tb h qs ks = Bias_Model.Ok out /\ fits qy out /\
    forall s, s < length (seq_lens qy) -> seq_of qy s out = mapi (fun p q => attend h (e s p) q (seq_of ky s ks)) 0 (seq_of qy s qs).
Proof.
  intros Hq Hk Ep El Fq Fk [G1 G2].
  assert (Eqp : packed qy = qp). { destruct qp; [destruct (layout_packed _ _ _ Hq) as (? & _)|destruct (layout_padded _ _ _ Hq) as (? & _)]; assumption. }
  assert (Ekp : packed ky = kp). { destruct kp; [destruct (layout_packed _ _ _ Hk) as (? & _)|destruct (layout_padded _ _ _ Hk) as (? & _)]; assumption. }
  assert (Eqk : kp = qp) by congruence. rewrite Eqk in Hk, Ekp. clear Eqk kp.
  assert (Ll : length (nat_lens qy) = length (nat_lens ky)) by (unfold nat_lens; rewrite !map_length; exact El).
  assert (Lq : length (nat_lens qy) = length (seq_lens qy)) by (unfold nat_lens; now rewrite map_length).
  set (W := Z.to_nat (width qy)) in *. set (V := Z.to_nat (width ky)) in *.
  set (rw := fun n i => match bias_row tb h W V n i with Bias_Model.Ok r => r | Bias_Model.Err _ => fun _ => None end).
  set (O := fun n (p : list Q * list K) => mapi (fun i q => attend h (rw n i) q (snd p)) 0 (fst p)).
  assert (Len : length qs = length ks /\ length qs = (if packed qy then 1 else length (seq_lens qy)) /\ Forall (fun r => length r = W) qs /\ Forall (fun r => length r = V) ks).
  { rewrite Eqp. destruct qp.
    - destruct (layout_packed _ _ _ Hq) as (_ & _ & _ & Rq & _). destruct (layout_packed _ _ _ Hk) as (_ & _ & _ & Rk & _).
      destruct (Rq _ _ Fq) as (q & -> & Eq). destruct (Rk _ _ Fk) as (k & -> & Ek). repeat split; repeat constructor; assumption.
    - destruct (layout_padded _ _ _ Hq) as (_ & _ & Rq & _). destruct (layout_padded _ _ _ Hk) as (_ & _ & Rk & _).
      destruct (Rq _ _ Fq) as (E1 & F1). destruct (Rk _ _ Fk) as (E2 & F2). split; [congruence|]. split; [congruence|]. split; assumption. }
  destruct Len as (Len & Rows & Wq & Wk).
  assert (Lc : length (combine qs ks) = length qs) by (rewrite combine_length; lia).
  assert (LO : forall n p, length (O n p) = length (fst p)) by (intros; apply mapi_length).
  exists (mapi O 0 (combine qs ks)). split; [|split].
  - unfold attention. rewrite Len, Nat.eqb_refl. cbn [negb]. apply collect_mapi. intros n [q k] Hn En. unfold O. rewrite Nat.sub_0_r in En.
    apply nth_error_In in En. assert (Iq := in_combine_l _ _ _ _ En). assert (Ik := in_combine_r _ _ _ _ En). cbn [fst snd].
    rewrite Forall_forall in Wq, Wk. rewrite (Wq _ Iq), (Wk _ Ik). apply collect_mapi. intros i x Hi _. rewrite (Wq _ Iq) in Hi.
    destruct (G1 n i ltac:(lia) ltac:(lia)) as (r & Er). unfold rw. rewrite Er. reflexivity.
  - unfold fits in *. rewrite <- Fq. clear - Len LO. clearbody O. revert ks Len. generalize 0. induction qs as [|q qs IH]; intros n [|k ks] Len; try discriminate Len; [reflexivity|].
    cbn [combine mapi map]. rewrite LO. cbn [fst]. f_equal. apply IH. simpl in Len. lia.
  - intros s Hs. specialize (G2 s). rewrite Eqp in *. destruct qp.
    + destruct (layout_packed _ _ _ Hq) as (_ & _ & Sq & Rq & Bq). destruct (layout_packed _ _ _ Hk) as (_ & _ & Sk & Rk & Bk).
      destruct (Rq _ _ Fq) as (q & -> & Eq). destruct (Rk _ _ Fk) as (k & -> & Ek). cbn [combine mapi]. fold W in Sq. fold V in Sk.
      rewrite !(seq_of_packed qy s _ _ (Bq s Hs)), (seq_of_packed ky s _ _ (Bk s ltac:(lia))).
      pose proof (list_sum_firstn (nat_lens qy) s ltac:(lia)) as Lsq. pose proof (list_sum_firstn (nat_lens ky) s ltac:(lia)) as Lsk.
      unfold O. cbn [fst snd]. rewrite mapi_skipn by lia. rewrite mapi_firstn. cbn [Nat.add].
      replace (list_sum (firstn s (nat_lens qy))) with (list_sum (firstn s (nat_lens qy)) + 0) at 1 by lia. rewrite mapi_shift. apply mapi_ext.
      intros p x Hp _. rewrite firstn_length, skipn_length in Hp. destruct (G2 p Hs ltac:(lia)) as (r & Er & R1 & R2). unfold rw. rewrite Er.
      destruct (split3 (list_sum (firstn s (nat_lens ky))) (nth s (nat_lens ky) 0) k ltac:(lia)) as (E3 & L1 & L2).
      rewrite E3 at 1. rewrite attend_mid.
      * rewrite L1. apply attend_ext. intros j Hj. rewrite L2 in Hj. apply R1. exact Hj.
      * intros j Hj. apply R2; lia.
      * rewrite <- E3. intros j Hj. apply R2; lia.
    + destruct (layout_padded _ _ _ Hq) as (_ & Nq & Rq & Bq & _). destruct (layout_padded _ _ _ Hk) as (_ & Nk & Rk & Bk & _). fold W in Nq, Bq. fold V in Nk, Bk.
      assert (Hs1 : s < length (nat_lens qy)) by lia. assert (Hs2 : s < length (nat_lens ky)) by lia.
      rewrite Forall_forall in Nq, Nk. specialize (Nq _ (nth_In _ 0 Hs1)). specialize (Nk _ (nth_In _ 0 Hs2)).
      assert (Wo : Forall (fun r => length r = W) (mapi O 0 (combine qs ks))).
      { clear - Wq Len LO. clearbody O. revert ks Len. generalize 0. induction Wq as [|q qs Hq Wq IH]; intros n [|k ks] Len; try discriminate Len; constructor.
        - rewrite LO. exact Hq.
        - apply IH. simpl in Len. lia. }
      rewrite (seq_of_padded qy s _ W (Bq s Hs) Wo) by (rewrite ?mapi_length; lia). rewrite (seq_of_padded qy s _ W (Bq s Hs) Wq), (seq_of_padded ky s _ V (Bk s ltac:(lia)) Wk) by lia.
      rewrite (mapi_nth O 0 _ s ([], [])) by lia. rewrite combine_nth by exact Len. cbn [Nat.add]. unfold O. cbn [fst snd]. rewrite mapi_firstn. apply mapi_ext.
      intros p x Hp _. rewrite Forall_forall in Wq, Wk. pose proof (Wq (nth s qs []) ltac:(apply nth_In; lia)) as W1. pose proof (Wk (nth s ks []) ltac:(apply nth_In; lia)) as W2.
      rewrite firstn_length in Hp. destruct (G2 p Hs ltac:(lia)) as (r & Er & R1 & R2). unfold rw. rewrite Er.
      destruct (split3 0 (nth s (nat_lens ky) 0) (nth s ks []) ltac:(lia)) as (E3 & L1 & L2). cbn [skipn firstn app] in E3.
      rewrite E3 at 1. change (?a ++ ?b) with ([] ++ a ++ b). rewrite attend_mid.
      * cbn [length Nat.add]. apply attend_ext. intros j Hj. cbn [skipn] in L2. rewrite L2 in Hj. apply (R1 j Hj).
      * intros j Hj. simpl in Hj. lia.
      * cbn [app]. rewrite <- E3. cbn [length skipn] in *. intros j Hj. apply R2; lia.
Qed.
End Batch.
