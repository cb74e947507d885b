(** Proofs about SentencePiece models, encoders and decoders. *)
From Coq Require Import String ZArith List Bool Lia.
From Verif Require Import Spm_Model Spm_Spec.
Import ListNotations.
Local Open Scope Z_scope.

(* --- moving the last piece to the front --- *)
Lemma swap_before_app : forall l a b r, swap_before (S (length l)) (l ++ b :: a :: r) = l ++ a :: b :: r.
Proof.
  induction l as [|x l IH]; intros; [reflexivity|].
  change (x :: swap_before (S (length l)) (l ++ b :: a :: r) = x :: l ++ a :: b :: r).
  rewrite IH. reflexivity.
Qed.

Lemma swap_down_app : forall l a r, swap_down (length l) (l ++ a :: r) = a :: l ++ r.
Proof.
  induction l as [|b l IH] using rev_ind; intros; [reflexivity|].
  rewrite app_length, Nat.add_comm. cbn [length plus swap_down].
  rewrite <- app_assoc. cbn [app]. rewrite swap_before_app, IH, <- app_assoc. reflexivity.
Qed.

(* --- writing into the tensor --- *)
Lemma write_app : forall pre v a post, write (length pre) v (pre ++ a :: post) = Some (pre ++ v :: post).
Proof. induction pre; intros; [reflexivity|]. cbn [length app write]. now rewrite IHpre. Qed.

Lemma write_all_up : forall l pre junk post, length junk = length l ->
  write_all 1 l (pre ++ junk ++ post, Z.of_nat (length pre))
  = Some (pre ++ l ++ post, Z.of_nat (length pre + length l)).
Proof.
  induction l as [|v l IH]; intros pre junk post H; destruct junk as [|a junk]; try discriminate.
  - cbn. do 3 f_equal. lia.
  - cbn [write_all fst snd]. unfold write_at.
    replace (Z.of_nat (length pre) <? 0) with false by (symmetry; apply Z.ltb_ge; lia).
    rewrite Nat2Z.id. cbn [app]. rewrite write_app.
    specialize (IH (pre ++ [v]) junk post). rewrite app_length in IH. cbn [length] in IH.
    rewrite <- !app_assoc in IH. cbn [app] in IH.
    replace (Z.of_nat (length pre) + 1) with (Z.of_nat (length pre + 1)) by lia.
    rewrite IH by (cbn in H; lia). cbn [length]. do 2 f_equal. lia.
Qed.

Lemma write_all_down : forall l pre junk post, length junk = length l ->
  write_all (-1) l (pre ++ junk ++ post, Z.of_nat (length pre + length l) - 1)
  = Some (pre ++ rev l ++ post, Z.of_nat (length pre) - 1).
Proof.
  induction l as [|v l IH]; intros pre junk post H; destruct junk as [|a junk] using rev_ind; try discriminate.
  - cbn. do 3 f_equal. lia.
  - rewrite app_length in H; cbn in H; lia.
  - clear IHjunk. rewrite app_length in H. cbn [length] in H.
    cbn [write_all fst snd length rev]. unfold write_at.
    replace (Z.of_nat (length pre + S (length l)) - 1 <? 0) with false by (symmetry; apply Z.ltb_ge; lia).
    replace (Z.to_nat (Z.of_nat (length pre + S (length l)) - 1)) with (length (pre ++ junk))
      by (rewrite app_length; lia).
    rewrite <- (app_assoc junk), (app_assoc pre). cbn [app]. rewrite write_app, <- app_assoc.
    replace (Z.of_nat (length pre + S (length l)) - 1 + -1) with (Z.of_nat (length pre + length l) - 1) by lia.
    rewrite (IH pre junk (v :: post)) by lia. rewrite <- !app_assoc. reflexivity.
Qed.

Lemma repeat_split : forall (a b : nat), repeat 0 (a + b) = repeat 0 a ++ repeat 0 b.
Proof. intros. apply repeat_app. Qed.

Lemma encode_eq : forall e cut,
  encode e cut = Some (map (token_to_index (model e)) (encode_as_tokens e cut)).
Proof.
  intros e cut. unfold encode, encode_as_tokens.
  set (ids := map (token_to_index (model e)) cut).
  assert (Lp : length (prefix_token_indices e) = length (prefix e)) by apply map_length.
  assert (Ls : length (suffix_token_indices e) = length (suffix e)) by apply map_length.
  assert (Li : length ids = length cut) by apply map_length.
  destruct (reverse e).
  - replace (length cut + length (prefix e) + length (suffix e))%nat
      with (length (suffix e) + length cut + length (prefix e))%nat by lia.
    rewrite (repeat_split _ (length (prefix e))).
    pose proof (write_all_down (prefix_token_indices e) (repeat 0 (length (suffix e) + length cut))
                  (repeat 0 (length (prefix e))) []) as H.
    rewrite !app_nil_r, !repeat_length, Lp in H. rewrite H by (now rewrite ?repeat_length). clear H.
    pose proof (write_all_down ids (repeat 0 (length (suffix e))) (repeat 0 (length cut))
                  (rev (prefix_token_indices e))) as H.
    rewrite !repeat_length, Li in H. rewrite repeat_split, <- app_assoc. rewrite H by reflexivity. clear H.
    pose proof (write_all_down (suffix_token_indices e) [] (repeat 0 (length (suffix e)))
                  (rev ids ++ rev (prefix_token_indices e))) as H.
    cbn [app length] in H. rewrite Ls in H. rewrite repeat_length in H.
    cbn [plus] in H. rewrite H by reflexivity. cbn [option_map fst].
    rewrite !rev_app_distr, !map_app, !map_rev. f_equal. now rewrite app_assoc.
  - replace (length cut + length (prefix e) + length (suffix e))%nat
      with (length (prefix e) + (length cut + length (suffix e)))%nat by lia.
    rewrite !repeat_split.
    pose proof (write_all_up (prefix_token_indices e) [] (repeat 0 (length (prefix e)))
                  (repeat 0 (length cut) ++ repeat 0 (length (suffix e)))) as H.
    cbn [app length] in H. change (Z.of_nat 0) with 0 in H. rewrite H by (now rewrite repeat_length). clear H.
    pose proof (write_all_up ids (prefix_token_indices e) (repeat 0 (length cut)) (repeat 0 (length (suffix e)))) as H.
    cbn [plus]. rewrite H by (now rewrite repeat_length). clear H.
    pose proof (write_all_up (suffix_token_indices e) (prefix_token_indices e ++ ids) (repeat 0 (length (suffix e))) []) as H.
    rewrite !app_nil_r, app_length, <- !app_assoc in H. rewrite H by (now rewrite repeat_length).
    cbn [option_map fst]. now rewrite !map_app.
Qed.

(* --- looking pieces up --- *)
Lemma find_from_some : forall f l k i a, find_from f l k = Some (i, a) ->
  exists n, i = k + Z.of_nat n /\ nth_error l n = Some a /\ f a = true.
Proof.
  induction l as [|b l IH]; intros k i a H; [discriminate|]. cbn in H.
  destruct (f b) eqn:Fb.
  - injection H as <- <-. exists O. repeat split; auto. lia.
  - destruct (IH _ _ _ H) as (n & -> & Hn & Fa). exists (S n). repeat split; auto. lia.
Qed.

Lemma find_from_none : forall f l k, find_from f l k = None -> forall a, In a l -> f a = false.
Proof.
  induction l as [|b l IH]; intros k H a []; subst; cbn in H.
  - destruct (f a); [discriminate|reflexivity].
  - destruct (f b); [discriminate|eauto].
Qed.

Lemma find_from_at : forall f l n k a, nth_error l n = Some a -> f a = true ->
  (forall j b, (j < n)%nat -> nth_error l j = Some b -> f b = false) ->
  find_from f l k = Some (k + Z.of_nat n, a).
Proof.
  induction l as [|b l IH]; intros n k a H Fa Hb; destruct n as [|n]; try discriminate.
  - injection H as <-. cbn. rewrite Fa. do 2 f_equal. lia.
  - cbn. rewrite (Hb O b) by (cbn; lia || reflexivity).
    rewrite (IH n (k + 1) a H Fa); [do 2 f_equal; lia|].
    intros j c Hj Hc. apply (Hb (S j) c); [lia|exact Hc].
Qed.

Lemma distinct_NoDup : forall l, distinct l = true <-> NoDup l.
Proof.
  induction l as [|a l IH]; cbn; [split; [constructor|reflexivity]|].
  rewrite andb_true_iff, negb_true_iff, IH. split.
  - intros [H D]. constructor; [|exact D]. intros I.
    assert (E : existsb (String.eqb a) l = true) by (apply existsb_exists; exists a; split; [exact I|apply String.eqb_refl]).
    congruence.
  - intros H. inversion H as [|? ? N D]; subst. split; [|exact D].
    destruct (existsb (String.eqb a) l) eqn:E; [|reflexivity].
    apply existsb_exists in E. destruct E as (b & I & E). apply String.eqb_eq in E. subst. contradiction.
Qed.


Lemma load_names : forall p m, load p = Some m -> m = p /\ NoDup (names m).
Proof.
  unfold load. intros p m H. destruct (distinct _ && _) eqn:E; [|discriminate]. injection H as <-.
  apply andb_true_iff in E. split; [reflexivity|]. now apply distinct_NoDup.
Qed.

Lemma load_unk : forall p m, load p = Some m ->
  exists n a, nth_error (pieces m) n = Some a /\ kind_of a = Unknown /\ unk_idx m = Z.of_nat n.
Proof.
  unfold load. intros p m H. destruct (distinct _ && _) eqn:E; [|discriminate]. injection H as <-.
  apply andb_true_iff in E. destruct E as [_ E]. apply Nat.eqb_eq in E.
  unfold unk_idx. destruct (find_from _ _ _) as [[i a]|] eqn:Fd.
  - destruct (find_from_some _ _ _ _ _ Fd) as (n & -> & Hn & K). exists n, a.
    repeat split; auto. destruct (kind_of a); try discriminate; reflexivity.
  - exfalso. pose proof (find_from_none _ _ _ Fd) as N.
    assert (Z : forall l, (forall a, In a l -> kind_eqb (kind_of a) Unknown = false) ->
      filter (fun a => kind_eqb (kind_of a) Unknown) l = []).
    { induction l as [|b l IH]; intros Hl; [reflexivity|]. cbn. rewrite (Hl b) by (now left). apply IH. intros; apply Hl; now right. }
    rewrite Z in E by exact N. discriminate.
Qed.

Lemma token_at : forall m n a, NoDup (names m) -> nth_error (pieces m) n = Some a ->
  find_piece (text_of a) m = Some (Z.of_nat n, a).
Proof.
  intros m n a D H. unfold find_piece.
  rewrite (find_from_at _ _ n 0 a H); [reflexivity|apply String.eqb_refl|].
  intros j b Hj Hb. apply String.eqb_neq. intros E.
  assert (A : nth_error (names m) n = Some (text_of a)) by (apply map_nth_error; exact H).
  assert (B : nth_error (names m) j = Some (text_of b)) by (apply map_nth_error; exact Hb).
  pose proof (proj1 (NoDup_nth_error (names m)) D j n) as X.
  assert (j < length (names m))%nat by (apply nth_error_Some; congruence).
  assert (j = n) by (apply X; congruence). lia.
Qed.

Lemma index_at : forall m n a, NoDup (names m) -> nth_error (pieces m) n = Some a ->
  token_to_index m (text_of a) = Z.of_nat n.
Proof. intros. unfold token_to_index. rewrite (token_at m n a) by assumption. reflexivity. Qed.

Lemma index_spec : forall p m t, load p = Some m ->
  (exists n a, nth_error (pieces m) n = Some a /\ text_of a = t /\ token_to_index m t = Z.of_nat n)
  \/ (~ In t (names m) /\ token_to_index m t = unk_idx m).
Proof.
  intros p m t L. unfold token_to_index, find_piece. destruct (find_from _ _ _) as [[i a]|] eqn:Fd.
  - left. destruct (find_from_some _ _ _ _ _ Fd) as (n & -> & Hn & E). apply String.eqb_eq in E.
    exists n, a. auto.
  - right. split; [|reflexivity]. intros I. apply in_map_iff in I. destruct I as (a & <- & I).
    pose proof (find_from_none _ _ _ Fd a I) as F. cbn in F. now rewrite String.eqb_refl in F.
Qed.

Lemma index_bounds : forall p m t, load p = Some m -> 0 <= token_to_index m t < vocabulary_size m.
Proof.
  intros p m t L. unfold vocabulary_size.
  destruct (index_spec p m t L) as [(n & a & H & _ & ->)|[_ ->]].
  - assert (n < length (pieces m))%nat by (apply nth_error_Some; congruence). lia.
  - destruct (load_unk p m L) as (n & a & H & _ & ->).
    assert (n < length (pieces m))%nat by (apply nth_error_Some; congruence). lia.
Qed.

(* --- decoding --- *)
Lemma int32_id : forall i, - 2 ^ 31 <= i < 2 ^ 31 -> int32 i = i.
Proof. intros i H. unfold int32. rewrite Z.mod_small by lia. lia. Qed.

Lemma index_to_token32_in : forall m n a, vocabulary_size m <= 2 ^ 31 -> nth_error (pieces m) n = Some a ->
  index_to_token32 m (int32 (Z.of_nat n)) = Some (text_of a).
Proof.
  intros m n a S H.
  assert (n < length (pieces m))%nat by (apply nth_error_Some; congruence).
  unfold vocabulary_size in S. rewrite int32_id by lia. unfold index_to_token32, size_t, vocabulary_size.
  rewrite Z.mod_small by lia.
  replace (Z.of_nat n >=? Z.of_nat (length (pieces m))) with false by (symmetry; rewrite Z.geb_leb; apply Z.leb_gt; lia).
  rewrite Nat2Z.id, H. reflexivity.
Qed.

Lemma index_to_token32_out : forall m i, vocabulary_size m <= 2 ^ 31 -> - 2 ^ 31 <= i < 2 ^ 31 ->
  ~ (0 <= i < vocabulary_size m) -> index_to_token32 m (int32 i) = None.
Proof.
  intros m i S R H. rewrite int32_id by lia. unfold index_to_token32, size_t.
  destruct (Z_lt_dec i 0).
  - replace (i mod 2 ^ 64) with (i + 2 ^ 64) by (symmetry; rewrite <- (Z.mod_add _ 1) by lia; rewrite Z.mod_small by lia; lia).
    replace (i + 2 ^ 64 >=? vocabulary_size m) with true by (symmetry; rewrite Z.geb_leb; apply Z.leb_le; lia). reflexivity.
  - rewrite Z.mod_small by lia.
    replace (i >=? vocabulary_size m) with true by (symmetry; rewrite Z.geb_leb; apply Z.leb_le; lia). reflexivity.
Qed.

Lemma in_order_eq : forall rv l, in_order rv l = if rv then rev l else l.
Proof.
  intros rv l. unfold in_order. apply nth_ext with (d := 0) (d' := 0).
  - rewrite map_length, seq_length. destruct rv; [now rewrite rev_length|reflexivity].
  - rewrite map_length, seq_length. intros n Hn.
    set (g := fun j => nth (if rv then length l - 1 - j else j)%nat l 0).
    rewrite (nth_indep _ 0 (g O)) by (rewrite map_length, seq_length; exact Hn).
    rewrite map_nth, seq_nth by exact Hn. unfold g. cbn [plus]. destruct rv; [|reflexivity].
    rewrite rev_nth by exact Hn. f_equal. lia.
Qed.

Lemma tokens_of_ids : forall p m l, load p = Some m -> vocabulary_size m <= 2 ^ 31 ->
  exists l', tokens_of m (map (token_to_index m) l) = Some l' /\ Forall2 (given_back m) l l'.
Proof.
  intros p m l L S. induction l as [|t l (l' & IH & F)]; [exists []; split; [reflexivity|constructor]|].
  cbn [map tokens_of].
  destruct (index_spec p m t L) as [(n & a & H & E & ->)|[N ->]].
  - rewrite (index_to_token32_in m n a S H), IH. exists (text_of a :: l'). split; [reflexivity|].
    constructor; [|exact F]. split; [auto|]. intros X. exfalso. apply X. subst t. apply in_map. eapply nth_error_In; eauto.
  - destruct (load_unk p m L) as (n & a & H & K & ->).
    rewrite (index_to_token32_in m n a S H), IH. exists (text_of a :: l'). split; [reflexivity|].
    constructor; [|exact F]. split; [contradiction|]. intros _. exists a. repeat split; auto. eapply nth_error_In; eauto.
Qed.

Lemma tokens_of_spec : forall m l, vocabulary_size m <= 2 ^ 31 -> Forall (fun i => - 2 ^ 31 <= i < 2 ^ 31) l ->
  (tokens_of m l <> None <-> Forall (fun i => 0 <= i < vocabulary_size m) l).
Proof.
  intros m l S R. induction R as [|i l Ri R IH]; [split; [constructor|discriminate]|]. cbn [tokens_of].
  destruct (Z_le_dec 0 i) as [A|A]; [destruct (Z_lt_dec i (vocabulary_size m)) as [B|B]|].
  - assert (N : (Z.to_nat i < length (pieces m))%nat) by (unfold vocabulary_size in B; lia).
    apply nth_error_Some in N. destruct (nth_error (pieces m) (Z.to_nat i)) as [a|] eqn:E; [|congruence].
    replace i with (Z.of_nat (Z.to_nat i)) at 1 by lia. rewrite (index_to_token32_in m _ a S E).
    destruct (tokens_of m l) as [l'|]; cbn.
    + split; [|discriminate]. intros _. constructor; [lia|]. apply IH. discriminate.
    + split; [congruence|]. intros F. inversion F; subst. exfalso. now apply (proj2 IH H2).
  - rewrite index_to_token32_out by lia. split; [congruence|]. intros F. inversion F; subst. lia.
  - rewrite index_to_token32_out by lia. split; [congruence|]. intros F. inversion F; subst. lia.
Qed.

(* --- control symbols --- *)
Definition is_pad0 (s : string) : bool := String.eqb s "<pad>@0".
Definition appended (symbols : list string) : list string :=
  filter (fun s => negb (String.eqb s "") && negb (is_pad0 s)) symbols.
Definition control (s : string) : piece := Piece s Control.

Lemma pieces_add : forall symbols p,
  pieces (add_control_symbols symbols p)
  = repeat (control "<pad>") (length (filter is_pad0 symbols)) ++ pieces p ++ map control (appended symbols).
Proof.
  unfold add_control_symbols. induction symbols as [|s symbols IH]; intros p.
  - cbn. now rewrite app_nil_r.
  - cbn [fold_left]. rewrite IH. clear IH. unfold add_symbol, appended, is_pad0. cbn [filter].
    destruct (String.eqb s "") eqn:E0.
    + apply String.eqb_eq in E0. subst. reflexivity.
    + destruct (String.eqb s "<pad>@0") eqn:E1; cbn [negb andb].
      * rewrite orb_true_r. cbn [pieces add_piece pad_piece bos_piece eos_piece].
        rewrite app_length. cbn [length]. replace (length (pieces p) + 1 - 1)%nat with (length (pieces p)) by lia.
        change [Piece "<pad>" Control] with ([] ++ Piece "<pad>" Control :: []). cbn [app].
        rewrite swap_down_app, app_nil_r.
        cbn [length repeat]. fold (control "<pad>").
        rewrite (repeat_cons _ (control "<pad>")). rewrite <- app_assoc. cbn [app]. reflexivity.
      * rewrite orb_false_r. destruct (String.eqb s "<pad>") eqn:E2; cbn [pieces add_piece map].
        -- apply String.eqb_eq in E2. subst. unfold control at 3. rewrite <- app_assoc. reflexivity.
        -- rewrite <- app_assoc. reflexivity.
Qed.

Lemma pad_name : forall symbols p, existsb is_pad0 symbols = true \/ pad_piece p = "<pad>"%string ->
  pad_piece (add_control_symbols symbols p) = "<pad>"%string.
Proof.
  unfold add_control_symbols. induction symbols as [|s symbols IH]; intros p H.
  - destruct H; [discriminate|assumption].
  - cbn [fold_left]. apply IH. cbn [existsb] in H. apply or_comm in H.
    unfold add_symbol. unfold is_pad0 at 1 in H.
    destruct (String.eqb s "") eqn:E0.
    + apply String.eqb_eq in E0. subst. cbn in H. tauto.
    + destruct (String.eqb s "<pad>@0") eqn:E1; [rewrite orb_true_r; now right|].
      rewrite orb_false_r. cbn [orb] in H. destruct (String.eqb s "<pad>"); [now right|]. cbn. tauto.
Qed.

Lemma pads_one : forall symbols p m, load_model p symbols = Some m ->
  length (filter is_pad0 symbols) = if existsb is_pad0 symbols then 1%nat else 0%nat.
Proof.
  intros symbols p m H. unfold load_model in H. apply load_names in H. destruct H as [-> D].
  unfold names in D. rewrite pieces_add in D.
  assert (L : (length (filter is_pad0 symbols) <= 1)%nat).
  { destruct (filter is_pad0 symbols) as [|a [|b r]]; cbn [length] in *; try lia.
    cbn [repeat app map text_of control] in D. inversion D as [|? ? N _]. exfalso. apply N. now left. }
  destruct (existsb is_pad0 symbols) eqn:E.
  - apply existsb_exists in E. destruct E as (s & I & P).
    assert (In s (filter is_pad0 symbols)) by (apply filter_In; auto).
    destruct (filter is_pad0 symbols); [contradiction|cbn in *; lia].
  - assert (Z : filter is_pad0 symbols = []).
    { destruct (filter is_pad0 symbols) as [|s r] eqn:F; [reflexivity|].
      assert (In s (filter is_pad0 symbols)) by (rewrite F; now left).
      apply filter_In in H. assert (existsb is_pad0 symbols = true) by (apply existsb_exists; exists s; tauto). congruence. }
    now rewrite Z.
Qed.
