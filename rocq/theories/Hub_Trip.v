From Coq Require Import String Ascii List Bool Arith Lia.
From Verif Require Import Hub_Model Hub_Spec Hub_Proofs.
Import ListNotations.

(** ** The permutation of the rows *)
Section P.
  Context {A : Type}.
  Implicit Types a b l : list A.
  Definition interleave a b : list A := flat_map (fun p => [fst p; snd p]) (combine a b).
  Lemma from_head : forall a b, length a = length b -> concat (transpose (length a) (view 2 (length a) (a ++ b))) = interleave a b.
  Proof.
    intros a b L. cbn [view]. rewrite firstn_app, Nat.sub_diag, firstn_O, app_nil_r, firstn_all, skipn_app, Nat.sub_diag, skipn_O, skipn_all. cbn [app].
    rewrite L, firstn_all, <- L. unfold transpose, interleave. revert b L. induction a as [|x a IH]; intros [|y b] L; try discriminate L; [reflexivity|].
    cbn [length seq map concat combine flat_map]. rewrite <- seq_shift, map_map. specialize (IH b ltac:(cbn in L; lia)). cbn [flat_map] in *. cbn [skipn firstn app fst snd]. do 2 f_equal. exact IH.
  Qed.
  Lemma to_head : forall a b, length a = length b -> concat (transpose 2 (view (length a) 2 (interleave a b))) = a ++ b.
  Proof.
    intros a b L. assert (V : view (length a) 2 (interleave a b) = map (fun p => [fst p; snd p]) (combine a b)).
    { revert b L. induction a as [|x a IH]; intros [|y b] L; try discriminate L; [reflexivity|]. cbn. f_equal. apply IH. cbn in L; lia. }
    rewrite V. clear V. unfold transpose. cbn [seq map concat]. rewrite app_nil_r. f_equal; revert b L; induction a as [|x a IH]; intros [|y b] L; try discriminate L; try reflexivity; cbn [combine map flat_map skipn firstn app fst snd]; f_equal; apply IH; cbn in *; lia.
  Qed.
  Lemma split_halves : forall n l, length l = 2 * n -> exists a b, length a = n /\ length b = n /\ l = a ++ b.
  Proof. intros n l L. exists (firstn n l), (skipn n l). rewrite firstn_length, skipn_length, firstn_skipn. repeat split; lia. Qed.
  Lemma split_pairs : forall n l, length l = 2 * n -> exists a b, length a = n /\ length b = n /\ l = interleave a b.
  Proof.
    induction n; intros l L. { destruct l; [|cbn in L; lia]. exists [], []. auto. }
    destruct l as [|x [|y l]]; try (cbn in L; lia). destruct (IHn l ltac:(cbn in L; lia)) as (a & b & La & Lb & ->). exists (x :: a), (y :: b). cbn. auto.
  Qed.
  Lemma length_interleave : forall a b, length a = length b -> length (interleave a b) = 2 * length a.
  Proof. induction a as [|x a IH]; intros [|y b] L; try discriminate L; [reflexivity|]. unfold interleave in *. cbn. rewrite IH by (cbn in L; lia). lia. Qed.
  Lemma view_concat : forall (hs : list (list A)) w, (forall h, In h hs -> length h = w) -> view (length hs) w (concat hs) = hs.
  Proof.
    induction hs as [|h hs IH]; intros w H; [reflexivity|]. cbn. assert (L : length h = w) by (apply H; left; auto).
    rewrite firstn_app, L, Nat.sub_diag, firstn_O, app_nil_r, firstn_all2 by lia. rewrite skipn_app, L, Nat.sub_diag, skipn_O, skipn_all2 by lia. cbn. f_equal. apply IH. intros; apply H; right; auto.
  Qed.
  Lemma view_split : forall n w l, length l = n * w -> exists hs, length hs = n /\ (forall h, In h hs -> length h = w) /\ l = concat hs.
  Proof.
    induction n; intros w l L. { exists []. destruct l; [|cbn in L; lia]. repeat split; auto. intros ? []. }
    destruct (IHn w (skipn w l)) as (hs & H1 & H2 & H3). { rewrite skipn_length. cbn in L. lia. }
    exists (firstn w l :: hs). split; [cbn; lia|]. split; [|cbn; rewrite <- H3, firstn_skipn; auto]. intros h [<-|I]; auto. rewrite firstn_length. cbn in L. lia.
  Qed.
  Lemma concat_length : forall (hs : list (list A)) w, (forall h, In h hs -> length h = w) -> length (concat hs) = length hs * w.
  Proof. induction hs; intros w H; cbn; auto. rewrite app_length, (H a) by (left; auto). rewrite (IHhs w); auto. intros; apply H; right; auto. Qed.

  Variables hd n : nat.
  Lemma from_def : forall w : list A, length w = n * (2 * (hd / 2)) <-> exists w', permute_rotary_from hd n w = Some w'.
  Proof. intros w. unfold permute_rotary_from. destruct (length w =? _) eqn:E; [apply Nat.eqb_eq in E|apply Nat.eqb_neq in E]; split; eauto; [congruence|intros [? ?]; discriminate]. Qed.
  Lemma to_def : forall w : list A, length w = n * (2 * (hd / 2)) <-> exists w', permute_rotary_to hd n w = Some w'.
  Proof. intros w. unfold permute_rotary_to. destruct (length w =? _) eqn:E; [apply Nat.eqb_eq in E|apply Nat.eqb_neq in E]; split; eauto; [congruence|intros [? ?]; discriminate]. Qed.
  Lemma heads_trip : forall (F G : list A -> list A) (w : list A), length w = n * (2 * (hd / 2)) ->
    (forall h, length h = 2 * (hd / 2) -> length (F h) = 2 * (hd / 2) /\ G (F h) = h) ->
    let w' := concat (map F (view n (2 * (hd / 2)) w)) in length w' = n * (2 * (hd / 2)) /\ concat (map G (view n (2 * (hd / 2)) w')) = w.
  Proof.
    intros F G w L H. destruct (view_split n (2 * (hd / 2)) w L) as (hs & Ln & Lh & ->).
    assert (Lm : forall h, In h (map F hs) -> length h = 2 * (hd / 2)). { intros h I. apply in_map_iff in I as (x & <- & I). apply H; auto. }
    assert (V1 : view n (2 * (hd / 2)) (concat hs) = hs) by (rewrite <- Ln; apply view_concat; auto).
    assert (V2 : view n (2 * (hd / 2)) (concat (map F hs)) = map F hs) by (rewrite <- Ln, <- (map_length F hs); apply view_concat; auto).
    rewrite V1. cbv zeta. split; [rewrite (concat_length _ _ Lm), map_length; congruence|]. rewrite V2, map_map. f_equal.
    rewrite <- (map_id hs) at 2. apply map_ext_in. intros h I. apply H. auto.
  Qed.
  Lemma to_from : forall w w' : list A, permute_rotary_to hd n w = Some w' -> permute_rotary_from hd n w' = Some w.
  Proof.
    intros w w' E. assert (L : length w = n * (2 * (hd / 2))) by (apply to_def; eauto). unfold permute_rotary_to in E. rewrite (proj2 (Nat.eqb_eq _ _) L) in E. apply (f_equal (fun o => match o with Some x => x | None => [] end)) in E. cbv beta iota in E. rewrite <- E. clear E w'.
    destruct (heads_trip (fun h => concat (transpose 2 (view (hd / 2) 2 h))) (fun h => concat (transpose (hd / 2) (view 2 (hd / 2) h))) w L) as [L' T].
    { intros h Lh. destruct (split_pairs _ _ Lh) as (a & b & La & Lb & ->). rewrite <- La. rewrite to_head by congruence. split; [rewrite app_length; lia|]. apply from_head. congruence. }
    unfold permute_rotary_from. rewrite (proj2 (Nat.eqb_eq _ _) L'). f_equal. exact T.
  Qed.
  Lemma from_to : forall w w' : list A, permute_rotary_from hd n w = Some w' -> permute_rotary_to hd n w' = Some w.
  Proof.
    intros w w' E. assert (L : length w = n * (2 * (hd / 2))) by (apply from_def; eauto). unfold permute_rotary_from in E. rewrite (proj2 (Nat.eqb_eq _ _) L) in E. apply (f_equal (fun o => match o with Some x => x | None => [] end)) in E. cbv beta iota in E. rewrite <- E. clear E w'.
    destruct (heads_trip (fun h => concat (transpose (hd / 2) (view 2 (hd / 2) h))) (fun h => concat (transpose 2 (view (hd / 2) 2 h))) w L) as [L' T].
    { intros h Lh. destruct (split_halves _ _ Lh) as (a & b & La & Lb & ->). rewrite <- La. rewrite from_head by congruence. split; [apply length_interleave; congruence|]. apply to_head. congruence. }
    unfold permute_rotary_to. rewrite (proj2 (Nat.eqb_eq _ _) L'). f_equal. exact T.
  Qed.
End P.

(** ** Keys of layers *)
Lemma q_key_inj : forall p i j, q_key p i = q_key p j -> i = j.
Proof. unfold q_key. intros p i j H. apply app_inv_head, app_inv_tail in H. now apply decimal_inj. Qed.
Lemma k_key_inj : forall p i j, k_key p i = k_key p j -> i = j.
Proof. unfold k_key. intros p i j H. apply app_inv_head, app_inv_tail in H. now apply decimal_inj. Qed.
Lemma digits_dec : forall n s c, is_digit c = false -> digits (decimal n ++ c :: s) = (decimal n, c :: s).
Proof. intros. destruct (a_number_ok _ (decimal_number n)) as [_ D]. apply digits_number; auto. Qed.
Lemma q_k_key : forall p i j, q_key p i <> k_key p j.
Proof.
  unfold q_key, k_key. intros p i j H. apply app_inv_head in H. apply (f_equal digits) in H.
  change (of_string ".self_attn.q_proj.weight") with ("."%char :: of_string "self_attn.q_proj.weight") in H. change (of_string ".self_attn.k_proj.weight") with ("."%char :: of_string "self_attn.k_proj.weight") in H.
  rewrite !digits_dec in H by reflexivity. discriminate H.
Qed.

Section L.
  Context {A : Type}.
  Notation D := (dict (list A)).
  Variable c : config.
  Section One.
    Variable perm : nat -> list A -> option (list A).
    Variable prefix : string.
    Definition role (n : nat) (k : str) : option nat :=
      if existsb (fun i => str_eqb k (q_key prefix i)) (seq 0 n) then Some (num_attn_heads c) else
      if existsb (fun i => str_eqb k (k_key prefix i)) (seq 0 n) then Some (num_key_value_heads c) else None.
    Definition upd (n : nat) (k : str) (o : option (list A)) : option (list A) :=
      match role n k with Some h => match o with Some w => perm h w | None => None end | None => o end.
    Lemma exb_q : forall n k, existsb (fun i => str_eqb k (q_key prefix i)) (seq 0 n) = true <-> exists i, i < n /\ k = q_key prefix i.
    Proof. intros. rewrite existsb_exists. split; intros (i & H1 & H2); exists i; [apply in_seq in H1; apply str_eqb_eq in H2; split; auto; lia|split; [apply in_seq; lia|apply str_eqb_eq; auto]]. Qed.
    Lemma exb_k : forall n k, existsb (fun i => str_eqb k (k_key prefix i)) (seq 0 n) = true <-> exists i, i < n /\ k = k_key prefix i.
    Proof. intros. rewrite existsb_exists. split; intros (i & H1 & H2); exists i; [apply in_seq in H1; apply str_eqb_eq in H2; split; auto; lia|split; [apply in_seq; lia|apply str_eqb_eq; auto]]. Qed.
    Lemma role_q : forall n i, i < n -> role n (q_key prefix i) = Some (num_attn_heads c).
    Proof. intros. unfold role. rewrite (proj2 (exb_q n (q_key prefix i))); eauto. Qed.
    Lemma role_k : forall n i, i < n -> role n (k_key prefix i) = Some (num_key_value_heads c).
    Proof.
      intros. unfold role. rewrite (proj2 (exb_k n (k_key prefix i))); eauto. destruct (existsb _ _) eqn:E; auto. apply exb_q in E as (j & _ & E). symmetry in E. apply q_k_key in E. destruct E.
    Qed.
    Lemma role_cases : forall n k, (exists i, i < n /\ k = q_key prefix i) \/ (exists i, i < n /\ k = k_key prefix i) \/
      (role n k = None /\ forall i, i < n -> k <> q_key prefix i /\ k <> k_key prefix i).
    Proof.
      intros n k. destruct (existsb (fun i => str_eqb k (q_key prefix i)) (seq 0 n)) eqn:E1; [left; apply exb_q; auto|].
      destruct (existsb (fun i => str_eqb k (k_key prefix i)) (seq 0 n)) eqn:E2; [right; left; apply exb_k; auto|]. right. right. split; [unfold role; rewrite E1, E2; auto|].
      intros i Hi. split; intros ->; [assert (X := proj2 (exb_q n (q_key prefix i)) ltac:(eauto))|assert (X := proj2 (exb_k n (k_key prefix i)) ltac:(eauto))]; congruence.
    Qed.
    Lemma role_not : forall n k, (forall i, i < n -> k <> q_key prefix i /\ k <> k_key prefix i) -> role n k = None.
    Proof. intros n k H. destruct (role_cases n k) as [(i & Hi & E)|[(i & Hi & E)|[E _]]]; auto; destruct (H i Hi); contradiction. Qed.
    Definition ready (d : D) (i : nat) : Prop := exists q k q' k', get (q_key prefix i) d = Some q /\ get (k_key prefix i) d = Some k /\
      perm (num_attn_heads c) q = Some q' /\ perm (num_key_value_heads c) k = Some k'.
    Lemma permute_layers_ok : forall d, (forall i, i < num_layers c -> ready d i) ->
      exists d', permute_layers perm prefix c d = Some d' /\ map fst d' = map fst d /\ forall k, get k d' = upd (num_layers c) k (get k d).
    Proof.
      unfold permute_layers. generalize (num_layers c). induction n; intros d H; [exists d; split; [reflexivity|split; auto]|].
      destruct (IHn d) as (d1 & E1 & K1 & G1); [intros; apply H; lia|]. rewrite seq_S, fold_left_app, E1. cbn [fold_left Nat.add].
      destruct (H n ltac:(lia)) as (q & k & q' & k' & Gq & Gk & Pq & Pk).
      assert (Rq : role n (q_key prefix n) = None) by (apply role_not; intros i Hi; split; [intros E; apply q_key_inj in E; lia|apply q_k_key]).
      assert (Rk : role n (k_key prefix n) = None) by (apply role_not; intros i Hi; split; [intros E; symmetry in E; apply q_k_key in E; auto|intros E; apply k_key_inj in E; lia]).
      assert (Gq1 : get (q_key prefix n) d1 = Some q) by (rewrite G1; unfold upd; rewrite Rq; auto).
      assert (Gk1 : get (k_key prefix n) d1 = Some k) by (rewrite G1; unfold upd; rewrite Rk; auto).
      rewrite Gq1, Gk1, Pq, Pk. eexists. split; [reflexivity|]. split.
      - rewrite !keys_set. assert (I1 : In (q_key prefix n) (map fst d1)) by (apply get_in; congruence). destruct (in_dec _ (q_key prefix n) (map fst d1)) as [_|X]; [|contradiction].
        assert (I2 : In (k_key prefix n) (map fst d1)) by (apply get_in; congruence). destruct (in_dec _ (k_key prefix n) (map fst d1)) as [_|X]; [|contradiction]. auto.
      - intros x. rewrite !get_set, G1. destruct (str_eqb x (k_key prefix n)) eqn:Ek.
        + apply str_eqb_eq in Ek. subst x. unfold upd. rewrite role_k by lia. rewrite Gk. auto.
        + destruct (str_eqb x (q_key prefix n)) eqn:Eq; [apply str_eqb_eq in Eq; subst x; unfold upd; rewrite role_q by lia; rewrite Gq; auto|].
          apply str_eqb_neq in Ek, Eq. unfold upd. replace (role (S n) x) with (role n x); auto. unfold role. rewrite seq_S, !existsb_app. cbn [existsb Nat.add].
          apply str_eqb_neq in Ek, Eq. rewrite Eq, Ek, !orb_false_r. auto.
    Qed.
    (** Permuting and renaming *)
    Lemma body_ok : forall conv (K : str -> Prop) d, (forall k k', K k -> K k' -> get_converted_key conv k = get_converted_key conv k' -> k = k') ->
      NoDup (map fst d) -> (forall k, In k (map fst d) -> K k) -> (forall i, i < num_layers c -> ready d i) ->
      exists d1, permute_layers perm prefix c d = Some d1 /\ let r := convert_state_dict conv d1 in
        map fst r = map (get_converted_key conv) (map fst d) /\ NoDup (map fst r) /\ forall k, K k -> get (get_converted_key conv k) r = upd (num_layers c) k (get k d).
    Proof.
      intros conv K d Inj Nd Hk Hr. destruct (permute_layers_ok d Hr) as (d1 & E & K1 & G). exists d1. split; auto.
      destruct (get_convert conv d1) as (A1 & A2 & A3); [rewrite K1; intros; apply Inj; auto|rewrite K1; auto|]. rewrite K1 in *. cbv zeta. split; auto. split.
      - rewrite A3. clear - Inj Nd Hk. induction (map fst d) as [|a l IH]; [constructor|]. cbn. inversion Nd; subst. constructor; [|apply IH; auto; intros; apply Hk; right; auto].
        rewrite in_map_iff. intros (x & E & I). apply Inj in E; [subst; contradiction|apply Hk; right; auto|apply Hk; left; auto].
      - intros k Kk. destruct (get k d) as [v|] eqn:Ev.
        + assert (I : In k (map fst d)) by (apply get_in; congruence). rewrite A1 by auto. rewrite G, Ev. auto.
        + replace (upd (num_layers c) k None) with (@None (list A)) by (unfold upd; destruct (role _ k); auto).
          destruct (get (get_converted_key conv k) (convert_state_dict conv d1)) eqn:X; auto. assert (Y : get (get_converted_key conv k) (convert_state_dict conv d1) <> None) by congruence.
          apply A2 in Y as (k' & I' & E'). apply Inj in E'; auto. subst k'. apply get_in in I'. congruence.
    Qed.
  End One.

  (** There and back *)
  Variables (perm1 perm2 : nat -> list A -> option (list A)) (prefix1 prefix2 : string) (conv1 conv2 : key_map) (K1 K2 : str -> Prop).
  Hypotheses (Hc : forall k, K1 k -> K2 (get_converted_key conv1 k) /\ get_converted_key conv2 (get_converted_key conv1 k) = k)
    (Hc2 : forall k, K2 k -> K1 (get_converted_key conv2 k) /\ get_converted_key conv1 (get_converted_key conv2 k) = k)
    (Hp : forall n w w', perm1 n w = Some w' -> perm2 n w' = Some w)
    (Hq : forall i, K1 (q_key prefix1 i) /\ get_converted_key conv1 (q_key prefix1 i) = q_key prefix2 i)
    (Hk : forall i, K1 (k_key prefix1 i) /\ get_converted_key conv1 (k_key prefix1 i) = k_key prefix2 i).
  Lemma inj1 : forall k k', K1 k -> K1 k' -> get_converted_key conv1 k = get_converted_key conv1 k' -> k = k'.
  Proof. intros k k' H H' E. apply Hc in H as [_ H], H' as [_ H']. congruence. Qed.
  Lemma inj2 : forall k k', K2 k -> K2 k' -> get_converted_key conv2 k = get_converted_key conv2 k' -> k = k'.
  Proof. intros k k' H H' E. apply Hc2 in H as [_ H], H' as [_ H']. congruence. Qed.
  Lemma role12 : forall n k, K1 k -> role prefix2 n (get_converted_key conv1 k) = role prefix1 n k.
  Proof.
    intros n k Kk. destruct (role_cases prefix1 n k) as [(i & Hi & ->)|[(i & Hi & ->)|[E N]]].
    - rewrite (proj2 (Hq i)), !role_q; auto.
    - rewrite (proj2 (Hk i)), !role_k; auto.
    - rewrite E. apply role_not. intros i Hi. destruct (N i Hi) as [N1 N2]. rewrite <- (proj2 (Hq i)), <- (proj2 (Hk i)).
      split; intros X; apply inj1 in X; auto; [apply Hq|apply Hk].
  Qed.
  Lemma upd_back : forall n k o, K1 k -> (forall h w, role prefix1 n k = Some h -> o = Some w -> exists w', perm1 h w = Some w') ->
    upd perm2 prefix2 n (get_converted_key conv1 k) (upd perm1 prefix1 n k o) = o.
  Proof.
    intros n k o Kk H. unfold upd. rewrite role12 by auto. destruct (role prefix1 n k) as [h|]; auto. destruct o as [w|]; auto. destruct (H h w eq_refl eq_refl) as (w' & E). rewrite E. eauto.
  Qed.
  (** [e]: the converted dictionary, possibly with entries removed that are not permuted, or added *)
  Lemma trip : forall d, NoDup (map fst d) -> (forall k, In k (map fst d) -> K1 k) -> (forall i, i < num_layers c -> ready perm1 prefix1 d i) ->
    exists d1, permute_layers perm1 prefix1 c d = Some d1 /\ let r := convert_state_dict conv1 d1 in NoDup (map fst r) /\ (forall k, In k (map fst r) -> K2 k) /\
      (forall k, K1 k -> get (get_converted_key conv1 k) r = upd perm1 prefix1 (num_layers c) k (get k d)) /\
      forall e, NoDup (map fst e) -> (forall k, In k (map fst e) -> K2 k) -> (forall i, i < num_layers c -> get (q_key prefix2 i) e = get (q_key prefix2 i) r /\ get (k_key prefix2 i) e = get (k_key prefix2 i) r) ->
      exists e1, permute_layers perm2 prefix2 c e = Some e1 /\ (forall k, In k (map fst (convert_state_dict conv2 e1)) -> K1 k) /\
        forall k, K1 k -> get k (convert_state_dict conv2 e1) = match role prefix1 (num_layers c) k with Some _ => get k d | None => get (get_converted_key conv1 k) e end.
  Proof.
    intros d Nd Kd Rd. destruct (body_ok perm1 prefix1 conv1 K1 d inj1 Nd Kd Rd) as (d1 & E & Kr & Nr & Gr). exists d1. split; auto. cbv zeta in *. split; auto. split.
    { intros k I. rewrite Kr in I. apply in_map_iff in I as (x & <- & I). apply Hc. auto. }
    split; auto. intros e Ne Ke He.
    assert (Re : forall i, i < num_layers c -> ready perm2 prefix2 e i).
    { intros i Hi. destruct (Rd i Hi) as (q & k & q' & k' & Gq & Gk & Pq & Pk). destruct (He i Hi) as [Eq Ek]. exists q', k', q, k.
      rewrite Eq, Ek, <- (proj2 (Hq i)), <- (proj2 (Hk i)), (Gr _ (proj1 (Hq i))), (Gr _ (proj1 (Hk i))). unfold upd. rewrite role_q, role_k by auto. rewrite Gq, Gk, Pq, Pk. repeat split; auto. }
    destruct (body_ok perm2 prefix2 conv2 K2 e inj2 Ne Ke Re) as (e1 & E1 & Kr1 & Nr1 & Gr1). exists e1. split; auto. split.
    { intros k I. rewrite Kr1 in I. apply in_map_iff in I as (x & <- & I). apply Hc2. auto. }
    intros k Kk. rewrite <- (proj2 (Hc k Kk)) at 1. rewrite Gr1 by (apply Hc; auto). 
    destruct (role_cases prefix1 (num_layers c) k) as [(i & Hi & ->)|[(i & Hi & ->)|[Er _]]].
    - rewrite role_q by auto. rewrite (proj2 (Hq i)). destruct (He i Hi) as [-> _]. rewrite <- (proj2 (Hq i)). rewrite Gr by auto. apply upd_back; auto. intros h w. rewrite role_q by auto. intros [= <-] Ew. destruct (Rd i Hi) as (q & k & q' & k' & Gq & _ & Pq & _). exists q'. congruence.
    - rewrite role_k by auto. rewrite (proj2 (Hk i)). destruct (He i Hi) as [_ ->]. rewrite <- (proj2 (Hk i)). rewrite Gr by auto. apply upd_back; auto. intros h w. rewrite role_k by auto. intros [= <-] Ew. destruct (Rd i Hi) as (q & k & q' & k' & _ & Gk & _ & Pk). exists k'. congruence.
    - rewrite Er. unfold upd. rewrite role12, Er by auto. auto.
  Qed.
End L.
