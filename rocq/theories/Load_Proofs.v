(** Lemmas for the loading of checkpoints. *)
From Coq Require Import List Bool Arith Lia.
From Verif Require Import Shard_Model Shard_Spec Shard_Proofs Load_Model Load_Spec.
Import ListNotations.

Section P.
  Context {A : Type}.
  Notation mat := (mat A).

  Lemma cat0_ok w (l : list mat) : l <> [] -> Forall (fun m => width m = w) l -> cat 0 l = Ok (Mat w (concat (map rows l))).
  Proof.
    intros N F. rewrite <- cat_rows_ok by (destruct l; [contradiction|discriminate]). f_equal. rewrite map_map.
    clear N. induction F as [|[w' rs] l E F IH]; cbn [map rows]; [reflexivity|]. cbn [width] in E. now rewrite <- E, <- E, <- IH at 1 || (subst; f_equal; exact IH).
  Qed.
  Lemma join_all_ok s_dp (f : nat -> mat) (g : nat -> list mat) : forall l, (forall i, In i l -> join_dp s_dp (g i) = Ok (f i)) -> join_all s_dp (map g l) = Ok (map f l).
  Proof.
    induction l as [|i l IH]; intros H; cbn [map join_all]; [reflexivity|]. rewrite (H i (or_introl eq_refl)). cbn [bind]. rewrite IH by (intros; apply H; now right). reflexivity.
  Qed.
  Lemma pick_ok {T} (f : nat -> T) s i n : i + n <= s -> pick (map f (seq 0 s)) i n = Ok (map f (seq i n)).
  Proof. intros H. unfold pick. apply collect_map. intros j J. apply in_seq in J. apply get_map_seq. lia. Qed.

  Lemma narrow_segment {T} k n i start len (l : list T) : start + len <= n * k ->
    firstn len (skipn start (firstn (n * k) (skipn (i * k) l))) = firstn len (skipn (i * k + start) l).
  Proof. intros H. rewrite skipn_firstn_comm, firstn_firstn, skipn_skip. f_equal. lia. Qed.
  Lemma cat_shards d k i n (m : mat) : d < 2 -> 0 < n -> (d = 0 -> (i + n) * k <= height m) ->
    exists c, cat d (map (fun r => shard d k r m) (seq i n)) = Ok c /\ size_of d c = n * k /\
      forall start len, start + len <= n * k -> narrow d start len c =
        Ok (match d with 0 => Mat (width m) (firstn len (skipn (i * k + start) (rows m))) | _ => Mat len (map (fun r => firstn len (skipn (i * k + start) r)) (rows m)) end).
  Proof.
    intros D N Hh. destruct d as [|[|d]]; [| |lia]; cbn [shard].
    - unfold row_block. rewrite <- (map_map (fun r => block k r (rows m)) (Mat (width m))).
      rewrite cat_rows_ok by (destruct n; [lia|discriminate]). rewrite blocks_from. eexists. split; [reflexivity|].
      assert (E : size_of 0 (Mat (width m) (firstn (n * k) (skipn (i * k) (rows m)))) = n * k).
      { unfold size_of, height in *. cbn [rows]. rewrite firstn_length, skipn_length. specialize (Hh eq_refl). nia. }
      split; [exact E|]. intros start len L. unfold narrow. rewrite E. destruct (Nat.ltb_spec (n * k) (start + len)); [lia|]. cbn [width rows]. now rewrite narrow_segment.
    - unfold col_block. rewrite (cat_cols_ok k (fun j row => block k j row) (rows m)) by (destruct n; [lia|discriminate]). rewrite seq_length. eexists. split; [reflexivity|].
      split; [reflexivity|]. intros start len L. unfold narrow. cbn [size_of width]. destruct (Nat.ltb_spec (n * k) (start + len)); [lia|]. cbn [rows]. rewrite map_map. do 2 f_equal. apply map_ext. intros r.
      now rewrite blocks_from, narrow_segment.
  Qed.

  Lemma reshard_dim d (m : mat) s s_dp t r ks kt (g : nat -> list mat) : d < 2 -> 0 < s -> 0 < t -> 0 < ks -> size_of d m = s * ks -> size_of d m = t * kt -> r < t ->
    (forall i, i < s -> join_dp s_dp (g i) = Ok (shard d ks i m)) ->
    reshard (Some d) (map g (seq 0 s)) s s_dp t r = Ok (shard d kt r m).
  Proof.
    intros D Sp T K Es Et R J. unfold reshard. destruct (Nat.eqb_spec s t) as [<-|NE].
    { replace kt with ks by nia. rewrite get_map_seq by exact R. cbn [bind]. now apply J. }
    rewrite (join_all_ok s_dp (fun i => shard d ks i m)) by (intros i I; apply in_seq in I; apply J; lia). cbn [bind].
    rewrite get_map_seq by lia. cbn [bind]. 
    assert (E0 : size_of d (shard d ks 0 m) = ks).
    { destruct d as [|[|d]]; [| |lia]; cbn [shard size_of]; [|reflexivity]. unfold row_block, height. cbn [rows]. apply block_length with s; [unfold size_of, height in Es; nia|lia]. }
    rewrite E0. unfold div at 1. destruct (Nat.eqb_spec t 0); [lia|]. cbn [bind].
    assert (Ek : ks * s / t = kt) by (replace (ks * s) with (kt * t) by nia; apply Nat.div_mul; lia). rewrite Ek. unfold div.
    assert (Kt : 0 < kt) by nia.
    destruct (Nat.eqb_spec ks 0); [lia|]. cbn [bind].
    set (a := r * kt). set (fs := a / ks). set (ls := (a + kt - 1) / ks).
    assert (H1 : fs * ks <= a) by (unfold fs; rewrite Nat.mul_comm; apply Nat.mul_div_le; lia).
    assert (H2 : a < S fs * ks) by (unfold fs; rewrite Nat.mul_comm; apply Nat.mul_succ_div_gt; lia).
    assert (H3 : ls * ks <= a + kt - 1) by (unfold ls; rewrite Nat.mul_comm; apply Nat.mul_div_le; lia).
    assert (H4 : a + kt - 1 < S ls * ks) by (unfold ls; rewrite Nat.mul_comm; apply Nat.mul_succ_div_gt; lia).
    assert (Ha : a + kt <= s * ks) by (unfold a; nia).
    clearbody fs ls. assert (L1 : fs <= ls) by nia. assert (L2 : ls < s) by nia.
    rewrite pick_ok by lia. cbn [bind].
    destruct (cat_shards d ks fs (ls + 1 - fs) m D) as (c & -> & Ec & Hc); [lia| |].
    { intros ->. cbn [size_of] in Es. rewrite Es. apply Nat.mul_le_mono_r. lia. }
    cbn [bind]. rewrite Hc.
    - replace (fs * ks + (a - fs * ks)) with a by lia. unfold a. destruct d as [|[|d]]; [reflexivity|reflexivity|lia].
    - replace (ls + 1 - fs) with (S (ls - fs)) by lia. nia.
  Qed.
  Lemma reshard_none (m : mat) s s_dp t r (g : nat -> list mat) : 0 < s -> r < t ->
    (forall i, i < s -> join_dp s_dp (g i) = Ok m) -> reshard None (map g (seq 0 s)) s s_dp t r = Ok m.
  Proof.
    intros Sp R J. unfold reshard. destruct (Nat.eqb_spec s t) as [<-|NE]; rewrite get_map_seq by lia; cbn [bind]; apply J; lia.
  Qed.

  (** FSDP chunks *)
  Lemma fsdp_join s_dp (m : mat) : 1 < s_dp -> join_dp s_dp (map (fun d => fsdp_chunk s_dp d m) (seq 0 s_dp)) = Ok m.
  Proof.
    intros H. unfold join_dp. destruct (Nat.eqb_spec s_dp 1); [lia|]. rewrite (cat0_ok (width m)).
    - rewrite map_map. cbn [fsdp_chunk rows]. unfold fsdp_chunk. cbn [rows]. set (k := (height m + s_dp - 1) / s_dp).
      change (fun x => piece k x (rows m)) with (fun x => block k x (rows m)). rewrite blocks_from. cbn [Nat.mul skipn]. rewrite firstn_all2; [now destruct m|].
      assert (Hk : height m + s_dp - 1 < S k * s_dp) by (unfold k; rewrite Nat.mul_comm; apply Nat.mul_succ_div_gt; lia). unfold height in *. nia.
    - destruct s_dp; [lia|discriminate].
    - apply Forall_map, Forall_forall. reflexivity.
  Qed.
  Lemma tp_part_shard d s k r (m : mat) : d < 2 -> 0 < s -> size_of d m = s * k -> tp_part (Some d) s r m = shard d k r m.
  Proof.
    intros D Sp E. assert (Ek : size_of d m / s = k) by (rewrite E; now apply div_exact). destruct d as [|[|d]]; [| |lia]; cbn [tp_part size_of shard] in *; rewrite Ek; reflexivity.
  Qed.
End P.
