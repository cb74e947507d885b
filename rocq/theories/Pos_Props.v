(** C51: position encoders. *)
From Coq Require Import ZArith List Bool Arith Lia Reals.
From Verif Require Import Batch_Model Batch_Spec Batch_Props Pos_Model Pos_Spec Pos_Proofs.
From Verif Require Attn_Model.
Import ListNotations.
Local Open Scope Z_scope.

(** Every sequence of every batch, packed or padded or neither, is encoded as if it were alone: element [j] with row 1 + start + j
    of the table, which is inside the table and not the padding row. Both kinds of encoder agree, and fail exactly if some
    sequence would end beyond the maximum length. *)
Theorem C51_encode : forall A F (comb : A -> F -> A) (table : list F) max_len (d : F) shape lens p y training step seqs,
  Z.of_nat (length table) = max_len + 1 -> batch_layout shape lens p = Batch_Model.Ok y -> seq_lens y <> [] -> fits y seqs ->
  (forall s, step = Some s -> 0 <= s) ->
  let start := start_step training step in
  ((exists k, (k < length (seq_lens y))%nat /\ max_len < start + nth k (seq_lens y) 0) /\
     forward comb table max_len y training step seqs = Err TooLong /\ forward_learned comb table max_len y training step seqs = Err TooLong) \/
  ((forall k, (k < length (seq_lens y))%nat -> start + nth k (seq_lens y) 0 <= max_len) /\
   exists out, forward comb table max_len y training step seqs = Ok out /\ forward_learned comb table max_len y training step seqs = Ok out /\
     fits y out /\
     forall k, (k < length (seq_lens y))%nat ->
       seq_of y k out = encoded comb table d (Z.to_nat start) (seq_of y k seqs) /\
       length (seq_of y k seqs) = Z.to_nat (nth k (seq_lens y) 0)).
Proof.
  intros A F comb table M d sh ls p y tr step seqs T H N Fi S0 start.
  destruct (forward_ok comb table M d T _ _ _ _ tr step _ H Fi N S0) as [E1 E2]. fold start in E1, E2.
  assert (Mx : is_max (Batch_Model.max_len y) (seq_lens y)).
  { destruct p.
    - destruct (proj1 (C24_accept_packed sh ls)) as (w & -> & _); [eauto|]. destruct (C24_packed w ls y H) as (_ & _ & Es & _ & _ & Em & _). rewrite Es in *. now apply Em.
    - destruct (proj1 (C24_accept_padded sh ls)) as (n & w & -> & _); [eauto|]. destruct (C24_padded n w ls y H) as (_ & _ & Es & _ & _ & Em & _). rewrite Es in *. now apply Em. }
  destruct Mx as [Mi Mm].
  assert (Hs : 0 <= start) by (unfold start, start_step; destruct step as [z|]; [destruct tr; [lia|now apply S0]|lia]).
  destruct (Z.ltb_spec M (start + Batch_Model.max_len y)) as [G|L].
  - left. split; [|split; assumption]. apply In_nth with (d := 0) in Mi as (k & Hk & Ek). exists k. split; [exact Hk|]. now rewrite Ek.
  - right. split.
    + intros k Hk. specialize (Mm _ (nth_In _ 0 Hk)). lia.
    + eexists. split; [exact E1|]. split; [exact E2|]. split.
      * unfold fits, out in *. revert Fi. clear. generalize (positions y). induction seqs as [|x l IH]; intros [|r l'] Fi; try discriminate Fi; [reflexivity|].
        cbn [map] in Fi. injection Fi as Ea Eb. unfold map2 at 1. cbn [combine map fst snd]. f_equal; [|now apply IH].
        rewrite map2_length; [exact Ea|]. rewrite map_length. exact Ea.
      * intros k Hk. split; [apply (seq_of_out comb table d sh ls p); assumption|].
        destruct (C24_disjoint _ _ _ _ H) as (LB & B0 & Bk & Bl).
        assert (Len : length (concat seqs) = length (concat (positions y))).
        { clear - Fi. unfold fits in Fi. revert Fi. generalize (positions y). induction seqs as [|x l IH]; intros [|r l'] Fi; try discriminate Fi; [reflexivity|].
          cbn [map concat] in *. injection Fi as Ea Eb. rewrite !app_length, Ea, (IH _ Eb). reflexivity. }
        assert (Ln : forall x, In x (seq_lens y) -> 1 <= x).
        { destruct p.
          - destruct (proj1 (C24_accept_packed sh ls)) as (w & -> & Hw & Hl & Ht); [eauto|]. destruct (C24_packed w ls y H) as (_ & _ & -> & _). now rewrite Forall_forall in Hl.
          - destruct (proj1 (C24_accept_padded sh ls)) as (n & w & -> & Hw & Hn & Hl); [eauto|]. destruct (C24_padded n w ls y H) as (_ & _ & -> & _).
            rewrite Forall_forall in Hl. intros x Hx. now apply Hl. }
        assert (Mono : forall j, (j <= length (seq_lens y))%nat -> 0 <= nth j (seq_begin y) 0 /\ nth j (seq_begin y) 0 <= last (seq_begin y) 0).
        { assert (La : last (seq_begin y) 0 = nth (length (seq_lens y)) (seq_begin y) 0).
          { clear - LB. revert LB. generalize (length (seq_lens y)). intros n. generalize (seq_begin y). induction n as [|n IH]; intros [|b l] E; try discriminate E.
            - destruct l; [reflexivity|discriminate E].
            - injection E as E. destruct l as [|b' l]; [discriminate E|]. change (last (b :: b' :: l) 0) with (last (b' :: l) 0). rewrite (IH _ E). reflexivity. }
          rewrite La. intros j Hj. split.
          - induction j as [|j IH]; [lia|]. specialize (IH ltac:(lia)). specialize (Bk j ltac:(lia)). assert (1 <= nth j (seq_lens y) 0) by (apply Ln, nth_In; lia). lia.
          - remember (length (seq_lens y) - j)%nat as q. revert j Hj Heqq. induction q as [|q IH]; intros j Hj Eq; [replace j with (length (seq_lens y)) by lia; lia|].
            specialize (IH (S j) ltac:(lia) ltac:(lia)). specialize (Bk j ltac:(lia)). assert (1 <= nth j (seq_lens y) 0) by (apply Ln, nth_In; lia). lia. }
        unfold seq_of. rewrite firstn_length, skipn_length, Len.
        destruct (Mono k ltac:(lia)) as [Q1 _]. destruct (Mono (S k) ltac:(lia)) as [_ Q2]. specialize (Bk k Hk). pose proof (Ln _ (nth_In _ 0 Hk)). lia.
Qed.
Print Assumptions C51_encode.

Lemma single_ok A F (comb : A -> F -> A) (table : list F) M (d : F) tr step x : Z.of_nat (length table) = M + 1 -> x <> [] ->
  (forall s, step = Some s -> 0 <= s) -> start_step tr step + Z.of_nat (length x) <= M ->
  exists y, batch_layout [1; Z.of_nat (length x)] None false = Batch_Model.Ok y /\
    forward comb table M y tr step [x] = Ok [encoded comb table d (Z.to_nat (start_step tr step)) x] /\
    forward_learned comb table M y tr step [x] = Ok [encoded comb table d (Z.to_nat (start_step tr step)) x].
Proof.
  intros T N S0 L. assert (Lx : 1 <= Z.of_nat (length x)) by (destruct x; [congruence|simpl; lia]).
  destruct (proj2 (C24_accept_padded [1; Z.of_nat (length x)] None)) as [y H].
  { exists 1, (Z.of_nat (length x)). split; [reflexivity|]. split; [exact Lx|]. cbv zeta. split; [reflexivity|]. repeat constructor; lia. }
  exists y. split; [exact H|]. destruct (C24_padded _ _ _ _ H) as (_ & _ & Es & Eb & Ep & _).
  change (repeat (Z.of_nat (length x)) (Z.to_nat 1)) with [Z.of_nat (length x)] in *. cbv zeta in *.
  assert (Fi : fits y [x]).
  { unfold fits. rewrite Ep. cbn [map]. f_equal. unfold padded_row, iota. rewrite Z.sub_diag, app_length, map_length, seq_length, Nat2Z.id. simpl. lia. }
  assert (Nn : seq_lens y <> []) by (rewrite Es; discriminate).
  destruct (C51_encode A F comb table M d _ _ _ y tr step [x] T H Nn Fi S0) as [((k & Hk & Hc) & _)|(_ & out & E1 & E2 & Fo & Eo)].
  - exfalso. rewrite Es in Hk, Hc. cbn [length] in Hk. assert (k = 0)%nat by lia. subst k. cbn [nth] in Hc. lia.
  - rewrite E1, E2. specialize (Eo 0%nat ltac:(rewrite Es; simpl; lia)). destruct Eo as [Eo _]. unfold seq_of in Eo. rewrite Es, Eb in Eo.
    cbn [nth map seq length] in Eo. rewrite Nat2Z.id in Eo. cbn [Z.of_nat Z.mul Z.to_nat skipn concat] in Eo. rewrite app_nil_r in Eo. rewrite firstn_all in Eo.
    unfold fits in Fo, Fi. rewrite <- Fi in Fo. destruct out as [|o [|? ?]]; try discriminate Fo. cbn [map concat] in *. injection Fo as Fo. rewrite app_nil_r in Eo.
    rewrite <- Fo, firstn_all in Eo. rewrite Eo. split; reflexivity.
Qed.

(** A sequence encoded at once, without a bag or in training. *)
Theorem C51_alone : forall A F (comb : A -> F -> A) (table : list F) max_len (d : F) training step (x : list A),
  Z.of_nat (length table) = max_len + 1 -> x <> [] -> Z.of_nat (length x) <= max_len -> training = true \/ step = None ->
  (forall s, step = Some s -> 0 <= s) ->
  exists y, batch_layout [1; Z.of_nat (length x)] None false = Batch_Model.Ok y /\
    forward comb table max_len y training step [x] = Ok [encoded comb table d 0 x] /\
    forward_learned comb table max_len y training step [x] = Ok [encoded comb table d 0 x].
Proof.
  intros A F comb table M d tr step x T N L C S0. assert (E : start_step tr step = 0) by (destruct C as [->| ->]; [now destruct step|reflexivity]).
  destruct (single_ok A F comb table M d tr step x T N S0) as (y & H); [rewrite E; lia|]. rewrite E in H. exists y. exact H.
Qed.
Print Assumptions C51_alone.

(** Encoding a sequence chunk by chunk, with the bag advanced by the length of each chunk, gives what encoding it at once gives. *)
Definition encode_chunk {A F} (comb : A -> F -> A) (table : list F) (max_len : Z) (step : nat) (x : list A) : option (list A) :=
  match batch_layout [1; Z.of_nat (length x)] None false with
  | Batch_Model.Ok y => match forward comb table max_len y false (Some (Z.of_nat step)) [x] with Ok [o] => Some o | _ => None end
  | Batch_Model.Err _ => None
  end.
Fixpoint encode_chunks {A F} (comb : A -> F -> A) (table : list F) (max_len : Z) (b : Attn_Model.bag unit unit) (chunks : list (list A)) : option (list A) :=
  match chunks with
  | [] => Some []
  | x :: chunks' =>
      match encode_chunk comb table max_len (Attn_Model.step_nr b) x, Attn_Model.increment (length x) b with
      | Some o, Attn_Model.Ok b' => option_map (app o) (encode_chunks comb table max_len b' chunks')
      | _, _ => None
      end
  end.
Theorem C51_stepwise : forall A F (comb : A -> F -> A) (table : list F) max_len (d : F) max_steps inc b chunks,
  Z.of_nat (length table) = max_len + 1 -> Attn_Model.new_bag max_steps inc = Attn_Model.Ok b ->
  Forall (fun x => x <> []) chunks -> (length (concat chunks) < max_steps)%nat -> Z.of_nat (length (concat chunks)) <= max_len ->
  encode_chunks comb table max_len b chunks = Some (encoded comb table d 0 (concat chunks)).
Proof.
  intros A F comb table M d mx inc b chunks T B.
  assert (B0 : Attn_Model.step_nr b = 0%nat /\ Attn_Model.max_steps b = mx).
  { unfold Attn_Model.new_bag in B. destruct inc as [[|i]|]; try discriminate B; injection B as <-; split; reflexivity. }
  destruct B0 as [B0 Bm]. clear B.
  assert (G : forall chunks b s, Attn_Model.step_nr b = s -> Attn_Model.max_steps b = mx -> Forall (fun x => x <> []) chunks ->
    (s + length (concat chunks) < mx)%nat -> Z.of_nat (s + length (concat chunks)) <= M ->
    encode_chunks comb table M b chunks = Some (encoded comb table d s (concat chunks))).
  { clear b chunks B0 Bm. induction chunks as [|x chunks IH]; intros b s Es Em Ne Ls Lm; [reflexivity|]. cbn [encode_chunks concat] in *. inversion_clear Ne.
    rewrite app_length in Ls, Lm. rewrite Es. unfold encode_chunk.
    destruct (single_ok A F comb table M d false (Some (Z.of_nat s)) x T H) as (y & -> & -> & _); [intros s' E; injection E as <-; lia|cbn [start_step]; lia|].
    unfold Attn_Model.increment. rewrite Em, Es. destruct (Nat.leb_spec mx (s + length x)); [lia|].
    rewrite (IH _ (s + length x)%nat); [|reflexivity|reflexivity|assumption|lia|lia].
    cbn [option_map start_step]. rewrite Nat2Z.id, encoded_app. reflexivity. }
  intros Ne Ls Lm. apply (G chunks b 0%nat); assumption.
Qed.
Print Assumptions C51_stepwise.

(** Padding is combined with the padding row of the table unless a bag says at which step the batch starts. *)
Theorem C51_padding : forall A F (comb : A -> F -> A) (table : list F) max_len (d : F) shape lens p y training step seqs out,
  Z.of_nat (length table) = max_len + 1 -> batch_layout shape lens p = Batch_Model.Ok y -> seq_lens y <> [] -> fits y seqs ->
  training = true \/ step = None -> (forall s, step = Some s -> 0 <= s) ->
  forward comb table max_len y training step seqs = Ok out ->
  forall q x, 0 <= q < Z.of_nat (length (concat (positions y))) -> ~ real y q ->
    nth_error (concat seqs) (Z.to_nat q) = Some x -> nth_error (concat out) (Z.to_nat q) = Some (comb x (nth 0 table d)).
Proof.
  intros A F comb table M d sh ls p y tr step seqs out T H N Fi C S0 E q x Hq Nr Ex.
  assert (Es : start_step tr step = 0) by (destruct C as [->| ->]; [now destruct step|reflexivity]).
  destruct (forward_ok comb table M d T _ _ _ _ tr step _ H Fi N S0) as [E1 _]. rewrite E1 in E. destruct (M <? _); [discriminate E|]. injection E as <-.
  rewrite concat_out by exact Fi. rewrite map2_nth, Ex, nth_error_map.
  rewrite (nth_error_nth' _ 0) by lia. cbn [option_map]. destruct (C24_positions _ _ _ _ H) as [_ P]. rewrite (P q Hq Nr), Es. reflexivity.
Qed.
Print Assumptions C51_padding.

(** ** Tables *)
(** All tables have one row more than the maximum length, and row 1 + p is that of position p. *)
Theorem C51_tables : forall e n o fr, length (sin_table e n o) = S n /\ length (rot_table fr n) = S n /\
  forall p, (p < n)%nat -> nth (S p) (sin_table e n o) [] = sin_row (Nat.div e 2) o p /\ nth (S p) (rot_table fr n) [] = rot_row fr p.
Proof.
  intros. unfold sin_table, rot_table. cbn [length nth]. rewrite !map_length, !seq_length. split; [reflexivity|]. split; [reflexivity|]. intros p H.
  split; apply nth_error_nth; rewrite nth_error_map; rewrite (nth_error_nth' _ 0%nat) by (rewrite seq_length; lia); rewrite seq_nth by lia; reflexivity.
Qed.
Print Assumptions C51_tables.

Local Open Scope R_scope.
(** The scores of rotary attention depend only on the distance of the two positions: turning the query by its position and the
    key by its own and multiplying them gives, for every pair of numbers, the same as turning the query by the difference
    (or the key, if it is later). *)
Definition dot (a b : list (R * R)) : R := fold_right Rplus 0 (map2 (fun x y => fst x * fst y + snd x * snd y) a b).
Lemma dot_cons a x b y : dot (a :: x) (b :: y) = (fst a * fst b + snd a * snd b) + dot x y.
Proof. reflexivity. Qed.
Lemma rot_comb_cons a x f fr p : rot_comb (a :: x) (rot_row (f :: fr) p) = cmul a (cos (INR p * f), sin (INR p * f)) :: rot_comb x (rot_row fr p).
Proof. reflexivity. Qed.
Theorem C51_relative : forall freqs m n (q k : list (R * R)), length q = length freqs -> length k = length freqs ->
  dot (rot_comb q (rot_row freqs (n + m))) (rot_comb k (rot_row freqs n)) = dot (rot_comb q (rot_row freqs m)) k /\
  dot (rot_comb q (rot_row freqs n)) (rot_comb k (rot_row freqs (n + m))) = dot q (rot_comb k (rot_row freqs m)).
Proof.
  induction freqs as [|f fr IH]; intros m n [|a q] [|b k] Lq Lk; try discriminate Lq; try discriminate Lk; [split; reflexivity|].
  injection Lq as Lq. injection Lk as Lk. destruct (IH m n q k Lq Lk) as [I1 I2]. rewrite !rot_comb_cons, !dot_cons, I1, I2. rewrite plus_INR, Rmult_plus_distr_r, cos_plus, sin_plus.
  unfold cmul. cbn [fst snd]. pose proof (sin2_cos2 (INR n * f)) as U. unfold Rsqr in U.
  set (c := cos (INR n * f)) in *. set (s := sin (INR n * f)) in *. set (c' := cos (INR m * f)). set (s' := sin (INR m * f)).
  split; f_equal.
  - transitivity ((s * s + c * c) * (fst a * (fst b * c' + snd b * s') + snd a * (snd b * c' - fst b * s'))); [ring|rewrite U; ring].
  - transitivity ((s * s + c * c) * (fst b * (fst a * c' + snd a * s') + snd b * (snd a * c' - fst a * s'))); [ring|rewrite U; ring].
Qed.
Print Assumptions C51_relative.

(** The encoder that turns halves does the same to an element given as first halves followed by second halves. *)
Definition halves (x : list (R * R)) : list R := map fst x ++ map snd x.
Lemma map2_app {A B C} (g : A -> B -> C) a b a' b' : length a = length b -> map2 g (a ++ a') (b ++ b') = map2 g a b ++ map2 g a' b'.
Proof. revert b. induction a as [|x a IH]; intros [|y b] L; try discriminate L; [reflexivity|]. injection L as L. unfold map2 in *. cbn [app combine map]. f_equal. now apply IH. Qed.
Theorem C51_reference : forall freqs p (x : list (R * R)), length x = length freqs ->
  ref_comb (length freqs) (halves x) (ref_row freqs p) = halves (rot_comb x (rot_row freqs p)).
Proof.
  intros fr p x L. unfold ref_comb, ref_row, halves, rotate_half_way. cbn [fst snd].
  assert (L1 : length (map fst x) = length fr) by now rewrite map_length. assert (L2 : length (map snd x) = length fr) by now rewrite map_length.
  rewrite firstn_app, skipn_app, L1, Nat.sub_diag, skipn_all2, firstn_all2 by lia. cbn [skipn firstn app]. rewrite app_nil_r.
  rewrite !map2_app by (rewrite ?map2_length, ?map_length; rewrite ?map_length; lia).
  clear L1 L2. f_equal; revert fr L; induction x as [|[a b] x IH]; intros [|f fr] L; try discriminate L; try reflexivity; injection L as L; specialize (IH fr L);
    unfold rot_comb, rot_row, map2 in *; cbn [map combine fst snd cmul] in *; f_equal; first [exact IH|unfold cmul; cbn [fst snd]; ring].
Qed.
Print Assumptions C51_reference.

(** A sinusoidal encoder for elements of two numbers, an even number, has no table: its frequencies divide zero by zero. *)
Theorem C51_dim2_refuted : forall n o, nth 1 (sin_table 2 (S n) o) [] = [None; None].
Proof. reflexivity. Qed.
Print Assumptions C51_dim2_refuted.

(** ** Witnesses *)
Local Open Scope Z_scope.
Definition tab : list Z := [0; 100; 200; 300; 400; 500].
Example C51_ex_packed : exists y, batch_layout [6] (Some [3; 2]) true = Batch_Model.Ok y /\ seq_lens y <> [] /\ fits y [[1; 2; 3; 4; 5; 6]] /\
  forward Z.add tab 5 y false (Some 1) [[1; 2; 3; 4; 5; 6]] = Ok [[201; 302; 403; 204; 305; 106]].
Proof. eexists. split; [reflexivity|]. split; [discriminate|]. split; reflexivity. Qed.
Example C51_ex_padded : exists y, batch_layout [2; 3] (Some [1; 3]) false = Batch_Model.Ok y /\ fits y [[1; 2; 3]; [4; 5; 6]] /\
  forward Z.add tab 5 y true (Some 4) [[1; 2; 3]; [4; 5; 6]] = Ok [[101; 2; 3]; [104; 205; 306]] /\
  forward Z.add tab 2 y true (Some 4) [[1; 2; 3]; [4; 5; 6]] = Err TooLong.
Proof. eexists. split; [reflexivity|]. split; [reflexivity|]. split; reflexivity. Qed.
Example C51_ex_steps : encode_chunks Z.add tab 5 (Attn_Model.Bag 0 6 None []) [[1; 2]; [3]; [4; 5]] = Some [101; 202; 303; 404; 505].
Proof. reflexivity. Qed.
(** With a bag padding is not combined with the padding row: a row of length 1 of 3, at step 2. *)
Theorem C51_padding_refuted : exists y, batch_layout [2; 3] (Some [1; 3]) false = Batch_Model.Ok y /\
  ~ real y 1 /\ forward Z.add tab 5 y false (Some 2) [[1; 2; 3]; [4; 5; 6]] = Ok [[301; 202; 203]; [304; 405; 506]].
Proof.
  eexists. split; [reflexivity|]. split; [|reflexivity]. intros (k & j & Hk & Hj & E). cbn in Hk. change (seq_begin _) with [0; 3; 6] in E. change (seq_lens _) with [1; 3] in Hj.
  destruct k as [|[|k]]; [| |lia]; cbn [nth] in Hj, E; lia.
Qed.
Print Assumptions C51_padding_refuted.
