(** C82: the cross entropy loss and the loss metric. *)
From Coq Require Import ZArith QArith Qcanon List Bool Lia.
From Verif Require Import Xen_Model Xen_Spec.
Import ListNotations.
Local Open Scope Qc_scope.

Ltac qc := vm_compute; first [reflexivity | f_equal; apply Qc_is_canon; reflexivity].

Lemma flat_tmap : forall {A B} (f : A -> B) t, flat (tmap f t) = map f (flat t).
Proof. intros A B f [l|l]; cbn; [reflexivity|]. now rewrite concat_map. Qed.
Lemma combine_maps : forall {A B C} (f : A -> B) (g : A -> C) l, combine (map f l) (map g l) = map (fun x => (f x, g x)) l.
Proof. induction l; cbn; [reflexivity|now rewrite IHl]. Qed.
Lemma sequence_map : forall {A B} (f : A -> option B) (g : A -> B) l, (forall x, In x l -> f x = Some (g x)) ->
  sequence (map f l) = Some (map g l).
Proof.
  induction l as [|a l IH]; intros H; [reflexivity|]. cbn. rewrite (H a) by (now left).
  rewrite IH by (intros; apply H; now right). reflexivity.
Qed.
Lemma qsum_app : forall a b, qsum (a ++ b) = qsum a + qsum b.
Proof. induction a as [|x a IH]; intros b; cbn; [ring|rewrite IH; ring]. Qed.
Lemma qsum_concat : forall l, qsum (concat l) = qsum (map qsum l).
Proof. induction l as [|a l IH]; cbn; [reflexivity|]. now rewrite qsum_app, IH. Qed.
Lemma qsum_mix : forall {A} c d (f g : A -> Qc) l,
  qsum (map (fun p => c * f p + d * g p) l) = c * qsum (map f l) + d * qsum (map g l).
Proof. induction l as [|a l IH]; cbn; [ring|rewrite IH; ring]. Qed.
Lemma qsum_zero : forall {A} (f : A -> Qc) l, (forall x, In x l -> f x = 0) -> qsum (map f l) = 0.
Proof. induction l as [|a l IH]; intros H; cbn; [reflexivity|]. rewrite (H a) by (now left). rewrite IH by (intros; apply H; now right). ring. Qed.

Lemma entropy_const : forall b row, qsum (map (fun v => b * - nth v row 0) (seq 0 (length row))) = b * - qsum row.
Proof.
  intros b. induction row as [|x row IH]; cbn; [ring|].
  rewrite <- seq_shift, map_map. cbn in *. rewrite IH. ring.
Qed.
Lemma entropy_sum : forall a b row t, (t < length row)%nat ->
  qsum (map (fun v => (if (v =? t)%nat then a else b) * - nth v row 0) (seq 0 (length row)))
  = (a - b) * - nth t row 0 + b * - qsum row.
Proof.
  intros a b. induction row as [|x row IH]; intros t H; [cbn in H; lia|]. cbn [length seq map].
  rewrite <- seq_shift, map_map. destruct t as [|t].
  - cbn [Nat.eqb nth qsum]. rewrite (entropy_const b row). ring.
  - cbn [Nat.eqb nth qsum]. cbn [length] in H. rewrite (IH t) by lia. ring.
Qed.

Lemma unflatten_concat : forall {A} (l : list (list A)) w, l <> [] -> Forall (fun r => length r = w) l ->
  unflatten (length l) (concat l) = l.
Proof.
  intros A l w N F. unfold unflatten.
  assert (Ln : forall l : list (list A), Forall (fun r => length r = w) l -> length (concat l) = (length l * w)%nat).
  { clear. intros l F. induction F as [|r l Hr F IH]; cbn; [reflexivity|]. rewrite app_length, IH. lia. }
  rewrite (Ln l F). replace (length l * w / length l)%nat with w
    by (rewrite Nat.mul_comm, Nat.div_mul; [reflexivity|destruct l; [congruence|discriminate]]).
  clear N. induction F as [|r l Hr F IH]; [reflexivity|]. cbn [length seq map concat]. f_equal.
  - cbn. rewrite <- Hr. rewrite firstn_app, Nat.sub_diag, firstn_all. cbn. apply app_nil_r.
  - rewrite <- seq_shift, map_map. rewrite <- IH at 2. apply map_ext. intros i. f_equal. cbn [Nat.mul].
    rewrite skipn_app, skipn_all2 by lia. cbn. f_equal. lia.
Qed.

Lemma shaped_eq : forall (P : tensor position) f, rectangular P ->
  shaped (match tmap logits_of P with Two l => Some (length l) | One _ => None end) (map f (flat P)) = Losses (tmap f P).
Proof.
  intros [l|l] f H; [reflexivity|]. destruct H as (N & w & F). unfold shaped, flat, tmap. f_equal. f_equal.
  rewrite map_length, concat_map. rewrite <- (map_length (map f) l). apply (unflatten_concat _ w).
  - destruct l; [congruence|discriminate].
  - apply Forall_map. eapply Forall_impl; [|exact F]. cbn. intros r H. now rewrite map_length.
Qed.

Lemma pick_nth : forall row t, (0 <= t < Z.of_nat (length row))%Z -> pick row t = Some (nth (Z.to_nat t) row 0).
Proof.
  intros row t H. unfold pick. rewrite (proj2 (Z.ltb_ge t 0)) by lia. apply nth_error_nth'. lia.
Qed.
Lemma times_map : forall {A} (f : A -> Qc) (m : A -> bool) l,
  times (map f l) (map m l) = map (fun x => f x * (if m x then 1 else 0)) l.
Proof. intros. unfold times. rewrite combine_maps, map_map. reflexivity. Qed.
Lemma fill_map : forall {A} (f : A -> Qc) (t : A -> Z) p l,
  fill (map f l) (map t l) p = map (fun x => if (t x =? p)%Z then 0 else f x) l.
Proof. intros. unfold fill. rewrite combine_maps, map_map. reflexivity. Qed.
Lemma both_map : forall {A} (f g : A -> bool) l, both (map f l) (map g l) = map (fun x => f x && g x) l.
Proof. intros. unfold both. rewrite combine_maps, map_map. reflexivity. Qed.
Lemma ne_map : forall {A} (t : A -> Z) p l, ne (map t l) p = map (fun x => negb (t x =? p)%Z) l.
Proof. intros. unfold ne. now rewrite map_map. Qed.
Lemma count_all : forall {A} (f : A -> bool) l, (forall x, In x l -> f x = true) -> count (map f l) = Z.of_nat (length l).
Proof. induction l as [|a l IH]; intros H; [reflexivity|]. cbn [map count length]. rewrite (H a) by (now left). rewrite IH by (intros; apply H; now right). lia. Qed.
Lemma scalar_mean : forall s n, scalar (mean s n) = if (n =? 0)%Z then NotANumber else Scalar (s / of_Z n).
Proof. intros. unfold mean. now destruct (n =? 0)%Z. Qed.

Lemma of_Z_zero : forall n, of_Z n = 0 -> n = 0%Z.
Proof.
  intros n E. assert (X : (this (of_Z n) == 0)%Q) by (rewrite E; reflexivity).
  change (this (of_Z n)) with (Qred (inject_Z n)) in X. rewrite Qred_correct in X. unfold Qeq in X. cbn in X. lia.
Qed.

Section Main.
  Variable log_softmax : list Qc -> list Qc.
  Variable vocab : nat.
  Variable pad_idx : option Z.
  Variable ls : Qc.
  Variable use_mask : bool.
  Notation counted := (counted pad_idx use_mask).
  Notation loss_at := (loss_at log_softmax vocab pad_idx ls use_mask).
  Notation valid := (valid log_softmax vocab pad_idx ls).
  Notation loss_of := (loss_of log_softmax vocab pad_idx ls use_mask).

  Definition answer (P : tensor position) (r : reduction) : outcome :=
    match r with
    | RNone => Losses (tmap loss_at P)
    | RSum => Scalar (qsum (map loss_at (flat P)))
    | RMean =>
        let n := count (map counted (flat P)) in
        if (n =? 0)%Z then NotANumber else Scalar (qsum (map loss_at (flat P)) / of_Z n)
    | ROther => ValueError
    end.

  Let row p := log_softmax (logits_of p).
  Let at_target p := - nth (Z.to_nat (target_of p)) (row p) 0.

  Lemma entropy_row : forall p, length (row p) = vocab -> (0 <= target_of p < Z.of_nat vocab)%Z ->
    entropy vocab ls (row p) (Z.to_nat (target_of p))
    = (1 - ls - ls / of_Z (Z.of_nat vocab - 1)) * at_target p + ls / of_Z (Z.of_nat vocab - 1) * - qsum (row p).
  Proof. intros p L H. unfold entropy, smoothed. set (b := ls / of_Z (Z.of_nat vocab - 1)). rewrite <- L. apply entropy_sum. lia. Qed.

  Lemma plain_at : forall p, valid p -> ls = 0 -> loss_at p = if counted p then at_target p else 0.
  Proof.
    intros p [L V] E. unfold Xen_Spec.loss_at. destruct (counted p) eqn:C; [|reflexivity].
    destruct V as [V|[_ I]]; [|unfold Xen_Spec.counted in C; rewrite I in C; discriminate].
    fold (row p). rewrite entropy_row by assumption. rewrite E. unfold Qcdiv. ring.
  Qed.

  Lemma loss_answer : forall P r, settings_ok vocab ls -> rectangular P -> (forall p, In p (flat P) -> valid p) ->
    loss_of P r = answer P r.
  Proof.
    intros P r S Re V. unfold answer. unfold Xen_Spec.loss_of, cross_entropy. rewrite !flat_tmap, map_map.
    replace (option_map flat (if use_mask then Some (tmap mask_of P) else None)) with (if use_mask then Some (map mask_of (flat P)) else None)
      by (destruct use_mask; cbn; [now rewrite flat_tmap|reflexivity]).
    set (bs := match tmap logits_of P with Two l => Some (length l) | One _ => None end).
    assert (Sh : forall f, shaped bs (map f (flat P)) = Losses (tmap f P)) by (intros; apply shaped_eq, Re).
    destruct (Qc_eq_dec ls 0) as [E|E].
    - unfold plain_loss, nll_each. rewrite combine_maps, map_map.
      set (pd := match pad_idx with None => (-100)%Z | Some p => p end).
      assert (Ig : forall t, ignored pad_idx t = (t =? pd)%Z) by (intros t; unfold ignored, pd; now destruct pad_idx).
      rewrite (sequence_map _ (fun p => if (target_of p =? pd)%Z then 0 else at_target p)).
      2:{ intros p I. cbn. destruct (target_of p =? pd)%Z eqn:Q; [reflexivity|].
          destruct (V p I) as [L [R|[_ R]]]; [|rewrite Ig, Q in R; discriminate].
          fold (row p) in *. rewrite pick_nth by (rewrite L; exact R). reflexivity. }
      assert (G : map (fun p => (if (target_of p =? pd)%Z then 0 else at_target p) * (if negb use_mask || mask_of p then 1 else 0)) (flat P)
                  = map loss_at (flat P)).
      { apply map_ext_in. intros p I. rewrite (plain_at p (V p I) E). unfold Xen_Spec.counted. rewrite Ig.
        destruct (target_of p =? pd)%Z, (negb use_mask || mask_of p); cbn; ring. }
      assert (Cn : map (fun p => (negb use_mask || mask_of p) && negb (target_of p =? pd)%Z) (flat P) = map counted (flat P)).
      { apply map_ext. intros p. unfold Xen_Spec.counted. rewrite Ig. apply andb_comm. }
      destruct use_mask eqn:U.
      + rewrite times_map, ne_map, both_map. change (fun x => mask_of x && negb (target_of x =? pd)%Z) with (fun p => (negb true || mask_of p) && negb (target_of p =? pd)%Z).
        rewrite Cn. cbn [negb orb] in G. rewrite G. destruct r; try reflexivity; [apply scalar_mean|apply Sh].
      + assert (G' : map (fun p => if (target_of p =? pd)%Z then 0 else at_target p) (flat P) = map (Xen_Spec.loss_at log_softmax vocab pad_idx ls false) (flat P)).
        { rewrite <- G. apply map_ext. intros p. cbn. ring. }
        rewrite ne_map. cbn [negb orb andb] in Cn. rewrite Cn, G'. destruct r; try reflexivity; [apply scalar_mean|apply Sh].
    - destruct S as [S|[S Vo]]; [contradiction|]. unfold smooth_loss. rewrite combine_maps, map_map.
      assert (Rg : forall p, In p (flat P) -> length (row p) = vocab /\ (0 <= target_of p < Z.of_nat vocab)%Z).
      { intros p I. destruct (V p I) as [L [R|[R _]]]; [split; assumption|contradiction]. }
      rewrite (sequence_map _ at_target).
      2:{ intros p I. destruct (Rg p I) as [L R]. cbn. fold (row p). rewrite pick_nth by (rewrite L; exact R). reflexivity. }
      rewrite map_map. fold row. set (eps := ls / of_Z (Z.of_nat vocab - 1)).
      destruct (Qclt_le_dec 0 ls) as [_|B]; [|exfalso; exact (Qclt_not_le _ _ S B)]. cbn [negb andb].
      replace (Z.of_nat vocab =? 1)%Z with false by (symmetry; apply Z.eqb_neq; lia). cbn [andb].
      set (live := fun p => match pad_idx with Some q => negb (target_of p =? q)%Z | None => true end).
      assert (Pd : forall f : position -> Qc, match pad_idx with Some q => fill (map f (flat P)) (map target_of (flat P)) q | None => map f (flat P) end
                    = map (fun p => if live p then f p else 0) (flat P)).
      { intros f. unfold live. destruct pad_idx as [q|]; [|apply map_ext; reflexivity]. rewrite fill_map. apply map_ext. intros p. now destruct (target_of p =? q)%Z. }
      assert (Mk : forall f : position -> Qc, match (if use_mask then Some (map mask_of (flat P)) else None) with Some m => times (map f (flat P)) m | None => map f (flat P) end
                    = map (fun p => f p * (if negb use_mask || mask_of p then 1 else 0)) (flat P)).
      { intros f. destruct use_mask; [rewrite times_map; reflexivity|]. apply map_ext. intros p. cbn. ring. }
      change (map (fun x => - qsum (row x)) (flat P)) with (map (fun p => - qsum (row p)) (flat P)). rewrite !Pd, !Mk.
      set (f := fun p => (if live p then at_target p else 0) * (if negb use_mask || mask_of p then 1 else 0)).
      set (g := fun p => (if live p then - qsum (log_softmax (logits_of p)) else 0) * (if negb use_mask || mask_of p then 1 else 0)).
      assert (Lv : forall p, In p (flat P) -> counted p = live p && (negb use_mask || mask_of p)).
      { intros p I. unfold Xen_Spec.counted, ignored, live. destruct pad_idx; [reflexivity|]. destruct (Rg p I) as [_ R].
        replace (target_of p =? -100)%Z with false by (symmetry; apply Z.eqb_neq; lia). reflexivity. }
      assert (Mx : map (fun p => (1 - ls - eps) * f p + eps * g p) (flat P) = map loss_at (flat P)).
      { apply map_ext_in. intros p I. unfold Xen_Spec.loss_at. rewrite (Lv p I). destruct (Rg p I) as [L R]. fold (row p).
        rewrite (entropy_row p L R). fold eps. unfold f, g. fold (row p). destruct (live p), (negb use_mask || mask_of p); cbn [andb]; ring. }
      assert (Nn : match (if use_mask then Some (map mask_of (flat P)) else None), pad_idx with
                   | Some m, None => count m
                   | Some m, Some p => count (both m (ne (map target_of (flat P)) p))
                   | None, Some p => count (ne (map target_of (flat P)) p)
                   | None, None => Z.of_nat (length (map f (flat P)))
                   end = count (map counted (flat P))).
      { rewrite (map_ext_in _ _ _ Lv). unfold live. destruct use_mask, pad_idx as [q|].
        - rewrite ne_map, both_map. f_equal. apply map_ext. intros p. cbn. apply andb_comm.
        - reflexivity.
        - rewrite ne_map. f_equal. apply map_ext. intros p. cbn. now rewrite andb_true_r.
        - rewrite map_length. symmetry. apply count_all. reflexivity. }
      destruct r; cbn [andb].
      + rewrite <- (qsum_mix (1 - ls - eps) eps f g), Mx. reflexivity.
      + rewrite Nn. cbv zeta. unfold mean. destruct (count (map counted (flat P)) =? 0)%Z; [reflexivity|]. f_equal.
        rewrite <- Mx, qsum_mix. unfold Qcdiv. ring.
      + rewrite combine_maps, map_map. cbn [fst snd]. rewrite Mx. apply Sh.
      + reflexivity.
  Qed.
End Main.

(* ------------------------------------------------------------------ *)
(** C82 (loss).  With and without label smoothing, with and without target mask
    and padding index, the loss of a position is the cross entropy of the
    predicted and the smoothed distribution if the position counts, and zero if
    not; the sum adds these up, the mean is over the positions that count, and
    without reduction the losses have the shape of the targets. *)
Theorem C82_loss : forall log_softmax vocab pad_idx ls use_mask P,
  settings_ok vocab ls -> rectangular P ->
  (forall p, In p (flat P) -> valid log_softmax vocab pad_idx ls p) ->
  let loss := loss_of log_softmax vocab pad_idx ls use_mask P in
  let at_ := loss_at log_softmax vocab pad_idx ls use_mask in
  let n := count (map (counted pad_idx use_mask) (flat P)) in
  loss RNone = Losses (tmap at_ P) /\
  loss RSum = Scalar (qsum (map at_ (flat P))) /\
  loss RMean = (if (n =? 0)%Z then NotANumber else Scalar (qsum (map at_ (flat P)) / of_Z n)) /\
  loss ROther = ValueError.
Proof.
  intros log_softmax vocab pad_idx ls use_mask P S R V. cbv zeta.
  repeat split; rewrite loss_answer by assumption; reflexivity.
Qed.
Print Assumptions C82_loss.

(** The smoothed distribution is one. *)
Theorem C82_smoothed : forall vocab ls t, settings_ok vocab ls -> (t < vocab)%nat ->
  qsum (map (smoothed vocab ls t) (seq 0 vocab)) = 1.
Proof.
  intros vocab ls t S H.
  assert (G : forall a b n t, (t < n)%nat -> qsum (map (fun v => if (v =? t)%nat then a else b) (seq 0 n)) = a + of_Z (Z.of_nat n - 1) * b).
  { clear. intros a b n. assert (Cst : forall n, qsum (map (fun _ : nat => b) (seq 0 n)) = of_Z (Z.of_nat n) * b).
    { induction n0 as [|n0 IH]; [apply Qc_is_canon; reflexivity|]. cbn [seq map qsum]. rewrite <- seq_shift, map_map, IH.
      replace (of_Z (Z.of_nat (Datatypes.S n0))) with (1 + of_Z (Z.of_nat n0)).
      - ring.
      - apply Qc_is_canon. unfold of_Z. cbn [this Q2Qc Qcplus]. rewrite !Qred_correct.
        rewrite Nat2Z.inj_succ. unfold Z.succ. rewrite inject_Z_plus. change (this 1) with 1%Q. change (inject_Z 1) with 1%Q. ring. }
    induction n as [|n IH]; intros t H; [lia|]. cbn [seq map qsum]. rewrite <- seq_shift, map_map. destruct t as [|t].
    - cbn [Nat.eqb]. rewrite Cst. do 3 f_equal. lia.
    - cbn [Nat.eqb]. rewrite IH by lia.
      replace (of_Z (Z.of_nat (Datatypes.S n) - 1)) with (1 + of_Z (Z.of_nat n - 1)).
      + ring.
      + apply Qc_is_canon. unfold of_Z. cbn [this Q2Qc Qcplus]. rewrite !Qred_correct.
        replace (Z.of_nat (Datatypes.S n) - 1)%Z with (1 + (Z.of_nat n - 1))%Z by lia. rewrite inject_Z_plus. reflexivity. }
  unfold smoothed. rewrite G by exact H. destruct S as [->|[_ V]]; [unfold Qcdiv; ring|].
  field. intros E. apply of_Z_zero in E. lia.
Qed.
Print Assumptions C82_smoothed.

(** Three tokens; the log probabilities are the logits here. *)
Definition q (n : Z) : Qc := of_Z n.
Definition ex_seq : list position := [Pos [q (-1); q (-2); q (-3)] 1 true; Pos [q (-4); q (-5); q (-6)] 2 true].
Definition ex_pad : list position := [Pos [q (-7); q (-8); q (-9)] 0 false].
Example C82_loss_case :
  settings_ok 3 (of_Z 1 / of_Z 2) /\ rectangular (Two [ex_seq; ex_pad ++ ex_pad]) /\
  (forall p, In p (ex_seq ++ ex_pad) -> valid (fun x => x) 3 (Some 0%Z) (of_Z 1 / of_Z 2) p) /\
  loss_of (fun x => x) 3 (Some 0%Z) 0 true (Two [ex_seq; ex_pad ++ ex_pad]) RSum = Scalar (q 8) /\
  loss_of (fun x => x) 3 (Some 0%Z) 0 true (Two [ex_seq; ex_pad ++ ex_pad]) RMean = Scalar (q 4).
Proof.
  split; [right; split; [reflexivity|lia]|]. split; [split; [discriminate|exists 2%nat; repeat constructor]|]. split.
  - intros p [<-|[<-|[<-|[]]]]; (split; [reflexivity|left; cbn; lia]).
  - split; qc.
Qed.

(* ------------------------------------------------------------------ *)
(** C82 (batches).  The loss of a padded batch, and of a packed batch, is the sum of
    the losses of the sequences alone, if no position of the padding counts. *)
Theorem C82_batch : forall log_softmax vocab pad_idx ls use_mask seqs pads tail,
  settings_ok vocab ls -> length pads = length seqs -> rectangular (Two (padded seqs pads)) ->
  (forall p, In p (concat seqs) \/ In p (concat pads) \/ In p tail -> valid log_softmax vocab pad_idx ls p) ->
  (forall p, In p (concat pads) \/ In p tail -> counted pad_idx use_mask p = false) ->
  exists alone,
    Forall2 (fun s x => loss_of log_softmax vocab pad_idx ls use_mask (One s) RSum = Scalar x) seqs alone /\
    loss_of log_softmax vocab pad_idx ls use_mask (Two (padded seqs pads)) RSum = Scalar (qsum alone) /\
    loss_of log_softmax vocab pad_idx ls use_mask (One (concat seqs ++ tail)) RSum = Scalar (qsum alone).
Proof.
  intros log_softmax vocab pad_idx ls use_mask seqs pads tail S Ln R V N.
  set (f := loss_at log_softmax vocab pad_idx ls use_mask).
  assert (Z : forall p, In p (concat pads) \/ In p tail -> f p = 0).
  { intros p I. unfold f, loss_at. now rewrite (N p I). }
  exists (map (fun s => qsum (map f s)) seqs). split; [|split].
  - assert (V' : forall p, In p (concat seqs) -> valid log_softmax vocab pad_idx ls p) by auto. clear - S V'.
    induction seqs as [|s seqs IH]; constructor.
    + rewrite loss_answer; try assumption; [reflexivity|exact I|]. intros p I0. apply V'. cbn. apply in_or_app. now left.
    + apply IH. intros p I0. apply V'. cbn. apply in_or_app. now right.
  - rewrite loss_answer; try assumption.
    + unfold answer. cbn [flat]. f_equal. unfold padded. fold f. rewrite concat_map, qsum_concat, !map_map.
      clear R V N. revert pads Ln Z. induction seqs as [|s seqs IH]; intros [|p pads] Ln Z; try discriminate; [reflexivity|].
      cbn [combine map qsum fst snd]. rewrite IH; [|cbn in Ln; lia|].
      * rewrite map_app, qsum_app. rewrite (qsum_zero f p); [ring|]. intros x I0. apply Z. left. cbn. apply in_or_app. now left.
      * intros x [I0|I0]; apply Z; [left; cbn; apply in_or_app; now right|now right].
    + intros p I0. cbn [flat] in I0. apply in_concat in I0. destruct I0 as (r & I1 & I2).
      unfold padded in I1. apply in_map_iff in I1. destruct I1 as ([a b] & <- & I1). cbn in I2. apply V.
      apply in_app_or in I2. destruct I2 as [I2|I2]; [left|right; left]; apply in_concat; [exists a|exists b]; split; auto.
      * now apply in_combine_l in I1.
      * now apply in_combine_r in I1.
  - rewrite loss_answer; try assumption; [|exact I|].
    + unfold answer. cbn [flat]. fold f. f_equal. rewrite map_app, qsum_app, (qsum_zero f tail) by (intros; apply Z; now right).
      rewrite concat_map, qsum_concat, map_map. ring.
    + intros p I0. cbn in I0. apply in_app_or in I0. apply V. tauto.
Qed.
Print Assumptions C82_batch.

Example C82_batch_case :
  rectangular (Two (padded [ex_seq; ex_pad; ex_pad] [[]; ex_pad; ex_pad])) /\
  (forall p, In p (concat [[]; ex_pad; ex_pad]) \/ In p ex_pad -> counted None true p = false) /\
  loss_of (fun x => x) 3 None 0 true (Two (padded [ex_seq; ex_seq] [ex_pad; ex_pad])) RSum = Scalar (q 16).
Proof.
  split; [split; [discriminate|exists 2%nat; repeat constructor]|]. split.
  - intros p [[<-|[<-|[]]]|[<-|[]]]; reflexivity.
  - qc.
Qed.

(** The statement is false without its condition: a model without padding index
    (Qwen; LLaMA and Mistral by default) and a batch without target mask count the
    padding, as the lengths of the sequences are not looked at
    (cross_entropy.py 51-52, transformer_lm/model.py 174-181, qwen/factory.py 66). *)
Theorem C82_padding_refuted :
  exists seqs pads alone x,
    Forall2 (fun s x => loss_of (fun x => x) 3 None 0 false (One s) RSum = Scalar x) seqs alone /\
    loss_of (fun x => x) 3 None 0 false (Two (padded seqs pads)) RSum = Scalar x /\
    rectangular (Two (padded seqs pads)) /\ x <> qsum alone.
Proof.
  exists [ex_seq; ex_pad], [[]; ex_pad], [q 8; q 7], (q 22).
  split; [repeat constructor; qc|].
  split; [qc|].
  split; [split; [discriminate|exists 2%nat; repeat constructor]|].
  intros E. assert (X : (this (q 22) == this (qsum [q 8; q 7]))%Q) by (rewrite E; reflexivity). vm_compute in X. discriminate.
Qed.
Print Assumptions C82_padding_refuted.

(* ------------------------------------------------------------------ *)
(** C82 (number of targets).  The number of targets that a batch tells is the number
    of positions that count, so that the mean is the sum divided by it, if the
    padding is not counted, the mask does not mark padding, and no target of a
    sequence is the padding token.  What is missing: see [C82_targets_refuted]. *)
Lemma count_app : forall a b, count (a ++ b) = (count a + count b)%Z.
Proof. induction a as [|x a IH]; intros b; cbn [app count]; [lia|rewrite IH; lia]. Qed.
Lemma count_none : forall {A} (f : A -> bool) l, (forall x, In x l -> f x = false) -> count (map f l) = 0%Z.
Proof. induction l as [|a l IH]; intros H; [reflexivity|]. cbn [map count]. rewrite (H a) by (now left). rewrite IH by (intros; apply H; now right). reflexivity. Qed.
Lemma count_padded : forall {A} (f : A -> bool) (seqs pads : list (list A)), length pads = length seqs ->
  count (map f (concat (padded seqs pads))) = count (map f (concat seqs ++ concat pads)).
Proof.
  intros A f. unfold padded. induction seqs as [|s seqs IH]; intros [|p pads] Ln; try discriminate; [reflexivity|].
  cbn [combine map concat fst snd]. rewrite !map_app, !count_app, IH by (cbn in Ln; lia). rewrite !map_app, !count_app. lia.
Qed.

Theorem C82_targets_partial : forall log_softmax vocab pad_idx ls (use_mask : bool) seqs pads x,
  settings_ok vocab ls -> length pads = length seqs -> rectangular (Two (padded seqs pads)) ->
  (forall p, In p (concat seqs) \/ In p (concat pads) -> valid log_softmax vocab pad_idx ls p) ->
  (forall p, In p (concat seqs) -> ignored pad_idx (target_of p) = false) ->
  (forall p, In p (concat pads) -> if use_mask then mask_of p = false else ignored pad_idx (target_of p) = true) ->
  let n := num_target_elements use_mask seqs pads in
  count (map (counted pad_idx use_mask) (concat (padded seqs pads))) = n /\
  (loss_of log_softmax vocab pad_idx ls use_mask (Two (padded seqs pads)) RSum = Scalar x -> (n <> 0)%Z ->
   loss_of log_softmax vocab pad_idx ls use_mask (Two (padded seqs pads)) RMean = Scalar (x / of_Z n)).
Proof.
  intros log_softmax vocab pad_idx ls use_mask seqs pads x S Ln R V T Pd n.
  assert (C : count (map (counted pad_idx use_mask) (concat (padded seqs pads))) = n).
  { rewrite count_padded by exact Ln. unfold n, num_target_elements. rewrite map_app, count_app.
    rewrite (count_none _ (concat pads)).
    - destruct use_mask.
      + rewrite map_app, count_app, (count_none mask_of (concat pads)) by exact Pd. f_equal. f_equal. apply map_ext_in.
        intros p I. unfold counted. rewrite (T p I). reflexivity.
      + rewrite Z.add_0_r. apply count_all. intros p I. unfold counted. rewrite (T p I). reflexivity.
    - intros p I. specialize (Pd p I). unfold counted. destruct use_mask; [rewrite Pd; cbn; apply andb_false_r|rewrite Pd; reflexivity]. }
  split; [exact C|]. intros E Nz.
  assert (V' : forall p, In p (flat (Two (padded seqs pads))) -> valid log_softmax vocab pad_idx ls p).
  { intros p I0. cbn [flat] in I0. apply in_concat in I0. destruct I0 as (r & I1 & I2).
    unfold padded in I1. apply in_map_iff in I1. destruct I1 as ([a b] & <- & I1). cbn in I2. apply V.
    apply in_app_or in I2. destruct I2 as [I2|I2]; [left|right]; apply in_concat; [exists a|exists b]; split; auto.
    - now apply in_combine_l in I1.
    - now apply in_combine_r in I1. }
  rewrite loss_answer in * by assumption. unfold answer in *. injection E as <-. cbv zeta. cbn [flat] in *. rewrite C.
  now rewrite (proj2 (Z.eqb_neq n 0) Nz).
Qed.
Print Assumptions C82_targets_partial.

Example C82_targets_case :
  num_target_elements true [ex_seq; ex_seq] [ex_pad; ex_pad] = 4%Z /\
  num_target_elements false [ex_seq; ex_seq] [ex_pad; ex_pad] = 4%Z /\
  loss_of (fun x => x) 3 (Some 0%Z) 0 false (Two (padded [ex_seq; ex_seq] [ex_pad; ex_pad])) RMean = Scalar (q 4).
Proof. split; [reflexivity|]. split; [reflexivity|]. qc. Qed.

(** The statement is false if the padding token is a token of the sequences, as EOS
    is in Qwen base models: it adds nothing to the loss, and is counted as a target. *)
Theorem C82_targets_refuted :
  exists seqs, num_target_elements false seqs [[]] = 2%Z /\
    count (map (counted (Some 2%Z) false) (concat (padded seqs [[]]))) = 1%Z /\
    loss_of (fun x => x) 3 (Some 2%Z) 0 false (Two seqs) RSum = Scalar (q 2) /\
    loss_of (fun x => x) 3 None 0 false (Two seqs) RSum = Scalar (q 8).
Proof.
  exists [ex_seq]. split; [reflexivity|]. split; [reflexivity|].
  split; qc.
Qed.
Print Assumptions C82_targets_refuted.

(** That ignored targets are accepted is false with label smoothing: an ignored
    index that is not a token, such as -100, is accepted without label smoothing
    and is an error with it (cross_entropy.py 101-102). *)
Theorem C82_ignored_refuted :
  exists p, ignored (Some (-100)%Z) (target_of p) = true /\
    loss_of (fun x => x) 3 (Some (-100)%Z) 0 false (One [p]) RSum = Scalar 0 /\
    loss_of (fun x => x) 3 (Some (-100)%Z) (of_Z 1 / of_Z 2) false (One [p]) RSum = IndexError.
Proof.
  exists (Pos [q (-1); q (-2); q (-3)] (-100) true). split; [reflexivity|].
  split; qc.
Qed.
Print Assumptions C82_ignored_refuted.

(* ------------------------------------------------------------------ *)
(** C82 (metric).  The loss metric over a number of batches is the sum of the losses
    divided by the number of all targets.  Proved for batches that have targets. *)
Lemma of_Z_add : forall a b, of_Z (a + b) = of_Z a + of_Z b.
Proof. intros. apply Qc_is_canon. unfold of_Z. cbn [this Q2Qc Qcplus]. rewrite !Qred_correct. rewrite inject_Z_plus. reflexivity. Qed.
Fixpoint zsum (l : list Z) : Z := match l with [] => 0%Z | x :: r => (x + zsum r)%Z end.

Theorem C82_metric_partial : forall l : list (Qc * Z), l <> [] -> Forall (fun u => (0 < snd u)%Z) l ->
  mean_compute (run_metric (map (fun u => (fst u, Some (snd u))) l))
  = Some (qsum (map fst l) / of_Z (zsum (map snd l))).
Proof.
  intros l N F.
  assert (G : forall l m, Forall (fun u : Qc * Z => (0 < snd u)%Z) l ->
    fold_left (fun m u => update_nll_loss_metric m (fst u) (snd u)) (map (fun u => (fst u, Some (snd u))) l) m
    = MeanMetric (weighted_sum m + qsum (map fst l)) (weights m + of_Z (zsum (map snd l)))).
  { clear. induction l as [|[x n] l IH]; intros m F; cbn [map fold_left qsum zsum fst snd].
    - destruct m as [a b]. cbn [weighted_sum weights]. change (of_Z 0) with 0. f_equal; ring.
    - inversion F as [|? ? Hn F']; subst. cbn in Hn. rewrite IH by exact F'. unfold update_nll_loss_metric, mean_update.
      rewrite (proj2 (Z.eqb_neq n 0)) by lia. cbn [weighted_sum weights]. rewrite of_Z_add. f_equal; [|ring].
      replace (of_Z n * (x / of_Z n)) with x; [ring|]. field. intros E. apply of_Z_zero in E. lia. }
  unfold run_metric. rewrite G by exact F. unfold mean_compute, mean_init. cbn [weighted_sum weights].
  replace (0 + of_Z (zsum (map snd l))) with (of_Z (zsum (map snd l))) by ring. replace (0 + qsum (map fst l)) with (qsum (map fst l)) by ring.
  destruct (Qc_eq_dec _ 0) as [E|_]; [|reflexivity]. exfalso. apply of_Z_zero in E.
  assert (P : forall l, Forall (fun u : Qc * Z => (0 < snd u)%Z) l -> (0 <= zsum (map snd l))%Z).
  { clear. intros l F. induction F; cbn [map zsum]; lia. }
  destruct l as [|u l]; [congruence|]. inversion F as [|? ? Hu F']; subst. cbn [map zsum] in E. specialize (P l F'). lia.
Qed.
Print Assumptions C82_metric_partial.
Example C82_metric_case : Forall (fun u => (0 < snd u)%Z) [(q 6, 3%Z); (q 2, 1%Z)] /\
  mean_compute (run_metric [(q 6, Some 3%Z); (q 2, Some 1%Z)]) = Some (q 2).
Proof. split; [repeat constructor|]. qc. Qed.

(** The statement is false of batches without targets, which have the weight of a
    batch with one target: "num_targets or 1" (metrics/common.py 32-34). *)
Theorem C82_metric_refuted :
  exists l : list (Qc * Z), qsum (map fst l) / of_Z (zsum (map snd l)) = q 2 /\
    mean_compute (run_metric (map (fun u => (fst u, Some (snd u))) l)) = Some (q 6 / q 4).
Proof.
  exists [(q 6, 3%Z); (q 0, 0%Z)]. split; [apply Qc_is_canon; reflexivity|].
  qc.
Qed.
Print Assumptions C82_metric_refuted.
