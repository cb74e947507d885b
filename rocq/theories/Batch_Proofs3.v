From Coq Require Import ZArith List Bool Arith Lia ZifyBool.
From Verif Require Import Batch_Model Batch_Spec Batch_Proofs Batch_Proofs2.
Import ListNotations.
Local Open Scope Z_scope.

Lemma sum_packed_ok l : forall idx acc r, sum_packed idx l acc = Ok r <-> Forall (fun n => 1 <= n) l /\ r = acc + total l.
Proof.
  induction l as [|n l IH]; intros idx acc r; simpl.
  - split; [intros H; injection H as <-; split; [constructor|lia]|intros [_ ->]; f_equal; lia].
  - destruct (n <? 1) eqn:E; [split; [discriminate|intros [H _]; inversion H; lia]|]. rewrite IH. split; intros [H ->]; (split; [|lia]); [constructor; [lia|assumption]|inversion H; assumption].
Qed.
Lemma sum_padded_ok w l : forall idx acc pad r, sum_padded w idx l acc pad = Ok r <->
  Forall (fun n => 1 <= n <= w) l /\ r = (acc + total l, pad + (Z.of_nat (length l) * w - total l)).
Proof.
  induction l as [|n l IH]; intros idx acc pad r.
  - simpl. split; [intros H; injection H as <-; split; [constructor|f_equal; lia]|intros [_ ->]; do 2 f_equal; lia].
  - cbn [sum_padded]. destruct (n <? 1) eqn:E; [split; [discriminate|intros [H _]; inversion H; lia]|]. destruct (w <? n) eqn:E2; [split; [discriminate|intros [H _]; inversion H; lia]|].
    rewrite IH. cbn [total fold_right length]. fold (total l).
    split; intros [H ->]; (split; [|f_equal; lia]); [constructor; [lia|assumption]|inversion H; assumption].
Qed.

Definition targets (m : option (tensor bool)) (n : Z) : Z := match m with None => n | Some k => mask_sum k end.
Definition mask_fits {A} (p : bool) (t : tensor A) (m : option (tensor bool)) : Prop := match m with None => True | Some k => mask_ok p t k = true end.


Lemma packed_dims_ok {A} (t : tensor A) ls d : packed_dims t ls = Ok d <-> exists w r, shape t = w :: r /\ w <> 0 /\
  let l := default_lens [w] ls in Forall (fun n => 1 <= n) l /\ total l <= w /\ d = (l, 1, Z.of_nat (length l), total l, w - total l).
Proof.
  unfold packed_dims. destruct (shape t) as [|w r]; [split; [discriminate|intros (? & ? & ? & _); discriminate]|]. fold (default_lens [w] ls).
  destruct (w =? 0) eqn:E0; [split; [discriminate|intros (w' & r' & H & ? & _); injection H as <- <-; lia]|].
  split.
  - destruct (sum_packed 0 (default_lens [w] ls) 0) as [n|e] eqn:ES; [|discriminate]. apply sum_packed_ok in ES. destruct ES as [HF ->]. rewrite Z.add_0_l.
    destruct (w <? total (default_lens [w] ls)) eqn:EW; [discriminate|]. intros H. injection H as <-. exists w, r. simpl. repeat split; auto; lia.
  - intros (w' & r' & H & ? & HF & HT & ->). injection H as <- <-.
    replace (sum_packed 0 (default_lens [w] ls) 0) with (@Ok Z (total (default_lens [w] ls))) by (symmetry; apply sum_packed_ok; auto).
    destruct (w <? total (default_lens [w] ls)) eqn:EW; [lia|reflexivity].
Qed.
Lemma padded_dims_ok {A} (t : tensor A) ls d : padded_dims t ls = Ok d <-> exists n w r, shape t = n :: w :: r /\ w <> 0 /\
  let l := default_lens (repeat w (Z.to_nat n)) ls in Z.of_nat (length l) = n /\ Forall (fun x => 1 <= x <= w) l /\ d = (l, n, n, total l, n * w - total l).
Proof.
  unfold padded_dims. destruct (shape t) as [|n [|w r]]; [split; [discriminate|intros (? & ? & ? & ? & _); discriminate]..|].
  fold (default_lens (repeat w (Z.to_nat n)) ls). set (l := default_lens (repeat w (Z.to_nat n)) ls).
  destruct (w =? 0) eqn:E0; [split; [discriminate|intros (n' & w' & r' & H & ? & _); injection H as <- <- <-; lia]|].
  destruct (Z.of_nat (length l) =? n) eqn:EN; simpl.
  - split.
    + destruct (sum_padded w 0 l 0 0) as [[x y]|e] eqn:ES; [|discriminate]. apply sum_padded_ok in ES. destruct ES as [HF HE]. injection HE as -> ->.
      intros H. injection H as <-. exists n, w, r. subst l. repeat split; auto; try lia. f_equal; lia.
    + intros (n' & w' & r' & H & ? & HN & HF & ->). injection H as <- <- <-. fold l in HN, HF |- *.
      replace (sum_padded w 0 l 0 0) with (@Ok (Z * Z) (total l, n * w - total l)); [reflexivity|]. symmetry. apply sum_padded_ok. split; [assumption|]. f_equal. lia.
  - split; [discriminate|]. intros (n' & w' & r' & H & ? & HN & _). injection H as <- <- <-. fold l in HN. lia.
Qed.
Lemma batch_ok {A} (t : tensor A) ls p m b : sequence_batch t ls p m = Ok b <-> exists l bs ne nel pad,
  ls <> Some [] /\ (if p then packed_dims t ls else padded_dims t ls) = Ok (l, bs, ne, nel, pad) /\ mask_fits p t m /\ b = Batch t l p m bs ne nel (targets m nel) pad.
Proof.
  unfold sequence_batch. generalize (if p then packed_dims t ls else padded_dims t ls) as d. intros d.
  assert (HE : ls = Some [] \/ ls <> Some []) by (destruct ls as [[|? ?]|]; [left|right|right]; congruence).
  destruct HE as [->|HE]; [split; [discriminate|intros (? & ? & ? & ? & ? & ? & _); congruence]|].
  destruct d as [[[[[l bs] ne] nel] pad]|e].
  - transitivity (mask_fits p t m /\ b = Batch t l p m bs ne nel (targets m nel) pad).
    + destruct ls as [[|? ?]|]; [congruence| |]; (destruct m as [k|]; simpl; [destruct (mask_ok p t k)|]); (split; [intros H; try discriminate; injection H as <-; auto|intros [? ->]; auto; discriminate]).
    + split; [intros [? ->]; exists l, bs, ne, nel, pad; auto|intros (? & ? & ? & ? & ? & _ & H & ? & ->); injection H as <- <- <- <- <-; auto].
  - split; [destruct ls as [[|? ?]|]; discriminate|intros (? & ? & ? & ? & ? & _ & H & _); discriminate].
Qed.
