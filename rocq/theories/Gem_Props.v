(** The layers of the Gemma3n decoder (C96). *)

Require Import List Arith ZArith Bool Lia.
From Verif Require Import Gem_Model Gem_Spec.
Import ListNotations.

Section Layers.
  Variables (n shared : nat).
  Hypothesis Hs : shared <= n.
  Let first := n - shared.
  Notation glob := (fun i => is_global_layer i n).

  Lemma role_spec : forall i,
    match layer_role n shared i with
    | Consumer => first <= i
    | Source => last_of_type glob (is_global_layer i n) first i
    | No_role => i < first /\ exists k, i < k < first /\ is_global_layer k n = is_global_layer i n
    end.
  Proof.
    intro i. unfold layer_role, get_kv_projection_role. destruct (Z.leb_spec (Z.of_nat n - Z.of_nat shared) (Z.of_nat i)) as [H|H]; [unfold first; lia|].
    replace (Z.to_nat (Z.of_nat n - Z.of_nat shared)) with first by (unfold first; lia).
    assert (Hi : i < first) by (unfold first; lia).
    destruct (existsb _ _) eqn:E.
    - apply existsb_exists in E as (k & I & E). apply in_seq in I. apply eqb_prop in E. split; [exact Hi|]. exists k. split; [lia|exact E].
    - split; [exact Hi|]. split; [reflexivity|]. intros k Hk X. assert (T : existsb (fun idx => Bool.eqb (is_global_layer idx n) (is_global_layer i n)) (seq (i + 1) (first - (i + 1))) = true).
      { apply existsb_exists. exists k. split; [apply in_seq; lia|]. rewrite X. apply eqb_reflx. }
      congruence.
  Qed.

  Lemma last_unique : forall ty a b, last_of_type glob ty first a -> last_of_type glob ty first b -> a = b.
  Proof.
    intros ty a b (A1 & A2 & A3) (B1 & B2 & B3). destruct (Nat.lt_trichotomy a b) as [H|[H|H]]; [|exact H|].
    - exfalso. apply (A3 b); auto.
    - exfalso. apply (B3 a); auto.
  Qed.

  Definition inv (idx : nat) (slots : bool -> option nat) : Prop := forall ty j, slots ty = Some j <-> (last_of_type glob ty first j /\ j < idx).

  Definition right (i : nat) (x : kv) : Prop :=
    match x with Own => i < first | From j => first <= i /\ last_of_type glob (is_global_layer i n) first j end.

  Lemma layers : forall count idx slots, inv idx slots ->
    match forward_layers n shared slots idx count with
    | Some l => length l = count /\ forall i x, nth_error l i = Some x -> right (idx + i) x
    | None => exists i, idx <= i < idx + count /\ first <= i /\ forall j, ~ last_of_type glob (is_global_layer i n) first j
    end.
  Proof.
    induction count as [|count IH]; intros idx slots I; cbn [forward_layers].
    { split; [reflexivity|]. intros [|i] x H; discriminate. }
    assert (Step : forall slots' x, inv (S idx) slots' -> right idx x ->
      match option_map (cons x) (forward_layers n shared slots' (S idx) count) with
      | Some l => length l = S count /\ forall i y, nth_error l i = Some y -> right (idx + i) y
      | None => exists i, idx <= i < idx + S count /\ first <= i /\ forall j, ~ last_of_type glob (is_global_layer i n) first j
      end).
    { intros slots' x I' R. specialize (IH (S idx) slots' I'). destruct (forward_layers n shared slots' (S idx) count) as [l|]; cbn [option_map].
      - destruct IH as [L A]. split; [cbn; lia|]. intros [|i] y H; cbn [nth_error] in H.
        + injection H as <-. rewrite Nat.add_0_r. exact R.
        + replace (idx + S i) with (S idx + i) by lia. apply A. exact H.
      - destruct IH as (i & A & B). exists i. split; [lia|exact B]. }
    pose proof (role_spec idx) as R. destruct (layer_role n shared idx).
    - apply Step; [|cbn; destruct R; assumption]. intros ty j. destruct (eqb ty (is_global_layer idx n)) eqn:E.
      + apply eqb_prop in E. subst ty. split.
        * intro H. injection H as <-. split; [exact R|lia].
        * intros [L _]. f_equal. eapply last_unique; eassumption.
      + rewrite (I ty j). split; [intros [A B]; split; [exact A|lia]|]. intros [A B]. split; [exact A|].
        destruct (Nat.eq_dec j idx) as [->|]; [|lia]. destruct A as (_ & A & _). subst ty. rewrite eqb_reflx in E. discriminate.
    - destruct (slots (is_global_layer idx n)) as [j|] eqn:E.
      + pose proof (proj1 (I _ _) E) as [A B]. apply Step; [|cbn; auto]. intros ty k. rewrite (I ty k). split; intros [X Y]; (split; [exact X|]); [lia|].
        destruct X as [X _]. lia.
      + exists idx. split; [lia|]. split; [exact R|]. intros j L. assert (X : slots (is_global_layer idx n) = Some j) by (apply I; split; [exact L|destruct L; lia]). congruence.
    - destruct R as (Hi & k & Hk & Ek). apply Step; [|exact Hi]. intros ty j. rewrite (I ty j). split; intros [X Y]; (split; [exact X|]); [lia|].
      destruct (Nat.eq_dec j idx) as [->|]; [|lia]. destruct X as (_ & X1 & X2). exfalso. apply (X2 k Hk). congruence.
  Qed.

  Lemma find_last : forall ty m, (exists k, k < m /\ is_global_layer k n = ty) -> exists j, last_of_type glob ty m j.
  Proof.
    intros ty. induction m as [|m IH]; intros (k & Hk & Ek); [lia|]. destruct (bool_dec (is_global_layer m n) ty) as [E|E].
    - exists m. split; [lia|]. split; [exact E|]. intros; lia.
    - destruct IH as (j & J1 & J2 & J3); [exists k; split; [|exact Ek]; destruct (Nat.eq_dec k m); [subst; congruence|lia]|].
      exists j. split; [lia|]. split; [exact J2|]. intros k' Hk'. destruct (Nat.eq_dec k' m) as [->|]; [exact E|]. apply J3. lia.
  Qed.
End Layers.

Lemma inv_empty : forall n shared, inv n shared 0 (fun _ => None).
Proof. intros n shared ty j. split; [discriminate|]. intros [_ H]. lia. Qed.

(** With at least five layers of their own, or no shared ones, the layers that
    share take the keys and values of the last layer of their type (local or
    global) before them, and the other layers use their own. *)
Theorem C96_sources : forall n shared, shared <= n -> shared = 0 \/ 5 <= n - shared ->
  exists l, forward n shared = Some l /\ length l = n /\
    forall i x, nth_error l i = Some x ->
      match x with
      | Own => i < n - shared
      | From j => n - shared <= i /\ last_of_type (fun k => is_global_layer k n) (is_global_layer i n) (n - shared) j
      end.
Proof.
  intros n shared Hs H. unfold forward. pose proof (layers n shared Hs n 0 _ (inv_empty n shared)) as L.
  destruct (forward_layers n shared (fun _ => None) 0 n) as [l|].
  - exists l. destruct L as [L1 L2]. split; [reflexivity|]. split; [exact L1|]. intros i x E. exact (L2 i x E).
  - exfalso. destruct L as (i & A & B & N). destruct H as [->|H]; [lia|].
    destruct (find_last n shared Hs (is_global_layer i n) (n - shared)) as (j & J); [|exact (N j J)].
    assert (Hn : n <> 5 \/ n = 5) by lia.
    destruct (is_global_layer i n).
    + exists 4. split; [lia|]. unfold is_global_layer. destruct (5 =? n); reflexivity.
    + exists 0. split; [lia|]. unfold is_global_layer. destruct (Nat.eqb_spec 1 n); [lia|reflexivity].
Qed.

(** With fewer layers of their own, no shared layer can run: the last layer is
    global and no global layer precedes the shared ones. *)
Theorem C96_too_many_refuted : forall n shared, 1 <= shared <= n -> n - shared <= 4 -> forward n shared = None.
Proof.
  intros n shared Hs H. unfold forward. pose proof (layers n shared ltac:(lia) n 0 _ (inv_empty n shared)) as L.
  destruct (forward_layers n shared (fun _ => None) 0 n) as [l|]; [|reflexivity]. exfalso. destruct L as [L1 L2].
  destruct (nth_error l (n - 1)) as [x|] eqn:E; [|apply nth_error_None in E; lia]. specialize (L2 _ _ E). cbn [Nat.add] in L2.
  destruct x as [|j]; cbn in L2; [lia|]. destruct L2 as (_ & J1 & J2 & _).
  assert (G : is_global_layer (n - 1) n = true) by (unfold is_global_layer; replace (S (n - 1)) with n by lia; rewrite Nat.eqb_refl; reflexivity).
  rewrite G in J2. unfold is_global_layer in J2. destruct (Nat.eqb_spec (S j) n); [lia|].
  assert (j = 0 \/ j = 1 \/ j = 2 \/ j = 3) as [->|[->|[->| ->]]] by lia; discriminate.
Qed.

(** The released models. *)
Example C96_e2b : forward 30 10 = Some (repeat Own 20 ++ flat_map (fun _ => [From 18; From 18; From 18; From 18; From 19]) [0; 1]).
Proof. reflexivity. Qed.
Example C96_e4b : forward 35 15 = Some (repeat Own 20 ++ flat_map (fun _ => [From 18; From 18; From 18; From 18; From 19]) [0; 1; 2]).
Proof. reflexivity. Qed.

(** The embedding of a layer is added to all versions but the active one if that is
    the first. *)
Theorem C96_embedding : forall {N} (plus : N -> N -> N) e versions i v, nth_error versions i = Some v ->
  nth_error (add_per_layer_embedding plus e versions) i = Some (if i =? 0 then v else plus v e).
Proof.
  intros N plus e [|w ws] [|i] v H; try discriminate; cbn in *; [congruence|]. rewrite nth_error_map, H. reflexivity.
Qed.

(** With another active version it is added to the active one too, and not to the
    first. *)
Theorem C96_active_refuted : forall {N} (plus : N -> N -> N) e versions active v, 1 <= active ->
  nth_error versions active = Some v -> plus v e <> v ->
  nth_error (add_per_layer_embedding plus e versions) active <> nth_error versions active /\
  nth_error (add_per_layer_embedding plus e versions) 0 = nth_error versions 0.
Proof.
  intros N plus e versions active v Ha H D. rewrite (C96_embedding plus e _ _ _ H), H. destruct active; [lia|]. split; [cbn; congruence|].
  destruct versions; reflexivity.
Qed.

Example C96_active_ex : add_per_layer_embedding Nat.add 5 [1; 2; 3; 4] = [1; 7; 8; 9].
Proof. reflexivity. Qed.

(** Decoding element by element agrees with a pass at once on what a local layer
    sees as long as the sequence is not longer than the window. *)
Theorem C96_window_partial : forall window len t s, 1 <= window -> len <= window -> t < len -> s <= t ->
  sees_step window t s = true /\ sees_at_once window len t s = true.
Proof.
  intros window len t s Hw Hl Ht Hs. split.
  - unfold sees_step, maybe_bias. cbn [Nat.eqb]. rewrite andb_true_r. apply Nat.ltb_lt. lia.
  - unfold sees_at_once, maybe_bias. apply andb_true_intro. split; [apply Nat.ltb_lt; lia|]. destruct (len =? 1); [reflexivity|].
    unfold causal_bias. rewrite (proj2 (Nat.ltb_ge window len)) by exact Hl. rewrite andb_true_r. apply Z.leb_le. lia.
Qed.

(** Afterwards it does not: an element that is decoded alone sees all earlier
    ones, and in a pass at once only those in its window. *)
Theorem C96_window_refuted : forall window len t s, 1 <= window -> t < len -> s + window <= t ->
  sees_step window t s = true /\ sees_at_once window len t s = false.
Proof.
  intros window len t s Hw Ht Hs. split.
  - unfold sees_step, maybe_bias. cbn [Nat.eqb]. rewrite andb_true_r. apply Nat.ltb_lt. lia.
  - unfold sees_at_once, maybe_bias. apply andb_false_iff. right. destruct (Nat.eqb_spec len 1); [lia|].
    unfold causal_bias. rewrite (proj2 (Nat.ltb_lt window len)) by lia. apply andb_false_iff. right. apply Z.leb_gt. lia.
Qed.

Example C96_window_ex : map (sees_step 2 3) (seq 0 5) = [true; true; true; true; false] /\ map (sees_at_once 2 4 3) (seq 0 5) = [false; false; true; true; false].
Proof. split; reflexivity. Qed.

Print Assumptions C96_sources.
Print Assumptions C96_too_many_refuted.
Print Assumptions C96_embedding.
Print Assumptions C96_active_refuted.
Print Assumptions C96_window_partial.
Print Assumptions C96_window_refuted.
