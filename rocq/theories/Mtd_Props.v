(** The asset cards of saved checkpoints (C99). *)

Require Import List Arith QArith Bool Lia Sorted Permutation.
From Verif Require Import Ckpt_Model Ckpt_Spec Ckpt_List_Proofs Mtd_Model Mtd_Spec.
Import ListNotations.
Local Open Scope nat_scope.

Definition with_steps (md : metadata) (ns : list nat) : metadata := fold_left (fun md n => add_metadata md (Card_step n) n) ns md.
Definition max_of (m : option nat) (ns : list nat) : option nat :=
  fold_left (fun m n => match m with None => Some n | Some k => Some (Nat.max k n) end) ns m.

Lemma scan_spec : forall score es md m sc,
  scan score es md m sc = match collect_scores score (saved_steps es) with
                          | None => None
                          | Some l => Some (with_steps md (saved_steps es), max_of m (saved_steps es), sc ++ l)
                          end.
Proof.
  intros score. induction es as [|[[] [n|]] es IH]; intros md m sc; cbn [scan saved_steps flat_map app].
  - cbn. rewrite app_nil_r. reflexivity.
  - fold (saved_steps es). cbn [collect_scores with_steps max_of fold_left].
    destruct (score n) as [[q|]|]; [|reflexivity|].
    + rewrite IH. destruct (collect_scores score (saved_steps es)) as [l|]; [|reflexivity]. rewrite <- app_assoc. reflexivity.
    + rewrite IH. reflexivity.
  - apply IH.
  - apply IH.
  - apply IH.
Qed.

Lemma with_steps_step : forall ns md n, with_steps md ns (Card_step n) = if existsb (Nat.eqb n) ns then Some n else md (Card_step n).
Proof.
  induction ns as [|k ns IH]; intros md n; [reflexivity|]. change (with_steps md (k :: ns)) with (with_steps (add_metadata md (Card_step k) k) ns).
  rewrite IH. cbn [existsb]. unfold add_metadata. cbn [card_eqb]. destruct (Nat.eqb_spec n k) as [->|N]; cbn [orb]; [destruct (existsb _ ns); reflexivity|reflexivity].
Qed.

Lemma with_steps_other : forall ns md c, (forall n, c <> Card_step n) -> with_steps md ns c = md c.
Proof.
  induction ns as [|k ns IH]; intros md c H; [reflexivity|]. change (with_steps md (k :: ns)) with (with_steps (add_metadata md (Card_step k) k) ns).
  rewrite IH by exact H. unfold add_metadata. destruct c; try reflexivity. exfalso. apply (H n). reflexivity.
Qed.

Lemma max_of_spec : forall ns m, 
  match max_of m ns with
  | None => m = None /\ ns = []
  | Some n => (m = Some n \/ In n ns) /\ (forall k, In k ns -> k <= n) /\ (forall k, m = Some k -> k <= n)
  end.
Proof.
  induction ns as [|k ns IH]; intros m.
  - cbn. destruct m as [n|]; [|split; reflexivity]. split; [left; reflexivity|]. split; [intros k []|]. intros k E. injection E as ->. lia.
  - change (max_of m (k :: ns)) with (max_of (match m with None => Some k | Some j => Some (Nat.max j k) end) ns).
    specialize (IH (match m with None => Some k | Some j => Some (Nat.max j k) end)). destruct (max_of _ ns) as [n|].
    + destruct IH as (A & B & C). destruct m as [j|].
      * specialize (C _ eq_refl). split.
        { destruct A as [A|A]; [|right; right; exact A]. injection A as <-. destruct (Nat.max_spec j k) as [[_ ->]|[_ ->]]; [right; left; reflexivity|left; reflexivity]. }
        split; [intros x [<-|I]; [lia|apply B; exact I]|]. intros x E. injection E as <-. lia.
      * specialize (C _ eq_refl). split; [|split; [intros x [<-|I]; [lia|apply B; exact I]|discriminate]].
        destruct A as [A|A]; [injection A as <-; right; left; reflexivity|right; right; exact A].
    + destruct IH as [A _]. destruct m; discriminate.
Qed.

Lemma add_best_nth : forall l md idx i, add_best md idx l (Card_best_nth i) =
  if idx <=? i then match nth_error l (i - idx) with Some p => Some (snd p) | None => md (Card_best_nth i) end else md (Card_best_nth i).
Proof.
  induction l as [|[q n] l IH]; intros md idx i; cbn [add_best].
  - destruct (idx <=? i); [|reflexivity]. destruct (i - idx); reflexivity.
  - rewrite IH. unfold add_metadata. cbn [card_eqb]. destruct (Nat.leb_spec (S idx) i), (Nat.leb_spec idx i), (Nat.eqb_spec i idx); try lia; try reflexivity.
    + replace (i - idx) with (S (i - S idx)) by lia. reflexivity.
    + subst. rewrite Nat.sub_diag. reflexivity.
Qed.

Lemma add_best_other : forall l md idx c, (forall i, c <> Card_best_nth i) -> add_best md idx l c = md c.
Proof.
  induction l as [|[q n] l IH]; intros md idx c H; [reflexivity|]. cbn [add_best]. rewrite IH by exact H. unfold add_metadata.
  destruct c; try reflexivity. exfalso. apply (H i). reflexivity.
Qed.

(** Every saved step has a card; the last is the one with the largest number; the
    best are in the order of their scores, of equal scores the latest first, and
    steps without a score are not among them.  Loading fails exactly if a score is
    not a number. *)
Theorem C99_cards : forall score entries, NoDup (saved_steps entries) ->
  match load_metadata score entries with
  | None => exists n, In n (saved_steps entries) /\ score n = Some None
  | Some md =>
      (forall n, In n (saved_steps entries) -> score n <> Some None) /\
      (forall n m, md (Card_step n) = Some m <-> m = n /\ In n (saved_steps entries)) /\
      (forall n, md Card_last = Some n <-> In n (saved_steps entries) /\ forall m, In m (saved_steps entries) -> m <= n) /\
      exists l, StronglySorted better l /\ (forall q n, In (q, n) l <-> In n (saved_steps entries) /\ score n = Some (Some q)) /\
        (forall i, md (Card_best_nth i) = option_map snd (nth_error l i)) /\ md Card_best = option_map snd (nth_error l 0)
  end.
Proof.
  intros score entries ND. unfold load_metadata. rewrite scan_spec. set (ns := saved_steps entries) in *. clearbody ns.
  destruct (collect_scores score ns) as [l0|] eqn:E.
  2:{ apply load_scores_raises. unfold load_scores. rewrite E. reflexivity. }
  cbn [app]. assert (LS : load_scores score ns = Some (sort_desc l0)) by (unfold load_scores; rewrite E; reflexivity).
  destruct (load_scores_spec score ns _ ND LS) as [S M]. set (l := sort_desc l0) in *. clearbody l.
  assert (NR : forall n, In n ns -> score n <> Some None).
  { intros n I X. assert (load_scores score ns = None) by (apply load_scores_raises; eauto). congruence. }
  set (md0 := with_steps (fun _ => None) ns).
  set (md1 := match max_of None ns with None => md0 | Some n => add_metadata md0 Card_last n end).
  assert (M1 : forall n m, md1 (Card_step n) = Some m <-> m = n /\ In n ns).
  { intros n m. assert (X : md1 (Card_step n) = md0 (Card_step n)) by (unfold md1; destruct (max_of None ns); reflexivity). rewrite X. unfold md0. rewrite with_steps_step.
    destruct (existsb (Nat.eqb n) ns) eqn:B.
    - apply existsb_exists in B as (k & I & K). apply Nat.eqb_eq in K. subst k. split; [intro H; injection H as <-; auto|intros [-> _]; reflexivity].
    - split; [discriminate|]. intros [-> I]. assert (T : existsb (Nat.eqb n) ns = true) by (apply existsb_exists; exists n; split; [exact I|apply Nat.eqb_refl]). congruence. }
  assert (M2 : forall n, md1 Card_last = Some n <-> In n ns /\ forall m, In m ns -> m <= n).
  { intro n. unfold md1. pose proof (max_of_spec ns None) as X. destruct (max_of None ns) as [k|].
    - unfold add_metadata. cbn [card_eqb]. destruct X as ([X|X] & Y & _); [discriminate|]. split.
      + intro H. injection H as <-. auto.
      + intros [I A]. f_equal. apply Nat.le_antisymm; auto.
    - destruct X as [_ ->]. unfold md0. rewrite with_steps_other by discriminate. split; [discriminate|]. intros [[] _]. }
  assert (M3 : forall c, (forall n, c <> Card_step n) -> c <> Card_last -> md1 c = None).
  { intros c H1 H2. unfold md1. destruct (max_of None ns); unfold add_metadata, md0.
    - destruct c; cbn [card_eqb]; try (rewrite with_steps_other by assumption; reflexivity). contradiction.
    - rewrite with_steps_other by exact H1. reflexivity. }
  split; [exact NR|]. destruct l as [|[q b] l].
  - split; [exact M1|]. split; [exact M2|]. exists []. split; [exact S|]. split; [exact M|]. split; [intro i|]; rewrite M3 by discriminate; [destruct i|]; reflexivity.
  - set (md2 := add_metadata md1 Card_best b). split; [|split].
    + intros n m. rewrite add_best_other by discriminate. apply M1.
    + intro n. rewrite add_best_other by discriminate. apply M2.
    + exists ((q, b) :: l). split; [exact S|]. split; [exact M|]. split.
      * intro i. rewrite add_best_nth. cbn [Nat.leb]. rewrite Nat.sub_0_r. destruct (nth_error ((q, b) :: l) i); [reflexivity|]. unfold md2, add_metadata. cbn [card_eqb]. rewrite M3 by discriminate. reflexivity.
      * rewrite add_best_other by discriminate. reflexivity.
Qed.

Definition ex_score (n : nat) : option (option Q) := match n with 10 => Some (Some (1 # 2)%Q) | 20 => Some (Some (3 # 4)%Q) | 30 => Some (Some (3 # 4)%Q) | _ => None end.
Example C99_cards_ex : exists md, load_metadata ex_score [(true, Some 30); (true, None); (true, Some 10); (false, Some 50); (true, Some 40); (true, Some 20)] = Some md /\
  md Card_last = Some 40 /\ md Card_best = Some 30 /\ map (fun i => md (Card_best_nth i)) [0; 1; 2; 3] = [Some 30; Some 20; Some 10; None] /\ md (Card_step 50) = None.
Proof. eexists. split; [reflexivity|]. repeat split. Qed.

(** ** What the cards say about the model *)

Lemma events_same : forall {C} (c : C) es, (forall c', In (Begin c') es -> c' = c) ->
  forall st, (fst st = None \/ fst st = Some c) -> (forall n, snd st n = None \/ snd st n = Some c /\ fst st = Some c) ->
  let st' := fold_left (fun st e => match e with
                         | Begin c => (Some c, snd st)
                         | Save n => (fst st, fun m => if m =? n then fst st else snd st m)
                         end) es st in
  (fst st' = None \/ fst st' = Some c) /\ forall n, snd st' n = None \/ snd st' n = Some c /\ fst st' = Some c.
Proof.
  intros C c. induction es as [|e es IH]; intros H st A B; [split; assumption|]. cbn [fold_left]. apply IH.
  - intros c' I. apply H. right. exact I.
  - destruct e as [c'|n]; [|exact A]. right. cbn. rewrite (H c'); [reflexivity|left; reflexivity].
  - destruct e as [c'|k]; intro n; cbn [fst snd].
    + assert (c' = c) as -> by (apply H; left; reflexivity). destruct (B n) as [X|[X _]]; auto.
    + destruct (n =? k); [|apply B]. destruct A as [A|A]; rewrite A; auto.
Qed.

(** As long as all runs in a directory have one configuration, the cards describe
    the saved models. *)
Theorem C99_described : forall {C} (c : C) es, (forall c', In (Begin c') es -> c' = c) ->
  forall n c', trained_as es n = Some c' -> described_as es = Some c'.
Proof.
  intros C c es H n c' T. destruct (events_same c es H (None, fun _ => None) (or_introl eq_refl) (fun _ => or_introl eq_refl)) as [A B].
  unfold trained_as, described_as, run_events in *. destruct (B n) as [X|[X Y]]; congruence.
Qed.

Example C99_described_ex : trained_as [Begin 7; Save 10; Begin 7; Save 20] 10 = Some 7 /\ described_as [Begin 7; Save 10; Begin 7; Save 20] = Some 7.
Proof. split; reflexivity. Qed.

(** Beginning a run with another configuration, even one that fails to restore the
    model, makes the cards of all earlier steps describe that configuration. *)
Theorem C99_described_refuted : forall {C} (a b : C) n, a <> b ->
  trained_as [Begin a; Save n; Begin b] n = Some a /\ described_as [Begin a; Save n; Begin b] = Some b /\ Some a <> Some b.
Proof. intros C a b n H. unfold trained_as, described_as. cbn. rewrite Nat.eqb_refl. repeat split. congruence. Qed.

Print Assumptions C99_cards.
Print Assumptions C99_described.
Print Assumptions C99_described_refuted.
