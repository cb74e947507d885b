(** Greedy decoding and error rates of speech recognition (C84). *)

Require Import String List Arith ZArith QArith Bool Lia.
From Verif Require Import Wer_Model Wer_Spec.
Import ListNotations.
Open Scope nat_scope.

(** ** The best label of a frame *)

Lemma argmax_from_best : forall l pre best k,
  k < length pre -> nth k pre 0%Z = best ->
  (forall j, j < length pre -> (nth j pre 0 <= best)%Z) ->
  (forall j, j < k -> (nth j pre 0 < best)%Z) ->
  best_label (pre ++ l) (argmax_from best k (length pre) l).
Proof.
  induction l as [|x l IH]; intros pre best k Hk Hb Hle Hlt; simpl.
  - rewrite app_nil_r. unfold best_label. rewrite Hb. auto.
  - replace (pre ++ x :: l) with ((pre ++ [x]) ++ l) by (rewrite <- app_assoc; reflexivity).
    replace (S (length pre)) with (length (pre ++ [x])) by (rewrite app_length; simpl; lia).
    destruct (Z.ltb_spec best x) as [L|L]; apply IH.
    + rewrite app_length; simpl; lia.
    + rewrite app_nth2, Nat.sub_diag by lia. reflexivity.
    + intros j Hj. rewrite app_length in Hj; simpl in Hj.
      destruct (Nat.lt_ge_cases j (length pre)) as [J|J].
      * rewrite app_nth1 by lia. specialize (Hle j J). lia.
      * rewrite app_nth2 by lia. replace (j - length pre) with 0 by lia. simpl. lia.
    + intros j Hj. rewrite app_nth1 by lia. specialize (Hle j Hj). lia.
    + rewrite app_length; simpl; lia.
    + rewrite app_nth1 by lia. exact Hb.
    + intros j Hj. rewrite app_length in Hj; simpl in Hj.
      destruct (Nat.lt_ge_cases j (length pre)) as [J|J].
      * rewrite app_nth1 by lia. auto.
      * rewrite app_nth2 by lia. replace (j - length pre) with 0 by lia. simpl. lia.
    + intros j Hj. rewrite app_nth1 by lia. auto.
Qed.

Lemma argmax_best : forall l, l <> [] -> best_label l (argmax l).
Proof.
  intros [|x l] H; [congruence|]. simpl.
  apply (argmax_from_best l [x] x 0); simpl; try lia.
  intros j Hj. replace j with 0 by lia. lia.
Qed.

Lemma best_label_unique : forall l i j, best_label l i -> best_label l j -> i = j.
Proof.
  intros l i j (I1 & I2 & I3) (J1 & J2 & J3).
  destruct (Nat.lt_trichotomy i j) as [H|[H|H]]; [|assumption|].
  - specialize (J3 i H). specialize (I2 j J1). lia.
  - specialize (I3 j H). specialize (J2 i I1). lia.
Qed.

(** ** The collapse of a path *)

Lemma unique_head : forall x l, exists r, unique_consecutive (x :: l) = x :: r.
Proof.
  intros x l; revert x; induction l as [|y l IH]; intro x; [exists []; reflexivity|].
  change (exists r, (if x =? y then unique_consecutive (y :: l) else x :: unique_consecutive (y :: l)) = x :: r).
  destruct (Nat.eqb_spec x y) as [->|]; [apply IH|eauto].
Qed.

Lemma unique_runs : forall l, exists runs : list (nat * nat),
  l = flat_map (fun r => repeat (fst r) (S (snd r))) runs
  /\ (forall a r s b, runs = a ++ r :: s :: b -> fst r <> fst s)
  /\ unique_consecutive l = map fst runs.
Proof.
  induction l as [|x l IH].
  - exists []. repeat split; intros a r s b E; destruct a; discriminate.
  - destruct l as [|y l].
    + exists [(x, 0)]. repeat split.
      intros a r s b E. destruct a as [|? [|? ?]]; discriminate.
    + destruct IH as (runs & E & D & U).
      change (unique_consecutive (x :: y :: l)) with
        (if x =? y then unique_consecutive (y :: l) else x :: unique_consecutive (y :: l)).
      destruct runs as [|[z n] runs]; [discriminate|].
      assert (z = y) by (simpl in E; congruence). subst z.
      destruct (Nat.eqb_spec x y) as [->|N].
      * exists ((y, S n) :: runs). split; [|split].
        { simpl in *. rewrite E. reflexivity. }
        { intros a r s b F. destruct a as [|p a].
          - injection F as <- F. apply (D [] (y, n) s b). rewrite F. reflexivity.
          - injection F as <- F. apply (D ((y, n) :: a) r s b). rewrite F. reflexivity. }
        { rewrite U. reflexivity. }
      * exists ((x, 0) :: (y, n) :: runs). split; [|split].
        { simpl in *. rewrite E. reflexivity. }
        { intros a r s b F. destruct a as [|p a].
          - injection F as <- <- F. exact N.
          - injection F as <- F. apply (D a r s b F). }
        { rewrite U. reflexivity. }
Qed.

(** Two decompositions into maximal runs have the same labels. *)
Lemma run_split : forall (x n m : nat) (l l' : list nat),
  repeat x n ++ l = repeat x m ++ l' ->
  (forall l0, l <> x :: l0) -> (forall l0, l' <> x :: l0) -> n = m /\ l = l'.
Proof.
  induction n as [|n IH]; intros [|m] l l' E H H'; simpl in E.
  - auto.
  - exfalso. eapply H; eassumption.
  - exfalso. eapply H'; symmetry; eassumption.
  - injection E as E. destruct (IH m l l' E H H'). auto.
Qed.

Lemma runs_next : forall (runs : list (nat * nat)) x n l0,
  (forall a r s b, (x, n) :: runs = a ++ r :: s :: b -> fst r <> fst s) ->
  flat_map (fun r => repeat (fst r) (S (snd r))) runs <> x :: l0.
Proof.
  intros [|[y k] runs] x n l0 D E; simpl in E; [discriminate|].
  injection E as -> _. exact (D [] (x, n) (x, k) runs eq_refl eq_refl).
Qed.

Lemma runs_unique : forall (runs runs' : list (nat * nat)),
  flat_map (fun r => repeat (fst r) (S (snd r))) runs = flat_map (fun r => repeat (fst r) (S (snd r))) runs' ->
  (forall a r s b, runs = a ++ r :: s :: b -> fst r <> fst s) ->
  (forall a r s b, runs' = a ++ r :: s :: b -> fst r <> fst s) ->
  runs = runs'.
Proof.
  induction runs as [|[x n] runs IH]; intros [|[y m] runs'] E D D'; try discriminate; [reflexivity|].
  assert (x = y) by (simpl in E; congruence). subst y.
  change (repeat x (S n) ++ flat_map (fun r => repeat (fst r) (S (snd r))) runs =
          repeat x (S m) ++ flat_map (fun r => repeat (fst r) (S (snd r))) runs') in E.
  apply run_split in E; [|intro; eapply runs_next; eassumption|intro; eapply runs_next; eassumption].
  destruct E as [N E]. injection N as ->. f_equal. apply IH; [exact E| |].
  - intros a r s b F. apply (D ((x, m) :: a) r s b). rewrite F. reflexivity.
  - intros a r s b F. apply (D' ((x, m) :: a) r s b). rewrite F. reflexivity.
Qed.

Lemma collapses_unique : forall blank path o o',
  collapses blank path o -> collapses blank path o' -> o = o'.
Proof.
  intros blank path o o' (r & E & D & ->) (r' & E' & D' & ->).
  rewrite (runs_unique r r'); [reflexivity|rewrite <- E; exact E'|exact D|exact D'].
Qed.

Lemma firstn_In : forall (A : Type) n (l : list A) x, In x (firstn n l) -> In x l.
Proof.
  intros A n l x H. rewrite <- (firstn_skipn n l). apply in_or_app. auto.
Qed.

Lemma greedy_transcript : forall blank u,
  (forall f, In f (logits_row u) -> f <> []) ->
  transcript blank u (greedy blank (logits_row u) (logits_len u)).
Proof.
  intros blank u H. exists (map argmax (firstn (logits_len u) (logits_row u))). split.
  - assert (G : forall f, In f (firstn (logits_len u) (logits_row u)) -> f <> [])
      by (intros f I; apply H; eapply firstn_In; eassumption).
    revert G. induction (firstn (logits_len u) (logits_row u)) as [|f fs IH]; intro G; constructor.
    + apply argmax_best, G. left; reflexivity.
    + apply IH. intros f' I. apply G. right; exact I.
  - destruct (unique_runs (map argmax (firstn (logits_len u) (logits_row u)))) as (runs & E & D & U).
    exists runs. split; [exact E|split; [exact D|]]. unfold greedy. rewrite U. reflexivity.
Qed.

Lemma best_path_unique : forall fs p p', Forall2 best_label fs p -> Forall2 best_label fs p' -> p = p'.
Proof.
  induction fs as [|f fs IH]; intros p p' H H'; inversion H; inversion H'; subst; [reflexivity|].
  f_equal; [eapply best_label_unique; eassumption|apply IH; assumption].
Qed.

Lemma transcript_unique : forall blank u o o', transcript blank u o -> transcript blank u o' -> o = o'.
Proof.
  intros blank u o o' (p & P & C) (p' & P' & C').
  rewrite (best_path_unique _ _ _ P P') in C. eapply collapses_unique; eassumption.
Qed.

(** ** C84: the transcript

    What is compared with the reference is, for every utterance, the collapse
    of the path of its best labels, and there is only one such transcript; the
    scores of the padding do not matter. *)
Theorem C84_transcript : forall blank (u : utterance) (out : list nat),
  (forall f, In f (logits_row u) -> f <> []) ->
  (greedy blank (logits_row u) (logits_len u) = out <-> transcript blank u out).
Proof.
  intros blank u out H. split.
  - intros <-. apply greedy_transcript, H.
  - intro T. eapply transcript_unique; [apply greedy_transcript, H|exact T].
Qed.

(** A label that is said twice, with a blank in between, is kept twice; said
    without one it is one label.  The padding frame would say 2. *)
Definition said (labels : list nat) : list (list Z) :=
  map (fun k => map (fun j => if j =? k then 5%Z else 0%Z) (seq 0 4)) labels.

Example C84_transcript_case :
  greedy 0 (said [1; 1; 0; 1; 3; 3; 2]) 6 = [1; 1; 3]
  /\ transcript 0 {| logits_row := said [1; 1; 0; 1; 3; 3; 2]; logits_len := 6; ref_row := [1]; ref_len := 1 |} [1; 1; 3].
Proof.
  split; [reflexivity|]. apply C84_transcript; [|reflexivity].
  intros f I. simpl in I. intuition (subst; discriminate).
Qed.

(** ** The metric *)

Section Rates.
  Context {text word : Type}.
  Variable decode : list nat -> text.
  Variable split : text -> list word.
  Variable unit_distance : list nat -> list nat -> Z.
  Variable word_distance : list word -> list word -> Z.
  Variables blank pad : nat.

  Notation hyp u := (greedy blank (logits_row u) (logits_len u)).

  Let add (m : counters) (u : utterance) : counters :=
    {| unit_err := unit_err m + unit_distance (hyp u) (reference u);
       word_err := word_err m + word_distance (split (decode (hyp u))) (split (decode (reference u)));
       unit_len := unit_len m + Z.of_nat (length (reference u));
       word_len := word_len m + Z.of_nat (length (split (decode (reference u)))) |}%Z.

  Hypothesis decode_pad : forall s n, decode (s ++ repeat pad n) = decode s.

  Lemma row_padded : forall u, delivered pad u ->
    exists n, ref_row u = reference u ++ repeat pad n.
  Proof.
    intros u (_ & _ & _ & P). exists (length (skipn (ref_len u) (ref_row u))).
    rewrite <- (firstn_skipn (ref_len u) (ref_row u)) at 1. unfold reference. f_equal.
    induction (skipn (ref_len u) (ref_row u)) as [|x l IH]; [reflexivity|].
    simpl. rewrite (P x) by (left; reflexivity). f_equal. apply IH. intros y I. apply P. right; exact I.
  Qed.

  Lemma decode_row : forall u, delivered pad u -> decode (ref_row u) = decode (reference u).
  Proof. intros u D. destruct (row_padded u D) as [n ->]. apply decode_pad. Qed.

  Lemma firstn_pad : forall (s : list nat) n, firstn (length s) (s ++ repeat pad n) = s.
  Proof. intros s n. rewrite firstn_app, Nat.sub_diag, firstn_all, firstn_O, app_nil_r. reflexivity. Qed.

  Lemma update_batch : forall w batch m,
    Forall (delivered pad) batch ->
    update split unit_distance word_distance m
      (map decode (map ref_row batch)) (map ref_row batch) (map ref_len batch)
      (map decode (map (fun s => s ++ repeat pad (w - length s)) (map (fun u => hyp u) batch)))
      (map (fun s => s ++ repeat pad (w - length s)) (map (fun u => hyp u) batch))
      (map (@length nat) (map (fun u => hyp u) batch))
    = fold_left add batch m.
  Proof.
    intros w batch. induction batch as [|u batch IH]; intros m F; [reflexivity|].
    inversion F as [|? ? D F']; subst. cbn [map update fold_left].
    rewrite IH by exact F'. f_equal. unfold update_one, add.
    rewrite firstn_pad, decode_pad, decode_row by exact D. reflexivity.
  Qed.

  Lemma compute_wer_ok : forall c batch c',
    Forall (delivered pad) batch ->
    compute_wer decode split unit_distance word_distance blank pad c batch = Ok c' ->
    metric c' = fold_left add batch (metric c)
    /\ ref_lines c' = ref_lines c ++ map (fun u => decode (reference u)) batch
    /\ hyp_lines c' = hyp_lines c ++ map (fun u => decode (hyp u)) batch.
  Proof.
    intros c batch c' F E. unfold compute_wer, pad_seqs in E.
    match type of E with context [?a <? 1] => set (w := a) in E end.
    destruct (w <? 1); [discriminate|].
    match type of E with context [existsb ?f ?l] => destruct (existsb f l) eqn:X end; [discriminate|].
    injection E as <-. cbn [metric ref_lines hyp_lines]. split; [|split].
    - apply update_batch, F.
    - f_equal. rewrite map_map. clear X w. induction F as [|u b D F IH]; [reflexivity|].
      cbn [map]. rewrite IH, decode_row by exact D. reflexivity.
    - f_equal. rewrite !map_map. apply map_ext. intro u. apply decode_pad.
  Qed.

  Lemma evaluate_ok : forall batches c c',
    Forall (Forall (delivered pad)) batches ->
    evaluate decode split unit_distance word_distance blank pad c batches = Ok c' ->
    metric c' = fold_left add (concat batches) (metric c)
    /\ ref_lines c' = ref_lines c ++ map (fun u => decode (reference u)) (concat batches)
    /\ hyp_lines c' = hyp_lines c ++ map (fun u => decode (hyp u)) (concat batches).
  Proof.
    induction batches as [|b bs IH]; intros c c' F E; cbn [evaluate concat] in *.
    - injection E as <-. simpl. rewrite !app_nil_r. auto.
    - inversion F as [|? ? Fb Fs]; subst.
      destruct (compute_wer _ _ _ _ _ _ c b) as [c1|] eqn:E1; [|discriminate].
      destruct (compute_wer_ok c b c1 Fb E1) as (M & R & H).
      destruct (IH c1 c' Fs E) as (M' & R' & H').
      rewrite fold_left_app, M', M, R', R, H', H, !map_app, !app_assoc. auto.
  Qed.

  Lemma fold_add : forall us m,
    fold_left add us m =
    {| unit_err := unit_err m + zsum (map (fun u => unit_distance (hyp u) (reference u)) us);
       unit_len := unit_len m + zsum (map (fun u => Z.of_nat (length (reference u))) us);
       word_err := word_err m + zsum (map (fun u => word_distance (split (decode (hyp u))) (split (decode (reference u)))) us);
       word_len := word_len m + zsum (map (fun u => Z.of_nat (length (split (decode (reference u))))) us) |}%Z.
  Proof.
    induction us as [|u us IH]; intro m; cbn [fold_left map zsum fold_right].
    - rewrite !Z.add_0_r. destruct m; reflexivity.
    - rewrite IH. unfold add; cbn [unit_err unit_len word_err word_len zsum fold_right].
      f_equal; fold (zsum (map (fun u => unit_distance (hyp u) (reference u)) us)); unfold zsum; lia.
  Qed.
End Rates.

Lemma zsum_map2 : forall (A B : Type) (f : A -> B -> Z) g us hs,
  Forall2 (fun u h => h = g u) us hs ->
  zsum (map (fun u => f u (g u)) us) = zsum (map (fun p => f (fst p) (snd p)) (combine us hs)).
Proof.
  intros A B f g us hs F. induction F as [|u h us hs E F IH]; [reflexivity|].
  subst h. simpl. unfold zsum in *. rewrite IH. reflexivity.
Qed.

(** ** C84: the error counts

    When the evaluation of a rank ends without an error, there is a transcript
    for every utterance, in the order in which they were read, so that the
    metric counts the edit distances of exactly these transcripts to their
    references and the lengths of exactly the references -- however the
    utterances were put into batches and whatever padding that took -- and the
    n-th line of the two files are the texts of the n-th transcript and the
    n-th reference. *)
Theorem C84_counts_partial :
  forall (text word : Type) (decode : list nat -> text) (split : text -> list word)
         unit_distance word_distance blank pad batches c,
  (forall s n, decode (s ++ repeat pad n) = decode s) ->
  Forall (Forall (delivered pad)) batches ->
  evaluate decode split unit_distance word_distance blank pad new_calculator batches = Ok c ->
  let us := concat batches in
  exists hs,
    Forall2 (transcript blank) us hs
    /\ unit_err (metric c) = zsum (map (fun p => unit_distance (snd p) (reference (fst p))) (combine us hs))
    /\ unit_len (metric c) = zsum (map (fun u => Z.of_nat (ref_len u)) us)
    /\ word_err (metric c) = zsum (map (fun p => word_distance (split (decode (snd p))) (split (decode (reference (fst p))))) (combine us hs))
    /\ word_len (metric c) = zsum (map (fun u => Z.of_nat (length (split (decode (reference u))))) us)
    /\ hyp_lines c = map decode hs
    /\ ref_lines c = map (fun u => decode (reference u)) us.
Proof.
  intros text word decode split ud wd blank pad batches c DP F E us.
  destruct (evaluate_ok decode split ud wd blank pad DP batches _ _ F E) as (M & R & H).
  rewrite fold_add in M. cbn [metric new_calculator ref_lines hyp_lines] in *.
  set (hs := map (fun u => greedy blank (logits_row u) (logits_len u)) us).
  assert (G : Forall (delivered pad) us).
  { unfold us. clear -F. induction F as [|b bs Fb F IH]; simpl; [constructor|].
    apply Forall_app. split; assumption. }
  assert (Q : Forall2 (fun u h => h = greedy blank (logits_row u) (logits_len u)) us hs).
  { unfold hs. clear. induction us; simpl; constructor; auto. }
  exists hs. fold us in M, R, H. rewrite M. cbn [unit_err unit_len word_err word_len zero_counters].
  rewrite !Z.add_0_l. repeat split.
  - unfold hs. clear -G. induction G as [|u us D G IH]; simpl; constructor; [|exact IH].
    apply greedy_transcript. apply D.
  - apply (zsum_map2 _ _ (fun u h => ud h (reference u)) (fun u => greedy blank (logits_row u) (logits_len u)) us hs Q).
  - f_equal. clear -G. induction G as [|u us D G IH]; simpl; [reflexivity|].
    rewrite IH. unfold reference at 1. rewrite firstn_length_le by apply D. reflexivity.
  - apply (zsum_map2 _ _ (fun u h => wd (split (decode h)) (split (decode (reference u))))
             (fun u => greedy blank (logits_row u) (logits_len u)) us hs Q).
  - rewrite H. unfold hs. rewrite map_map. reflexivity.
  - rewrite R. reflexivity.
Qed.

(** When the evaluation ends without an error. *)
Lemma list_max_pos : forall l, l <> [] -> existsb (fun n => n <? 1) l = false -> 1 <= list_max l.
Proof.
  intros [|x l] N H; [congruence|]. simpl in *. apply orb_false_elim in H. destruct H as [H _].
  apply Nat.ltb_ge in H. lia.
Qed.

Lemma compute_wer_accepts : forall (text word : Type) (decode : list nat -> text) (split : text -> list word)
    ud wd blank pad c batch,
  batch <> [] ->
  ((exists c', compute_wer decode split ud wd blank pad c batch = Ok c')
   <-> Forall (fun u => greedy blank (logits_row u) (logits_len u) <> []) batch).
Proof.
  intros text word decode split ud wd blank pad c batch N. unfold compute_wer, pad_seqs.
  set (lens := map (@length nat) (map (fun u => greedy blank (logits_row u) (logits_len u)) batch)).
  assert (X : existsb (fun n => n <? 1) lens = false
              <-> Forall (fun u => greedy blank (logits_row u) (logits_len u) <> []) batch).
  { unfold lens. clear. induction batch as [|u b IH]; simpl.
    - split; [constructor|reflexivity].
    - rewrite orb_false_iff, IH, Forall_cons_iff, Nat.ltb_ge.
      destruct (greedy blank (logits_row u) (logits_len u)); simpl; split; intros [A B]; split; auto; try lia; try congruence; discriminate. }
  assert (L : lens <> []) by (unfold lens; destruct batch; [congruence|discriminate]).
  destruct (existsb (fun n => n <? 1) lens) eqn:E.
  - split; [|intro F; apply X in F; discriminate].
    intros [c' H]. destruct (list_max lens <? 1); discriminate.
  - split; [intros _; apply X; reflexivity|intros _].
    pose proof (list_max_pos lens L E) as P.
    destruct (Nat.ltb_spec (list_max lens) 1); [lia|]. eauto.
Qed.

(** ** C84: which evaluations end without an error

    Exactly those in which no utterance has an empty transcript. *)
Theorem C84_accepted :
  forall (text word : Type) (decode : list nat -> text) (split : text -> list word)
         unit_distance word_distance blank pad batches,
  Forall (fun b => b <> []) batches ->
  Forall (Forall (delivered pad)) batches ->
  ((exists c, evaluate decode split unit_distance word_distance blank pad new_calculator batches = Ok c)
   <-> Forall (fun u => ~ transcript blank u []) (concat batches)).
Proof.
  intros text word decode split ud wd blank pad batches N D.
  assert (G : forall c0, (exists c, evaluate decode split ud wd blank pad c0 batches = Ok c)
     <-> Forall (fun u => greedy blank (logits_row u) (logits_len u) <> []) (concat batches)).
  { clear D. induction N as [|b bs Nb N IH]; intro c0; simpl.
    - split; [constructor|eauto].
    - rewrite Forall_app, <- (compute_wer_accepts text word decode split ud wd blank pad c0 b Nb).
      destruct (compute_wer decode split ud wd blank pad c0 b) as [c1|e].
      + rewrite (IH c1). split; [intro F; split; [eauto|exact F]|intros [_ F]; exact F].
      + split; [intros [c H]; discriminate|intros [[c H] _]; discriminate]. }
  rewrite G. assert (D' : Forall (delivered pad) (concat batches)).
  { clear -D. induction D as [|b bs Fb F IH]; simpl; [constructor|]. apply Forall_app. split; assumption. }
  clear -D'. induction D' as [|u us (_ & D & _) F IH]; [split; constructor|].
  rewrite !Forall_cons_iff, IH, <- (C84_transcript blank u [] D). tauto.
Qed.

(** Words are runs of labels between 9s; the distance counts positions that
    differ. *)
Definition count_diff (a b : list nat) : Z :=
  Z.of_nat (length (filter (fun p => negb (fst p =? snd p)) (combine a b)) + (Nat.max (length a) (length b) - Nat.min (length a) (length b))).
Definition no_pads (l : list nat) : list nat := filter (fun x => negb (x =? 7)) l.
Definition heard (labels : list nat) (n : nat) (ref : list nat) (k : nat) : utterance :=
  {| logits_row := said labels; logits_len := n; ref_row := ref; ref_len := k |}.

Lemma no_pads_padded : forall s n, no_pads (s ++ repeat 7 n) = no_pads s.
Proof.
  intros s n. unfold no_pads. rewrite filter_app.
  replace (filter (fun x => negb (x =? 7)) (repeat 7 n)) with (@nil nat) by (induction n; [reflexivity|simpl; auto]).
  apply app_nil_r.
Qed.

Definition two_batches : list (list utterance) :=
  [[heard [1; 0; 1] 3 [1; 1] 2; heard [2; 2; 3] 2 [2; 7] 1]; [heard [0; 3; 3] 3 [1; 3; 7] 2]].

Example C84_counts_case :
  (forall s n, no_pads (s ++ repeat 7 n) = no_pads s)
  /\ Forall (Forall (delivered 7)) two_batches
  /\ exists c, evaluate no_pads (fun t => t) count_diff count_diff 0 7 new_calculator two_batches = Ok c
       /\ metric c = {| unit_err := 2; unit_len := 5; word_err := 2; word_len := 5 |}%Z
       /\ hyp_lines c = [[1; 1]; [2]; [3]].
Proof.
  split; [exact no_pads_padded|]. split.
  - unfold two_batches. repeat constructor; unfold delivered; cbn; repeat split; try lia; intros f I; intuition (subst; discriminate || auto).
  - eexists. split; [vm_compute; reflexivity|]. split; reflexivity.
Qed.

(** ** C84 is refuted for models that stay silent

    The full statement, that every evaluation ends and counts every utterance,
    is false: one utterance for which the model's best label is the blank in
    every frame, as is common early in training, makes the validation fail
    with a ValueError, whatever the other utterances are. *)
Theorem C84_counts_refuted :
  forall (text word : Type) (decode : list nat -> text) (split : text -> list word)
         unit_distance word_distance blank pad before b after u,
  Forall (fun b => b <> []) (before ++ b :: after) ->
  Forall (Forall (delivered pad)) (before ++ b :: after) ->
  In u b -> (forall f, In f (firstn (logits_len u) (logits_row u)) -> best_label f blank) ->
  evaluate decode split unit_distance word_distance blank pad new_calculator (before ++ b :: after)
  = Err Value_error.
Proof.
  intros text word decode split ud wd blank pad before b after u N D I S.
  destruct (evaluate decode split ud wd blank pad new_calculator (before ++ b :: after)) as [c|[]] eqn:E; [|reflexivity].
  exfalso.
  assert (F : Forall (fun u => ~ transcript blank u []) (concat (before ++ b :: after)))
    by (apply (C84_accepted text word decode split ud wd blank pad); eauto).
  rewrite Forall_forall in F. apply (F u).
  - rewrite concat_app. apply in_or_app. right. simpl. apply in_or_app. auto.
  - exists (repeat blank (length (firstn (logits_len u) (logits_row u)))). split.
    + revert S. generalize (firstn (logits_len u) (logits_row u)) as fs.
      induction fs as [|f fs IH]; intro S; simpl; constructor; [apply S; left; reflexivity|].
      apply IH. intros f' J. apply S. right; exact J.
    + destruct (length (firstn (logits_len u) (logits_row u))) as [|n].
      * exists []. repeat split. intros a r s b' X. destruct a; discriminate.
      * exists [(blank, n)]. split; [simpl; rewrite app_nil_r; reflexivity|]. split.
        -- intros a r s b' X. destruct a as [|? [|? ?]]; discriminate.
        -- simpl. rewrite Nat.eqb_refl. reflexivity.
Qed.

Example C84_counts_refuted_case :
  evaluate no_pads (fun t => t) count_diff count_diff 0 7 new_calculator
    (two_batches ++ [[heard [1; 2; 3] 3 [1; 2] 2; heard [0; 0] 2 [1; 2] 2]]) = Err Value_error.
Proof.
  apply (C84_counts_refuted _ _ _ _ _ _ 0 7 two_batches [heard [1; 2; 3] 3 [1; 2] 2; heard [0; 0] 2 [1; 2] 2] []
           (heard [0; 0] 2 [1; 2] 2)).
  - repeat constructor; discriminate.
  - unfold two_batches. repeat constructor; unfold delivered; cbn; repeat split; try lia; intros f I; intuition (subst; discriminate || auto).
  - right; left; reflexivity.
  - intros f I. cbn in I.
    assert (f = [5; 0; 0; 0]%Z) by intuition congruence. subst f.
    apply (argmax_best [5; 0; 0; 0]%Z). discriminate.
Qed.

(** ** C84: the ranks

    The metric merged from those of all ranks is the metric of one rank that
    evaluates the batches of all of them. *)
Lemma merge_sum : forall others m,
  merge_state m others =
  {| unit_err := unit_err m + zsum (map unit_err others); unit_len := unit_len m + zsum (map unit_len others);
     word_err := word_err m + zsum (map word_err others); word_len := word_len m + zsum (map word_len others) |}%Z.
Proof.
  induction others as [|o os IH]; intro m; simpl.
  - rewrite !Z.add_0_r. destruct m; reflexivity.
  - rewrite IH. simpl. f_equal; unfold zsum; lia.
Qed.

Lemma evaluate_app : forall (text word : Type) (decode : list nat -> text) (split : text -> list word)
    ud wd blank pad bs bs' c,
  evaluate decode split ud wd blank pad c (bs ++ bs') =
  match evaluate decode split ud wd blank pad c bs with
  | Ok c' => evaluate decode split ud wd blank pad c' bs'
  | Err e => Err e
  end.
Proof.
  intros text word decode split ud wd blank pad. induction bs as [|b bs IH]; intros bs' c; [reflexivity|].
  simpl. destruct (compute_wer _ _ _ _ _ _ c b); [apply IH|reflexivity].
Qed.

Theorem C84_ranks :
  forall (text word : Type) (decode : list nat -> text) (split : text -> list word)
         unit_distance word_distance blank pad first first_c rest rest_c,
  (forall s n, decode (s ++ repeat pad n) = decode s) ->
  let eval := evaluate decode split unit_distance word_distance blank pad new_calculator in
  Forall (Forall (Forall (delivered pad))) (first :: rest) ->
  eval first = Ok first_c ->
  Forall2 (fun batches c => eval batches = Ok c) rest rest_c ->
  exists c, eval (concat (first :: rest)) = Ok c
    /\ merge_state (metric first_c) (map metric rest_c) = metric c.
Proof.
  intros text word decode split ud wd blank pad first first_c rest rest_c DP eval D E0 F.
  inversion D as [|? ? D0 D']; subst. clear D. rename D' into D.
  assert (A : forall bs c0 c1 c, Forall (Forall (delivered pad)) bs ->
    eval bs = Ok c -> exists c', evaluate decode split ud wd blank pad c0 bs = Ok c'
      /\ (c1 = c0 -> metric c' = merge_state (metric c0) [metric c])).
  { intros bs c0 c1 c Db Eb.
    assert (X : exists c', evaluate decode split ud wd blank pad c0 bs = Ok c').
    { revert c0. generalize (@new_calculator text) c Eb. unfold eval in Eb. clear Eb Db.
      unfold eval. clear eval E0 F. assert (P : forall bs s c, evaluate decode split ud wd blank pad s bs = Ok c ->
        forall c0, exists c', evaluate decode split ud wd blank pad c0 bs = Ok c').
      { clear. induction bs as [|b bs IH]; intros s c H c0; [simpl; eauto|]. simpl in *.
        unfold compute_wer in *. destruct (pad_seqs _ _) as [[hs ls]|]; [|discriminate]. eapply IH; eassumption. }
      intros s c' Eb c0. eapply P. exact Eb. }
    destruct X as [c' E']. exists c'. split; [exact E'|]. intros _.
    destruct (evaluate_ok decode split ud wd blank pad DP bs _ _ Db E') as (M & _ & _).
    destruct (evaluate_ok decode split ud wd blank pad DP bs _ _ Db Eb) as (M' & _ & _).
    rewrite M, M', !fold_add, merge_sum. simpl. f_equal; unfold zsum; lia. }
  assert (B : forall c0, exists c, evaluate decode split ud wd blank pad c0 (concat rest) = Ok c
    /\ merge_state (metric c0) (map metric rest_c) = metric c).
  { clear E0 D0. revert rest_c F. induction D as [|bs rest Db D IH]; intros rest_c F c0; inversion F; subst.
    - exists c0. split; reflexivity.
    - destruct (A bs c0 c0 y Db H1) as (c1 & E1 & M1).
      destruct (IH l' H3 c1) as (c & E & M). exists c. simpl concat. rewrite evaluate_app, E1. split; [exact E|].
      rewrite <- M, M1 by reflexivity. reflexivity. }
  simpl concat. unfold eval in *. rewrite evaluate_app, E0. apply B.
Qed.

(** ** C84: what is reported

    The rates are the errors per hundred units and words of the references. *)
Theorem C84_rates : forall m,
  (0 < unit_len m)%Z -> (0 < word_len m)%Z ->
  let '(uer, wer) := compute m in
  (uer * inject_Z (unit_len m) == 100 * inject_Z (unit_err m))%Q
  /\ (wer * inject_Z (word_len m) == 100 * inject_Z (word_err m))%Q.
Proof.
  intros m U W. unfold compute.
  destruct (Z.eqb_spec (unit_len m) 0); [lia|]. destruct (Z.eqb_spec (word_len m) 0); [lia|]. simpl.
  rewrite !inject_Z_mult. split; field; unfold Qeq; simpl; lia.
Qed.

(** They are in the metric values that are logged, and from which the score of
    the validation is taken, if both are at least one percent; nothing else is
    changed. *)
Lemma lookup_remove : forall k k' vs, lookup k (remove k' vs) = if String.eqb k k' then None else lookup k vs.
Proof.
  intros k k' vs. induction vs as [|[x v] vs IH]; simpl; [destruct (String.eqb k k'); reflexivity|].
  destruct (String.eqb_spec k' x) as [->|N]; simpl; rewrite IH.
  - destruct (String.eqb_spec k x); reflexivity.
  - destruct (String.eqb_spec k x) as [->|M].
    + destruct (String.eqb_spec x k'); [congruence|reflexivity].
    + reflexivity.
Qed.

Lemma lookup_set : forall k k' v vs, lookup k (set k' v vs) = if String.eqb k k' then Some v else lookup k vs.
Proof. intros. unfold set. simpl. rewrite lookup_remove. destruct (String.eqb k k'); reflexivity. Qed.

Theorem C84_reported_partial : forall vs uer wer,
  lookup "wer" vs = Some (Pair uer wer) -> (1 <= uer)%Q -> (1 <= wer)%Q ->
  lookup "wer" (process_metric_values vs) = Some (Number wer)
  /\ lookup "uer" (process_metric_values vs) = Some (Number uer)
  /\ forall k, k <> "wer"%string -> k <> "uer"%string -> lookup k (process_metric_values vs) = lookup k vs.
Proof.
  intros vs uer wer L U W. unfold process_metric_values. rewrite L.
  apply Qle_bool_iff in U, W. rewrite U, W. cbn [andb].
  repeat split; intros; rewrite !lookup_set, ?lookup_remove; try reflexivity.
  destruct (String.eqb_spec k "wer"); [contradiction|]. destruct (String.eqb_spec k "uer"); [contradiction|].
  reflexivity.
Qed.

Example C84_reported_case :
  lookup "wer" (process_metric_values [("ctc_loss"%string, Number 3); ("wer"%string, Pair 20 40)]) = Some (Number 40)
  /\ lookup "ctc_loss" (process_metric_values [("ctc_loss"%string, Number 3); ("wer"%string, Pair 20 40)]) = Some (Number 3).
Proof. split; reflexivity. Qed.

(** The full statement, that rates which could be computed are reported, is
    false for good models: as soon as one of the two rates is below one
    percent -- a perfect transcript of everything included -- neither is
    reported, and a validation whose score is the word error rate finds none. *)
Theorem C84_reported_refuted : forall m vs,
  (0 < unit_len m)%Z -> (0 < word_len m)%Z ->
  (100 * unit_err m < unit_len m \/ 100 * word_err m < word_len m)%Z ->
  lookup "wer" vs = Some (Pair (fst (compute m)) (snd (compute m))) ->
  lookup "wer" (process_metric_values vs) = None
  /\ lookup "uer" (process_metric_values vs) = lookup "uer" vs.
Proof.
  intros m vs U W S L. unfold process_metric_values. rewrite L.
  assert (X : Qle_bool 1 (fst (compute m)) && Qle_bool 1 (snd (compute m)) = false).
  { pose proof (C84_rates m U W) as R. destruct (compute m) as [uer wer]. cbn [fst snd]. destruct R as [RU RW].
    apply not_true_is_false. intro T. apply andb_prop in T. destruct T as [T1 T2].
    apply Qle_bool_iff in T1, T2.
    assert (G : forall r e n, (0 < n)%Z -> (r * inject_Z n == 100 * inject_Z e)%Q -> (1 <= r)%Q -> (n <= 100 * e)%Z).
    { clear. intros r e n P E H.
      assert (I : (inject_Z n <= r * inject_Z n)%Q).
      { rewrite <- (Qmult_1_l (inject_Z n)) at 1. apply Qmult_le_compat_r; [exact H|].
        change 0%Q with (inject_Z 0). rewrite <- Zle_Qle. lia. }
      rewrite E in I. change 100%Q with (inject_Z 100) in I. rewrite <- inject_Z_mult, <- Zle_Qle in I. exact I. }
    destruct S as [S|S]; [specialize (G _ _ _ U RU T1)|specialize (G _ _ _ W RW T2)]; lia. }
  rewrite X, !lookup_remove. split; reflexivity.
Qed.

Example C84_reported_refuted_case :
  let m := {| unit_err := 0; unit_len := 1000; word_err := 0; word_len := 200 |}%Z in
  lookup "wer" (process_metric_values [("wer"%string, Pair (fst (compute m)) (snd (compute m)))]) = None.
Proof. intro m. refine (proj1 (C84_reported_refuted m _ _ _ _ _)); vm_compute; auto. Qed.

Print Assumptions C84_transcript.
Print Assumptions C84_counts_partial.
Print Assumptions C84_accepted.
Print Assumptions C84_counts_refuted.
Print Assumptions C84_ranks.
Print Assumptions C84_rates.
Print Assumptions C84_reported_partial.
Print Assumptions C84_reported_refuted.
