(** Proofs about shuffle. *)

From Coq Require Import Lia Permutation.
From Verif Require Import DP_Base DP_Spec DP_Sources_Model DP_Bucketing_Model DP_Laws DP_Sources_Proofs DP_Sources_Proofs2
  DP_Multi_Lemmas.

(** ** Vectors *)
Lemma upd_app {A} (p : list A) d q x : upd (p ++ d :: q) (length p) x = p ++ x :: q.
Proof. induction p as [|a p IH]; simpl; congruence. Qed.

Lemma upd_perm {A} (l : list A) i a x : nth_error l i = Some a -> Permutation (x :: l) (a :: upd l i x).
Proof.
  intros H. destruct (nth_error_split l i H) as (p & q & -> & <-). rewrite upd_app.
  rewrite (Permutation_app_comm p (a :: q)), (Permutation_app_comm p (x :: q)). simpl.
  apply perm_swap.
Qed.

Lemma upd_firstn {A} (l : list A) i x n : firstn n (upd l i x) = upd (firstn n l) i x.
Proof.
  revert i n. induction l as [|y l IH]; intros i n; [destruct n; destruct i; reflexivity|].
  destruct n, i; simpl; auto. f_equal. apply IH.
Qed.

Lemma upd_skipn_ge {A} (l : list A) i x n : i < n -> skipn n (upd l i x) = skipn n l.
Proof.
  revert i n. induction l as [|y l IH]; intros i n H; [destruct i; reflexivity|].
  destruct n as [|n]; [lia|]. destruct i; simpl; auto. apply IH. lia.
Qed.

Lemma upd_firstn_le {A} (l : list A) i x n : n <= i -> firstn n (upd l i x) = firstn n l.
Proof.
  revert i n. induction l as [|y l IH]; intros i n H; [destruct i; reflexivity|].
  destruct n as [|n]; [reflexivity|]. destruct i; [lia|]. simpl. f_equal. apply IH. lia.
Qed.

Lemma swap_perm {A} (l : list A) i j : Permutation l (swap l i j).
Proof.
  unfold swap. destruct (nth_error l i) as [a|] eqn:Ei; [|reflexivity].
  destruct (nth_error l j) as [b|] eqn:Ej; [|reflexivity].
  apply (Permutation_cons_inv (a := b)).
  rewrite (upd_perm l i a b Ei). apply upd_perm.
  destruct (Nat.eq_dec i j) as [->|Hne].
  - rewrite nth_error_upd_eq; [reflexivity|]. apply nth_error_Some. congruence.
  - rewrite nth_error_upd_ne by assumption. assumption.
Qed.

Lemma swap_length {A} (l : list A) i j : length (swap l i j) = length l.
Proof. symmetry. apply Permutation_length, swap_perm. Qed.

Lemma nth_error_firstn {A} (l : list A) n i : i < n -> nth_error (firstn n l) i = nth_error l i.
Proof.
  revert n i. induction l as [|a l IH]; intros n i H; [rewrite firstn_nil; reflexivity|].
  destruct n; [lia|]. destruct i; simpl; auto. apply IH. lia.
Qed.

Lemma swap_firstn {A} (l : list A) i j n : i < n -> j < n -> firstn n (swap l i j) = swap (firstn n l) i j.
Proof.
  intros Hi Hj. unfold swap. rewrite !nth_error_firstn by assumption.
  destruct (nth_error l i); [|reflexivity]. destruct (nth_error l j); [|reflexivity].
  rewrite !upd_firstn. reflexivity.
Qed.

Lemma swap_skipn {A} (l : list A) i j n : i < n -> j < n -> skipn n (swap l i j) = skipn n l.
Proof.
  intros Hi Hj. unfold swap. destruct (nth_error l i); [|reflexivity]. destruct (nth_error l j); [|reflexivity].
  rewrite !upd_skipn_ge by assumption. reflexivity.
Qed.

Lemma fisher_yates_spec rnd s g b : forall n, s <= n ->
  length (snd (fisher_yates rnd s g b)) = length b /\
  Permutation (firstn n b) (firstn n (snd (fisher_yates rnd s g b))) /\
  skipn n (snd (fisher_yates rnd s g b)) = skipn n b.
Proof.
  revert g b. induction s as [|s IH]; intros g b n Hn; [simpl; auto|].
  destruct s as [|s]; [simpl; auto|].
  set (idx := Z.to_nat (rnd (fst g) (snd g) mod Z.of_nat (S (S s)))).
  assert (Hidx : idx < n).
  { unfold idx. pose proof (Z.mod_pos_bound (rnd (fst g) (snd g)) (Z.of_nat (S (S s))) ltac:(lia)). lia. }
  change (fisher_yates rnd (S (S s)) g b) with (fisher_yates rnd (S s) (fst g, S (snd g)) (swap b (S s) idx)).
  destruct (IH (fst g, S (snd g)) (swap b (S s) idx) n ltac:(lia)) as (H1 & H2 & H3).
  split; [rewrite H1; apply swap_length|]. split.
  - rewrite <- H2, swap_firstn by lia. apply swap_perm.
  - rewrite H3. apply swap_skipn; lia.
Qed.

(** ** The specification *)
Lemma shuffled_perm_l b b' rest out : Permutation b b' -> shuffled b rest out -> shuffled b' rest out.
Proof.
  intros HP H. inv H.
  - apply Permutation_nil in HP. subst. constructor.
  - econstructor; [|eassumption]. rewrite <- HP. assumption.
  - econstructor; [|eassumption]. rewrite <- HP. assumption.
Qed.

Lemma shuffled_permutation b rest out : shuffled b rest out -> Permutation out (b ++ rest).
Proof.
  induction 1 as [|b d b' x rest out HP H IH|b d b' out HP H IH].
  - constructor.
  - rewrite HP, IH. simpl. constructor. rewrite Permutation_middle. reflexivity.
  - rewrite HP, IH. simpl. constructor. reflexivity.
Qed.

Section ShuffleP.
  Variable rnd : Z -> nat -> Z.
  Variable moved : data -> data.
  Variable window : nat.
  Variable seed0 : Z.
  Variable I : source.
  Notation sh := (src_shuffle rnd moved window seed0 I).

  Lemma sh_read_mono : mono I -> forall k m m' lim acc s r, m <= m' ->
    sh_read I m k lim acc s = Some r -> sh_read I m' k lim acc s = Some r.
  Proof.
    intros HM k. induction k as [|k IH]; intros m m' lim acc s r Hm H; simpl in *; auto.
    destruct (next I m s) as [[o s']|] eqn:E; [|discriminate]. rewrite (HM _ _ _ _ Hm E). destruct o; eauto.
  Qed.

  Lemma sh_read_unlim : mono I -> forall k k' m m' acc s r, k <= k' -> m <= m' ->
    sh_read I m k false acc s = Some r -> sh_read I m' k' false acc s = Some r.
  Proof.
    intros HM k. induction k as [|k IH]; intros k' m m' acc s r Hk Hm H; [discriminate|].
    destruct k' as [|k']; [lia|]. simpl in *.
    destruct (next I m s) as [[o s']|] eqn:E; [|discriminate]. rewrite (HM _ _ _ _ Hm E). destruct o; auto.
    eapply IH; [| |eassumption]; lia.
  Qed.

  Lemma sh_emit_mono : mono I -> forall n m x r, n <= m ->
    sh_emit rnd moved I n x = Some r -> sh_emit rnd moved I m x = Some r.
  Proof.
    intros HM n m x r Hn H. destruct x as [b pos en fl sd g s]. unfold sh_emit in *.
    destruct (pos =? en); auto.
    destruct (if pos =? 0 then fisher_yates rnd en g b else (g, b)) as [g1 b1].
    destruct (nth_error b1 pos); auto. destruct (en =? length b1); auto.
    destruct (next I n s) as [[o s']|] eqn:E; [|discriminate]. rewrite (HM _ _ _ _ Hn E). assumption.
  Qed.

  Lemma shuffle_mono : mono I -> mono sh.
  Proof.
    intros HM n m x r Hn H. simpl in *. destruct x as [b pos en fl sd g s]. unfold sh_next in *.
    destruct (window =? 1).
    - destruct (next I n s) as [[o s']|] eqn:E; [|discriminate]. rewrite (HM _ _ _ _ Hn E). assumption.
    - destruct fl; [|eapply sh_emit_mono; eassumption].
      destruct (sh_read I n _ _ b s) as [[[b' e] s']|] eqn:E; [|discriminate].
      assert (E' : sh_read I m (if window =? 0 then m else window) (negb (window =? 0)) b s = Some (b', e, s')).
      { destruct (window =? 0); simpl in *; [eapply sh_read_unlim|eapply sh_read_mono]; eassumption. }
      rewrite E'. destruct e; auto. eapply sh_emit_mono; eassumption.
  Qed.

  (** *** Contents *)
  Definition live (b : list data) (pos en : nat) : list data :=
    if en =? length b then b
    else if en <? pos then firstn en b ++ skipn pos b
    else skipn pos (firstn en b).

  Definition sh_rep (x : sh_st I) (a : list data * list data) : Prop :=
    let '(ShSt b pos en fl sd g s) := x in
    let (B, rest) := a in
    if fl then b = [] /\ holds I s (B ++ rest) /\ (if window =? 0 then rest = [] else (rest = [] /\ length B <= window) \/ length B = window)
    else Permutation B (live b pos en) /\ holds I s rest /\ en <= length b /\ (en < length b -> rest = []) /\
         (b = [] /\ pos = 0 \/ pos < length b) /\ (b = [] -> rest = []).

  Lemma sh_emit_run x B rest : mono I -> sh_fill x = false -> sh_rep x (B, rest) ->
    match B with
    | [] => rest = [] /\ exists n, sh_emit rnd moved I n x = Some (Eod, x)
    | _ => exists n d x' B' rest', sh_emit rnd moved I n x = Some (Val d, x') /\ sh_rep x' (B', rest') /\
             length B' + length rest' = pred (length B + length rest) /\
             forall l, shuffled B' rest' l -> shuffled B rest (d :: l)
    end.
  Proof.
    intros HM Hf HR. destruct x as [b pos en fl sd g s]. simpl in Hf. subst fl.
    destruct HR as (HP & Hh & Hen & Hr & Hpos & Hb0). 
    assert (HE : B = [] <-> pos = en).
    { split; intros HE.
      - subst B. apply Permutation_nil in HP. unfold live in HP.
        destruct (Nat.eqb_spec en (length b)) as [He|He].
        + subst b. simpl in *. destruct Hpos; [lia|lia].
        + destruct (Nat.ltb_spec en pos) as [Hl|Hl].
          * apply app_eq_nil in HP. destruct HP as [_ HP]. apply (f_equal (@length _)) in HP.
            rewrite skipn_length in HP. simpl in HP. lia.
          * apply (f_equal (@length _)) in HP. rewrite skipn_length, firstn_length in HP. simpl in HP. lia.
      - subst pos. assert (HL : live b en en = []).
        { unfold live. destruct (Nat.eqb_spec en (length b)) as [He|He].
          - destruct Hpos as [[-> _]|]; [reflexivity|lia].
          - rewrite Nat.ltb_irrefl. rewrite skipn_all2; [reflexivity|]. rewrite firstn_length; lia. }
        rewrite HL in HP. apply Permutation_sym in HP. apply Permutation_nil in HP. assumption. }
    destruct B as [|d0 B0] eqn:EB.
    - assert (pos = en) by (apply HE; reflexivity). subst pos. split.
      + destruct (Nat.eq_dec en (length b)) as [He|He]; [|apply Hr; lia].
        destruct Hpos as [[-> _]|]; [apply Hb0; reflexivity|lia].
      + exists 0. unfold sh_emit. rewrite Nat.eqb_refl. reflexivity.
    - rewrite <- EB in *. assert (HBne : B <> []) by congruence.
      assert (Hne : pos <> en) by (intros HX; apply HE in HX; congruence).
      assert (Hpos' : pos < length b).
      { destruct Hpos as [[-> ->]|]; [|assumption]. simpl in Hen. lia. }
      clear Hpos HE.
      destruct (if pos =? 0 then fisher_yates rnd en g b else (g, b)) as [g1 b1] eqn:Eg.
      assert (HB1 : length b1 = length b /\ Permutation B (live b1 pos en)).
      { destruct (Nat.eqb_spec pos 0) as [->|]; [|inv Eg; auto].
        destruct (fisher_yates_spec rnd en g b en ltac:(lia)) as (H1 & H2 & H3). rewrite Eg in *. simpl in *.
        split; [assumption|]. rewrite HP. unfold live. rewrite H1.
        destruct (Nat.eqb_spec en (length b)) as [He|He].
        - rewrite He in H2. rewrite firstn_all in H2. rewrite <- H1, firstn_all in H2. assumption.
        - simpl. assumption. }
      destruct HB1 as [HL1 HP1].
      destruct (nth_error b1 pos) as [d|] eqn:Ed; [|apply nth_error_None in Ed; lia].
      destruct (nth_error_split b1 pos Ed) as (p & q & Eb1 & Epos).
      set (wrap := if S pos =? length b1 then 0 else S pos).
      assert (Hwrap : wrap < length b1) by (unfold wrap; destruct (Nat.eqb_spec (S pos) (length b1)); lia).
      destruct (Nat.eq_dec en (length b)) as [He|He].
      + (* the inner source may have more *)
        assert (HEm : forall n, sh_emit rnd moved I n (ShSt b pos en false sd g s) =
           match next I n s with
           | None => None
           | Some (Val d', s') => Some (Val d, ShSt (upd b1 pos d') wrap en false sd g1 s')
           | Some (Eod, s') => Some (Val d, ShSt (upd b1 pos (moved d)) wrap pos false sd g1 s')
           | Some (Err e, s') => Some (Err e, ShSt (upd b1 pos (moved d)) pos en false sd g1 s')
           end).
        { intros n. unfold sh_emit. destruct (Nat.eqb_spec pos en); [congruence|]. rewrite Eg, Ed.
          rewrite HL1, He, Nat.eqb_refl. rewrite <- HL1. reflexivity. }
        assert (HBp : Permutation B (d :: p ++ q)).
        { rewrite HP1. unfold live. rewrite HL1, He, Nat.eqb_refl, Eb1. symmetry. apply Permutation_middle. }
        pose proof (holds_step I HM _ _ Hh) as HN. destruct rest as [|y rest].
        * destruct HN as (n & s' & Hn & Hs').
          exists n, d, (ShSt (upd b1 pos (moved d)) wrap pos false sd g1 s'), (p ++ q), [].
          split; [rewrite HEm, Hn; reflexivity|].
          assert (HLv : live (upd b1 pos (moved d)) wrap pos = p ++ q).
          { unfold live. rewrite upd_length. destruct (Nat.eqb_spec pos (length b1)); [lia|].
            assert (HWc : (q = [] /\ wrap = 0) \/ wrap = S (length p)).
            { unfold wrap. rewrite Eb1, app_length, <- Epos. cbn [length].
              destruct (Nat.eqb_spec (S (length p)) (length p + S (length q))); [left|right; reflexivity].
              split; [|reflexivity]. destruct q; [reflexivity|simpl in *; lia]. }
            rewrite Eb1, <- Epos, upd_app. destruct HWc as [[-> ->]| ->].
            - simpl. rewrite firstn_app, firstn_all, Nat.sub_diag. reflexivity.
            - destruct (Nat.ltb_spec (length p) (S (length p))); [|lia].
              rewrite firstn_app, firstn_all, Nat.sub_diag, skipn_app. rewrite firstn_O, app_nil_r. f_equal.
              rewrite skipn_all2 by lia. replace (S (length p) - length p) with 1 by lia. reflexivity. }
          split; [|split].
          -- unfold sh_rep. rewrite HLv, upd_length. repeat split; auto; try apply Hs'; try lia.
             all: try (intros; reflexivity).
          -- simpl. rewrite (Permutation_length HBp). simpl. lia.
          -- intros l Hl. eapply shuf_drain; [exact HBp|assumption].
        * destruct HN as (n & s' & Hn & Hs').
          exists n, d, (ShSt (upd b1 pos y) wrap en false sd g1 s'), (upd b1 pos y), rest.
          split; [rewrite HEm, Hn; reflexivity|]. split; [|split].
          -- unfold sh_rep, live. rewrite upd_length, HL1, He, Nat.eqb_refl.
             split; [reflexivity|]. split; [assumption|]. split; [lia|]. split; [lia|].
             split; [right; lia|]. intros E. apply (f_equal (@length _)) in E. rewrite upd_length in E. simpl in E. lia.
          -- rewrite upd_length. rewrite (Permutation_length HBp).
             rewrite Eb1, app_length. simpl. rewrite app_length. lia.
          -- intros l Hl. eapply shuf_next; [exact HBp|]. eapply shuffled_perm_l; [|exact Hl].
             rewrite Eb1, <- Epos, upd_app. symmetry. apply Permutation_middle.
      + (* draining *)
        assert (rest = []) by (apply Hr; lia). subst rest.
        exists 0, d, (ShSt (upd b1 pos (moved d)) wrap en false sd g1 s), (live (upd b1 pos (moved d)) wrap en), [].
        assert (HBp : Permutation B (d :: live (upd b1 pos (moved d)) wrap en)).
        { rewrite HP1. clear -HL1 Hpos' He Hen Hne Ed Eb1 Epos.
          assert (HL : live b1 pos en = if en <? pos then firstn en b1 ++ skipn pos b1 else skipn pos (firstn en b1)).
          { unfold live. destruct (Nat.eqb_spec en (length b1)); [lia|reflexivity]. }
          rewrite HL. clear HL.
          assert (HS : forall l, nth_error l pos = Some d -> skipn pos l = d :: skipn (S pos) l).
          { clear. intros l. revert pos. induction l as [|a l IH]; intros [|pos] H; simpl in *; try discriminate; [congruence|].
            rewrite (IH _ H). reflexivity. }
          unfold live. rewrite upd_length. destruct (Nat.eqb_spec en (length b1)); [lia|].
          destruct (Nat.ltb_spec en pos) as [Hl|Hl].
          - rewrite (HS b1 Ed). unfold wrap. destruct (Nat.eqb_spec (S pos) (length b1)).
            + change (en <? 0) with false. cbv iota. rewrite skipn_O, upd_firstn_le by lia. rewrite skipn_all2 by lia.
              rewrite Permutation_app_comm. reflexivity.
            + destruct (Nat.ltb_spec en (S pos)); [|lia]. rewrite upd_firstn_le by lia.
              rewrite upd_skipn_ge by lia. symmetry. apply Permutation_middle.
          - assert (Hl' : pos < en) by lia.
            rewrite (HS (firstn en b1)) by (rewrite nth_error_firstn; assumption).
            unfold wrap. destruct (Nat.eqb_spec (S pos) (length b1)); [lia|].
            destruct (Nat.ltb_spec en (S pos)); [lia|].
            rewrite upd_firstn, upd_skipn_ge by lia. reflexivity. }
        split; [|split; [|split]].
        * unfold sh_emit. destruct (Nat.eqb_spec pos en); [congruence|]. rewrite Eg, Ed.
          destruct (Nat.eqb_spec en (length b1)); [lia|]. reflexivity.
        * unfold sh_rep. rewrite upd_length. repeat split; auto; try apply Hh; try lia.
        * rewrite (Permutation_length HBp). simpl. lia.
        * intros l Hl. eapply shuf_drain; eassumption.
  Qed.

  Lemma sh_read_run : mono I -> forall B acc s rest, holds I s (B ++ rest) ->
    exists m s', sh_read I m (length B) true acc s = Some (acc ++ B, None, s') /\ holds I s' rest.
  Proof.
    intros HM B. induction B as [|d B IH]; intros acc s rest Hh; simpl in *.
    - exists 0, s. rewrite app_nil_r. auto.
    - destruct (holds_step I HM _ _ Hh) as (n & s1 & Hn & Hs1).
      destruct (IH (acc ++ [d]) s1 rest Hs1) as (m & s' & H1 & H2). exists (n + m), s'. split; auto.
      rewrite (HM n (n + m) _ _ ltac:(lia) Hn). rewrite <- app_assoc in H1. eapply sh_read_mono; [assumption| |eassumption]. lia.
  Qed.

  Lemma sh_read_all : mono I -> forall B acc s k lim, holds I s B -> length B < k ->
    exists m s', sh_read I m k lim acc s = Some (acc ++ B, None, s') /\ holds I s' [].
  Proof.
    intros HM B. induction B as [|d B IH]; intros acc s k lim Hh Hk; simpl in *; (destruct k as [|k]; [lia|]).
    - destruct (holds_step I HM _ _ Hh) as (n & s1 & Hn & Hs1). exists n, s1. simpl. rewrite Hn, app_nil_r. auto.
    - destruct (holds_step I HM _ _ Hh) as (n & s1 & Hn & Hs1).
      destruct (IH (acc ++ [d]) s1 k lim Hs1 ltac:(lia)) as (m & s' & H1 & H2). exists (n + m), s'. split; auto. simpl.
      rewrite (HM n (n + m) _ _ ltac:(lia) Hn). rewrite <- app_assoc in H1. eapply sh_read_mono; [assumption| |eassumption]. lia.
  Qed.

  (** The first call fills the buffer. *)
  Lemma sh_fill_run pos en sd g s B rest : mono I -> window <> 1 -> sh_rep (ShSt [] pos en true sd g s) (B, rest) ->
    exists n0 s', holds I s' rest /\
      sh_rep (ShSt B 0 (length B) false sd g s') (B, rest) /\
      forall n, n0 <= n ->
        sh_next rnd moved window I n (ShSt [] pos en true sd g s) =
        sh_emit rnd moved I n (ShSt B 0 (length B) false sd g s').
  Proof.
    intros HM Hw (_ & Hh & HB).
    assert (HX : exists n0 s', holds I s' rest /\ forall n, n0 <= n ->
       sh_read I n (if window =? 0 then n else window) (negb (window =? 0)) [] s = Some (B, None, s')).
    { destruct (Nat.eqb_spec window 0) as [Hw0|Hw0].
      - subst rest. rewrite app_nil_r in Hh.
        destruct (sh_read_all HM B [] s (S (length B)) false Hh ltac:(lia)) as (m & s' & H1 & H2).
        exists (m + S (length B)), s'. split; auto. intros n Hn. eapply sh_read_unlim; [assumption| | |exact H1]; lia.
      - assert (HC : (rest = [] /\ length B < window) \/ length B = window) by
          (destruct HB as [[-> HB]|HB]; [destruct (Nat.eq_dec (length B) window)|]; auto; left; split; auto; lia).
        destruct HC as [[-> HC]|HC].
        + rewrite app_nil_r in Hh.
          destruct (sh_read_all HM B [] s window true Hh HC) as (m & s' & H1 & H2).
          exists m, s'. split; auto. intros n Hn. eapply sh_read_mono; [assumption|exact Hn|exact H1].
        + destruct (sh_read_run HM B [] s rest Hh) as (m & s' & H1 & H2). rewrite HC in H1.
          exists m, s'. split; auto. intros n Hn. eapply sh_read_mono; [assumption|exact Hn|exact H1]. }
    destruct HX as (n0 & s' & Hs' & HX). exists n0, s'. split; [assumption|]. split.
    - unfold sh_rep, live. rewrite Nat.eqb_refl. split; [reflexivity|]. split; [assumption|].
      split; [lia|]. split; [lia|]. split; [destruct B; [left; auto|right; simpl; lia]|].
      intros ->. destruct (window =? 0) eqn:E; [assumption|]. apply Nat.eqb_neq in E. simpl in HB. destruct HB as [[? ?]|]; [assumption|lia].
    - intros n Hn. unfold sh_next. destruct (Nat.eqb_spec window 1); [contradiction|]. rewrite (HX n Hn). reflexivity.
  Qed.

  Lemma shuffle_holds_rel x a : mono I -> window <> 1 -> sh_rep x a ->
    exists l, shuffled (fst a) (snd a) l /\ holds sh x l.
  Proof.
    intros HM Hw HR.
    destruct (rel_holds sh _ sh_rep (fun a l => shuffled (fst a) (snd a) l) (fun a => length (fst a) + length (snd a)))
      with (s := x) (a := a) as (l & H1 & H2 & _); eauto using shuffle_mono.
    - clear x a HR. intros x [B rest] HR Hz. simpl in *. destruct B; [|simpl in Hz; lia]. destruct rest; [|simpl in Hz; lia].
      split; [constructor|]. destruct (sh_fill x) eqn:Ef.
      + destruct x as [b pos en fl sd g s]. simpl in Ef. subst fl. pose proof HR as (Hb & _). subst b.
        destruct (sh_fill_run pos en sd g s [] [] HM Hw HR) as (n0 & s' & Hs' & HR' & HX).
        eexists n0, _, ([], []). rewrite HX by lia. unfold sh_emit. simpl.
        split; [reflexivity|]. split; [exact HR'|reflexivity].
      + destruct (sh_emit_run x [] [] HM Ef HR) as (_ & n & Hn). exists n, x, ([], []).
        split; [|auto]. unfold sh_next. destruct x as [b pos en fl sd g s]. simpl in Ef. subst fl.
        destruct (Nat.eqb_spec window 1); [contradiction|]. assumption.
    - clear x a HR. intros x [B rest] k HR Hk. simpl in *.
      assert (HBne : B <> []).
      { intros ->. destruct x as [b pos en fl sd g s]. unfold sh_rep in HR. destruct fl.
        - destruct HR as (_ & _ & HW). destruct (Nat.eqb_spec window 0).
          + subst rest. simpl in Hk. lia.
          + simpl in HW. destruct HW as [[-> _]|]; [simpl in Hk|]; lia.
        - destruct (sh_emit_run (ShSt b pos en false sd g s) [] rest HM eq_refl HR) as (-> & _). simpl in Hk. lia. }
      destruct (sh_fill x) eqn:Ef.
      + destruct x as [b pos en fl sd g s]. simpl in Ef. subst fl. pose proof HR as (Hb & _). subst b.
        destruct (sh_fill_run pos en sd g s B rest HM Hw HR) as (n0 & s' & Hs' & HR' & HX).
        pose proof (sh_emit_run (ShSt B 0 (length B) false sd g s') B rest HM eq_refl HR') as HE. destruct B as [|d0 B0]; [contradiction|].
        destruct HE as (n & d & x' & B' & rest' & He & Hrep & Hsz & Hout).
        exists (n0 + n), d, x', (B', rest'). rewrite HX by lia. split; [eapply sh_emit_mono; [assumption| |exact He]; lia|].
        split; [assumption|]. split; [simpl fst; simpl snd; rewrite Hsz, Hk; reflexivity|]. assumption.
      + pose proof (sh_emit_run x B rest HM Ef HR) as HE. destruct B as [|d0 B0]; [contradiction|].
        destruct HE as (n & d & x' & B' & rest' & He & Hrep & Hsz & Hout).
        exists n, d, x', (B', rest'). split.
        * unfold sh_next. destruct x as [b pos en fl sd g s]. simpl in Ef. subst fl.
          destruct (Nat.eqb_spec window 1); [contradiction|]. assumption.
        * split; [assumption|]. split; [simpl fst; simpl snd; rewrite Hsz, Hk; reflexivity|]. assumption.
  Qed.

  Lemma shuffled_window1 L : forall d out, shuffled [d] L out -> out = d :: L.
  Proof.
    induction L as [|x L IH]; intros d out H; inv H.
    - apply Permutation_length_1_inv in H0. inv H0. inv H1; [reflexivity|].
      match goal with HX : Permutation [] _ |- _ => apply Permutation_nil in HX; discriminate end.
    - apply Permutation_length_1_inv in H3. inv H3. f_equal. apply IH. assumption.
  Qed.

  Lemma shuffled_exists1 L : forall d, shuffled [d] L (d :: L).
  Proof.
    induction L as [|x L IH]; intros d.
    - eapply shuf_drain; [reflexivity|constructor].
    - eapply shuf_next; [reflexivity|]. apply IH.
  Qed.

  (** Started from the beginning. *)
  Lemma shuffle_holds sd g pos en s L : mono I -> holds I s L ->
    exists l, shuffle_spec window L l /\ holds sh (ShSt [] pos en true sd g s) l.
  Proof.
    intros HM Hh. destruct (Nat.eq_dec window 1) as [Hw|Hw].
    - exists L. split.
      + unfold shuffle_spec. rewrite Hw. simpl. destruct L; [constructor|]. simpl. apply shuffled_exists1.
      + apply (progress_holds sh (fun (x : sh_st I) l => holds I (sh_in x) l)); [apply shuffle_mono; assumption| |assumption].
        clear -Hw HM. intros [b pos en fl sd g s] l Hh. simpl in *.
        pose proof (holds_step I HM _ _ Hh) as HN. unfold sh_next. rewrite Hw, Nat.eqb_refl.
        destruct l; destruct HN as (n & s' & Hn & Hs'); exists n; rewrite Hn; eexists; split; try reflexivity; assumption.
    - unfold shuffle_spec. destruct (Nat.eqb_spec window 0) as [Hw0|Hw0].
      + destruct (shuffle_holds_rel (ShSt [] pos en true sd g s) (L, []) HM Hw) as (l & H1 & H2); [|eauto].
        unfold sh_rep. rewrite app_nil_r, Hw0. simpl. auto.
      + destruct (shuffle_holds_rel (ShSt [] pos en true sd g s) (firstn window L, skipn window L) HM Hw) as (l & H1 & H2); [|eauto].
        unfold sh_rep. rewrite firstn_skipn. split; [reflexivity|]. split; [assumption|].
        destruct (Nat.eqb_spec window 0); [contradiction|].
        rewrite firstn_length. destruct (Nat.le_gt_cases window (length L)).
        * right. lia.
        * left. split; [apply skipn_all2; lia|lia].
  Qed.

  (** *** Positions *)
  Definition sh_R (x y : sh_st I) : Prop :=
    sh_buf x = sh_buf y /\ sh_pos x = sh_pos y /\ sh_end x = sh_end y /\ sh_fill x = sh_fill y /\
    sh_seed x = sh_seed y /\ sh_gen x = sh_gen y /\ equiv I (sh_in x) (sh_in y).

  Lemma sh_R_mk b pos en fl sd g s s' : equiv I s s' -> sh_R (ShSt b pos en fl sd g s) (ShSt b pos en fl sd g s').
  Proof. intros H. repeat split; auto. Qed.

  Lemma sh_emit_equiv n b pos en fl sd g s s' : equiv I s s' ->
    res_rel sh_R (sh_emit rnd moved I n (ShSt b pos en fl sd g s)) (sh_emit rnd moved I n (ShSt b pos en fl sd g s')).
  Proof.
    intros H. unfold sh_emit. destruct (pos =? en); [simpl; auto using sh_R_mk|].
    destruct (if pos =? 0 then fisher_yates rnd en g b else (g, b)) as [g1 b1].
    destruct (nth_error b1 pos); [|simpl; auto using sh_R_mk].
    destruct (en =? length b1); [|simpl; auto using sh_R_mk].
    estep I s s' n H; [|simpl; auto]. destruct o; simpl; auto using sh_R_mk.
  Qed.

  Lemma sh_read_equiv m k lim acc s s' : equiv I s s' ->
    match sh_read I m k lim acc s, sh_read I m k lim acc s' with
    | None, None => True
    | Some (b, e, t), Some (b', e', t') => b = b' /\ e = e' /\ equiv I t t'
    | _, _ => False
    end.
  Proof.
    revert acc s s'. induction k as [|k IH]; intros acc s s' H; simpl.
    - destruct lim; auto.
    - estep I s s' m H; auto. destruct o; auto. apply IH. assumption.
  Qed.

  Lemma sh_R_bisim : bisim sh sh_R.
  Proof.
    intros [b pos en fl sd g s] [b' pos' en' fl' sd' g' s'] (H1 & H2 & H3 & H4 & H5 & H6 & H7).
    cbn [sh_buf sh_pos sh_end sh_fill sh_seed sh_gen sh_in] in *. subst.
    split; [|split].
    - intros n. cbn [next src_shuffle]. unfold sh_next. destruct (window =? 1).
      + estep I s s' n H7; simpl; auto using sh_R_mk.
      + destruct fl'; [|apply sh_emit_equiv; assumption].
        pose proof (sh_read_equiv n (if window =? 0 then n else window) (negb (window =? 0)) b' s s' H7) as HX.
        destruct (sh_read I n (if window =? 0 then n else window) (negb (window =? 0)) b' s) as [[[b1 e1] t1]|];
          destruct (sh_read I n (if window =? 0 then n else window) (negb (window =? 0)) b' s') as [[[b2 e2] t2]|];
          try (exfalso; exact HX); [|exact Logic.I].
        destruct HX as (<- & <- & HX). destruct e1; [simpl; auto using sh_R_mk|]. cbv beta iota. apply sh_emit_equiv. assumption.
    - intros rg. unfold sh_reset. simpl. apply sh_R_mk. apply equiv_reset. assumption.
    - exact (equiv_fin _ _ _ H7).
  Qed.

  Variable clean : bool.
  Variables Inv Tgt : St I -> Prop.
  Hypothesis HR : resumable clean I Inv Tgt.
  Hypothesis Hseed : (0 <= seed0 < 2 ^ 63)%Z.

  Definition sh_inv (x : sh_st I) : Prop :=
    Inv (sh_in x) /\ sh_seed x = seed0 /\
    (sh_fill x = false -> sh_end x <= length (sh_buf x) /\ (sh_pos x < length (sh_buf x) \/ sh_pos x = sh_end x)).
  Definition sh_tgt (x : sh_st I) : Prop := Tgt (sh_in x).

  Lemma sh_inv_mk b pos en fl g s : Inv s -> en <= length b -> (pos < length b \/ pos = en) ->
    sh_inv (ShSt b pos en fl seed0 g s).
  Proof. intros H1 H2 H3. split; [assumption|]. split; [reflexivity|]. intros _. split; assumption. Qed.

  Lemma sh_emit_inv n x o x' : sh_inv x -> sh_fill x = false -> sh_emit rnd moved I n x = Some (o, x') ->
    okstep clean (sh_inv x') o.
  Proof.
    destruct x as [b pos en fl sd g s]. intros (HI & Hsd & Hb) Hf H. simpl in *. subst fl sd. destruct (Hb eq_refl) as [Hb1 Hb2].
    unfold sh_emit in H. destruct (Nat.eqb_spec pos en) as [He|He].
    - inv H. repeat split; simpl; auto.
    - destruct (if pos =? 0 then fisher_yates rnd en g b else (g, b)) as [g1 b1] eqn:Eg.
      assert (HL : length b1 = length b).
      { destruct (pos =? 0); [|inv Eg; auto]. destruct (fisher_yates_spec rnd en g b en ltac:(lia)) as (H1 & _).
        rewrite Eg in H1. assumption. }
      assert (Hpl : pos < length b) by lia.
      assert (HW : (if S pos =? length b1 then 0 else S pos) < length b1)
        by (destruct (Nat.eqb_spec (S pos) (length b1)); lia).
      destruct (nth_error b1 pos) as [d|] eqn:Ed; [|apply nth_error_None in Ed; lia].
      destruct (en =? length b1).
      + destruct (next I n s) as [[o1 s']|] eqn:En; [|discriminate].
        pose proof (rs_next _ _ _ _ HR _ _ _ _ HI En) as HI'.
        destruct o1; inv H; [| |eapply okstep_impl; [exact HI'|intros HI2]]; apply sh_inv_mk; auto; rewrite upd_length; solve [lia | left; exact HW | left; lia].
      + inv H. apply sh_inv_mk; auto; rewrite upd_length; solve [lia | left; exact HW | left; lia].
  Qed.

  Lemma sh_read_inv m k lim acc s b e s' : Inv s -> sh_read I m k lim acc s = Some (b, e, s') ->
    match e with Some e => okstep clean (Inv s') (Err e) | None => Inv s' end.
  Proof.
    revert acc s. induction k as [|k IH]; intros acc s HI H; simpl in H.
    - destruct lim; inv H. auto.
    - destruct (next I m s) as [[o s1]|] eqn:En; [|discriminate].
      pose proof (rs_next _ _ _ _ HR _ _ _ _ HI En) as HI'. destruct o; [eapply IH; eassumption| |]; inv H; auto.
  Qed.

  Lemma shuffle_resumable : resumable clean sh sh_inv sh_tgt.
  Proof.
    pose proof HR as [R1 R2 R3 R4 R5]. constructor.
    - repeat split; simpl; auto; try discriminate.
    - exact R2.
    - intros n x o x' Hx H. cbn [next src_shuffle] in H. pose proof Hx as (HI & Hsd & Hb). destruct x as [b pos en fl sd g s].
      cbn [sh_in sh_seed sh_fill sh_end sh_buf sh_pos] in *. subst sd. unfold sh_next in H.
      destruct (window =? 1).
      + destruct (next I n s) as [[o1 s1]|] eqn:En; inv H. eapply okstep_impl; [exact (R3 _ _ _ _ HI En)|]. intros HI1.
        split; [assumption|]. split; [reflexivity|exact Hb].
      + destruct fl.
        * destruct (sh_read I n _ _ b s) as [[[b1 e1] s1]|] eqn:E; [|discriminate].
          pose proof (sh_read_inv _ _ _ _ _ _ _ _ HI E) as HI1.
          destruct e1; [inv H; eapply okstep_impl; [exact HI1|intros HI2; split; [|split]; simpl; auto; discriminate]|].
          eapply sh_emit_inv; [| |exact H]; [|reflexivity]. apply sh_inv_mk; auto.
          destruct b1; simpl; [auto|left; lia].
        * eapply sh_emit_inv; [exact Hx| |exact H]; reflexivity.
    - intros rg [b pos en fl sd g s] (HI & Hsd & Hb). unfold sh_inv; simpl in *. repeat split; auto; discriminate.
    - intros [b pos en fl sd g s] [b0 pos0 en0 fl0 sd0 g0 s0] (HI & Hsd & Hb) Ht. unfold sh_tgt in Ht. simpl in *. subst sd.
      destruct (R5 _ _ HI Ht) as (t & Hr & Hl). unfold sh_record. simpl. rewrite Hr.
      eexists. split; [reflexivity|]. intros rest. unfold sh_reload.
      rewrite <- !app_assoc. rewrite rd_wr_list, rd_wr_size, rd_wr_size, rd_wr_bool, (rd_wr_u64 _ _ Hseed).
      unfold rd_gen, wr_gen. rewrite rd_wr_tensor. rewrite Nat2Z.id. simpl.
      destruct (Hl rest) as (s1 & E1 & He & Hi). rewrite E1. destruct g as [ga gk]. simpl.
      eexists. split; [reflexivity|]. split.
      + exists sh_R. split; [apply sh_R_bisim|apply sh_R_mk; assumption].
      + repeat split; simpl; auto; apply Hb; assumption.
  Qed.

  Lemma shuffle_restarts : restarts I Inv true -> restarts sh sh_inv true.
  Proof.
    intros HG x (HI & Hsd & Hb). exists sh_R. split; [apply sh_R_bisim|]. simpl. unfold sh_reset. rewrite Hsd.
    apply sh_R_mk. apply HG. assumption.
  Qed.

  Lemma shuffle_any : (forall s, Inv s -> Tgt s) -> forall x, sh_inv x -> sh_tgt x.
  Proof. intros H x (HI & _). apply H. assumption. Qed.
End ShuffleP.
