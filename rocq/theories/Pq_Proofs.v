From Coq Require Import List Bool Arith Lia Permutation.
From Verif Require Import Pq_Model Pq_Spec.
Import ListNotations.

Lemma skipn_cons : forall {X} n (l : list X) x r, skipn n l = x :: r -> skipn (S n) l = r.
Proof. induction n; intros l x r H; [cbn in H; subst; auto|]. destruct l as [|a l]; [discriminate|]. cbn [skipn] in H. apply IHn in H. exact H. Qed.
Lemma skipn_add : forall {X} a b (l : list X), skipn a (skipn b l) = skipn (b + a) l.
Proof. intros X a b. induction b; intros l; auto. destruct l; [rewrite !skipn_nil; auto|]. cbn. auto. Qed.
Lemma firstn_add : forall {X} a b (l : list X), firstn (a + b) l = firstn a l ++ firstn b (skipn a l).
Proof. intros X. induction a; intros b l; auto. destruct l; [cbn; rewrite firstn_nil; auto|]. cbn. f_equal. auto. Qed.

Lemma firstn_exact : forall {X} (w d : list X) n, length w = n -> firstn n (w ++ d) = w.
Proof. intros X w d n <-. rewrite firstn_app, Nat.sub_diag, firstn_all. cbn. apply app_nil_r. Qed.
Lemma skipn_exact : forall {X} (w d : list X) n, length w = n -> skipn n (w ++ d) = d.
Proof. intros X w d n <-. rewrite skipn_app, Nat.sub_diag, skipn_all. auto. Qed.

Section P.
  Context {file frag rng : Type}.
  Variable rows : file -> list frag.
  Variable whole : file -> frag.
  Variables (split shuffle : bool).
  Variable rand_files : nat -> list file -> list file.
  Variable entropy : nat -> nat.
  Variable fragments : list file.
  Variable fraction : option (nat -> nat).
  Variable nb_files : option nat.
  Variable shift : option (nat -> nat).
  Variable window_size : nat.
  Variable nb_epoch : option nat.
  Variable seed : option nat.
  Variable seeded : nat -> rng.
  Variable shuffle_window : rng -> list frag -> rng * list frag.
  Hypothesis Hfiles : forall r l, Permutation (rand_files r l) l.
  Hypothesis Hwin : forall r l, Permutation (snd (shuffle_window r l)) l.
  Hypothesis Hdet : shuffle = false \/ seed <> None.
  Hypothesis Hw : 1 <= window_size.
  Notation truncated := (truncate_files fragments fraction nb_files).
  Notation ordered := (ordered shuffle rand_files entropy fragments fraction nb_files shift).
  Notation iter := (iter (frag := frag) shuffle rand_files entropy fragments fraction nb_files shift).
  Notation pull := (pull rows whole split).
  Notation pull_files := (pull_files rows).
  Notation rep_next := (rep_next rows whole split shuffle rand_files entropy fragments fraction nb_files shift nb_epoch seed (rng := rng)).
  Notation collect := (collect rows whole split shuffle rand_files entropy fragments fraction nb_files shift nb_epoch seed (rng := rng)).
  Notation next := (next rows whole split shuffle rand_files entropy fragments fraction nb_files shift window_size nb_epoch seed shuffle_window).
  Notation more := (more nb_epoch).
  Notation sit := (@sit file frag rng).

  Notation elements := (elements rows whole split).
  Definition seed_of (e : nat) : option nat := match seed with Some s => Some (s + e) | None => None end.
  Definition files_of (e : nat) : list file := fst (ordered (Pfs 0 0 (seed_of e)) 0).
  Lemma shift_perm : forall (l : list file) k, Permutation (circular_shift_left l k) l.
  Proof. intros l k. unfold circular_shift_left. destruct (length l <=? 1); auto. cbv zeta. rewrite Permutation_app_comm. rewrite firstn_skipn. auto. Qed.
  Lemma files_perm : forall e, Permutation (files_of e) truncated.
  Proof.
    intros e. unfold files_of, Pq_Model.ordered. cbn [p_seed]. destruct shuffle; [destruct (seed_of e)|]; cbn [fst]; destruct shift; auto; rewrite ?shift_perm; auto.
  Qed.
  Lemma ordered_det : forall b e ent, p_seed b = seed_of e -> ordered b ent = (files_of e, ent).
  Proof.
    intros b e ent E. unfold files_of, Pq_Model.ordered. rewrite E. cbn [p_seed]. destruct Hdet as [-> | N]; auto. destruct shuffle; auto. unfold seed_of. destruct seed; [auto|easy].
  Qed.

  (** ** The streamer *)
  Definition rem (b : pfs) (l : list file) : list frag :=
    if split then match skipn (nb_fully b) l with [] => [] | f :: fs => skipn (nb_cur b) (rows f) ++ flat_map rows fs end else map whole (skipn (nb_fully b) l).
  Definition good (g : gen) (b : pfs) (l : list file) : Prop :=
    if split then match g_cur g with None => g_files g = skipn (nb_fully b) l | Some r => exists f, skipn (nb_fully b) l = f :: g_files g /\ r = skipn (nb_cur b) (rows f) end
    else g_files g = skipn (nb_fully b) l.
  Lemma rem_start : forall s l, rem (Pfs 0 0 s) l = elements l.
  Proof. intros s l. unfold rem, Pq_Spec.elements. cbn. destruct split; auto. destruct l; auto. Qed.
  Lemma pull_files_ok : forall L l b, split = true -> l = skipn (nb_fully b) L ->
    match rem b L with
    | x :: rest => exists b' g', pull_files l b = Elem x b' g' /\ good g' b' L /\ rem b' L = rest /\ p_seed b' = p_seed b
    | [] => exists b', pull_files l b = Done b' /\ p_seed b' = p_seed b
    end.
  Proof.
    intros L. induction l as [|f l IH]; intros b Hs El; unfold rem at 1; rewrite Hs, <- El; cbn [Pq_Model.pull_files]. { exists b. auto. }
    destruct (skipn (nb_cur b) (rows f)) as [|x r] eqn:Er.
    - cbn [app]. specialize (IH (Pfs (S (nb_fully b)) 0 (p_seed b)) Hs). cbn [nb_fully] in IH. rewrite (skipn_cons _ _ _ _ (eq_sym El)) in IH. specialize (IH eq_refl).
      assert (Rm : rem (Pfs (S (nb_fully b)) 0 (p_seed b)) L = flat_map rows l). { unfold rem. rewrite Hs. cbn [nb_fully nb_cur]. rewrite (skipn_cons _ _ _ _ (eq_sym El)). destruct l; auto. }
      rewrite Rm in IH. exact IH.
    - cbn [app]. do 2 eexists. split; [reflexivity|]. unfold good, rem. rewrite Hs. cbn [g_cur g_files nb_fully nb_cur p_seed]. rewrite <- El. split; [|split; auto].
      + exists f. split; auto. symmetry. eapply skipn_cons; eauto.
      + rewrite (skipn_cons _ _ _ _ Er). auto.
  Qed.
  Lemma pull_ok : forall L g b, good g b L ->
    match rem b L with
    | x :: rest => exists b' g', pull g b = Elem x b' g' /\ good g' b' L /\ rem b' L = rest /\ p_seed b' = p_seed b
    | [] => exists b', pull g b = Done b' /\ p_seed b' = p_seed b
    end.
  Proof.
    intros L g b G. unfold Pq_Model.pull. destruct split eqn:Hs.
    - unfold good in G. rewrite Hs in G. destruct (g_cur g) as [[|x r]|] eqn:C.
      + destruct G as (f & Ef & Er). pose proof (pull_files_ok L (g_files g) (Pfs (S (nb_fully b)) 0 (p_seed b)) Hs) as P. cbn [nb_fully p_seed] in P. rewrite (skipn_cons _ _ _ _ Ef) in P. specialize (P eq_refl).
        assert (Rm : rem (Pfs (S (nb_fully b)) 0 (p_seed b)) L = rem b L). { unfold rem. rewrite Hs. cbn [nb_fully nb_cur]. rewrite (skipn_cons _ _ _ _ Ef), Ef, <- Er. cbn. destruct (g_files g); auto. }
        rewrite Rm in P. exact P.
      + destruct G as (f & Ef & Er). unfold rem at 1. rewrite Hs, Ef, <- Er. cbn [app]. do 2 eexists. split; [reflexivity|]. unfold good, rem. rewrite Hs. cbn [g_cur g_files nb_fully nb_cur p_seed]. rewrite Ef.
        assert (Er' := skipn_cons _ _ _ _ (eq_sym Er)). split; [exists f; split; auto|]. rewrite Er'. auto.
      + apply (pull_files_ok L); auto.
    - unfold good in G. rewrite Hs in G. unfold rem at 1. rewrite Hs, <- G. destruct (g_files g) as [|f l] eqn:E; cbn [map]; [eexists; split; eauto|].
      do 2 eexists. split; [reflexivity|]. unfold good, rem. rewrite Hs. cbn [g_files nb_fully p_seed]. rewrite (skipn_cons _ _ _ _ (eq_sym G)). auto.
  Qed.

  (** ** The iterator *)
  Variable E : nat.
  Hypothesis HE : match nb_epoch with Some n => E <= n | None => True end.
  Definition stream_from (e : nat) : list frag := flat_map (fun e => elements (files_of e)) (seq e (E - e)).
  Definition inv (i : sit) (rg : option (@gen file frag)) (rest : list frag) : Prop :=
    p_seed (base i) = seed_of (epoch i) /\ epoch i <= E /\
    rest = (if epoch i <? E then rem (base i) (files_of (epoch i)) ++ stream_from (S (epoch i)) else []) /\
    match rg with Some g => good g (base i) (files_of (epoch i)) /\ epoch i < E | None => True end.
  Lemma inv_drop : forall i rg rest, inv i rg rest -> inv i None rest.
  Proof. intros i rg rest (A & B & C & D). repeat split; auto. Qed.
  Lemma more_lt : forall e, e < E -> more e = true.
  Proof. intros e H. unfold Pq_Model.more. destruct nb_epoch; auto. apply Nat.ltb_lt. lia. Qed.
  Lemma stream_step : forall e, e < E -> stream_from e = elements (files_of e) ++ stream_from (S e).
  Proof. intros e H. unfold stream_from. replace (E - e) with (S (E - S e)) by lia. cbn. auto. Qed.
  Lemma stream_end : forall e, E <= e -> stream_from e = [].
  Proof. intros e H. unfold stream_from. replace (E - e) with 0 by lia. auto. Qed.
  Lemma seed_next : forall b e, p_seed b = seed_of e -> p_seed (reset_state b (match seed with Some s => Some (s + S e) | None => None end)) = seed_of (S e).
  Proof. intros b e H. unfold reset_state, seed_of in *. destruct seed; auto. Qed.
  Lemma rep_next_ok : forall fuel i rg w rest, inv i rg rest -> 2 * (E - epoch i) + 2 <= fuel ->
    match rest with
    | x :: rest' => exists i' rg' w', rep_next fuel i rg w = Yield x i' rg' w' /\ inv i' rg' rest' /\ random_state i' = random_state i
    | [] => nb_epoch = Some E -> exists i' w', rep_next fuel i rg w = Stop i' w' /\ inv i' None [] /\ random_state i' = random_state i
    end.
  Proof.
    intros fuel. induction fuel as [fuel IH] using lt_wf_ind. intros i rg w rest I F. destruct fuel as [|fuel]; [lia|]. cbn [Pq_Model.rep_next].
    pose proof I as (Sd & Le & Re & Gg). destruct rg as [g|].
    - destruct Gg as [Gg Lt]. rewrite (proj2 (Nat.ltb_lt _ _) Lt) in Re. pose proof (pull_ok _ _ _ Gg) as P. destruct (rem (base i) (files_of (epoch i))) as [|x r] eqn:Er.
      + destruct P as (b' & -> & Sb). cbv zeta. cbn [app] in Re. set (i1 := Sit _ _ _ _ _ _ _). 
        assert (I1 : inv i1 None rest).
        { unfold inv, i1. cbn [base epoch]. split; [apply seed_next; congruence|]. split; [lia|]. split; auto. rewrite Re. destruct (S (epoch i) <? E) eqn:B.
          - apply Nat.ltb_lt in B. rewrite (stream_step _ B). f_equal. unfold reset_state. rewrite rem_start. auto.
          - apply Nat.ltb_ge in B. apply stream_end. auto. }
        specialize (IH fuel ltac:(lia) i1 None true rest I1). cbn [i1 epoch random_state] in IH. apply IH. lia.
      + destruct P as (b' & g' & -> & G' & R' & Sb). cbn [app] in Re. rewrite Re. do 3 eexists. split; [reflexivity|]. split; [|auto]. unfold inv. cbn [base epoch]. split; [congruence|]. split; auto.
        rewrite (proj2 (Nat.ltb_lt _ _) Lt). rewrite R'. auto.
    - destruct (epoch i <? E) eqn:B.
      + apply Nat.ltb_lt in B. rewrite (more_lt _ B). unfold Pq_Model.iter. rewrite (ordered_det _ _ _ Sd). set (i1 := Sit _ _ _ _ _ _ _).
        assert (I1 : inv i1 (Some (Gen None (skipn (nb_fully (base i)) (files_of (epoch i))))) rest).
        { unfold inv, i1. cbn [base epoch]. split; auto. split; auto. rewrite (proj2 (Nat.ltb_lt _ _) B). split; [exact Re|]. split; [|exact B]. unfold good. destruct split; reflexivity. }
        destruct fuel as [|fuel]; [lia|].
        (* one turn inside the loop *)
        cbn [Pq_Model.rep_next]. destruct I1 as (_ & _ & Re1 & Gg1). destruct Gg1 as [Gg1 _]. cbn [i1 base epoch] in *. rewrite (proj2 (Nat.ltb_lt _ _) B) in Re1. pose proof (pull_ok _ _ _ Gg1) as P.
        destruct (rem (base i) (files_of (epoch i))) as [|x r] eqn:Er.
        * destruct P as (b' & -> & Sb). cbv zeta. cbn [app] in Re1. set (i2 := Sit _ _ _ _ _ _ _).
          assert (I2 : inv i2 None rest).
          { unfold inv, i2. cbn [base epoch]. split; [apply seed_next; congruence|]. split; [lia|]. split; auto. rewrite Re1. destruct (S (epoch i) <? E) eqn:B'.
            - apply Nat.ltb_lt in B'. rewrite (stream_step _ B'). f_equal. unfold reset_state. rewrite rem_start. auto.
            - apply Nat.ltb_ge in B'. apply stream_end. auto. }
          specialize (IH fuel ltac:(lia) i2 None true rest I2). cbn [i2 epoch random_state] in IH. apply IH. lia.
        * destruct P as (b' & g' & -> & G' & R' & Sb). cbn [app] in Re1. rewrite Re1. do 3 eexists. split; [reflexivity|]. split; [|auto]. unfold inv. cbn [base epoch]. split; [congruence|]. split; auto.
          rewrite (proj2 (Nat.ltb_lt _ _) B). rewrite R'. auto.
      + rewrite Re. intros Fin. apply Nat.ltb_ge in B. assert (M : more (epoch i) = false) by (unfold Pq_Model.more; rewrite Fin; apply Nat.ltb_ge; lia). rewrite M. do 2 eexists. split; [reflexivity|]. split; auto. rewrite Re in I. exact I.
  Qed.
  Lemma epoch_mono : forall i rg rest, inv i rg rest -> 2 * (E - epoch i) + 2 <= 2 * E + 2. Proof. intros. lia. Qed.
  Lemma collect_ok : forall n fuel i rg w rest, inv i rg rest -> 2 * E + 2 <= fuel -> (n <= length rest \/ nb_epoch = Some E) ->
    exists i' rg' w', collect fuel n i rg w = Batch (firstn n rest) i' rg' w' /\ inv i' rg' (skipn n rest) /\ random_state i' = random_state i.
  Proof.
    induction n; intros fuel i rg w rest I F H; cbn [Pq_Model.collect]. { cbn. eauto 10. }
    pose proof (rep_next_ok fuel i rg w rest I ltac:(lia)) as P. destruct rest as [|x rest].
    - destruct H as [H|H]; [cbn in H; lia|]. destruct (P H) as (i' & w' & -> & I' & R'). cbn. eauto 10.
    - destruct P as (i1 & rg1 & w1 & -> & I1 & R1). destruct (IHn fuel i1 rg1 w1 rest I1 F) as (i2 & rg2 & w2 & -> & I2 & R2); [destruct H; [left; cbn in *; lia|auto]|]. cbn. do 3 eexists. split; [reflexivity|]. split; auto. congruence.
  Qed.
  Notation deliver := (deliver shuffle_window window_size).
  Lemma deliver_fuel : forall f f' r l, length l <= f -> length l <= f' -> deliver_ shuffle_window window_size f r l = deliver_ shuffle_window window_size f' r l.
  Proof.
    induction f; intros f' r l H H'; [destruct l; [destruct f'; auto|cbn in H; lia]|]. destruct f'; [destruct l; [auto|cbn in H'; lia]|]. destruct l as [|x l]; auto. cbn [deliver_].
    destruct (shuffle_window r _) as [r' w]. f_equal. apply IHf; rewrite skipn_length; cbn [length] in *; lia.
  Qed.
  Lemma deliver_step : forall r l, l <> [] -> deliver r l = snd (shuffle_window r (firstn window_size l)) ++ deliver (fst (shuffle_window r (firstn window_size l))) (skipn window_size l).
  Proof.
    intros r l N. unfold Pq_Spec.deliver. destruct l as [|x l]; [easy|]. cbn [length deliver_]. destruct (shuffle_window r _) as [r' w] eqn:Es. cbn [fst snd]. f_equal. apply deliver_fuel; rewrite skipn_length; cbn [length]; lia.
  Qed.
  Lemma deliver_perm : forall l r, Permutation (deliver r l) l.
  Proof.
    intros l. remember (length l) as n eqn:En. revert l En. induction n as [n IH] using lt_wf_ind. intros l En r. destruct l as [|x l]; [auto|]. rewrite deliver_step by discriminate.
    rewrite Hwin, IH with (m := length (skipn window_size (x :: l))); [rewrite firstn_skipn; auto| |auto]. rewrite skipn_length. cbn [length] in *. lia.
  Qed.

  Definition spent (i : sit) : Prop := length (window i) <= index i.
  Lemma rep_next_spent : forall fuel i rg w, spent i -> match rep_next fuel i rg w with Yield _ i' _ _ => spent i' | Stop i' _ => spent i' | Diverge => True end.
  Proof.
    induction fuel; intros i rg w H; cbn [Pq_Model.rep_next]; auto. destruct rg as [g|].
    - destruct (pull g (base i)); [auto|]. cbv zeta. apply IHfuel. unfold spent. cbn. auto.
    - destruct (more (epoch i)); auto. destruct (iter (base i) (ent i)). apply IHfuel. auto.
  Qed.
  Lemma collect_spent : forall n fuel i rg w, spent i -> match collect fuel n i rg w with Batch _ i' _ _ => spent i' | BDiverge => True end.
  Proof.
    induction n; intros fuel i rg w H; cbn [Pq_Model.collect]; auto. pose proof (rep_next_spent fuel i rg w H) as P. destruct (rep_next fuel i rg w) as [x i1 rg1 w1|i1 w1|]; auto.
    specialize (IHn fuel i1 rg1 w1 P). destruct (collect fuel n i1 rg1 w1); auto.
  Qed.
  Definition rel (i : sit) (out : list frag) : Prop := exists rest, inv i (match win_it i with Some rg => rg | None => None end) rest /\ out = skipn (index i) (window i) ++ deliver (random_state i) rest.
  Lemma at_index_ok : forall i rest x out, inv i (match win_it i with Some rg => rg | None => None end) rest -> skipn (index i) (window i) ++ deliver (random_state i) rest = x :: out -> index i < length (window i) ->
    exists i', at_index i = Next x i' /\ rel i' out.
  Proof.
    intros i rest x out I Eo Lt. unfold at_index. destruct (skipn (index i) (window i)) as [|y r] eqn:Es. { apply (f_equal (@length _)) in Es. rewrite skipn_length in Es. cbn in Es. lia. }
    cbn [app] in Eo. assert (x = y) by congruence. subst y. assert (N : nth_error (window i) (index i) = Some x). { rewrite <- (firstn_skipn (index i) (window i)), Es. rewrite nth_error_app2; rewrite firstn_length; [|lia]. replace (index i - _) with 0 by lia. auto. }
    rewrite N. eexists. split; [reflexivity|]. exists rest. cbn [win_it index window random_state]. split; [exact I|]. rewrite (skipn_cons _ _ _ _ Es). congruence.
  Qed.
  Lemma next_ok : forall fuel i out, rel i out -> 2 * E + 2 <= fuel -> (window_size <= length out \/ nb_epoch = Some E) ->
    match out with
    | x :: out' => exists i', next fuel i = Next x i' /\ rel i' out'
    | [] => exists i', next fuel i = End i' /\ rel i' []
    end.
  Proof.
    intros fuel i out (rest & I & Eo) F H. unfold Pq_Model.next. set (rg := match win_it i with Some rg => rg | None => None end) in *. cbv zeta. set (i0 := Sit _ _ _ _ _ _ _).
    assert (I0 : inv i0 rg rest) by (destruct I as (A & B & C & D); repeat split; auto). change (window i0) with (window i). change (index i0) with (index i).
    destruct (length (window i) <=? index i) eqn:B.
    - apply Nat.leb_le in B. rewrite skipn_all2 in Eo by lia. cbn [app] in Eo.
      destruct (collect_ok window_size fuel i0 rg false rest I0 F) as (i' & rg' & w' & Ec & I' & R').
      { destruct H as [H|H]; auto. left. rewrite Eo in H. rewrite (Permutation_length (deliver_perm rest (random_state i))) in H. lia. }
      pose proof (collect_spent window_size fuel i0 rg false B) as Sp. rewrite Ec in *.
      assert (Er : random_state i' = random_state i) by (rewrite R'; auto).
      assert (Iw : forall w i1, base i1 = base i' -> epoch i1 = epoch i' -> win_it i1 = (if w : bool then None else Some rg') -> inv i1 (match win_it i1 with Some rg => rg | None => None end) (skipn window_size rest)).
      { intros w i1 E1 E2 E3. rewrite E3. assert (inv i1 rg' (skipn window_size rest)) by (unfold inv in *; rewrite E1, E2; exact I'). destruct w; auto. eapply inv_drop; eauto. }
      destruct rest as [|y rest].
      + rewrite firstn_nil, skipn_nil in *. cbn in Eo. subst out. eexists. split; [reflexivity|]. exists []. split; [apply (Iw w'); auto|]. cbn [index window random_state]. rewrite skipn_all2 by exact Sp. auto.
      + destruct out as [|x out]. { symmetry in Eo. pose proof (deliver_perm (y :: rest) (random_state i)) as P. rewrite Eo in P. apply Permutation_nil in P. discriminate. }
        rewrite deliver_step in Eo by discriminate. pose proof (Hwin (random_state i) (firstn window_size (y :: rest))) as P. destruct (firstn window_size (y :: rest)) as [|z fs] eqn:Ef. { destruct window_size; [lia|discriminate]. }
        rewrite Er. destruct (shuffle_window (random_state i) (z :: fs)) as [r w] eqn:Es. cbn [fst snd] in *. apply (at_index_ok _ (skipn window_size (y :: rest))); auto; [apply (Iw w'); auto|].
        cbn [index window]. apply Permutation_length in P. cbn in P. lia.
    - apply Nat.leb_gt in B. destruct out as [|x out]. { symmetry in Eo. apply app_eq_nil in Eo. destruct Eo as [Eo _]. apply (f_equal (@length _)) in Eo. rewrite skipn_length in Eo. cbn in Eo. lia. }
      apply (at_index_ok i0 rest); auto.
  Qed.
  Lemma pickle_ok : forall i out, rel i out -> rel (pickle i) out.
  Proof. intros i out (rest & I & Eo). exists rest. split; auto. cbn [pickle win_it]. eapply inv_drop in I. exact I. Qed.

  Notation outputs := (outputs rows whole split shuffle rand_files entropy fragments fraction nb_files shift window_size nb_epoch seed shuffle_window).
  Lemma outputs_ok : forall fuel h i out, rel i out -> 2 * E + 2 <= fuel -> (calls h + window_size <= length out \/ nb_epoch = Some E) -> outputs fuel h i = Some (firstn (calls h) out).
  Proof.
    intros fuel. induction h as [|[|] h IH]; intros i out R F H; auto.
    - cbn [Pq_Model.outputs]. change (calls (Call :: h)) with (S (calls h)) in *. pose proof (next_ok fuel i out R F ltac:(destruct H; [left; lia|auto])) as P. destruct out as [|x out].
      + destruct P as (i' & -> & R'). rewrite (IH i' [] R' F) by (destruct H as [H|H]; [cbn in H; lia|auto]). rewrite !firstn_nil. auto.
      + destruct P as (i' & -> & R'). rewrite (IH i' out R' F) by (destruct H as [H|H]; [left; cbn in H; lia|auto]). auto.
    - cbn [Pq_Model.outputs]. change (calls (Save :: h)) with (calls h) in *. apply IH; auto using pickle_ok.
  Qed.
  Notation init := (init entropy seed seeded (file := file) (frag := frag)).
  Lemma init_rel : rel init (deliver (fst (new_random entropy seed seeded 0)) (stream_from 0)).
  Proof.
    exists (stream_from 0). unfold Pq_Model.init. destruct (new_random entropy seed seeded 0) as [r e]. split; [|auto]. cbn [win_it]. unfold inv. cbn [base epoch p_seed]. split; [unfold seed_of; destruct seed; auto; f_equal; lia|]. split; [lia|]. split; auto.
    destruct (0 <? E) eqn:B; [|apply stream_end; apply Nat.ltb_ge in B; auto]. apply Nat.ltb_lt in B. rewrite (stream_step _ B), rem_start. auto.
  Qed.
  Lemma reset_rel : forall i, seed <> None -> rel (reset entropy seed seeded i) (deliver (fst (new_random entropy seed seeded 0)) (stream_from 0)).
  Proof.
    intros i N. exists (stream_from 0). unfold Pq_Model.reset, new_random, reset_state, inv, seed_of. destruct seed as [s|] eqn:Es; [|easy]. cbn [win_it base epoch p_seed]. split; [|auto]. split; [f_equal; lia|]. split; [lia|]. split; auto.
    destruct (0 <? E) eqn:B; [|apply stream_end; apply Nat.ltb_ge in B; auto]. apply Nat.ltb_lt in B. rewrite (stream_step _ B), rem_start. auto.
  Qed.
  Lemma stream_perm : Permutation (stream_from 0) (concat (repeat (elements truncated) E)).
  Proof.
    unfold stream_from. rewrite Nat.sub_0_r. generalize 0 as k. clear HE. induction E as [|e IH]; intros k; auto. cbn [seq flat_map repeat concat]. apply Permutation_app; auto. unfold Pq_Spec.elements. destruct split; [apply Permutation_flat_map|apply Permutation_map]; apply files_perm.
  Qed.
  Lemma windows_perm : forall l r k, Permutation (firstn (k * window_size) (deliver r l)) (firstn (k * window_size) l).
  Proof.
    intros l. remember (length l) as n eqn:En. revert l En. induction n as [n IH] using lt_wf_ind. intros l En r k. destruct k as [|k]; [auto|]. destruct l as [|x l]; [cbn; auto|]. 
    rewrite deliver_step by discriminate. set (w := snd _). set (r' := fst _). assert (Pw : Permutation w (firstn window_size (x :: l))) by apply Hwin.
    cbn [Nat.mul]. rewrite !firstn_add. destruct (le_lt_dec window_size (length (x :: l))) as [L|L].
    - assert (Lw : length w = window_size) by (rewrite (Permutation_length Pw), firstn_length; lia).
      rewrite (firstn_exact w _ _ Lw), (skipn_exact w _ _ Lw). apply Permutation_app; auto.
      apply (IH (length (skipn window_size (x :: l)))); auto. rewrite skipn_length. lia.
    - assert (Lw : length w = length (x :: l)) by (rewrite (Permutation_length Pw), firstn_length; lia).
      rewrite (skipn_all2 (x :: l)) by lia. unfold Pq_Spec.deliver at 1 2. cbn [length deliver_]. rewrite app_nil_r. rewrite (firstn_all2 w) by lia. rewrite (skipn_all2 w) by lia. rewrite !firstn_nil, !app_nil_r. auto.
  Qed.
End P.
