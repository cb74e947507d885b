From Coq Require Import ZArith List Bool Arith Lia.
From Verif Require Import Rng_Model Rng_Spec.
Import ListNotations.
Local Open Scope nat_scope.

Section P.
  Variable G V : Type.
  Variable mseed : Z -> G.
  Variable draw : G -> V * G.
  Notation exec := (exec mseed draw).
  Implicit Types (h : heap G).

  Lemma set_length h i x : length (set_nth h i x) = length h.
  Proof. revert i. induction h; intros [|i]; simpl; auto. Qed.

  Lemma set_nth_get h i x j : nth_error (set_nth h i x) j = if i =? j then option_map (fun _ => x) (nth_error h j) else nth_error h j.
  Proof.
    revert i j. induction h as [|y h IH]; intros i j; simpl.
    - destruct j; simpl; destruct (i =? _); reflexivity.
    - destruct i, j; simpl; auto.
  Qed.

  Lemma heap_ext h h' : (forall r, nth_error h r = nth_error h' r) -> h = h'.
  Proof.
    revert h'. induction h as [|x h IH]; intros [|y h'] H; auto.
    - specialize (H 0). discriminate.
    - specialize (H 0). discriminate.
    - f_equal; [specialize (H 0); simpl in H; congruence|]. apply IH. intros r. exact (H (S r)).
  Qed.

  Lemma fold_seed_length b s : forall h, length (fold_left (fun h r => set_nth h r (mseed s)) b h) = length h.
  Proof. induction b; intros h; simpl; auto. rewrite IHb. apply set_length. Qed.

  Lemma fold_seed_get b s : forall h r, nth_error (fold_left (fun h r => set_nth h r (mseed s)) b h) r = seeded mseed b s h r.
  Proof.
    unfold seeded. induction b as [|x b IH]; intros h r; simpl; [reflexivity|]. rewrite IH, set_nth_get.
    destruct (Nat.eq_dec x r) as [->|N].
    - rewrite Nat.eqb_refl. destruct (in_dec Nat.eq_dec r b); destruct (nth_error h r); reflexivity.
    - rewrite (proj2 (Nat.eqb_neq x r) N). destruct (in_dec Nat.eq_dec r b); reflexivity.
  Qed.

  Lemma restore_length b : forall ss h, length (restore b ss h) = length h.
  Proof. induction b as [|r b IH]; intros [|[s|] ss] h; simpl; auto. rewrite IH. apply set_length. Qed.

  (** Restoring the states of [h0]. *)
  Lemma restore_get b h0 : forall h r, length h = length h0 ->
    nth_error (restore b (get_states b h0) h) r = if in_dec Nat.eq_dec r b then nth_error h0 r else nth_error h r.
  Proof.
    induction b as [|x b IH]; intros h r HL; simpl; [reflexivity|].
    destruct (nth_error h0 x) as [s|] eqn:E.
    - rewrite IH by (rewrite set_length; assumption). rewrite set_nth_get. destruct (in_dec Nat.eq_dec r b); [destruct (Nat.eq_dec x r); reflexivity|].
      destruct (Nat.eq_dec x r) as [->|N].
      + rewrite Nat.eqb_refl, E. destruct (nth_error h r) eqn:E2; [reflexivity|].
        apply nth_error_None in E2. assert (r < length h0) by (apply nth_error_Some; congruence). lia.
      + rewrite (proj2 (Nat.eqb_neq x r) N). reflexivity.
    - rewrite IH by assumption. destruct (in_dec Nat.eq_dec r b); [destruct (Nat.eq_dec x r); reflexivity|].
      destruct (Nat.eq_dec x r) as [->|N]; [|reflexivity]. rewrite E.
      apply nth_error_None. apply nth_error_None in E. lia.
  Qed.

  Lemma manual_seed_cases b s h :
    (valid_seed s /\ manual_seed mseed b s h = (fold_left (fun h r => set_nth h r (mseed s)) b h, Returned)) \/
    (~ valid_seed s /\ manual_seed mseed b s h = (h, Raised ValueError)).
  Proof.
    unfold manual_seed, valid_seed. destruct (Z.ltb_spec s 0); cbn [orb]; [right; split; [lia|reflexivity]|].
    destruct (Z.leb_spec (2 ^ 32) s); [right; split; [lia|reflexivity]|left; split; [lia|reflexivity]].
  Qed.

  Lemma exec_length p : forall h, length (fst (fst (exec p h))) = length h.
  Proof.
    induction p as [r| |p IHp q IHq|p IHp q IHq|b s|b s|b s p IHp]; intros h; simpl; auto.
    - destruct (nth_error h r); [|reflexivity]. destruct (draw g). apply set_length.
    - specialize (IHp h). destruct (exec p h) as [[h1 t1] [|e]]; simpl in *; [|assumption].
      specialize (IHq h1). destruct (exec q h1) as [[h2 t2] o]. simpl in *. congruence.
    - specialize (IHp h). destruct (exec p h) as [[h1 t1] [|e]]; simpl in *; [assumption|].
      specialize (IHq h1). destruct (exec q h1) as [[h2 t2] o]. simpl in *. congruence.
    - destruct (manual_seed_cases b s h) as [[_ ->]|[_ ->]]; simpl; auto using fold_seed_length.
    - destruct b; simpl; auto. rewrite fold_seed_length. apply set_length.
    - destruct (manual_seed_cases b s h) as [[_ ->]|[_ ->]]; [|reflexivity].
      specialize (IHp (fold_left (fun h r => set_nth h r (mseed s)) b h)).
      destruct (exec p _) as [[h2 t] o]. simpl in *. rewrite restore_length, IHp. apply fold_seed_length.
  Qed.

  (** Generators outside the bag are not touched. *)
  Lemma exec_outside b p : stays_in b p -> forall h r, ~ In r b -> nth_error (fst (fst (exec p h))) r = nth_error h r.
  Proof.
    induction p as [x| |p IHp q IHq|p IHp q IHq|c s|c s|c s p IHp]; intros HS h r Hr; simpl in *; auto.
    - destruct (nth_error h x); [|reflexivity]. destruct (draw g). simpl. rewrite set_nth_get.
      destruct (Nat.eqb_spec x r); [subst; contradiction|reflexivity].
    - destruct HS as [S1 S2]. specialize (IHp S1 h r Hr). destruct (exec p h) as [[h1 t1] [|e]]; simpl in *; [|assumption].
      specialize (IHq S2 h1 r Hr). destruct (exec q h1) as [[h2 t2] o]. simpl in *. congruence.
    - destruct HS as [S1 S2]. specialize (IHp S1 h r Hr). destruct (exec p h) as [[h1 t1] [|e]]; simpl in *; [assumption|].
      specialize (IHq S2 h1 r Hr). destruct (exec q h1) as [[h2 t2] o]. simpl in *. congruence.
    - destruct (manual_seed_cases c s h) as [[_ ->]|[_ ->]]; [|reflexivity]. simpl. rewrite fold_seed_get. unfold seeded.
      destruct (in_dec Nat.eq_dec r c) as [Hc|]; [|reflexivity]. exfalso. auto.
    - destruct c as [|x c]; [reflexivity|]. simpl. rewrite fold_seed_get. unfold seeded.
      destruct (in_dec Nat.eq_dec r c) as [Hc|Hc]; [exfalso; apply Hr; apply HS; right; assumption|]. rewrite set_nth_get.
      destruct (Nat.eqb_spec x r); [|reflexivity]. subst. exfalso. apply Hr. apply HS. left. reflexivity.
    - destruct HS as [S1 S2]. destruct (manual_seed_cases c s h) as [[_ ->]|[_ ->]]; [|reflexivity].
      pose proof (exec_length p (fold_left (fun h r => set_nth h r (mseed s)) c h)) as HL. rewrite fold_seed_length in HL.
      specialize (IHp S2 (fold_left (fun h r => set_nth h r (mseed s)) c h) r Hr).
      destruct (exec p _) as [[h2 t] o]. simpl in *. rewrite restore_get by assumption.
      destruct (in_dec Nat.eq_dec r c); [reflexivity|]. rewrite IHp, fold_seed_get. unfold seeded.
      destruct (in_dec Nat.eq_dec r c); [contradiction|reflexivity].
  Qed.

  Lemma temp_lemma b s p h : let '(h', t, o) := exec (PTemp b s p) h in
    (valid_seed s -> exists h1 h2, (forall r, nth_error h1 r = seeded mseed b s h r) /\ exec p h1 = (h2, t, o) /\
       (forall r, nth_error h' r = if in_dec Nat.eq_dec r b then nth_error h r else nth_error h2 r)) /\
    (~ valid_seed s -> h' = h /\ t = [] /\ o = Raised ValueError).
  Proof.
    simpl. destruct (manual_seed_cases b s h) as [[Hv ->]|[Hv ->]].
    - set (h1 := fold_left (fun h r => set_nth h r (mseed s)) b h).
      pose proof (exec_length p h1) as HL. destruct (exec p h1) as [[h2 t] o] eqn:E. split; [|intros; contradiction].
      intros _. exists h1, h2. split; [intros r; apply fold_seed_get|]. split; [assumption|].
      intros r. apply restore_get. simpl in HL. rewrite HL. apply fold_seed_length.
    - split; [intros; contradiction|]. auto.
  Qed.

  Lemma temp_transparent_lemma b s p h : stays_in b p -> fst (fst (exec (PTemp b s p) h)) = h.
  Proof.
    intros HS. pose proof (temp_lemma b s p h) as HT. pose proof (exec_outside b (PTemp b s p) (conj (incl_refl b) HS) h) as HO.
    destruct (exec (PTemp b s p) h) as [[h' t] o]. simpl in *. destruct HT as [H1 H2].
    destruct (manual_seed_cases b s h) as [[Hv _]|[Hv _]]; [|apply H2; assumption].
    destruct (H1 Hv) as (h1 & h2 & _ & _ & H3). apply heap_ext. intros r.
    destruct (in_dec Nat.eq_dec r b) as [Hr|Hr] eqn:E; [|apply HO; assumption]. specialize (H3 r). rewrite E in H3. exact H3.
  Qed.

  Lemma seq_after_lemma b s p q h : stays_in b p -> snd (exec (PTemp b s p) h) = Returned ->
    exec (PSeq (PTemp b s p) q) h =
      (let '(h', t, o) := exec q h in (h', snd (fst (exec (PTemp b s p) h)) ++ t, o)).
  Proof.
    intros HS Ho. pose proof (temp_transparent_lemma b s p h HS) as HT.
    change (exec (PSeq (PTemp b s p) q) h) with
      (match exec (PTemp b s p) h with
       | (h1, t1, Returned) => let '(h2, t2, o) := exec q h1 in (h2, t1 ++ t2, o) | r => r end).
    destruct (exec (PTemp b s p) h) as [[h' t] o]. simpl in *. subst. destruct (exec q h) as [[h2 t2] o2]. reflexivity.
  Qed.

  Lemma try_after_lemma b s p q h : stays_in b p -> (exists e, snd (exec (PTemp b s p) h) = Raised e) ->
    exec (PTry (PTemp b s p) q) h =
      (let '(h', t, o) := exec q h in (h', snd (fst (exec (PTemp b s p) h)) ++ t, o)).
  Proof.
    intros HS [e Ho]. pose proof (temp_transparent_lemma b s p h HS) as HT.
    change (exec (PTry (PTemp b s p) q) h) with
      (match exec (PTemp b s p) h with
       | (h1, t1, Raised _) => let '(h2, t2, o) := exec q h1 in (h2, t1 ++ t2, o) | r => r end).
    destruct (exec (PTemp b s p) h) as [[h' t] o]. simpl in *. subst. destruct (exec q h) as [[h2 t2] o2]. reflexivity.
  Qed.

  (** *** State dictionaries *)
  Lemma load_gens_get b h0 : (forall r, In r b -> r < length h0) -> forall h, length h = length h0 ->
    exists h', load_gens b (get_states b h0) h = (h', true) /\ length h' = length h /\
      forall r, nth_error h' r = if in_dec Nat.eq_dec r b then nth_error h0 r else nth_error h r.
  Proof.
    induction b as [|x b IH]; intros Hb h HL; simpl; [exists h; auto|].
    assert (Hx : x < length h0) by (apply Hb; left; reflexivity).
    destruct (nth_error h0 x) as [s|] eqn:E; [|apply nth_error_None in E; lia].
    destruct (IH (fun r Hr => Hb r (or_intror Hr)) (set_nth h x s)) as (h' & E1 & E2 & E3); [rewrite set_length; assumption|].
    rewrite set_length in E2. exists h'. split; [assumption|]. split; [assumption|]. intros r. rewrite E3, set_nth_get.
    destruct (in_dec Nat.eq_dec r b); [destruct (Nat.eq_dec x r); reflexivity|].
    destruct (Nat.eq_dec x r) as [->|N].
    - rewrite Nat.eqb_refl, E. destruct (nth_error h r) eqn:E4; [reflexivity|]. apply nth_error_None in E4. lia.
    - rewrite (proj2 (Nat.eqb_neq x r) N). reflexivity.
  Qed.

  Lemma roundtrip_lemma b h h2 : (forall r, In r b -> r < length h) -> length h2 = length h ->
    exists h3, load_state_dict b (state_dict b h) h2 = (h3, Returned) /\
      forall r, nth_error h3 r = if in_dec Nat.eq_dec r b then nth_error h r else nth_error h2 r.
  Proof.
    intros Hb HL. unfold load_state_dict, state_dict. simpl. unfold get_states. rewrite map_length, Nat.eqb_refl. simpl.
    destruct (load_gens_get b h Hb h2 HL) as (h' & E & _ & H). unfold get_states in E. rewrite E. simpl. eauto.
  Qed.

  Lemma load_gens_ok b : forall ss h, length ss = length b -> snd (load_gens b ss h) = forallb (fun s => match s with Some _ => true | None => false end) ss.
  Proof.
    induction b as [|r b IH]; intros [|[s|] ss] h HL; simpl in *; try discriminate; auto.
  Qed.

  Lemma load_error_lemma b (sd : state G) h :
    (snd (load_state_dict b sd h) = Returned <->
      exists l, sd_generators sd = Gens l /\ length l = length b /\ (forall s, In s l -> s <> None) /\ sd_extra sd = false) /\
    (snd (load_state_dict b sd h) = Returned \/ snd (load_state_dict b sd h) = Raised StateDictError).
  Proof.
    unfold load_state_dict. destruct (sd_generators sd) as [| |l]; simpl.
    - split; [|auto]. split; [discriminate|intros (l & H & _); discriminate].
    - split; [|auto]. split; [discriminate|intros (l & H & _); discriminate].
    - destruct (Nat.eqb_spec (length l) (length b)) as [E|E]; simpl.
      + pose proof (load_gens_ok b l h E) as Hok. destruct (load_gens b l h) as [h' ok]. simpl in Hok. subst ok.
        destruct (forallb _ l) eqn:EF; simpl.
        * destruct (sd_extra sd) eqn:EX; simpl; (split; [|auto]).
          -- split; [discriminate|intros (l' & _ & _ & _ & HX); congruence].
          -- split; [|auto]. intros _. exists l. split; [reflexivity|]. split; [assumption|]. split; [|reflexivity].
             intros s Hs ->. rewrite forallb_forall in EF. specialize (EF _ Hs). discriminate.
        * split; [|auto]. split; [discriminate|]. intros (l' & HE & _ & Hn & _). inversion HE; subst.
          assert (HT : forallb (fun s : option G => match s with Some _ => true | None => false end) l' = true).
          { apply forallb_forall. intros [s|] Hs; [reflexivity|]. exfalso. apply (Hn _ Hs). reflexivity. }
          congruence.
      + split; [|auto]. split; [discriminate|intros (l' & HE & HL & _); inversion HE; subst; contradiction].
  Qed.

  (** All generators of the bag produce the same numbers after [manual_seed] and after [seed]. *)
  Lemma seed_lemma b rs h r : nth_error (seed_bag mseed b rs h) r = seeded mseed b rs h r.
  Proof.
    destruct b as [|x b]; simpl; [reflexivity|]. rewrite fold_seed_get. unfold seeded. rewrite set_nth_get. simpl.
    destruct (Nat.eq_dec x r) as [->|N].
    - rewrite Nat.eqb_refl. destruct (in_dec Nat.eq_dec r b); destruct (nth_error h r); reflexivity.
    - rewrite (proj2 (Nat.eqb_neq x r) N). destruct (in_dec Nat.eq_dec r b); reflexivity.
  Qed.

  Lemma manual_seed_lemma b s h : 
    (valid_seed s -> exists h', manual_seed mseed b s h = (h', Returned) /\ forall r, nth_error h' r = seeded mseed b s h r) /\
    (~ valid_seed s -> manual_seed mseed b s h = (h, Raised ValueError)).
  Proof.
    destruct (manual_seed_cases b s h) as [[Hv ->]|[Hv ->]]; (split; intros; try contradiction); auto.
    eexists. split; [reflexivity|]. intros r. apply fold_seed_get.
  Qed.
End P.
