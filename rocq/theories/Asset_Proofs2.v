(** Proofs about names and cards. *)
From Coq Require Import String Ascii List Bool Arith Lia.
From Verif Require Import Config_Model Config_Spec Asset_Model Asset_Spec Asset_Proofs.
Import ListNotations.
Open Scope string_scope.
Open Scope list_scope.

Lemma las_app x y : list_ascii_of_string (x ++ y)%string = list_ascii_of_string x ++ list_ascii_of_string y.
Proof. induction x as [|q x IH]; simpl; [reflexivity|rewrite IH; reflexivity]. Qed.
Lemma las_sola l : list_ascii_of_string (string_of_list_ascii l) = l. Proof. apply list_ascii_of_string_of_list_ascii. Qed.
Lemma las_inj x y : list_ascii_of_string x = list_ascii_of_string y -> x = y.
Proof. intros E. rewrite <- (string_of_list_ascii_of_string x), <- (string_of_list_ascii_of_string y), E. reflexivity. Qed.

Lemma drop_space_spec l : exists a, Forall (fun c => is_space c = true) a /\ l = a ++ drop_space l /\ forall c r, drop_space l = c :: r -> is_space c = false.
Proof.
  induction l as [|c l (a & A & E & H)]; simpl; [exists []; split; [constructor|split; [reflexivity|discriminate]]|]. destruct (is_space c) eqn:S; [exists (c :: a); split; [constructor; assumption|split; [simpl; congruence|exact H]]|].
  exists []. split; [constructor|]. split; [reflexivity|]. intros c' r E'. injection E' as <- _. exact S.
Qed.
Lemma strip_strips s : strips s (strip s).
Proof.
  unfold strips, strip. set (l := list_ascii_of_string s). destruct (drop_space_spec l) as (a & A & E & H). destruct (drop_space_spec (rev (drop_space l))) as (b & B & E2 & H2). set (d := drop_space (rev (drop_space l))) in *.
  assert (E3 : drop_space l = rev d ++ rev b) by (rewrite <- rev_app_distr, <- E2, rev_involutive; reflexivity).
  split.
  - intros c. rewrite las_sola. intros [(r & R)|(r & R)].
    + apply (H c (r ++ rev b)). rewrite E3, R. reflexivity.
    + apply (H2 c (rev r)). rewrite <- (rev_involutive d), R, rev_app_distr. reflexivity.
  - exists a, (rev b). split; [exact A|]. split; [apply Forall_rev, B|]. rewrite las_sola, <- E3. exact E.
Qed.
Lemma drop_space_app a l : Forall (fun c => is_space c = true) a -> drop_space (a ++ l) = drop_space l.
Proof. intros A. induction A as [|c a S A IH]; simpl; [reflexivity|]. rewrite S. exact IH. Qed.
Lemma drop_space_id l : (forall c r, l = c :: r -> is_space c = false) -> drop_space l = l.
Proof. destruct l as [|c l]; simpl; [reflexivity|]. intros H. rewrite (H c l eq_refl). reflexivity. Qed.
Lemma strips_strip s t : strips s t -> strip s = t.
Proof.
  intros (T & a & b & A & B & E). unfold strip. apply las_inj. rewrite las_sola, E, (drop_space_app a _ A). destruct (list_ascii_of_string t) as [|c l] eqn:L.
  - simpl. rewrite <- (app_nil_r b), (drop_space_app b [] B). reflexivity.
  - rewrite (drop_space_id ((c :: l) ++ b)); [|intros c' r R; injection R as <- _; apply T; left; rewrite L; eauto]. rewrite rev_app_distr, (drop_space_app (rev b)) by (apply Forall_rev, B).
    rewrite drop_space_id, rev_involutive; [reflexivity|]. intros c' r R. apply T. right. exists (rev r). rewrite L, <- (rev_involutive (c :: l)), R. reflexivity.
Qed.
Lemma strip_stripped s : stripped s -> strip s = s.
Proof. intros S. apply strips_strip. split; [exact S|]. exists [], []. rewrite app_nil_r. repeat constructor. Qed.
Lemma strip_no_at s : no_at s -> no_at (strip s).
Proof. intros N I. destruct (strip_strips s) as (_ & a & b & _ & _ & E). apply N. rewrite E. apply in_or_app. right. apply in_or_app. left. exact I. Qed.

Lemma no_at_cons c s : no_at (String c s) <-> c <> at_sign /\ no_at s.
Proof. unfold no_at. simpl. intuition. Qed.
Lemma split_first_plain a : no_at a -> split_first a = (a, None).
Proof. induction a as [|c a IH]; intros N; [reflexivity|]. apply no_at_cons in N. destruct N as [N1 N2]. simpl. destruct (Ascii.eqb_spec c at_sign); [contradiction|]. rewrite (IH N2). reflexivity. Qed.
Lemma split_first_at a b : no_at a -> split_first (full_name a b) = (a, Some b).
Proof. induction a as [|c a IH]; intros N; [reflexivity|]. apply no_at_cons in N. destruct N as [N1 N2]. unfold full_name in *. simpl. destruct (Ascii.eqb_spec c at_sign); [contradiction|]. simpl in IH. rewrite (IH N2). reflexivity. Qed.
Lemma at_or s : no_at s \/ exists a b, no_at a /\ s = full_name a b.
Proof.
  induction s as [|c s IH]; [left; intros []|]. destruct (ascii_dec c at_sign) as [->|N]; [right; exists "", s; split; [intros []|reflexivity]|].
  destruct IH as [A|(a & b & A & ->)]; [left; apply no_at_cons; auto|right; exists (String c a), b; split; [apply no_at_cons; auto|reflexivity]].
Qed.
Lemma split_all_plain a : no_at a -> split_all a = [a].
Proof. induction a as [|c a IH]; intros N; [reflexivity|]. apply no_at_cons in N. destruct N as [N1 N2]. simpl. destruct (Ascii.eqb_spec c at_sign); [contradiction|]. rewrite (IH N2). reflexivity. Qed.
Lemma split_all_at a b : no_at a -> split_all (full_name a b) = a :: split_all b.
Proof. induction a as [|c a IH]; intros N; [reflexivity|]. apply no_at_cons in N. destruct N as [N1 N2]. unfold full_name in *. simpl. destruct (Ascii.eqb_spec c at_sign); [contradiction|]. simpl in IH. rewrite (IH N2). reflexivity. Qed.
Lemma split_all_ne s : split_all s <> [].
Proof. induction s as [|c s IH]; simpl; [discriminate|]. destruct (Ascii.eqb c at_sign); [discriminate|]. destruct (split_all s); [congruence|discriminate]. Qed.
Lemma ends_full n e : no_at e -> ends_with_at (full_name n e) = String.eqb e "".
Proof.
  intros N. unfold ends_with_at, full_name. rewrite las_app. simpl. rewrite rev_app_distr. simpl. rewrite <- app_assoc. destruct (String.eqb_spec e "") as [->|X]; [reflexivity|]. destruct (rev (list_ascii_of_string e)) as [|c r] eqn:R.
  - exfalso. apply X, las_inj. rewrite <- (rev_involutive (list_ascii_of_string e)), R. reflexivity.
  - simpl. apply Ascii.eqb_neq. intros ->. apply N. apply in_rev. rewrite R. left. reflexivity.
Qed.
Lemma drop_full n : drop_last (full_name n "") = n.
Proof. unfold drop_last, full_name. rewrite las_app. simpl. rewrite removelast_last. apply string_of_list_ascii_of_string. Qed.
Lemma parse_plain s n e : canonical n e -> parse_name s n = (n, envs s).
Proof. intros (_ & N & _ & S & _). unfold parse_name. rewrite (split_first_plain n N), (strip_stripped n S). reflexivity. Qed.

(** ** Retrieval *)
Lemma retrieve_spec s h0 fuel name h n es : stored s h0 -> keeps (next h0) h0 h -> parse_name s name = (n, es) -> List.length (names s) < fuel -> n <> "" ->
  let x := maybe_retrieve s fuel name h in
  keeps (next h) h (snd x) /\
  match fst x with
  | Ok None => absent s h0 (full_name n "")
  | Ok (Some c) => (forall i, In i (locs c) -> i < next (snd x)) /\ card_name c = n /\ exists l, chain s h0 es n l /\ shows s h0 es l (snd x) c
  | Err (BaseMissing b n') => n' = n /\ broken s h0 es n b
  | Err Recursion => cyclic s h0 es n
  | Err _ => False
  end.
Proof.
  intros St K P F N. cbv zeta. unfold maybe_retrieve. rewrite P. destruct (String.eqb_spec n ""); [contradiction|]. pose proof (do_retrieve_spec s h0 fuel n es St n h K) as D. cbv zeta in D. destruct D as (V & K' & B). split; [exact K'|].
  destruct (ends_or_cyclic s h0 es St n) as [(l & y & A & T & L)|C].
  - destruct (pure_steps s h0 es St n l fuel n y A ltac:(lia) (or_introl eq_refl)) as [I1 I2]. destruct (last_kind s h0 es St y T) as [Ab|(v & O & Nv)].
    + specialize (I2 Ab). destruct (String.eqb_spec n y) as [->|Ny].
      * destruct I2 as [I2 ->]. rewrite I2 in V. destruct (do_retrieve s fuel y y es h) as [[[c|]|x] h']; simpl in V; try discriminate. exact Ab.
      * rewrite I2 in V. destruct (do_retrieve s fuel n n es h) as [[[c|]|x] h']; simpl in V; try discriminate. injection V as ->. simpl. split; [reflexivity|]. apply broken_steps. exists l. split; [|auto]. intros ->. inversion A. contradiction.
    + destruct (I1 v O Nv) as (r & E & M & Fr). rewrite E in V. destruct (do_retrieve s fuel n n es h) as [[[c|]|x] h'] eqn:Dr; simpl in V; try discriminate. injection V as V. simpl in *. split; [exact B|]. rewrite <- V in M, Fr.
      split; [destruct c as [nc i b]; simpl in *; destruct l as [|x l]; simpl in M; [inversion A; congruence|inversion A; congruence]|]. exists (l ++ [y]). split; [apply chain_steps; exists l, y, v; auto|]. apply shows_view; assumption.
  - rewrite (pure_cyclic s h0 es St n fuel n C) in V. destruct (do_retrieve s fuel n n es h) as [[[c|]|x] h']; simpl in V; try discriminate. injection V as ->. exact C.
Qed.
Lemma view_keep h h' c m : (forall i, i < m -> cell h' i = cell h i) -> (forall i, In i (locs c) -> i < m) -> view h' c = view h c.
Proof. intros K. revert c. fix F 1. intros [n i b] B. simpl. f_equal; [rewrite K; [reflexivity|apply B; left; reflexivity]|]. destruct b as [c'|]; [|reflexivity]. apply F. intros j J. apply B. right. exact J. Qed.
Lemma exclusive s h es n : stored s h -> (forall l, chain s h es n l -> ~ absent s h (full_name n "") /\ (forall b, ~ broken s h es n b) /\ ~ cyclic s h es n /\ forall l', chain s h es n l' -> l' = l) /\
  (forall b, broken s h es n b -> ~ absent s h (full_name n "") /\ ~ cyclic s h es n /\ forall b', broken s h es n b' -> b' = b) /\ (cyclic s h es n -> ~ absent s h (full_name n "")).
Proof.
  intros St. assert (Pre : forall l y, steps s h es n l y -> l <> [] -> ~ absent s h (full_name n "")) by (intros l y A N; destruct l as [|x l]; [congruence|]; inversion A; subst; eapply based_present; eassumption). split; [|split].
  - intros l C. apply chain_steps in C. destruct C as (l' & y & v & A & -> & O & N). pose proof (own_last s h es St y v O N) as T. split; [|split; [|split]].
    + destruct l' as [|x l']; [inversion A; subst; destruct O as (d & _ & D & _); intros Ab; apply (Ab d D)|eapply Pre; [exact A|discriminate]].
    + intros b B. apply broken_steps in B. destruct B as (l2 & N2 & A2 & Ab). destruct (steps_det s h es St _ _ _ A T _ _ A2 (absent_last s h es b Ab)) as [-> ->]. destruct O as (d & _ & D & _). apply (Ab d D).
    + intros C. apply (cyclic_steps s h es St n C _ _ A T).
    + intros l2 C2. apply chain_steps in C2. destruct C2 as (l3 & y3 & v3 & A3 & -> & O3 & N3). destruct (steps_det s h es St _ _ _ A T _ _ A3 (own_last s h es St y3 v3 O3 N3)) as [-> ->]. reflexivity.
  - intros b B. apply broken_steps in B. destruct B as (l & N & A & Ab). split; [eapply Pre; eassumption|]. split.
    + intros C. apply (cyclic_steps s h es St n C _ _ A), absent_last, Ab.
    + intros b' B'. apply broken_steps in B'. destruct B' as (l' & N' & A' & Ab'). destruct (steps_det s h es St _ _ _ A (absent_last _ _ _ _ Ab) _ _ A' (absent_last _ _ _ _ Ab')) as [_ ->]. reflexivity.
  - intros C. destruct (cyclic_next s h es n C) as (b & H & _). eapply based_present; eassumption.
Qed.
Lemma uses_keeps s n0 h h' : uses s n0 h h' -> forall h0, stored s h0 -> next h0 = n0 -> keeps n0 h0 h -> keeps n0 h0 h'.
Proof.
  intros U. induction U as [h|h fuel name h' U IH|h i d h' L U IH]; intros h0 St E K; [exact K| |].
  - apply IH; [exact St|exact E|]. eapply keeps_trans; [exact K|]. subst n0. unfold maybe_retrieve. destruct (parse_name s name) as [n es]. destruct (String.eqb n ""); [apply keeps_refl|]. eapply keeps_le; [|apply (do_retrieve_spec s h0 fuel n es St n h K)]. apply K.
  - apply IH; [exact St|exact E|]. eapply keeps_trans; [exact K|]. split; [simpl; lia|]. intros j J. simpl. destruct (Nat.eqb_spec j i); [lia|reflexivity].
Qed.
Lemma viewed_pure s h0 fuel name h : stored s h0 -> keeps (next h0) h0 h -> viewed (maybe_retrieve s fuel name h) = let (n, es) := parse_name s name in if String.eqb n "" then Ok None else pure_retrieve s h0 fuel n n es.
Proof. intros St K. unfold maybe_retrieve. destruct (parse_name s name) as [n es]. destruct (String.eqb n ""); [reflexivity|]. apply (do_retrieve_spec s h0 fuel n es St n h K). Qed.
Lemma field_of_fun s h es k l v v' : stored s h -> field_of s h es k l v -> field_of s h es k l v' -> v = v'.
Proof.
  intros St A. revert v'. induction A as [|n l v O|n l v O A IH]; intros v' B; inversion B as [|? ? ? O'|? ? ? O' B']; subst; auto; pose proof (own_fun _ _ _ _ _ _ _ St O O') as E; congruence.
Qed.

(** find_cards *)
Lemma find_spec s h0 fuel eqv k v : stored s h0 -> List.length (names s) < fuel -> k <> "__source__" -> forall ns h, keeps (next h0) h0 h -> (forall f, In f ns -> exists n e, f = full_name n e /\ canonical n e) ->
  (forall n, In (full_name n "") ns -> exists l, chain s h0 (envs s) n l) ->
  exists cs h', find_cards s fuel eqv k v ns h = (Ok cs, h') /\ keeps (next h) h h' /\
    (forall n, In n (map card_name cs) <-> In (full_name n "") ns /\ exists l w, chain s h0 (envs s) n l /\ field_of s h0 (envs s) k l (Some w) /\ eqv v w = true) /\ (NoDup ns -> NoDup (map card_name cs)) /\
    (forall c, In c cs -> exists l, chain s h0 (envs s) (card_name c) l /\ shows s h0 (envs s) l h' c).
Proof.
  intros St F Kk. induction ns as [|f ns IH]; intros h K Cn Ch; cbn [find_cards].
  - exists [], h. split; [reflexivity|]. split; [apply keeps_refl|]. split; [intros n; simpl; intuition|]. split; [constructor|intros c []].
  - destruct (Cn f (or_introl eq_refl)) as (n & e & -> & C). pose proof C as (Nn & An & Ae & Sn & Se). rewrite (ends_full n e Ae). destruct (String.eqb_spec e "") as [->|Ne]; cbn [negb].
    + rewrite drop_full. pose proof (retrieve_spec s h0 fuel n h n (envs s) St K (parse_plain s n "" C) F Nn) as R. cbv zeta in R. destruct (Ch n (or_introl eq_refl)) as (l & Cl). destruct (exclusive s h0 (envs s) n St) as [X _]. destruct (X l Cl) as (X1 & X2 & X3 & X4).
      destruct (maybe_retrieve s fuel n h) as [[[c|]|x] h1]; simpl in R; destruct R as [K1 R]; [|destruct (X1 R)|destruct x; try contradiction; [destruct R as [_ R]; destruct (X2 _ R)]].
      destruct R as (B & Nc & l' & Cl' & Sh). rewrite (X4 l' Cl') in *. assert (K01 : keeps (next h0) h0 h1) by (eapply keeps_trans; [exact K|eapply keeps_le; [|exact K1]; apply K]).
      destruct (IH h1 K01 (fun f I => Cn f (or_intror I)) (fun m I => Ch m (or_intror I))) as (cs & h2 & E & K2 & I1 & I2 & I3). rewrite E. eexists _, h2. split; [reflexivity|]. split; [eapply keeps_trans; [exact K1|eapply keeps_le; [|exact K2]; apply K1]|].
      assert (Sh2 : shows s h0 (envs s) l h2 c) by (unfold shows; rewrite !(view_keep h1 h2 c (next h1)); [|apply K2|exact B]; split; [apply Sh|]; intros k' Kk'; rewrite get_field_view, (view_keep h1 h2 c (next h1)), <- get_field_view; [apply Sh, Kk'|apply K2|exact B]).
      assert (Hit : (match get_field h1 k c with Some w => eqv v w | None => false end) = true <-> exists l w, chain s h0 (envs s) n l /\ field_of s h0 (envs s) k l (Some w) /\ eqv v w = true).
      { pose proof (proj2 Sh k Kk) as Fo. split.
        - destruct (get_field h1 k c) as [w|]; [|discriminate]. intros Q. exists l, w. auto.
        - intros (l2 & w & C2 & F2 & Q). rewrite (X4 l2 C2) in F2. rewrite (field_of_fun _ _ _ _ _ _ _ St Fo F2). exact Q. }
      destruct (match get_field h1 k c with Some w => eqv v w | None => false end).
      * split; [|split].
        -- intros m. simpl. rewrite I1, Nc. split; [intros [<-|[Q1 Q2]]; [split; [auto|apply Hit; reflexivity]|auto]|]. intros [[E'|Q1] Q2]; [left; apply full_name_inj, E'|auto].
        -- intros Nd. inversion Nd as [|? ? Nd1 Nd2]; subst. simpl. constructor; [|apply I2, Nd2]. rewrite I1. intros [Q _]. contradiction.
        -- intros c' [<-|Q]; [exists l; rewrite Nc; auto|apply I3, Q].
      * split; [|split].
        -- intros m. rewrite I1. simpl. split; [intros [Q1 Q2]; auto|]. intros [[E'|Q1] Q2]; [|auto]. apply full_name_inj in E'. subst m. apply Hit in Q2. discriminate.
        -- intros Nd. inversion Nd; subst. auto.
        -- exact I3.
    + destruct (IH h K (fun f I => Cn f (or_intror I)) (fun m I => Ch m (or_intror I))) as (cs & h2 & E & K2 & I1 & I2 & I3). exists cs, h2. split; [exact E|]. split; [exact K2|]. split; [|split; [|exact I3]].
      * intros m. rewrite I1. simpl. split; [intros [Q1 Q2]; auto|]. intros [[E'|Q1] Q2]; [|auto]. exfalso. apply (f_equal ends_with_at) in E'. rewrite (ends_full n e Ae), (ends_full m "" ltac:(intros [])) in E'. destruct (String.eqb_spec e ""); [contradiction|discriminate].
      * intros Nd. inversion Nd; subst. auto.
Qed.

(** ** Loading *)
Lemma canonicalize_spec raw full : canonicalize raw = Some full -> exists n e, full = full_name n e /\ canonical n e /\
  ((no_at raw /\ strips raw n /\ e = "") \/ exists a b, no_at a /\ no_at b /\ raw = full_name a b /\ strips a n /\ strips b e).
Proof.
  unfold canonicalize. intros H.
  assert (Fin : forall a b, no_at a -> no_at b -> match Some (full_name (strip a) (strip b)) with Some (String c s) => if Ascii.eqb c at_sign then None else Some (String c s) | _ => None end = Some full -> full = full_name (strip a) (strip b) /\ canonical (strip a) (strip b)).
  { intros a b A B E. assert (X : full = full_name (strip a) (strip b) /\ strip a <> "").
    { unfold full_name in *. destruct (strip a) as [|c t]; simpl in E; [discriminate|]. destruct (Ascii.eqb c at_sign); [discriminate|]. injection E as <-. split; [reflexivity|discriminate]. }
    destruct X as [X1 X2]. split; [exact X1|]. split; [exact X2|]. split; [apply strip_no_at, A|]. split; [apply strip_no_at, B|]. split; apply strip_strips. }
  destruct (at_or raw) as [A|(a & b & A & ->)].
  - rewrite (split_all_plain raw A) in H. change (full_name (strip raw) "") with (full_name (strip raw) (strip "")) in H. destruct (Fin raw "" A ltac:(intros []) H) as [E C]. exists (strip raw), "". split; [exact E|]. split; [exact C|]. left. split; [exact A|]. split; [apply strip_strips|reflexivity].
  - rewrite (split_all_at a b A) in H. destruct (at_or b) as [B|(b1 & b2 & B & ->)].
    + rewrite (split_all_plain b B) in H. destruct (Fin a b A B H) as [E C]. exists (strip a), (strip b). split; [exact E|]. split; [exact C|]. right. exists a, b. split; [exact A|]. split; [exact B|]. split; [reflexivity|]. split; apply strip_strips.
    + rewrite (split_all_at b1 b2 B) in H. destruct (split_all b2) eqn:S; [destruct (split_all_ne b2 S)|discriminate].
Qed.
Lemma entry_name_canonical d n d' : entry_name d = Some (n, d') -> exists a e, n = full_name a e /\ canonical a e.
Proof.
  unfold entry_name. destruct (dpop "name" d) as [[[[]|]|] d0]; try discriminate. destruct (String.eqb s ""); [discriminate|]. destruct (canonicalize s) as [m|] eqn:C; [|discriminate]. intros H. injection H as <- _. apply canonicalize_spec in C. destruct C as (a & e & A & B & _). eauto.
Qed.
Lemma collect_spec load l : forall acc r, NoDup (map fst acc) -> collect load l acc = Some r -> NoDup (map fst r) /\ exists r', r = acc ++ r' /\ Forall2 (fun d nd => load d = Some nd) l r'.
Proof.
  induction l as [|d l IH]; intros acc r N H; simpl in H; [injection H as <-; split; [exact N|exists []; rewrite app_nil_r; auto]|]. destruct (load d) as [[n d']|] eqn:L; [|discriminate]. destruct (dget n acc) eqn:D; [discriminate|]. apply dget_none in D.
  apply IH in H; [|rewrite map_app; simpl; clear - N D; induction (map fst acc) as [|x m IHm]; simpl; [repeat constructor; intros []|]; inversion N; subst; constructor; [rewrite in_app_iff; simpl; intros [I|[<-|[]]]; [contradiction|apply D; left; reflexivity]|apply IHm; [assumption|intros I; apply D; right; exact I]]].
  destruct H as (N' & r' & -> & F). split; [exact N'|]. exists ((n, d') :: r'). rewrite <- app_assoc. split; [reflexivity|]. constructor; assumption.
Qed.
