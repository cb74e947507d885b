(** C19: segments of files. *)
From Coq Require Import List Bool Arith NArith Ascii Lia.
From Verif Require Import File_Model File_Spec File_Cache.
Import ListNotations.

(** ** Text *)
Lemma split_from_app sep p a r : ~ In sep a -> split_from sep p (a ++ sep :: r) = (rev p ++ a) :: split sep r.
Proof.
  revert p. induction a as [|c a IH]; intros p N; cbn [app split_from].
  - destruct (ascii_dec sep sep); [|contradiction]. now rewrite app_nil_r.
  - destruct (ascii_dec c sep) as [->|]; [destruct N; now left|]. rewrite IH by (intros I; apply N; now right). cbn [rev]. now rewrite <- app_assoc.
Qed.
Lemma split_from_one sep p a : ~ In sep a -> split_from sep p a = [rev p ++ a].
Proof.
  revert p. induction a as [|c a IH]; intros p N; cbn [split_from]; [now rewrite app_nil_r|]. destruct (ascii_dec c sep) as [->|]; [destruct N; now left|].
  rewrite IH by (intros I; apply N; now right). cbn [rev]. now rewrite <- app_assoc.
Qed.
Lemma split_cons sep a r : ~ In sep a -> split sep (a ++ sep :: r) = a :: split sep r.
Proof. apply (split_from_app sep []). Qed.
Lemma split_one sep a : ~ In sep a -> split sep a = [a].
Proof. apply (split_from_one sep []). Qed.
Lemma split_cases sep (s : str) : ~ In sep s \/ exists a r, s = a ++ sep :: r /\ ~ In sep a.
Proof.
  induction s as [|c s [N|(a & r & -> & N)]]; [now left| |].
  - destruct (ascii_dec c sep) as [->|E]; [right; exists [], s; split; [reflexivity|tauto]|]. left. intros [I|I]; [congruence|tauto].
  - right. destruct (ascii_dec c sep) as [->|E]; [exists [], (a ++ sep :: r); split; [reflexivity|tauto]|]. exists (c :: a), r. split; [reflexivity|]. intros [I|I]; [congruence|tauto].
Qed.
Lemma split_nonempty sep s : split sep s <> [].
Proof. destruct (split_cases sep s) as [N|(a & r & -> & N)]; [rewrite split_one by exact N|rewrite split_cons by exact N]; discriminate. Qed.

Lemma ltrim_blank l s : blank l -> ltrim (l ++ s) = ltrim s.
Proof. induction 1 as [|c l H B IH]; [reflexivity|]. cbn [app ltrim]. now rewrite H. Qed.
Lemma ltrim_id s d : s <> [] -> is_space (hd d s) = false -> ltrim s = s.
Proof. destruct s as [|c s]; [contradiction|]. cbn. now intros _ ->. Qed.
Lemma ltrim_split s : exists l, s = l ++ ltrim s /\ blank l /\ (ltrim s <> [] -> is_space (hd ":"%char (ltrim s)) = false).
Proof.
  induction s as [|c s (l & E & B & H)]; [exists []; split; [reflexivity|]; split; [constructor|intros X; now destruct X]|]. cbn [ltrim]. destruct (is_space c) eqn:S0.
  - exists (c :: l). cbn [app]. rewrite <- E. split; [reflexivity|]. split; [now constructor|exact H].
  - exists []. split; [reflexivity|]. split; [constructor|]. intros _. exact S0.
Qed.
Lemma blank_rev l : blank l -> blank (rev l).
Proof. unfold blank. rewrite !Forall_forall. intros H x X. apply H. now apply in_rev in X. Qed.
Lemma hd_rev (s : str) d : hd d (rev s) = last s d.
Proof. destruct s as [|c s] using rev_ind; [reflexivity|]. rewrite rev_app_distr, last_last. reflexivity. Qed.
Lemma trim_padded inner s : padded inner s -> inner <> [] -> is_space (hd ":"%char inner) = false -> is_space (last inner ":"%char) = false -> trim s = inner.
Proof.
  intros (l & r & -> & L & R) N H1 H2. unfold trim, rtrim. rewrite ltrim_blank by exact L. destruct inner as [|c i] eqn:E; [contradiction|]. rewrite <- E in *.
  assert (X : ltrim (inner ++ r) = inner ++ r) by (rewrite E; apply (ltrim_id _ ":"%char); [discriminate|]; rewrite E in H1; exact H1). rewrite X, rev_app_distr, ltrim_blank by now apply blank_rev.
  rewrite (ltrim_id _ ":"%char); [apply rev_involutive| |now rewrite hd_rev]. intros Y. apply N. rewrite <- (rev_involutive inner), Y. reflexivity.
Qed.
Lemma trim_spec s : padded (trim s) s /\ (trim s <> [] -> is_space (hd ":"%char (trim s)) = false /\ is_space (last (trim s) ":"%char) = false).
Proof.
  unfold trim, rtrim. destruct (ltrim_split s) as (l & E & L & H1). destruct (ltrim_split (rev (ltrim s))) as (r & Er & R & H2). set (t := ltrim s) in *. set (u := ltrim (rev t)) in *.
  assert (Et : t = rev u ++ rev r) by (rewrite <- (rev_involutive t), Er; apply rev_app_distr). split.
  - exists l, (rev r). split; [now rewrite <- Et|]. split; [exact L|now apply blank_rev].
  - intros N. assert (Nu : u <> []) by (intros X; apply N; now rewrite X). split.
    + assert (Nt : t <> []) by (rewrite Et; destruct (rev u); [contradiction|discriminate]). specialize (H1 Nt). rewrite Et in H1. destruct (rev u) as [|c v]; [contradiction|exact H1].
    + rewrite <- hd_rev, rev_involutive. now apply H2.
Qed.
Lemma padded_in inner s c : padded inner s -> In c inner -> In c s.
Proof. intros (l & r & -> & _) I. apply in_or_app. right. apply in_or_app. now left. Qed.
Lemma colon_not_space : is_space ":"%char = false.
Proof. reflexivity. Qed.
Lemma padded_no_colon inner s : padded inner s -> ~ In ":"%char inner -> ~ In ":"%char s.
Proof.
  intros (l & r & -> & L & R) N I. apply in_app_or in I as [I|I]; [|apply in_app_or in I as [I|I]; [contradiction|]]; unfold blank in *; rewrite Forall_forall in *; [specialize (L _ I)|specialize (R _ I)]; rewrite colon_not_space in *; discriminate.
Qed.

(** ** Numbers *)
Lemma nat_of_digit d : d < 10 -> nat_of_ascii (digit_char d) = 48 + d.
Proof. intros H. unfold digit_char. apply nat_ascii_embedding. lia. Qed.
Lemma digit_of d : d < 10 -> digit (digit_char d) = Some (N.of_nat d).
Proof.
  intros H. unfold digit. rewrite nat_of_digit by exact H. destruct (Nat.leb_spec 48 (48 + d)); [|lia]. destruct (Nat.leb_spec (48 + d) 57); [|lia]. cbn [andb]. do 2 f_equal. lia.
Qed.
Lemma digit_inv c x : digit c = Some x -> exists d, d < 10 /\ c = digit_char d /\ x = N.of_nat d.
Proof.
  unfold digit. destruct (Nat.leb_spec 48 (nat_of_ascii c)); [|discriminate]. destruct (Nat.leb_spec (nat_of_ascii c) 57); [|discriminate]. cbn [andb]. intros [= <-].
  exists (nat_of_ascii c - 48). split; [lia|]. split; [|reflexivity]. unfold digit_char. replace (48 + (nat_of_ascii c - 48)) with (nat_of_ascii c) by lia. symmetry. apply ascii_nat_embedding.
Qed.
Lemma digits_app s t : forall acc, digits acc (s ++ t) = let (n, rest) := digits acc s in match rest with [] => digits n t | _ => (n, rest ++ t) end.
Proof.
  induction s as [|c s IH]; intros acc; cbn [app digits]; [reflexivity|]. destruct (digit c); [apply IH|reflexivity].
Qed.
Lemma denotes_digits s n : denotes s n -> digits 0 s = (n, []).
Proof.
  induction 1 as [d H|s n d H IH Hd]; [cbn [digits]; rewrite digit_of by exact H; reflexivity|]. rewrite digits_app, IH. cbn [digits]. now rewrite digit_of by exact Hd.
Qed.
Lemma digits_denotes s : forall n, s <> [] -> digits 0 s = (n, []) -> denotes s n.
Proof.
  induction s as [|c s IH] using rev_ind; intros n N D; [contradiction|]. rewrite digits_app in D. destruct (digits 0 s) as [m rest] eqn:E.
  destruct rest as [|x rest]; [|discriminate D]. cbn [digits] in D. destruct (digit c) as [x|] eqn:X; [|discriminate D]. injection D as <-. apply digit_inv in X as (d & Hd & -> & ->).
  destruct s as [|y s]; [|apply denotes_more; [apply IH; [discriminate|reflexivity]|exact Hd]]. cbn in E. injection E as <-. replace (0 * 10 + N.of_nat d)%N with (N.of_nat d) by lia. now constructor.
Qed.
Lemma denotes_shape s n : denotes s n -> s <> [] /\ Forall (fun c => exists d, d < 10 /\ c = digit_char d) s.
Proof.
  induction 1 as [d H|s n d H [N F] Hd]; [split; [discriminate|repeat constructor; eauto]|]. split; [destruct s; discriminate|]. apply Forall_app. split; [exact F|]. repeat constructor. eauto.
Qed.
Lemma digit_plain d : d < 10 -> is_space (digit_char d) = false /\ digit_char d <> ":"%char.
Proof.
  intros H. split.
  - unfold is_space. rewrite nat_of_digit by exact H. destruct (Nat.eqb_spec (48 + d) 32); [lia|]. destruct (Nat.leb_spec (48 + d) 13); [lia|]. now rewrite andb_false_r.
  - intros E. apply (f_equal nat_of_ascii) in E. rewrite nat_of_digit in E by exact H. cbn in E. lia.
Qed.
Lemma denotes_plain s n : denotes s n -> pathname s.
Proof.
  intros D. apply denotes_shape in D as [N F]. rewrite Forall_forall in F. split; [exact N|]. split; [|split].
  - intros I. destruct (F _ I) as (d & Hd & E). destruct (digit_plain d Hd) as [_ X]. apply X. now rewrite E.
  - destruct s as [|c s]; [contradiction|]. destruct (F c (or_introl eq_refl)) as (d & Hd & ->). now apply digit_plain.
  - destruct s as [|c s] using rev_ind; [contradiction|]. rewrite last_last. destruct (F c) as (d & Hd & ->); [apply in_or_app; right; now left|]. now apply digit_plain.
Qed.
Lemma from_string_some s n : denotes s n -> (n <= max_size)%N -> from_string s = Some n.
Proof.
  intros D H. pose proof (denotes_digits s n D) as E. destruct (denotes_shape s n D) as [N F]. unfold from_string. destruct s as [|c s]; [contradiction|]. inversion F as [|? ? (d & Hd & ->) _]; subst.
  rewrite digit_of by exact Hd. rewrite E. destruct (N.ltb_spec max_size n); [lia|reflexivity].
Qed.
Lemma from_string_inv s n : from_string s = Some n -> denotes s n /\ (n <= max_size)%N.
Proof.
  unfold from_string. destruct s as [|c s]; [discriminate|]. destruct (digit c); [|discriminate]. destruct (digits 0 (c :: s)) as [m rest] eqn:E. destruct (N.ltb_spec max_size m); [discriminate|].
  destruct rest; [|discriminate]. intros [= ->]. split; [|lia]. apply digits_denotes; [discriminate|exact E].
Qed.

(** ** The mapper *)
Section M.
  Variable files : str -> option (list ascii).
  (** What a call computes when nothing is cached *)
  Definition pure (s : str) : result := fst (call files s (empty_cache 0)).
  Definition coherent (c : state) : Prop := exists es, inv es c /\ forall k v, last_added k es = Some v -> files k = Some v.
  Lemma coherent_empty n : coherent (empty_cache n).
  Proof. exists []. split; [apply inv_empty|discriminate]. Qed.
  Lemma map_spec p c : coherent c -> fst (get_memory_map files p c) = files p /\ coherent (snd (get_memory_map files p c)).
  Proof.
    intros (es & H & C). unfold get_memory_map. pose proof (inv_get es c p H) as G. destruct (maybe_get p c) as [[b|] c']; cbn [fst snd].
    - destruct G as (_ & L & I & _). split; [symmetry; now apply C|]. exists (Hit p b :: es). split; [exact I|exact C].
    - destruct G as (_ & -> & I). destruct (files p) as [b|] eqn:F; cbn [fst snd]; [|split; [reflexivity|now exists es]]. split; [reflexivity|]. exists (Added p b :: es).
      split; [now apply inv_add|]. intros k v. cbn [last_added]. destruct (str_eq_dec p k) as [<-|]; [congruence|apply C].
  Qed.
  Lemma call_spec s c : coherent c -> fst (call files s c) = pure s /\ coherent (snd (call files s c)).
  Proof.
    intros H. unfold pure, call. destruct (parts s) as [[|p specs]|]; try (split; [reflexivity|exact H]).
    pose proof (map_spec p c H) as [M1 M2]. pose proof (map_spec p (empty_cache 0) (coherent_empty 0)) as [E1 _].
    destruct (get_memory_map files p c) as [x c'], (get_memory_map files p (empty_cache 0)) as [y c'']. cbn [fst snd] in *. subst x y.
    destruct (nth_error specs 0) as [t|], (nth_error specs 1) as [u|]; try destruct (from_string t); try destruct (from_string u); try (split; [reflexivity|exact H]); destruct (files p); try (split; [reflexivity|exact M2]);
      destruct (_ <? _)%N; try (split; [reflexivity|exact M2]); destruct (_ <? _)%N; split; try reflexivity; exact M2.
  Qed.
  Lemma calls_spec ss : forall c, coherent c -> fst (calls files ss c) = map pure ss /\ coherent (snd (calls files ss c)).
  Proof.
    induction ss as [|s ss IH]; intros c H; cbn [calls map]; [split; [reflexivity|exact H]|]. pose proof (call_spec s c H) as [A B]. destruct (call files s c) as [r c']. cbn [fst snd] in A, B.
    specialize (IH c' B) as [I J]. destruct (calls files ss c') as [rs c'']. cbn [fst snd] in *. split; [congruence|exact J].
  Qed.
  Lemma after_spec before cap s : fst (call files s (snd (calls files before (empty_cache cap)))) = pure s.
  Proof. apply call_spec, calls_spec, coherent_empty. Qed.

  Lemma parts_of (l : list (str * str)) s : Forall (fun x => pathname (fst x) /\ padded (fst x) (snd x)) l -> length l <= 3 ->
    split ":"%char s = map snd l -> parts s = Some (map fst l).
  Proof.
    intros F L E. assert (T : map trim (split ":"%char s) = map fst l).
    { rewrite E, map_map. apply map_ext_in. intros [i x] I. rewrite Forall_forall in F. destruct (F _ I) as [(P1 & _ & P2 & P3) P4]. now apply trim_padded. }
    unfold parts. rewrite T, map_length. destruct (Nat.ltb_spec 3 (length l)); [lia|]. cbn [orb]. match goal with |- (if ?b then _ else _) = _ => destruct b eqn:X end; [|reflexivity]. exfalso.
    apply existsb_exists in X as (x & I & X). apply in_map_iff in I as ((i & y) & <- & I). rewrite Forall_forall in F. destruct (F _ I) as [(P1 & _) _]. cbn [fst] in *. destruct i; [contradiction|discriminate].
  Qed.
  Lemma parts_inv s ps : parts s = Some ps -> exists l, ps = map fst l /\ split ":"%char s = map snd l /\ length l <= 3 /\
    Forall (fun x => fst x <> [] /\ is_space (hd ":"%char (fst x)) = false /\ is_space (last (fst x) ":"%char) = false /\ padded (fst x) (snd x)) l.
  Proof.
    unfold parts. rewrite map_length. destruct (Nat.ltb_spec 3 (length (split ":"%char s))) as [|L]; [discriminate|]. cbn [orb]. match goal with |- (if ?b then _ else _) = _ -> _ => destruct b eqn:X end; [discriminate|]. intros [= <-].
    exists (map (fun x => (trim x, x)) (split ":"%char s)). rewrite !map_map. cbn [fst snd]. rewrite map_id. rewrite map_length. split; [reflexivity|]. split; [reflexivity|]. split; [exact L|].
    rewrite Forall_map, Forall_forall. intros x I. cbn [fst snd]. destruct (trim_spec x) as [P Q].
    assert (N : trim x <> []).
    { intros E. rewrite <- not_true_iff_false in X. apply X. apply existsb_exists. exists []. split; [|reflexivity]. rewrite <- E. now apply in_map. }
    destruct (Q N) as [Q1 Q2]. auto.
  Qed.
  (** [split] gives back parts without separators that were joined by it. *)
  Fixpoint joined (l : list str) : str := match l with [] => [] | [x] => x | x :: l' => x ++ ":"%char :: joined l' end.
  Lemma split_joined_aux n : forall s l, length l <= n -> split ":"%char s = l -> s = joined l /\ Forall (fun x => ~ In ":"%char x) l.
  Proof.
    induction n as [|n IH]; intros s l Ln E.
    - destruct l; [|cbn in Ln; lia]. destruct (split_nonempty ":"%char s E).
    - destruct (split_cases ":"%char s) as [N|(a & r & -> & N)].
      + rewrite split_one in E by exact N. subst l. split; [reflexivity|repeat constructor; exact N].
      + rewrite split_cons in E by exact N. subst l. cbn [length] in Ln. destruct (IH r (split ":"%char r) ltac:(lia) eq_refl) as [E F]. split; [|constructor; assumption].
        cbn [joined]. destruct (split ":"%char r) eqn:X; [destruct (split_nonempty ":"%char r X)|]. now rewrite <- E.
  Qed.
End M.

(** Earlier calls and the capacity of the cache do not affect what a call gives, while the files stay as they are. *)
Theorem C19_history files before cap s :
  fst (call files s (snd (calls files before (empty_cache cap)))) = fst (call files s (empty_cache 0)).
Proof. apply after_spec. Qed.
Print Assumptions C19_history.

(** [path:offset:size] gives exactly the bytes of the range, [path:offset] those from the offset, [path] all of them; blanks around the parts do not matter. *)
Theorem C19_segment files before cap p p' b o o' n k k' m :
  pathname p -> padded p p' -> files p = Some b -> (N.of_nat (length b) < 2 ^ 64)%N ->
  denotes o n -> padded o o' -> denotes k m -> padded k k' -> (n + m <= N.of_nat (length b))%N ->
  let c := snd (calls files before (empty_cache cap)) in
  (exists r, fst (call files (p' ++ ":"%char :: o' ++ ":"%char :: k') c) = Ok r /\ read r = Some (segment n m b)) /\
  (exists r, fst (call files (p' ++ ":"%char :: o') c) = Ok r /\ read r = Some (skipn (N.to_nat n) b)) /\
  (exists r, fst (call files p' c) = Ok r /\ read r = Some b).
Proof.
  intros P PP F B O PO K PK L c. unfold c. rewrite !after_spec. unfold pure, call.
  assert (Np : ~ In ":"%char p') by (eapply padded_no_colon; [exact PP|apply P]).
  assert (No : ~ In ":"%char o') by (eapply padded_no_colon; [exact PO|apply (denotes_plain o n O)]).
  assert (Nk : ~ In ":"%char k') by (eapply padded_no_colon; [exact PK|apply (denotes_plain k m K)]).
  assert (M : forall files p b, files p = Some b -> get_memory_map files p (empty_cache 0) = (Some b, empty_cache 0)) by (intros files0 p0 b0 E; unfold get_memory_map; cbn; now rewrite E).
  assert (Fo : from_string o = Some n) by (apply from_string_some; [exact O|unfold max_size; lia]). assert (Fk : from_string k = Some m) by (apply from_string_some; [exact K|unfold max_size; lia]).
  rewrite (parts_of [(p, p'); (o, o'); (k, k')]); cycle 1.
  { repeat constructor; try assumption; try apply P; try apply (denotes_plain o n O); try apply (denotes_plain k m K). }
  { cbn; lia. }
  { cbn [map snd]. rewrite split_cons by exact Np. rewrite split_cons by exact No. now rewrite split_one by exact Nk. }
  rewrite (parts_of [(p, p'); (o, o')]); cycle 1.
  { repeat constructor; try assumption; try apply P; apply (denotes_plain o n O). }
  { cbn; lia. }
  { cbn [map snd]. rewrite split_cons by exact Np. now rewrite split_one by exact No. }
  rewrite (parts_of [(p, p')]); cycle 1.
  { repeat constructor; try assumption; apply P. }
  { cbn; lia. }
  { cbn [map snd]. now rewrite split_one by exact Np. }
  cbn [map fst nth_error]. rewrite Fo, Fk, (M _ _ _ F). destruct (N.ltb_spec (N.of_nat (length b)) n) as [X|X]; [lia|]. unfold wrap. rewrite N.mod_small by lia. destruct (N.ltb_spec (N.of_nat (length b)) (n + m)) as [Y|Y]; [lia|].
  cbn [fst]. split; [|split]; eexists; (split; [reflexivity|]); unfold read; cbn [contents offset bytes].
  - destruct (N.ltb_spec (N.of_nat (length b)) (n + m)); [lia|reflexivity].
  - destruct (N.ltb_spec (N.of_nat (length b)) (n + (N.of_nat (length b) - n))); [lia|]. f_equal. apply firstn_all2. rewrite skipn_length. lia.
  - destruct (N.ltb_spec (N.of_nat (length b)) (0 + N.of_nat (length b))); [lia|]. f_equal. change (N.to_nat 0) with 0. cbn [skipn]. apply firstn_all2. lia.
Qed.
Print Assumptions C19_segment.

(** A call only succeeds on such a text, for a file that exists and a range inside of it, unless offset and size together reach 2^64. *)
Theorem C19_raises files before cap s r :
  fst (call files s (snd (calls files before (empty_cache cap)))) = Ok r ->
  exists p p' b, pathname p /\ padded p p' /\ files p = Some b /\
    ((s = p' /\ r = Block b 0 (N.of_nat (length b)))
     \/ (exists o o' n, s = p' ++ ":"%char :: o' /\ denotes o n /\ padded o o' /\ (n <= N.of_nat (length b))%N /\ r = Block b n (N.of_nat (length b) - n))
     \/ (exists o o' n k k' m, s = p' ++ ":"%char :: o' ++ ":"%char :: k' /\ denotes o n /\ padded o o' /\ denotes k m /\ padded k k' /\ r = Block b n m /\
         (n + m <= N.of_nat (length b) \/ 2 ^ 64 <= n + m)%N)).
Proof.
  rewrite after_spec. unfold pure, call. destruct (parts s) as [ps|] eqn:P; [|discriminate]. apply parts_inv in P as (l & -> & Sp & Ln & F). apply (split_joined_aux (length l)) in Sp as [J N]; [|now rewrite map_length].
  destruct l as [|[p p'] l]; [discriminate|]. cbn [map fst snd] in *. inversion F as [|? ? (F1 & F2 & F3 & F4) Fl]; subst. inversion N as [|? ? N1 Nl]; subst. cbn [fst snd] in *.
  assert (Pn : pathname p) by (split; [exact F1|]; split; [intros I; apply N1; now apply (padded_in p p')|split; assumption]).
  assert (M : get_memory_map files p (empty_cache 0) = match files p with None => (None, empty_cache 0) | Some b => (Some b, empty_cache 0) end) by (unfold get_memory_map; cbn; now destruct (files p)). rewrite M.
  destruct l as [|[o o'] [|[k k'] [|x l]]]; cbn [map fst snd nth_error] in *; [| | |cbn in Ln; lia].
  - destruct (files p) as [b|] eqn:E; [|discriminate]. cbn [fst]. intros [= <-]. exists p, p', b. split; [exact Pn|]. split; [exact F4|]. split; [exact E|]. left. split; reflexivity.
  - inversion Fl as [|? ? (G1 & G2 & G3 & G4) _]; subst. cbn [fst snd] in *. destruct (from_string o) as [n|] eqn:O; [|discriminate]. apply from_string_inv in O as [O _]. destruct (files p) as [b|] eqn:E; [|discriminate].
    destruct (N.ltb_spec (N.of_nat (length b)) n); [discriminate|]. cbn [fst]. intros [= <-]. exists p, p', b. split; [exact Pn|]. split; [exact F4|]. split; [exact E|]. right. left. exists o, o', n. split; [reflexivity|]. auto.
  - inversion Fl as [|? ? (G1 & G2 & G3 & G4) Fl']; subst. inversion Fl' as [|? ? (H1 & H2 & H3 & H4) _]; subst. cbn [fst snd] in *. destruct (from_string o) as [n|] eqn:O; [|discriminate]. apply from_string_inv in O as [O _].
    destruct (from_string k) as [m|] eqn:K; [|discriminate]. apply from_string_inv in K as [K _]. destruct (files p) as [b|] eqn:E; [|discriminate].
    destruct (N.ltb_spec (N.of_nat (length b)) n); [discriminate|]. destruct (N.ltb_spec (N.of_nat (length b)) (wrap (n + m))) as [|W]; [discriminate|]. cbn [fst]. intros [= <-]. exists p, p', b. split; [exact Pn|]. split; [exact F4|]. split; [exact E|].
    right. right. exists o, o', n, k, k', m. split; [reflexivity|]. split; [exact O|]. split; [exact G4|]. split; [exact K|]. split; [exact H4|]. split; [reflexivity|].
    destruct (N.lt_ge_cases (n + m) (2 ^ 64)) as [X|X]; [|now right]. unfold wrap in W. rewrite N.mod_small in W by exact X. now left.
Qed.
Print Assumptions C19_raises.

Local Open Scope char_scope.
Definition demo_files (p : str) : option (list ascii) := if str_eqb p ["a"; "."; "b"] then Some ["x"; "y"; "z"; "w"] else None.
Example C19_example : denotes ["1"] 1 /\ denotes ["2"] 2 /\ pathname ["a"; "."; "b"] /\ padded ["1"] [" "; "1"] /\
  (exists r, fst (call demo_files ["a"; "."; "b"; ":"; " "; "1"; ":"; "2"] (empty_cache 1)) = Ok r /\ read r = Some ["y"; "z"]) /\
  fst (call demo_files ["a"; "."; "b"; ":"; "1"; ":"; "4"] (empty_cache 1)) = Err InvalidArgument /\
  fst (call demo_files ["a"; "."; "b"; ":"; "-"; "1"] (empty_cache 1)) = Err InvalidArgument /\
  fst (call demo_files ["c"; ":"; "1"] (empty_cache 1)) = Err SystemError.
Proof.
  split; [exact (denotes_digit 1 ltac:(lia))|]. split; [exact (denotes_digit 2 ltac:(lia))|]. split; [split; [discriminate|]; split; [intros [X|[X|[X|[]]]]; discriminate X|split; reflexivity]|].
  split; [exists [" "], []; split; [reflexivity|]; split; repeat constructor|]. split; [eexists; split; vm_compute; reflexivity|]. split; [vm_compute; reflexivity|]. split; vm_compute; reflexivity.
Qed.
(** The whole claim is false: a size close to 2^64 passes the check, and the block reaches outside of the file. *)
Theorem C19_wrap_refuted : exists s n k r, fst (call demo_files (["a"; "."; "b"; ":"; "1"; ":"] ++ s) (empty_cache 1)) = Ok r /\
  denotes s k /\ (n = 1)%N /\ (4 < n + k)%N /\ read r = None.
Proof.
  set (s := ["1"; "8"; "4"; "4"; "6"; "7"; "4"; "4"; "0"; "7"; "3"; "7"; "0"; "9"; "5"; "5"; "1"; "6"; "1"; "5"]). exists s, 1%N, (2 ^ 64 - 1)%N. eexists.
  split; [vm_compute; reflexivity|]. split; [apply digits_denotes; [discriminate|vm_compute; reflexivity]|]. split; [reflexivity|]. split; vm_compute; reflexivity.
Qed.
Print Assumptions C19_wrap_refuted.
