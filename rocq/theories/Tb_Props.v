(** C69: batches of the rows of tables *)
From Coq Require Import List Bool Arith Lia Permutation Sorted.
From Verif Require Import Tb_Model.
Import ListNotations.

(** ** compute_length_splits *)
Section S.
  Variable m : nat.
  Definition padded (len : nat -> nat) (c : list nat) : nat := list_max (map len c) * length c.
  Lemma list_max_snoc : forall l x, list_max (l ++ [x]) = Nat.max (list_max l) x.
  Proof. intros. rewrite list_max_app. cbn. lia. Qed.
  Lemma inner_ok : forall l mx chunk, list_max (map snd chunk) <= mx -> (chunk <> [] -> mx * length chunk <= m) -> 
    let (c, rest) := inner m mx chunk l in
    chunk ++ l = c ++ rest /\ (c <> [] -> list_max (map snd c) * length c <= m) /\ (exists more, c = chunk ++ more) /\
    match rest with [] => True | x :: _ => m < Nat.max (Nat.max mx (list_max (map snd c))) (snd x) * (length c + 1) end.
  Proof.
    induction l as [|x l IH]; intros mx chunk H1 H2; cbn [inner].
    - split; auto. split; [intros N; specialize (H2 N); nia|]. split; auto. exists []. rewrite app_nil_r. auto.
    - destruct (m <? _) eqn:B.
      + apply Nat.ltb_lt in B. split; auto. split; [intros N; specialize (H2 N); nia|]. split; [exists []; rewrite app_nil_r; auto|]. rewrite (Nat.max_l mx) by lia. auto.
      + apply Nat.ltb_ge in B. specialize (IH (Nat.max mx (snd x)) (chunk ++ [x])). destruct (inner m (Nat.max mx (snd x)) (chunk ++ [x]) l) as [c rest].
        destruct IH as (A & C & D & E). { rewrite map_app. cbn [map]. rewrite list_max_snoc. lia. } { intros _. rewrite app_length. cbn [length]. lia. }
        split; [rewrite <- A, <- app_assoc; auto|]. split; auto. destruct D as [more ->]. split; [exists (x :: more); rewrite <- app_assoc; auto|]. destruct rest as [|y rest]; auto.
        rewrite !map_app, !list_max_app in *. cbn [map list_max fold_right] in *. unfold list_max in *. replace (Nat.max (Nat.max mx _) (snd y)) with (Nat.max (Nat.max (Nat.max mx (snd x)) (Nat.max (Nat.max (fold_right Nat.max 0 (map snd chunk)) (Nat.max (snd x) 0)) (fold_right Nat.max 0 (map snd more)))) (snd y)); [exact E|]. lia.
  Qed.
  (** Adding the first element of the next chunk to a chunk makes it too big *)
  Definition full (len : nat -> nat) (cs : list (list nat)) : Prop := forall a c d e b, cs = a ++ c :: (d :: e) :: b -> m < padded len (c ++ [d]).
  Lemma full_cons : forall len c cs, full len cs -> (forall d e b, cs = (d :: e) :: b -> m < padded len (c ++ [d])) -> full len (c :: cs).
  Proof. intros len c cs F H a c0 d e b E. destruct a as [|a0 a]; cbn in E. - assert (c = c0) by congruence. subst. eapply H. injection E as E. exact E. - eapply F. injection E as _ E. exact E. Qed.
  Lemma max_in : forall x l, In x l -> x <= list_max l.
  Proof. intros x l I. pose proof (proj1 (list_max_le l (list_max l)) (le_n _)) as F. rewrite Forall_forall in F. auto. Qed.
  Lemma outer_ok : forall (len : nat -> nat) fuel l first, length l <= fuel -> first <= m -> (forall x, In x l -> snd x = len (fst x) /\ snd x <= m) ->
    exists cs, outer m fuel first l = Some cs /\ concat cs = map fst l /\ Forall (fun c => c <> [] /\ padded len c <= m) cs /\
      (StronglySorted le (map snd l) -> (forall x, In x l -> first <= snd x) -> full len cs).
  Proof.
    intros len. induction fuel as [|fuel IH]; intros l first F H A; (destruct l as [|x l]; [exists []; split; [reflexivity|]; split; [auto|]; split; [auto|]; intros _ _ a c d e b E; destruct a; discriminate|]); [cbn in F; lia|].
    cbn [outer]. pose proof (inner_ok (x :: l) first []) as P. 
    assert (Hin : exists c' rest', inner m first [] (x :: l) = (x :: c', rest')).
    { cbn [inner]. destruct (A x (or_introl eq_refl)) as [_ Ax]. cbn [length]. destruct (m <? _) eqn:B; [apply Nat.ltb_lt in B; lia|]. cbn [app]. 
      pose proof (inner_ok l (Nat.max first (snd x)) [x]) as Q. destruct (inner m (Nat.max first (snd x)) [x] l) as [c rest]. apply Nat.ltb_ge in B. destruct Q as (_ & _ & (more & ->) & _); [cbn; lia|cbn [length]; lia|]. cbn. eauto. }
    destruct Hin as (c' & rest & Ei). rewrite Ei in *. destruct P as (P1 & P2 & _ & P3); [cbn; lia|easy|]. change ([] ++ x :: l) with (x :: l) in P1.
    assert (Lc : map snd (x :: c') = map len (map fst (x :: c'))). { rewrite map_map. apply map_ext_in. intros y Iy. apply A. rewrite P1. change (In y ((x :: c') ++ rest)). apply in_or_app. auto. }
    assert (Pc : padded len (map fst (x :: c')) <= m). { unfold padded. rewrite <- Lc, map_length. apply P2. discriminate. }
    destruct rest as [|y rest].
    - rewrite app_nil_r in P1. exists [map fst (x :: c')]. split; auto. split; [cbn [concat]; rewrite app_nil_r, P1; auto|]. split; [constructor; [split; [discriminate|exact Pc]|constructor]|]. intros _ _ a c d e b E. destruct a as [|? [|]]; discriminate.
    - cbn [app]. destruct (IH (y :: rest) (snd x)) as (cs & E1 & E2 & E3 & E4).
      + apply (f_equal (@length _)) in P1. change ((x :: c') ++ y :: rest) with (x :: (c' ++ y :: rest)) in P1. cbn [length] in *. rewrite app_length in P1. cbn [length] in P1. lia.
      + apply A. left. auto.
      + intros z Iz. apply A. rewrite P1. apply in_or_app. auto.
      + rewrite E1. exists (map fst (x :: c') :: cs). split; auto. split; [cbn [concat]; rewrite E2, <- map_app, <- P1; auto|]. split; [constructor; auto; split; [discriminate|auto]|].
        intros So Fi. apply full_cons.
        * apply E4; [rewrite P1, map_app in So; clear -So; induction (map snd (x :: c')) as [|a r IHr]; auto; cbn in So; apply StronglySorted_inv in So; apply IHr; apply So|].
          intros z Iz. cbn [map] in So. apply StronglySorted_inv in So. destruct So as [_ So]. rewrite Forall_forall in So. apply So. injection P1 as P1. rewrite P1. apply in_map. apply in_or_app. auto.
        * intros d e b Ec. assert (Hd : d = fst y). { rewrite Ec in E2. cbn in E2. congruence. } subst d. assert (Ly : len (fst y) = snd y) by (symmetry; apply A; rewrite P1; apply in_or_app; right; left; auto).
          unfold padded. rewrite map_app, list_max_app, <- Lc, app_length, map_length. cbn [map list_max fold_right length]. rewrite Ly. assert (Fx : first <= list_max (map snd (x :: c'))).
          { etransitivity; [apply (Fi x (or_introl eq_refl))|]. apply max_in. left. auto. }
          rewrite (Nat.max_r first) in P3 by exact Fx. rewrite Nat.max_0_r. exact P3.
  Qed.
End S.

Lemma filter_map : forall {X Y} (f : X -> Y) (p : Y -> bool) l, filter p (map f l) = map f (filter (fun x => p (f x)) l).
Proof. intros. induction l; cbn; auto. destruct (p (f a)); cbn; rewrite IHl; auto. Qed.

(** Every row that fits is in one chunk, in the order of the lengths or of the rows; a chunk is not empty and, padded, not longer than max_tokens; rows that do not
    fit are dropped or come alone at the end. With ordering, no chunk could have taken one row more. *)
Theorem C69_splits : forall m argsort lens (order drop : bool) fuel,
  Permutation (argsort lens) (seq 0 (length lens)) -> length lens <= fuel ->
  let ind := if order then argsort lens else seq 0 (length lens) in
  let len i := nth i lens 0 in
  exists chunks, compute_length_splits m argsort fuel lens order drop = Some (chunks ++ (if drop then [] else map (fun i => [i]) (filter (fun i => m <? len i) ind))) /\
    concat chunks = filter (fun i => len i <=? m) ind /\ Forall (fun c => c <> [] /\ padded len c <= m) chunks /\
    (StronglySorted le (map len ind) -> full m len chunks).
Proof.
  intros m argsort lens order drop fuel P F ind len. unfold compute_length_splits. fold ind. fold len. 
  rewrite !filter_map. cbn [snd]. fold len. set (sm := filter (fun i => len i <=? m) ind).
  assert (Li : length ind = length lens) by (unfold ind; destruct order; [rewrite (Permutation_length P)|]; apply seq_length).
  assert (Ls : forall (f : nat -> bool) l, length (filter f l) <= length l) by (intros f l; induction l as [|a l IH]; cbn; auto; destruct (f a); cbn; lia).
  destruct (outer_ok m len fuel (map (fun i => (i, len i)) sm) (match map (fun i => (i, len i)) sm with x :: _ => snd x | [] => 0 end)) as (cs & E1 & E2 & E3 & E4).
  - rewrite map_length. unfold sm. specialize (Ls (fun i => len i <=? m) ind). lia.
  - destruct sm as [|i r] eqn:Es; cbn; [lia|]. assert (I : In i sm) by (rewrite Es; left; auto). unfold sm in I. apply filter_In in I. apply Nat.leb_le, I.
  - intros x I. apply in_map_iff in I. destruct I as (i & <- & I). cbn. split; auto. unfold sm in I. apply filter_In in I. apply Nat.leb_le, I.
  - exists cs. match goal with |- context[outer m fuel ?f ?l] => change (outer m fuel f l) with (outer m fuel (match map (fun i => (i, len i)) sm with x :: _ => snd x | [] => 0 end) (map (fun i => (i, len i)) sm)) end. rewrite E1. split; [|split; [|split; auto]].
    + f_equal. f_equal. destruct drop; auto. f_equal. rewrite map_map. cbn [fst]. rewrite map_id. apply filter_ext. intros i. rewrite Nat.ltb_antisym. auto.
    + rewrite E2, map_map. cbn [fst]. apply map_id.
    + intros So. apply E4; rewrite ?map_map; cbn [snd].
      * unfold sm. clear -So. induction ind as [|i r IH]; cbn; auto. cbn in So. apply StronglySorted_inv in So. destruct So as [So Fo]. destruct (len i <=? m); auto. cbn. constructor; auto.
        rewrite Forall_forall in *. intros x I. apply Fo. apply in_map_iff in I. destruct I as (j & <- & I). apply in_map. apply filter_In in I. apply I.
      * assert (So' : StronglySorted le (map len sm)). { unfold sm. clear -So. induction ind as [|i r IH]; cbn; auto. cbn in So. apply StronglySorted_inv in So. destruct So as [So Fo]. destruct (len i <=? m); auto. cbn. constructor; auto.
        rewrite Forall_forall in *. intros x I. apply Fo. apply in_map_iff in I. destruct I as (j & <- & I). apply in_map. apply filter_In in I. apply I. }
        destruct sm as [|i r]; cbn [map]; [easy|]. cbn [snd]. intros x [<-|I]; [auto|]. cbn [map] in So'. apply StronglySorted_inv in So'. destruct So' as [_ Fo]. rewrite Forall_forall in Fo. apply Fo. apply in_map_iff in I. destruct I as (j & <- & I). cbn. apply in_map. auto.
Qed.
Print Assumptions C69_splits.

(** ** Tables *)
Lemma slices_ok : forall {X} n fuel (l : list X), 1 <= n -> length l <= fuel -> concat (slices fuel n l) = l /\ Forall (fun b => 1 <= length b <= n) (slices fuel n l).
Proof.
  intros X n. induction fuel; intros l N F; (destruct l as [|x l]; [cbn; auto|]); [cbn in F; lia|]. cbn [slices concat]. destruct (IHfuel (skipn n (x :: l)) N) as [A B]. { rewrite skipn_length. cbn [length] in *. lia. }
  split; [rewrite A; apply firstn_skipn|]. constructor; auto. rewrite firstn_length. cbn [length]. lia.
Qed.
Lemma to_batches_ok : forall {X} n (t : list (list X)), 1 <= n -> concat (to_batches n t) = concat t /\ Forall (fun b => 1 <= length b <= n) (to_batches n t).
Proof.
  intros X n t N. unfold to_batches. induction t as [|c t [IH1 IH2]]; cbn; auto. destruct (slices_ok n (length c) c N (le_n _)) as [A B]. rewrite concat_app, A, IH1. split; auto. apply Forall_app. auto.
Qed.
(** Taking rows *)
Definition take {X} (rows : list X) (ind : list nat) : list X := flat_map (fun i => match nth_error rows i with Some r => [r] | None => [] end) ind.
Lemma take_seq : forall {X} (rows pre : list X), take (pre ++ rows) (seq (length pre) (length rows)) = rows.
Proof.
  intros X. induction rows as [|x rows IH]; intros pre; auto. cbn [length seq take flat_map]. rewrite nth_error_app2, Nat.sub_diag by auto. cbn. f_equal.
  specialize (IH (pre ++ [x])). rewrite app_length in IH. cbn in IH. rewrite <- app_assoc, Nat.add_1_r in IH. exact IH.
Qed.
Lemma take_all : forall {X} (rows : list X), take rows (seq 0 (length rows)) = rows. Proof. intros X rows. apply (take_seq rows []). Qed.
Lemma take_perm : forall {X} (rows : list X) a b, Permutation a b -> Permutation (take rows a) (take rows b). Proof. intros. apply Permutation_flat_map. auto. Qed.
Lemma take_app : forall {X} (rows : list X) a b, take rows (a ++ b) = take rows a ++ take rows b. Proof. intros. apply flat_map_app. Qed.
Lemma take_concat : forall {X} (rows : list X) bs, concat (map (take rows) bs) = take rows (concat bs).
Proof. intros. induction bs as [|b bs IH]; auto. cbn [map concat]. rewrite IH, take_app. auto. Qed.
Lemma take_cons : forall {X} (rows : list X) i l, take rows (i :: l) = (match nth_error rows i with Some r => [r] | None => [] end) ++ take rows l. Proof. auto. Qed.
Lemma take_filter : forall {X} (rows : list X) (p : nat -> bool) (q : X -> bool) l, (forall i x, nth_error rows i = Some x -> p i = q x) -> take rows (filter p l) = filter q (take rows l).
Proof.
  intros X rows p q l H. induction l as [|i l IH]; auto. rewrite take_cons. cbn [filter]. destruct (nth_error rows i) as [x|] eqn:E; cbn [app filter].
  - rewrite <- (H i x E). destruct (p i); rewrite ?take_cons, ?E; cbn [app]; rewrite IH; auto.
  - destruct (p i); rewrite ?take_cons, ?E; cbn [app]; auto.
Qed.
Lemma take_in : forall {X} (rows : list X) l i, In i l -> i < length rows -> take rows l <> [].
Proof.
  intros X rows l i I L E. apply nth_error_Some in L. destruct (nth_error rows i) as [x|] eqn:N; [|easy]. assert (In x (take rows l)) by (apply in_flat_map; exists i; rewrite N; cbn; auto). rewrite E in H. easy.
Qed.
Lemma take_map : forall {X} (rows : list X) (f : X -> nat) c, Forall (fun i => i < length rows) c -> map f (take rows c) = map (fun i => nth i (map f rows) 0) c /\ length (take rows c) = length c.
Proof.
  intros X rows f c H. induction H as [|i c Hi H [IH1 IH2]]; auto. destruct (nth_error rows i) as [x|] eqn:E; [|apply nth_error_None in E; lia].
  change (take rows (i :: c)) with ((match nth_error rows i with Some r => [r] | None => [] end) ++ take rows c). rewrite E. cbn [app map length]. rewrite IH1, IH2. split; auto. f_equal. symmetry. apply nth_error_nth. rewrite nth_error_map, E. auto.
Qed.

Section B.
  Context {row : Type}.
  Variable cols : option (list (row -> nat)).
  Variables (order drop shuffle : bool).
  Variable red : option reducer.
  Variables (argsort stable_argsort : list nat -> list nat).
  Variable randint permutation : nat -> list nat.
  Hypothesis Hsort : forall l, Permutation (argsort l) (seq 0 (length l)).
  Hypothesis Hstable : forall l, Permutation (stable_argsort l) (seq 0 (length l)).
  Hypothesis Hperm : forall n, Permutation (permutation n) (seq 0 n).
  Hypothesis Hrand : forall n, length (randint n) = n.
  Definition mixed {X} (bs : list X) : list X := if shuffle then take bs (permutation (length bs)) else bs.
  Lemma mixed_perm : forall {X} (bs : list X), Permutation (mixed bs) bs.
  Proof. intros X bs. unfold mixed. destruct shuffle; auto. rewrite (take_perm bs _ _ (Hperm (length bs))). rewrite take_all. auto. Qed.
  Lemma concat_perm : forall {X} (a b : list (list X)), Permutation a b -> Permutation (concat a) (concat b).
  Proof. intros X a b H. induction H; cbn; auto. - apply Permutation_app; auto. - rewrite !app_assoc. apply Permutation_app_tail, Permutation_app_comm. - etransitivity; eauto. Qed.
  Lemma Forall_perm : forall {X} (P : X -> Prop) a b, Permutation a b -> Forall P b -> Forall P a.
  Proof. intros X P a b H F. rewrite Forall_forall in *. intros x I. apply F. eapply Permutation_in; eauto. Qed.
  Lemma by_size : forall n mt fuel t bs, 1 <= n -> build_batching_loop cols order drop shuffle (Some n) mt red argsort stable_argsort randint permutation fuel t = Batches bs ->
    Permutation (concat bs) (concat t) /\ Forall (fun b => 1 <= length b <= n) bs /\ (order = false -> shuffle = false -> concat bs = concat t).
  Proof.
    intros n mt fuel t bs N E. unfold build_batching_loop in E. destruct (_ && _); [discriminate|]. cbv zeta in E. destruct (negb order && negb shuffle) eqn:O.
    - assert (bs = to_batches n t) by congruence. subst bs. destruct (to_batches_ok n t N) as [A B]. rewrite A. auto.
    - set (rows := concat t) in *. set (lc := match cols with Some (c :: cs) => _ | _ => _ end) in E. set (ind := if order then stable_argsort lc else seq 0 (length rows)) in E.
      assert (Ll : length lc = length rows). { unfold lc. destruct cols as [[|c cs]|]; rewrite ?map_length; auto; destruct shuffle; rewrite ?map_length; auto. }
      assert (Pi : Permutation ind (seq 0 (length rows))). { unfold ind. destruct order; auto. rewrite <- Ll. auto. }
      assert (Eb : bs = map (take rows) (mixed (to_batches n [ind]))) by (unfold mixed; destruct shuffle; unfold take; congruence).
      destruct (to_batches_ok n [ind] N) as [A B]. cbn [concat] in A. rewrite app_nil_r in A.
      assert (Pb : Permutation bs (map (take rows) (to_batches n [ind]))) by (rewrite Eb; apply Permutation_map, mixed_perm).
      split; [|split].
      + rewrite (concat_perm _ _ Pb), take_concat, A, (take_perm rows _ _ Pi), take_all. auto.
      + apply (Forall_perm _ _ _ Pb). apply Forall_forall. intros b I. apply in_map_iff in I. destruct I as (c & <- & I). rewrite Forall_forall in B. specialize (B c I).
        assert (Fc : Forall (fun i => i < length rows) c). { apply Forall_forall. intros i Ii. assert (In i ind) by (rewrite <- A; apply in_concat; eauto). apply (Permutation_in _ Pi) in H. apply in_seq in H. lia. }
        rewrite (proj2 (take_map rows (fun _ => 0) c Fc)). auto.
      + intros -> ->. discriminate.
  Qed.
  Lemma by_tokens : forall m fuel t c cs, cols = Some (c :: cs) -> length (concat t) <= fuel ->
    let rl := row_length red c cs in
    exists bs, build_batching_loop cols order drop shuffle None (Some m) red argsort stable_argsort randint permutation fuel t = Batches bs /\
    Permutation (concat bs) (filter (fun r => (rl r <=? m) || negb drop) (concat t)) /\
    Forall (fun b => b <> [] /\ (list_max (map rl b) * length b <= m \/ (drop = false /\ exists r, b = [r] /\ m < rl r))) bs /\
    (order = false -> shuffle = false -> concat bs = filter (fun r => rl r <=? m) (concat t) ++ (if drop then [] else filter (fun r => m <? rl r) (concat t))).
  Proof.
    intros m fuel t c cs Ec F rl. unfold build_batching_loop. rewrite Ec. cbn [andb]. cbv zeta. set (rows := concat t) in *. set (lc := map (row_length red c cs) rows).
    assert (Ll : length lc = length rows) by (unfold lc; apply map_length).
    destruct (C69_splits m argsort lc order drop fuel (Hsort lc) ltac:(lia)) as (ch & E1 & E2 & E3 & _). rewrite E1. cbv zeta in E2, E3. set (ind := if order then argsort lc else seq 0 (length lc)) in *.
    assert (Pi : Permutation ind (seq 0 (length rows))). { unfold ind. rewrite <- Ll. destruct order; auto. }
    set (big := filter (fun i => m <? nth i lc 0) ind) in *. set (all := ch ++ (if drop then [] else map (fun i => [i]) big)).
    exists (map (take rows) (mixed all)). split; [unfold mixed; destruct shuffle; reflexivity|].
    assert (Pb : Permutation (map (take rows) (mixed all)) (map (take rows) all)) by (apply Permutation_map, mixed_perm).
    assert (Hl : forall i x, nth_error rows i = Some x -> nth i lc 0 = rl x). { intros i x E. apply nth_error_nth. unfold lc. rewrite nth_error_map, E. auto. }
    assert (Hi : forall i, In i ind -> i < length rows) by (intros i I; apply (Permutation_in _ Pi) in I; apply in_seq in I; lia).
    assert (Ca : concat all = filter (fun i => nth i lc 0 <=? m) ind ++ (if drop then [] else big)).
    { unfold all. rewrite concat_app, E2. f_equal. destruct drop; auto. clear. induction big; cbn; auto. rewrite IHbig. auto. }
    assert (Ta : take rows (concat all) = filter (fun r => rl r <=? m) (take rows ind) ++ (if drop then [] else filter (fun r => m <? rl r) (take rows ind))).
    { rewrite Ca, take_app. f_equal; [|destruct drop; auto; unfold big]; apply take_filter; intros i x E; rewrite (Hl i x E); auto. }
    split; [|split].
    - rewrite (concat_perm _ _ Pb), take_concat, Ta.
      assert (Fp : forall f, Permutation (filter f (take rows ind)) (filter f rows)). { intros f. rewrite <- (take_all rows) at 2. pose proof (take_perm rows _ _ Pi) as Q. clear -Q. induction Q; cbn; auto. - destruct (f x); auto. - destruct (f x), (f y); auto. apply perm_swap. - etransitivity; eauto. }
      destruct drop.
      + rewrite app_nil_r, Fp. erewrite filter_ext; [apply Permutation_refl|]. intros r. cbn. rewrite orb_false_r. auto.
      + rewrite !Fp. clear. induction rows as [|r rows IH]; [auto|]. cbn [filter negb]. rewrite orb_true_r. rewrite Nat.ltb_antisym. destruct (rl r <=? m); cbn [negb app]; [constructor; auto|]. rewrite <- Permutation_middle. constructor. auto.
    - apply (Forall_perm _ _ _ Pb). apply Forall_forall. intros b I. apply in_map_iff in I. destruct I as (k & <- & I). unfold all in I. apply in_app_or in I. destruct I as [I|I].
      + rewrite Forall_forall in E3. destruct (E3 k I) as [N P]. assert (Fk : Forall (fun i => i < length rows) k). { apply Forall_forall. intros i Ii. apply Hi. assert (In i (concat ch)) by (apply in_concat; eauto). rewrite E2 in H. apply filter_In in H. apply H. }
        destruct (take_map rows rl k Fk) as [T1 T2]. split; [intros Z; rewrite Z in T2; destruct k; easy|]. left. rewrite T1, T2. exact P.
      + destruct drop; [easy|]. apply in_map_iff in I. destruct I as (i & <- & I). unfold big in I. apply filter_In in I. destruct I as [I B]. apply Nat.ltb_lt in B. specialize (Hi i I). destruct (nth_error rows i) as [x|] eqn:E; [|apply nth_error_None in E; lia].
        unfold take. cbn. rewrite E. cbn. split; [discriminate|]. right. split; auto. exists x. split; auto. rewrite <- (Hl i x E). auto.
    - intros Eo Es. unfold mixed. rewrite Es, take_concat, Ta. unfold ind. rewrite Eo, Ll, take_all. auto.
  Qed.
End B.

(** Batches of a number of rows: all rows, each once, in batches of at most that size, none of them empty; in the order of the table if nothing else is asked for *)
Theorem C69_batch_size : forall (row : Type) (cols : option (list (row -> nat))) order drop shuffle red argsort stable_argsort randint permutation n max_tokens fuel t bs,
  (forall l, Permutation (stable_argsort l) (seq 0 (length l))) -> (forall n, Permutation (permutation n) (seq 0 n)) -> (forall n, length (randint n) = n) -> 1 <= n ->
  build_batching_loop cols order drop shuffle (Some n) max_tokens red argsort stable_argsort randint permutation fuel t = Batches bs ->
  Permutation (concat bs) (concat t) /\ Forall (fun b => 1 <= length b <= n) bs /\ (order = false -> shuffle = false -> concat bs = concat t).
Proof. intros. eapply by_size; eauto. Qed.
Print Assumptions C69_batch_size.

(** Batches of a number of tokens: every row that fits once, in batches that padded to their longest row do not exceed that number; the others dropped, or alone *)
Theorem C69_max_tokens : forall (row : Type) c cs order drop shuffle red argsort stable_argsort randint permutation m fuel (t : list (list row)),
  (forall l, Permutation (argsort l) (seq 0 (length l))) -> (forall n, Permutation (permutation n) (seq 0 n)) -> length (concat t) <= fuel ->
  let rl := row_length red c cs in
  exists bs, build_batching_loop (Some (c :: cs)) order drop shuffle None (Some m) red argsort stable_argsort randint permutation fuel t = Batches bs /\
  Permutation (concat bs) (filter (fun r => (rl r <=? m) || negb drop) (concat t)) /\
  Forall (fun b => b <> [] /\ (list_max (map rl b) * length b <= m \/ (drop = false /\ exists r, b = [r] /\ m < rl r))) bs /\
  (order = false -> shuffle = false -> concat bs = filter (fun r => rl r <=? m) (concat t) ++ (if drop then [] else filter (fun r => m <? rl r) (concat t))).
Proof. intros. apply (by_tokens (Some (c :: cs))); auto. Qed.
Print Assumptions C69_max_tokens.

(** With ordering and without shuffling, the rows come by ascending length. *)
Lemma sorted_filter : forall {X} (f : X -> nat) p l, StronglySorted le (map f l) -> StronglySorted le (map f (filter p l)).
Proof.
  intros X f p l. induction l as [|x l IH]; intros H; auto. cbn [map] in H. apply StronglySorted_inv in H. destruct H as [H F]. cbn [filter]. destruct (p x); auto. cbn [map]. constructor; auto.
  rewrite Forall_forall in *. intros y I. apply F. apply in_map_iff in I. destruct I as (z & <- & I). apply in_map. apply filter_In in I. apply I.
Qed.
Lemma sorted_app : forall a b, StronglySorted le a -> StronglySorted le b -> (forall x y, In x a -> In y b -> x <= y) -> StronglySorted le (a ++ b).
Proof.
  induction a as [|x a IH]; intros b Ha Hb H; auto. apply StronglySorted_inv in Ha. destruct Ha as [Ha F]. cbn. constructor; [apply IH; auto; intros; apply H; cbn; auto|]. apply Forall_app. split; auto. apply Forall_forall. intros y I. apply H; cbn; auto.
Qed.
Lemma concat_single : forall {X} (l : list X), concat (map (fun i => [i]) l) = l. Proof. induction l; cbn; auto. rewrite IHl. auto. Qed.
Theorem C69_ordered : forall (row : Type) c cs drop red argsort stable_argsort randint permutation batch_size max_tokens fuel (t : list (list row)) bs,
  (forall l, Permutation (argsort l) (seq 0 (length l)) /\ StronglySorted le (map (fun i => nth i l 0) (argsort l))) ->
  (forall l, Permutation (stable_argsort l) (seq 0 (length l)) /\ StronglySorted le (map (fun i => nth i l 0) (stable_argsort l))) ->
  (forall n, batch_size = Some n -> 1 <= n) ->
  build_batching_loop (Some (c :: cs)) true drop false batch_size max_tokens red argsort stable_argsort randint permutation fuel t = Batches bs -> length (concat t) <= fuel ->
  StronglySorted le (map (row_length red c cs) (concat bs)).
Proof.
  intros row c cs drop red argsort stable_argsort randint permutation bsz mt fuel t bs Ha Hs Hn E F. set (rl := row_length red c cs). set (rows := concat t).
  assert (Map : forall ind, Permutation ind (seq 0 (length rows)) -> StronglySorted le (map (fun i => nth i (map rl rows) 0) ind) -> StronglySorted le (map rl (take rows ind))).
  { intros ind P S. rewrite (proj1 (take_map rows rl ind ltac:(apply Forall_forall; intros i I; apply (Permutation_in _ P) in I; apply in_seq in I; lia))). exact S. }
  destruct bsz as [n|].
  - unfold build_batching_loop in E. cbn [andb negb] in E. cbv zeta in E. replace (match mt with Some _ => true | None => true end && false) with false in E by (destruct mt; auto).
    assert (Eb : bs = map (take rows) (to_batches n [stable_argsort (map rl rows)])) by (destruct mt; cbn [andb] in E; symmetry; exact (f_equal (fun o => match o with Batches x => x | _ => bs end) E)). rewrite Eb, take_concat. rewrite (proj1 (to_batches_ok n _ (Hn n eq_refl))). cbn [concat]. rewrite app_nil_r.
    destruct (Hs (map rl rows)) as [P S]. rewrite map_length in P. apply Map; auto.
  - destruct mt as [m|]; [|discriminate]. destruct (Ha (map rl rows)) as [P S]. unfold build_batching_loop in E. cbn [andb] in E. cbv zeta in E. fold rows in E. fold rl in E.
    destruct (C69_splits m argsort (map rl rows) true drop fuel P ltac:(rewrite map_length; exact F)) as (ch & E1 & E2 & _). rewrite E1 in E. cbv zeta in E2. set (big := filter (fun i => m <? _) _) in *.
    assert (Eb : bs = map (take rows) (ch ++ (if drop then [] else map (fun i => [i]) big))) by (symmetry; exact (f_equal (fun o => match o with Batches x => x | _ => bs end) E)). rewrite Eb, take_concat, concat_app, E2.
    replace (concat (if drop then [] else map (fun i => [i]) big)) with (if drop then [] else big) by (destruct drop; [reflexivity|rewrite concat_single; reflexivity]).
    rewrite map_length in P. specialize (Map _ P S).
    assert (Hl : forall i x, nth_error rows i = Some x -> nth i (map rl rows) 0 = rl x) by (intros i x Ex; apply nth_error_nth; rewrite nth_error_map, Ex; auto).
    rewrite take_app, (take_filter rows _ (fun r => rl r <=? m)) by (intros i x Ex; rewrite (Hl i x Ex); auto). rewrite map_app. apply sorted_app; [apply sorted_filter; auto| |].
    + destruct drop; [constructor|]. unfold big. rewrite (take_filter rows _ (fun r => m <? rl r)) by (intros i x Ex; rewrite (Hl i x Ex); auto). apply sorted_filter. auto.
    + intros x y I J. apply in_map_iff in I. destruct I as (r & <- & I). apply filter_In in I. destruct I as [_ I]. apply Nat.leb_le in I. destruct drop; [easy|]. unfold big in J. rewrite (take_filter rows _ (fun r => m <? rl r)) in J by (intros i z Ex; rewrite (Hl i z Ex); auto).
      apply in_map_iff in J. destruct J as (q & <- & J). apply filter_In in J. destruct J as [_ J]. apply Nat.ltb_lt in J. lia.
Qed.
Print Assumptions C69_ordered.

(** The length of a row: the greatest, the least or the sum of the lengths of its columns; without a reducer the sum *)
Theorem C69_row_length : forall (row : Type) c cs (r : row),
  row_length (Some RMax) c cs r = list_max (map (fun f => f r) (c :: cs)) /\
  row_length (Some RSum) c cs r = list_sum (map (fun f => f r) (c :: cs)) /\ row_length None c cs r = list_sum (map (fun f => f r) (c :: cs)) /\
  In (row_length (Some RMin) c cs r) (map (fun f => f r) (c :: cs)) /\ (forall f, In f (c :: cs) -> row_length (Some RMin) c cs r <= f r).
Proof.
  intros row c cs r. unfold row_length. cbn [reduce_op map].
  assert (A : forall l a, fold_left Nat.max l a = list_max (a :: l)) by (induction l as [|x l IH]; intros a; cbn [fold_left]; [cbn; lia|]; rewrite IH; cbn; lia).
  assert (B : forall l a, fold_left Nat.add l a = list_sum (a :: l)) by (induction l as [|x l IH]; intros a; cbn [fold_left]; [cbn; lia|]; rewrite IH; cbn; lia).
  assert (C : forall l a, In (fold_left Nat.min l a) (a :: l) /\ forall x, In x (a :: l) -> fold_left Nat.min l a <= x).
  { induction l as [|x l IH]; intros a; cbn [fold_left]; [cbn; intuition lia|]. destruct (IH (Nat.min a x)) as [I L]. split.
    - destruct I as [I|I]; [|right; right; auto]. rewrite <- I. destruct (Nat.min_spec a x) as [[_ E]|[_ E]]; rewrite E; cbn; auto.
    - intros y [<-|[<-|Iy]]; [specialize (L (Nat.min a x) (or_introl eq_refl)); lia|specialize (L (Nat.min a x) (or_introl eq_refl)); lia|apply L; right; auto]. }
  rewrite A, !B. split; auto. split; auto. split; auto. destruct (C (map (fun f => f r) cs) (c r)) as [C1 C2]. split; auto. intros f I. apply C2. change (c r :: map (fun f => f r) cs) with (map (fun f => f r) (c :: cs)). apply in_map_iff. eauto.
Qed.
Print Assumptions C69_row_length.

(** It raises exactly if neither size is given, or lengths are needed and no columns given. *)
Theorem C69_raises : forall (row : Type) (cols : option (list (row -> nat))) order drop shuffle red argsort stable_argsort randint permutation batch_size max_tokens fuel t,
  build_batching_loop cols order drop shuffle batch_size max_tokens red argsort stable_argsort randint permutation fuel t = Error <->
  (batch_size = None /\ max_tokens = None) \/ (cols = None /\ (order = true \/ max_tokens <> None)).
Proof.
  intros. unfold build_batching_loop. destruct batch_size as [n|], max_tokens as [m|]; destruct cols as [l|]; destruct order; cbn [andb negb]; cbv zeta;
    repeat match goal with |- context[if ?b then Batches _ else _] => destruct b | |- context[match compute_length_splits ?a ?b ?c ?d ?e ?f with _ => _ end] => destruct (compute_length_splits a b c d e f) end;
    split; intros H; try discriminate; auto; try (right; split; [reflexivity|]; (left; reflexivity) || (right; discriminate)); destruct H as [[? ?]|[? [?|?]]]; congruence.
Qed.
Print Assumptions C69_raises.

(** The tables of a bucket: no row is lost or repeated by concatenation, and by shuffling *)
Theorem C69_bucket : forall (row : Type) concat_tables combine total batch shuffle permutation (tables : list (list (list row))),
  (forall n, Permutation (permutation n) (seq 0 n)) ->
  let t := bucket_table concat_tables combine total batch shuffle permutation tables in
  Permutation (concat t) (concat (concat tables)) /\ (total = false -> batch && shuffle = false -> concat t = concat (concat tables)) /\ (concat_tables = true -> combine = true -> length t = 1).
Proof.
  intros row ct cb total batch sh permutation tables H t. 
  assert (Q : concat (if ct then (if cb then [concat (concat tables)] else concat tables) else concat tables) = concat (concat tables)) by (destruct ct, cb; cbn; rewrite ?app_nil_r; auto).
  unfold t, bucket_table. cbv zeta. set (t0 := if ct then _ else _) in *. split; [|split].
  - destruct (total || batch && sh); [|rewrite Q; auto]. unfold shuffle_table. cbn [concat]. rewrite app_nil_r. change (Permutation (take (concat t0) (permutation (length (concat t0)))) (concat (concat tables))).
    rewrite (take_perm _ _ _ (H _)), take_all, Q. auto.
  - intros -> E. cbn [orb]. rewrite E. auto.
  - intros -> ->. unfold t0. destruct (total || batch && sh); reflexivity.
Qed.
Print Assumptions C69_bucket.

(** ** Findings *)
(** Without ordering, a chunk is closed too early: its first bound on the length is that of the first row of the chunk before. *)
Theorem C69_greedy_refuted : exists m lens chunks, (forall argsort, compute_length_splits m argsort (length lens) lens false true = Some chunks) /\ ~ full m (fun i => nth i lens 0) chunks.
Proof.
  exists 8, [4; 8; 2; 2; 2; 2], [[0]; [1]; [2]; [3; 4; 5]]. split; [intros; reflexivity|]. intros H. specialize (H [[0]; [1]] [2] 3 [4; 5] [] eq_refl). vm_compute in H. lia.
Qed.
Print Assumptions C69_greedy_refuted.
(** Batches of a number of rows do not cross the chunks of the table: with tables concatenated and not combined, or read with several chunks, more than the last is smaller. *)
Theorem C69_small_batches_refuted : ~ (forall n (t : list (list nat)) a b c bs, 1 <= n ->
  build_batching_loop None false true false (Some n) None None id id (fun n => repeat 0 n) (seq 0) 10 t = Batches bs -> bs = a ++ b :: c -> c <> [] -> length b = n).
Proof. intros H. specialize (H 2 [[1]; [2]; [3]] [] [1] [[2]; [3]] _ ltac:(lia) eq_refl eq_refl ltac:(discriminate)). discriminate. Qed.
Print Assumptions C69_small_batches_refuted.
(** Rows are shuffled although shuffling is off, if tables are bucketed by total length; and not shuffled although it is on, if batches are built by tokens of other buckets. *)
Theorem C69_shuffle_refuted : (exists permutation (tables : list (list (list nat))), (forall n, Permutation (permutation n) (seq 0 n)) /\ concat (bucket_table true true true false false permutation tables) <> concat (concat tables)) /\
  (forall (row : Type) permutation (tables : list (list (list row))), concat (bucket_table true true false false true permutation tables) = concat (concat tables)).
Proof.
  split; [exists (fun n => rev (seq 0 n)), [[[1]]; [[2]]]; split; [intros; symmetry; apply Permutation_rev|discriminate]|]. intros. cbn. rewrite app_nil_r. auto.
Qed.
Print Assumptions C69_shuffle_refuted.
(** Each time the batches of a table are built, their order is drawn anew. A pipeline restored in the middle of a table builds them again and skips as many as were
    read: batches are repeated, others lost. *)
Theorem C69_resume_refuted : ~ (forall (t : list (list nat)) p1 p2 k b1 b2, (forall n, Permutation (p1 n) (seq 0 n)) -> (forall n, Permutation (p2 n) (seq 0 n)) ->
  build_batching_loop None false true true (Some 1) None None id id (fun n => repeat 0 n) p1 10 t = Batches b1 -> build_batching_loop None false true true (Some 1) None None id id (fun n => repeat 0 n) p2 10 t = Batches b2 ->
  Permutation (concat (firstn k b1 ++ skipn k b2)) (concat t)).
Proof.
  intros H. specialize (H [[1; 2]] (seq 0) (fun n => rev (seq 0 n)) 1 _ _ ltac:(auto) ltac:(intros; symmetry; apply Permutation_rev) eq_refl eq_refl). cbn in H. apply Permutation_length_2_inv in H. destruct H; discriminate.
Qed.
Print Assumptions C69_resume_refuted.

(** Cases *)
Example C69_case : build_batching_loop (Some [fun r : nat => r]) true false false None (Some 6) (Some RMax) (fun l => match l with [_; _; _; _; _] => [3; 1; 0; 4; 2] | _ => seq 0 (length l) end) id (fun n => repeat 0 n) (seq 0) 10 [[3; 2; 9]; [1; 5]]
  = Batches [[1; 2]; [3]; [5]; [9]] /\ Permutation [3; 1; 0; 4; 2] (seq 0 5) /\ StronglySorted le (map (fun i => nth i [3; 2; 9; 1; 5] 0) [3; 1; 0; 4; 2]).
Proof. split; [reflexivity|]. split; [apply (proj2 (Permutation_count_occ Nat.eq_dec _ _)); intros x; do 6 (destruct x as [|x]; [reflexivity|]); reflexivity|]. cbn. repeat constructor. Qed.
Example C69_case_size : build_batching_loop (Some [fun r : nat => r; fun r => 2 * r]) true true true (Some 2) None (Some RSum) id (fun l => rev (seq 0 (length l))) (fun n => repeat 0 n) (fun n => rev (seq 0 n)) 10 [[5; 4]; [3]]
  = Batches [[5]; [3; 4]].
Proof. reflexivity. Qed.
