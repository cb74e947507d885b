(** Loading fragments of Parquet datasets (C93). *)

Require Import String List Arith Bool Lia FinFun.
From Verif Require Import Pql_Model Pql_Spec.
Import ListNotations.

Lemma mem_in : forall n l, mem n l = true <-> In n l.
Proof.
  intros n l. unfold mem. rewrite existsb_exists. split.
  - intros (m & I & E). apply String.eqb_eq in E. subst. exact I.
  - intro I. exists n. split; [exact I|apply String.eqb_refl].
Qed.

Lemma filter_map_comm : forall {A B} (f : B -> bool) (g : A -> B) l, filter f (map g l) = map g (filter (fun x => f (g x)) l).
Proof. intros A B f g. induction l as [|x l IH]; [reflexivity|]. cbn. destruct (f (g x)); cbn; rewrite IH; reflexivity. Qed.

Lemma combine_maps : forall {A B C} (f : A -> B) (g : A -> C) l, combine (map f l) (map g l) = map (fun x => (f x, g x)) l.
Proof. intros A B C f g. induction l as [|x l IH]; [reflexivity|]. cbn. rewrite IH. reflexivity. Qed.

Section Props.
  Context {V : Type}.
  Variable num : nat -> V.

  Lemma combine_app_eq : forall {A B} (a a' : list A) (b b' : list B), length a = length b -> combine (a ++ a') (b ++ b') = combine a b ++ combine a' b'.
  Proof. intros A B. induction a as [|x a IH]; intros a' [|y b] b' H; try discriminate; [reflexivity|]. cbn. f_equal. apply IH. cbn in H. lia. Qed.

  Lemma seq_offset : forall n m, seq n m = map (Nat.add n) (seq 0 m).
  Proof. intros n m. revert n. induction m as [|m IH]; intro n; [reflexivity|]. cbn. f_equal; [lia|]. rewrite (IH (S n)), <- seq_shift, map_map. apply map_ext. intro; lia. Qed.

  Lemma numbered : forall (groups : list (nat * list (list (option V)))) n,
    combine (seq n (length (concat (map snd groups)))) (concat (map snd groups)) = map (fun o => (number o, cells o)) (origins_from n groups).
  Proof.
    induction groups as [|[g rs] groups IH]; intro n; [reflexivity|]. cbn [map snd concat origins_from]. rewrite app_length, seq_app, combine_app_eq by apply seq_length.
    rewrite map_app, IH, map_map. f_equal. cbn [number cells]. rewrite (seq_offset n). clear. generalize (seq 0 (length rs)) as l.
    induction rs as [|r rs IH]; intros [|i l]; try reflexivity. cbn. f_equal. apply IH.
  Qed.

  Lemma ids : forall (groups : list (nat * list (list (option V)))) n,
    flat_map (fun g => repeat (fst g) (length (snd g))) groups = map group_id (origins_from n groups)
    /\ flat_map (fun g => seq 0 (length (snd g))) groups = map position (origins_from n groups).
  Proof.
    induction groups as [|[g rs] groups IH]; intro n; [split; reflexivity|]. cbn [flat_map fst snd origins_from]. rewrite !map_app, !map_map. cbn [group_id position].
    destruct (IH (n + length rs)) as [A B]. rewrite A, B. split; f_equal.
    - generalize (seq_length (length rs) 0). generalize (seq 0 (length rs)) as l. clear. induction rs as [|r rs IH]; intros [|i l] H; try discriminate; [reflexivity|].
      cbn. f_equal. apply IH. cbn in H. lia.
    - generalize (seq_length (length rs) 0). generalize (seq 0 (length rs)) as l. clear. induction rs as [|r rs IH]; intros [|i l] H; try discriminate; [reflexivity|].
      cbn. f_equal. apply IH. cbn in H. lia.
  Qed.

  Lemma lookup_map : forall (u : name -> option V) ns n, In n ns -> lookup n ns (map u ns) = u n.
  Proof.
    intros u. induction ns as [|m ns IH]; intros n H; [destruct H|]. cbn. destruct (String.eqb_spec n m) as [->|N]; [reflexivity|].
    apply IH. destruct H as [->|H]; [congruence|exact H].
  Qed.

  Section Fragment.
    Variable fr : fragment V.
    Hypothesis WF : well_formed fr.

    Lemma distinct : forall n, In n (physical fr) -> ~ In n (map fst (partition fr)) /\ ~ In n technical.
    Proof.
      intros n H. destruct WF as [ND _]. assert (X : ~ In n (map fst (partition fr) ++ technical)).
      { clear - ND H. induction (physical fr) as [|p ps IH]; [destruct H|]. cbn in ND. inversion ND as [|? ? N1 N2]; subst.
        destruct H as [->|H]; [intro I; apply N1, in_or_app; right; exact I|apply IH; assumption]. }
      split; intro I; apply X, in_or_app; auto.
    Qed.

    Lemma technical_not_partition : forall n, In n technical -> ~ In n (map fst (partition fr)).
    Proof.
      intros n H I. destruct WF as [ND _]. assert (N2 : NoDup (map fst (partition fr) ++ technical)).
      { clear - ND. induction (physical fr) as [|p ps IH]; [exact ND|]. cbn in ND. inversion ND; subst; auto. }
      clear - N2 H I. induction (map fst (partition fr)) as [|p ps IH]; [destruct I|]. cbn in N2. inversion N2 as [|? ? A B]; subst.
      destruct I as [->|I]; [apply A, in_or_app; right; exact H|apply IH; assumption].
    Qed.

    Lemma neq_technical : forall n, ~ In n technical -> String.eqb n "__row_groups_ids" = false /\ String.eqb n "__index_in_fragement" = false /\ mem n scanner_columns = false.
    Proof.
      intros n N. repeat split.
      - destruct (String.eqb_spec n "__row_groups_ids"); [|reflexivity]. exfalso. apply N. subst. unfold technical. apply in_or_app. right. left. reflexivity.
      - destruct (String.eqb_spec n "__index_in_fragement"); [|reflexivity]. exfalso. apply N. subst. unfold technical. apply in_or_app. right. right. left. reflexivity.
      - destruct (mem n scanner_columns) eqn:M; [|reflexivity]. exfalso. apply N. apply mem_in in M. unfold technical. apply in_or_app. left. exact M.
    Qed.

    Lemma value_physical : forall o n, In n (physical fr) -> value num fr o n = lookup n (physical fr) (cells o).
    Proof.
      intros o n H. destruct (distinct n H) as [D1 D2]. destruct (neq_technical n D2) as (A & B & C). unfold value. rewrite A, B, C.
      destruct (find (fun kv => String.eqb n (fst kv)) (partition fr)) as [[k v]|] eqn:F; [|reflexivity]. exfalso. apply find_some in F as [I E]. apply String.eqb_eq in E. cbn in E. subst.
      apply D1. apply (in_map fst) in I. exact I.
    Qed.

    Lemma value_scanner : forall o n, In n scanner_columns -> value num fr o n = Some (scanned fr n (number o)).
    Proof.
      intros o n H. unfold value. rewrite (proj2 (mem_in n scanner_columns) H).
      destruct H as [<-|[<-|[<-|[]]]]; reflexivity.
    Qed.

    Lemma value_partition : forall o k v, In (k, v) (partition fr) -> value num fr o k = Some v.
    Proof.
      intros o k v H. assert (Ik : In k (map fst (partition fr))) by (apply (in_map fst) in H; exact H).
      assert (NT : ~ In k technical) by (intro T; exact (technical_not_partition k T Ik)).
      destruct (neq_technical k NT) as (A & B & C). unfold value. rewrite A, B, C.
      assert (ND : NoDup (map fst (partition fr))).
      { destruct WF as [ND _]. clear - ND. induction (physical fr) as [|p ps IH]; [|cbn in ND; inversion ND; subst; auto]. cbn in ND.
        induction (map fst (partition fr)) as [|p ps IH]; [constructor|]. cbn in ND. inversion ND as [|? ? N1 N2]; subst. constructor; [|auto]. intro I. apply N1, in_or_app. auto. }
      clear - ND H. induction (partition fr) as [|[k' v'] l IH]; [destruct H|]. cbn [find fst]. cbn in ND. inversion ND as [|? ? N1 N2]; subst.
      destruct (String.eqb_spec k k') as [->|N].
      - destruct H as [H|H]; [injection H as ->; reflexivity|]. exfalso. apply N1. apply (in_map fst) in H. exact H.
      - destruct H as [H|H]; [congruence|]. apply IH; assumption.
    Qed.

    (** Tables whose rows are those of some origins. *)
    Definition holds (t : table V) (ns : list name) (os : list origin) : Prop :=
      names t = ns /\ rows t = map (fun o => map (value num fr o) ns) os.

    Lemma to_table_holds : forall cols f, (forall c, In c cols -> In c (physical fr) \/ In c scanner_columns) ->
      (forall f', f = Some f' -> looks_at_refs f' /\ forall n, In n (refs f') -> In n (physical fr)) ->
      holds (to_table fr cols f) cols (filter (fun o => satisfies f (value num fr o)) (origins fr)).
    Proof.
      intros cols f Hc Hf. unfold to_table. split; [reflexivity|]. cbn [rows]. rewrite (numbered (row_groups fr) 0). rewrite filter_map_comm, map_map. cbn [fst snd].
      fold (origins fr).
      replace (filter (fun o => match f with None => true | Some f0 => passes f0 (fun n => lookup n (physical fr) (cells o)) end) (origins fr))
        with (filter (fun o => satisfies f (value num fr o)) (origins fr)).
      - apply map_ext. intro o. apply map_ext_in. intros c Ic. destruct (mem c scanner_columns) eqn:M.
        + apply mem_in in M. symmetry. apply value_scanner. exact M.
        + destruct (Hc c Ic) as [P|S]; [symmetry; apply value_physical; exact P|]. apply mem_in in S. congruence.
      - apply filter_ext. intro o. destruct f as [f'|]; [|reflexivity]. destruct (Hf f' eq_refl) as [L R]. unfold satisfies, passes.
        rewrite (L (value num fr o) (fun n => lookup n (physical fr) (cells o))); [reflexivity|]. intros n In_. apply value_physical, R, In_.
    Qed.

    Lemma append_holds : forall t ns os n column, holds t ns os -> column = map (fun o => value num fr o n) os -> holds (append_column t n column) (ns ++ [n]) os.
    Proof.
      intros t ns os n column [A B] ->. split; [cbn; rewrite A; reflexivity|]. cbn [append_column rows]. rewrite B, combine_maps, map_map. cbn [fst snd].
      apply map_ext. intro o. rewrite map_app. reflexivity.
    Qed.

    Lemma map_const : forall {A B} (b : B) (l : list A), repeat b (length l) = map (fun _ => b) l.
    Proof. induction l as [|x l IH]; [reflexivity|]. cbn. rewrite IH. reflexivity. Qed.

    Lemma partitioning_holds : forall columns t ns os, holds t ns os ->
      holds (add_partitioning_values t fr columns)
        (ns ++ filter (fun n => match columns with None => true | Some cs => mem n cs end) (map fst (partition fr))) os.
    Proof.
      intros columns t ns os H. unfold add_partitioning_values.
      assert (G : forall parts, (forall kv, In kv parts -> In kv (partition fr)) -> forall t ns, holds t ns os ->
        holds (fold_left (fun t kv => if match columns with None => true | Some cs => mem (fst kv) cs end
                           then append_column t (fst kv) (repeat (Some (snd kv)) (length (rows t))) else t) parts t)
          (ns ++ filter (fun n => match columns with None => true | Some cs => mem n cs end) (map fst parts)) os).
      { clear t ns H. induction parts as [|[k v] parts IH]; intros Sub t ns H; cbn [fold_left fst snd map filter]; [rewrite app_nil_r; exact H|].
        destruct (match columns with None => true | Some cs => mem k cs end).
        - rewrite <- app_assoc with (m := [k]) || idtac. change (ns ++ k :: filter ?f ?l) with (ns ++ [k] ++ filter f l). rewrite app_assoc.
          apply IH; [intros kv I; apply Sub; right; exact I|]. apply append_holds; [exact H|]. destruct H as [_ B]. rewrite B, map_length, map_const.
          apply map_ext. intro o. symmetry. apply value_partition, Sub. left. reflexivity.
        - apply IH; [intros kv I; apply Sub; right; exact I|exact H]. }
      apply G; auto.
    Qed.

    Lemma trace_holds : forall t ns, holds t ns (origins fr) ->
      exists t', add_fragments_trace num t fr = Some t' /\ holds t' (ns ++ ["__row_groups_ids"; "__index_in_fragement"]%string) (origins fr).
    Proof.
      intros t ns H. unfold add_fragments_trace. destruct (ids (row_groups fr) 0) as [A B]. rewrite A, B. fold (origins fr). rewrite map_length.
      assert (L : length (rows t) = length (origins fr)) by (destruct H as [_ R]; rewrite R, map_length; reflexivity). rewrite L, Nat.eqb_refl. cbn [negb].
      eexists. split; [reflexivity|].
      replace (ns ++ ["__row_groups_ids"; "__index_in_fragement"]%string) with ((ns ++ ["__row_groups_ids"%string]) ++ ["__index_in_fragement"%string]) by (rewrite <- app_assoc; reflexivity).
      apply append_holds; [apply append_holds; [exact H|]|]; rewrite map_map; apply map_ext; intro o; reflexivity.
    Qed.

    Lemma filter_holds : forall f t ns os t', looks_at_refs f -> holds t ns os -> table_filter f t = Some t' ->
      holds t' ns (filter (fun o => satisfies (Some f) (value num fr o)) os).
    Proof.
      intros f t ns os t' L [A B] H. unfold table_filter in H. destruct (forallb _ (refs f)) eqn:F; [|discriminate]. injection H as <-. split; [exact A|]. cbn [rows].
      rewrite B, A, filter_map_comm. f_equal. apply filter_ext. intro o. unfold passes, satisfies.
      rewrite (L (fun n => lookup n ns (map (value num fr o) ns)) (value num fr o)); [reflexivity|]. intros n I. apply lookup_map.
      rewrite forallb_forall in F. specialize (F n I). apply mem_in in F. rewrite A in F. exact F.
    Qed.
  End Fragment.

  (** A loaded table has the rows of the fragment that satisfy the filter, in
      their order and with the values of the file, its partition and the trace,
      whether the filter is applied while reading or afterwards. *)
  Theorem C93_loaded : forall fr columns filters traces t, well_formed fr -> (forall f, filters = Some f -> looks_at_refs f) ->
    load num fr columns filters traces = Some t ->
    names t = columns_of fr columns traces
    /\ rows t = map (fun o => map (value num fr o) (names t)) (filter (fun o => satisfies filters (value num fr o)) (origins fr)).
  Proof.
    intros fr columns filters traces t WF Lf H. unfold load in H.
    set (cols := match columns with Some cs => filter (fun c => mem c (physical fr)) cs | None => physical fr end) in *.
    set (cols1 := if traces then cols ++ scanner_columns else cols) in *.
    set (can := match filters with Some f => negb traces && forallb (fun n => mem n (physical fr)) (refs f) | None => false end) in *.
    assert (Hc : forall c, In c cols1 -> In c (physical fr) \/ In c scanner_columns).
    { assert (X : forall c, In c cols -> In c (physical fr)).
      { intros c Ic. unfold cols in Ic. destruct columns as [cs|]; [apply filter_In in Ic as [_ M]; apply mem_in in M; exact M|exact Ic]. }
      intros c Ic. unfold cols1 in Ic. destruct traces; [apply in_app_or in Ic as [Ic|Ic]; auto|auto]. }
    set (f0 := if can then filters else None) in *.
    assert (Hf : forall f', f0 = Some f' -> looks_at_refs f' /\ forall n, In n (refs f') -> In n (physical fr)).
    { intros f' E. unfold f0 in E. destruct can eqn:Ec; [|discriminate]. split; [apply Lf; exact E|]. intros n I. unfold can in Ec. rewrite E in Ec.
      apply andb_prop in Ec as [_ Ec]. rewrite forallb_forall in Ec. apply mem_in, Ec, I. }
    pose proof (partitioning_holds fr WF columns _ _ _ (to_table_holds fr WF cols1 f0 Hc Hf)) as H1.
    set (t1 := add_partitioning_values (to_table fr cols1 f0) fr columns) in *.
    set (ns1 := cols1 ++ filter _ (map fst (partition fr))) in *.
    assert (Fin : forall os ns, holds fr t ns os -> ns = columns_of fr columns traces -> os = filter (fun o => satisfies filters (value num fr o)) (origins fr) ->
      names t = columns_of fr columns traces /\ rows t = map (fun o => map (value num fr o) (names t)) (filter (fun o => satisfies filters (value num fr o)) (origins fr))).
    { intros os ns [A B] E1 E2. rewrite A, B, E1, E2. auto. }
    assert (NoF : forall l : list origin, filter (fun o => satisfies None (value num fr o)) l = l).
    { induction l as [|o l IH]; [reflexivity|]. cbn. f_equal. exact IH. }
    destruct traces.
    - assert (Ef : f0 = None) by (unfold f0, can; destruct filters; reflexivity). rewrite Ef in H1. rewrite NoF in H1.
      destruct (trace_holds fr t1 ns1 H1) as (t2 & E2 & H2). rewrite E2 in H.
      assert (Cn : ns1 ++ ["__row_groups_ids"; "__index_in_fragement"]%string = columns_of fr columns true).
      { unfold ns1, cols1, columns_of, cols. rewrite <- !app_assoc. reflexivity. }
      destruct filters as [f|].
      + assert (Ec : can = false) by reflexivity. rewrite Ec in H. cbn [negb] in H.
        eapply Fin; [eapply filter_holds; [apply Lf; reflexivity|exact H2|exact H]|exact Cn|reflexivity].
      + injection H as <-. eapply Fin; [exact H2|exact Cn|symmetry; apply NoF].
    - assert (Cn : ns1 = columns_of fr columns false).
      { unfold ns1, cols1, columns_of, cols. cbn [app]. rewrite app_nil_r. reflexivity. }
      destruct filters as [f|].
      + destruct can eqn:Ec; cbn [negb] in H.
        * injection H as <-. eapply Fin; [exact H1|exact Cn|reflexivity].
        * unfold f0 in H1. rewrite NoF in H1. eapply Fin; [eapply filter_holds; [apply Lf; reflexivity|exact H1|exact H]|exact Cn|reflexivity].
      + injection H as <-. eapply Fin; [exact H1|exact Cn|]. unfold f0, can. reflexivity.
  Qed.

  (** Without a filter, or if the filter refers to columns that are loaded,
      loading does not fail. *)
  Theorem C93_succeeds : forall fr columns filters traces, well_formed fr -> (forall f, filters = Some f -> looks_at_refs f) ->
    (forall f n, filters = Some f -> In n (refs f) -> In n (columns_of fr columns traces)) ->
    load num fr columns filters traces <> None.
  Proof.
    intros fr columns filters traces WF Lf R H.
    assert (N : load num fr columns None traces <> None /\ forall t, load num fr columns None traces = Some t -> names t = columns_of fr columns traces).
    { split.
      - unfold load. destruct traces; [|cbv zeta; discriminate].
        assert (Hc : forall c, In c (match columns with Some cs => filter (fun c => mem c (physical fr)) cs | None => physical fr end ++ scanner_columns) -> In c (physical fr) \/ In c scanner_columns).
        { intros c I. apply in_app_or in I as [I|I]; [left|right; exact I]. destruct columns; [apply filter_In in I as [_ M]; apply mem_in, M|exact I]. }
        assert (Hn : forall f', @None (filter_expr V) = Some f' -> looks_at_refs f' /\ forall n, In n (refs f') -> In n (physical fr)) by discriminate.
        pose proof (partitioning_holds fr WF columns _ _ _ (to_table_holds fr WF _ None Hc Hn)) as H1.
        assert (NoF : forall l : list (@origin V), filter (fun o => satisfies None (value num fr o)) l = l) by (induction l as [|o l IH]; [reflexivity|cbn; f_equal; exact IH]).
        rewrite NoF in H1. destruct (trace_holds fr _ _ H1) as (t2 & E2 & _). cbv zeta. rewrite E2. discriminate.
      - intros t E. refine (proj1 (C93_loaded fr columns None traces t WF _ E)). intros f X. discriminate X. }
    destruct filters as [f|]; [|tauto]. destruct N as [N1 N2]. unfold load in *.
    destruct (negb traces && forallb (fun n => mem n (physical fr)) (refs f)) eqn:Ec.
    - apply andb_prop in Ec as [Et _]. destruct traces; [discriminate|]. discriminate.
    - cbn [negb] in H. destruct (if traces then _ else _) as [t|] eqn:Et; [|apply N1; reflexivity].
      specialize (N2 t eq_refl). unfold table_filter in H.
      assert (X : forallb (fun n => mem n (names t)) (refs f) = true).
      { apply forallb_forall. intros n I. apply mem_in. rewrite N2. apply (R f n eq_refl I). }
      rewrite X in H. discriminate.
  Qed.

  (** The trace identifies the row: its row group has the row at its position, and
      no other row has the same trace. *)
  Theorem C93_trace : forall (fr : fragment V),
    (forall o, In o (origins fr) -> exists rs, In (group_id o, rs) (row_groups fr) /\ nth_error rs (position o) = Some (cells o))
    /\ (NoDup (map fst (row_groups fr)) -> NoDup (map (fun o => (group_id o, position o)) (origins fr))).
  Proof.
    intro fr. unfold origins. generalize (row_groups fr) as groups. generalize 0 as n.
    assert (Inn : forall (rs : list (list (option V))) a i r, In (i, r) (combine (seq a (length rs)) rs) -> a <= i /\ nth_error rs (i - a) = Some r).
    { induction rs as [|x rs IH]; intros a i r H; [destruct H|]. cbn in H. destruct H as [H|H].
      - injection H as <- <-. rewrite Nat.sub_diag. split; [lia|reflexivity].
      - destruct (IH (S a) i r H) as [L E]. split; [lia|]. replace (i - a) with (S (i - S a)) by lia. exact E. }
    assert (A : forall groups n (o : @origin V), In o (origins_from n groups) -> exists rs, In (group_id o, rs) groups /\ nth_error rs (position o) = Some (cells o)).
    { induction groups as [|[g rs] groups IH]; intros n o H; [destruct H|]. cbn [origins_from] in H. apply in_app_or in H as [H|H].
      - apply in_map_iff in H as ([i r] & <- & I). cbn [group_id position cells fst snd]. exists rs. split; [left; reflexivity|].
        destruct (Inn rs 0 i r I) as [_ E]. rewrite Nat.sub_0_r in E. exact E.
      - destruct (IH _ o H) as (rs' & I & E). exists rs'. split; [right; exact I|exact E]. }
    intros n groups. split; [apply A|]. revert n. induction groups as [|[g rs] groups IH]; intros n ND; [constructor|].
    cbn [origins_from map fst] in *. inversion ND as [|? ? N1 N2]; subst. rewrite map_app.
    assert (App : forall {T} (a b : list T), NoDup a -> NoDup b -> (forall x, In x a -> ~ In x b) -> NoDup (a ++ b)).
    { intros T. induction a as [|x a IHa]; intros b Na Nb D; [exact Nb|]. inversion Na; subst. cbn. constructor.
      - intro I. apply in_app_or in I as [I|I]; [contradiction|]. apply (D x (or_introl eq_refl) I).
      - apply IHa; auto. intros y Hy. apply D. right. exact Hy. }
    apply App; [|apply IH; exact N2|].
    - rewrite map_map. cbn [group_id position]. clear. rewrite <- map_map with (f := fst) (g := fun i => (g, i)).
      assert (E : map fst (combine (seq 0 (length rs)) rs) = seq 0 (length rs)).
      { generalize 0 as a. induction rs as [|r rs IH]; intro a; [reflexivity|]. cbn. f_equal. apply IH. }
      rewrite E. apply FinFun.Injective_map_NoDup; [intros x y H; congruence|apply seq_NoDup].
    - intros [g' i'] I1 I2. rewrite map_map in I1. apply in_map_iff in I1 as ([i r] & E & _). cbn in E. injection E as <- <-.
      apply in_map_iff in I2 as (o & E & I). injection E as E _. destruct (A _ _ _ I) as (rs' & I' & _). apply N1. rewrite E in I'. apply (in_map fst) in I'. exact I'.
  Qed.

  (** With traces, a filter on a column that is not loaded is an error; without
      them it works: the trace, "useful for debugging", decides. *)
  Theorem C93_unselected_refuted : forall (x : V), exists (fr : fragment V) (f : filter_expr V),
    looks_at_refs f /\ well_formed fr
    /\ load num fr (Some ["text"%string]) (Some f) false = Some {| names := ["text"%string]; rows := [[Some x]] |}
    /\ load num fr (Some ["text"%string]) (Some f) true = None.
  Proof.
    intro x. exists {| physical := ["text"; "lang"]%string; partition := []; row_groups := [(0, [[Some x; Some x]; [Some x; None]])]; scanned := fun _ _ => x |},
      {| refs := ["lang"%string]; test := fun u => match u "lang"%string with Some _ => Some true | None => None end |}.
    split; [|split; [|split; reflexivity]].
    - intros u v H. cbn. rewrite H by (left; reflexivity). reflexivity.
    - split; [|repeat constructor]. cbn. repeat constructor; cbn; intuition discriminate.
  Qed.

  (** A requested column that does not exist, such as a misspelt one, is left out
      without an error. *)
  Theorem C93_missing_refuted : forall (fr : fragment V) column traces, well_formed fr ->
    ~ In column (physical fr) -> ~ In column (map fst (partition fr)) -> ~ In column technical ->
    exists t, load num fr (Some [column]) None traces = Some t /\ ~ In column (names t).
  Proof.
    intros fr column traces WF N1 N2 N3. destruct (load num fr (Some [column]) None traces) as [t|] eqn:E.
    - exists t. split; [reflexivity|]. destruct (C93_loaded fr (Some [column]) None traces t WF ltac:(discriminate) E) as [A _]. rewrite A. unfold columns_of. intro I.
      repeat (apply in_app_or in I as [I|I]).
      + apply filter_In in I as [_ M]. apply mem_in in M. contradiction.
      + destruct traces; [|destruct I]. apply N3. unfold technical. apply in_or_app. auto.
      + apply filter_In in I as [I _]. contradiction.
      + destruct traces; [|destruct I]. apply N3. unfold technical. apply in_or_app. auto.
    - exfalso. revert E. apply C93_succeeds; [exact WF|discriminate|discriminate].
  Qed.

  (** [non_deterministic_read] has no effect: fragments are always delivered in
      order (see C16). *)
  Theorem C93_nondeterministic_refuted : forall b, map_deterministic b = true.
  Proof. intros []; reflexivity. Qed.

  (** Tables of exactly [min_batch_size] rows are kept, although the option says
      that they are dropped. *)
  Theorem C93_min_batch_refuted : forall (cfg : @loading V) fr t, cfg_drop_null cfg = false ->
    load num fr (option_map get_flatten_columns (cfg_columns cfg)) (cfg_filters cfg) (cfg_traces cfg) = Some t ->
    length (rows t) = cfg_min_batch_size cfg -> exists t', load_fragment num cfg fr = Some (Some t') /\ rows t' = rows t.
  Proof.
    intros cfg fr t D L E. unfold load_fragment. rewrite L, D, E, Nat.leb_refl. eexists. split; [reflexivity|].
    destruct (cfg_columns cfg); [destruct (cfg_rename cfg)|]; reflexivity.
  Qed.

  (** Renaming: a field holds its column. *)
  Theorem C93_renamed : forall (c : named_columns) (t : table V) field column, In (field, Some column) (fields c) ->
    NoDup (flat_map (fun f => match snd f with Some o => [o] | None => [] end) (fields c)) ->
    NoDup (names (rename_table_columns t c)) -> In column (names t) ->
    forall row : list (option V), lookup field (names (rename_table_columns t c)) row = lookup column (names t) row.
  Proof.
    intros c t field column If NDc ND Ic row.
    assert (Rn : get_renaming c column = field).
    { unfold get_renaming. match goal with |- context [find ?h ?l] => destruct (find h l) as [[g o]|] eqn:F end.
      - apply find_some in F as [I E]. cbn in E. destruct o as [o|]; [|discriminate]. apply String.eqb_eq in E. subst o. apply in_rev in I. cbn [fst].
        clear - NDc If I. induction (fields c) as [|[a b] l IH]; [destruct I|]. cbn [flat_map snd] in NDc.
        assert (Col : forall x, In (x, Some column) l -> In column (flat_map (fun f => match snd f with Some o => [o] | None => [] end) l)).
        { intros x Hx. apply in_flat_map. exists (x, Some column). split; [exact Hx|left; reflexivity]. }
        destruct b as [b|]; cbn [app] in NDc.
        + inversion NDc as [|? ? N1 N2]; subst. destruct If as [If|If], I as [I|I].
          * congruence.
          * injection If as -> ->. exfalso. apply N1, (Col _ I).
          * injection I as -> ->. exfalso. apply N1, (Col _ If).
          * apply IH; assumption.
        + destruct If as [If|If]; [discriminate|]. destruct I as [I|I]; [discriminate|]. apply IH; assumption.
      - exfalso. apply find_none with (x := (field, Some column)) in F; [|apply -> in_rev; exact If]. cbn in F. rewrite String.eqb_refl in F. discriminate. }
    unfold rename_table_columns in *. cbn [names] in *. revert row. induction (names t) as [|m ns IH]; [destruct Ic|].
    cbn [map] in ND. inversion ND as [|? ? N1 N2]; subst. intros [|v row]; [reflexivity|]. cbn [map lookup].
    destruct (String.eqb_spec column m) as [->|Nm].
    - rewrite String.eqb_refl. reflexivity.
    - destruct Ic as [->|Ic]; [congruence|]. destruct (String.eqb_spec (get_renaming c column) (get_renaming c m)) as [E|E].
      + exfalso. apply N1. rewrite <- E. apply in_map. exact Ic.
      + apply IH; assumption.
  Qed.

  (** If two fields name the same column, the first one is missing. *)
  Theorem C93_twice_refuted : exists c : named_columns, forall t : table V, ~ In "a"%string (names t) ->
    In ("a"%string, Some "x"%string) (fields c) /\ ~ In "a"%string (names (rename_table_columns t c)).
  Proof.
    exists {| fields := [("a", Some "x"); ("b", Some "x")]%string; extra_columns := [] |}. intros t N. split; [left; reflexivity|].
    cbn [rename_table_columns names]. intro I. apply in_map_iff in I as (m & E & I). unfold get_renaming in E. cbn [fields rev app find snd fst] in E.
    destruct (String.eqb "x" m); [cbn in E; discriminate|]. subst. contradiction.
  Qed.
End Props.

Example C93_ex :
  let fr := {| physical := ["t"; "n"]%string; partition := [("lang"%string, 9)]; row_groups := [(4, [[Some 1; Some 2]; [Some 3; None]]); (6, [[Some 5; Some 6]])]; scanned := fun _ i => 100 + i |} in
  let f := {| refs := ["n"%string]; test := fun u => option_map (fun v => 2 <? v) (u "n"%string) |} in
  well_formed fr /\ looks_at_refs f /\
  load (fun i => i) fr None (Some f) true
  = Some {| names := ["t"; "n"; "__batch_index"; "__fragment_index"; "__filename"; "lang"; "__row_groups_ids"; "__index_in_fragement"]%string;
            rows := [[Some 5; Some 6; Some 102; Some 102; Some 102; Some 9; Some 6; Some 0]] |}.
Proof.
  split; [|split; [|reflexivity]].
  - split; [|repeat constructor]. cbn. repeat constructor; cbn; intuition discriminate.
  - intros u v H. cbn. rewrite H by (left; reflexivity). reflexivity.
Qed.

Print Assumptions C93_loaded.
Print Assumptions C93_succeeds.
Print Assumptions C93_trace.
Print Assumptions C93_unselected_refuted.
Print Assumptions C93_missing_refuted.
Print Assumptions C93_nondeterministic_refuted.
Print Assumptions C93_min_batch_refuted.
Print Assumptions C93_renamed.
Print Assumptions C93_twice_refuted.
