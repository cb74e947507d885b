(** Parameter groups of optimizers (C95). *)

Require Import String List Arith Bool Lia Permutation.
From Verif Require Import Grp_Model Grp_Spec.
Import ListNotations.

Section Props.
  Context {P S : Type}.
  Variable re_match : string -> string -> bool.
  Variable no_settings : S.
  (** The pattern of the fall-back group matches every name. *)
  Definition dot_star := forall name, re_match ".*"%string name = true.
  Notation grp := (@group P S).
  Notation sel := (fun ps name => group_matches re_match name ps).

  Lemma group_eta : forall g : grp, {| name_patterns := name_patterns g; kwargs := kwargs g; params := params g; param_names := param_names g |} = g.
  Proof. intros []. reflexivity. Qed.

  Lemma add_nth : forall name (x : P) (gs : list grp) i g, nth_error gs i = Some g ->
    exists g', nth_error (add_to_first re_match name x gs) i = Some g' /\ name_patterns g' = name_patterns g /\ kwargs g' = kwargs g
      /\ params g' = params g ++ (if belongs sel (map name_patterns gs) i name then [x] else []).
  Proof.
    intros name x. induction gs as [|h gs IH]; intros i g H; [destruct i; discriminate|].
    cbn [add_to_first]. destruct i as [|i].
    - injection H as ->. unfold belongs. cbn [map nth_error firstn forallb]. rewrite andb_true_r.
      destruct (group_matches re_match name (name_patterns g)); eexists; (split; [reflexivity|]); cbn; rewrite ?app_nil_r; auto.
    - unfold belongs. cbn [map nth_error firstn forallb]. cbn [nth_error] in H.
      destruct (group_matches re_match name (name_patterns h)) eqn:M; cbn [negb andb].
      + exists g. cbn [nth_error]. rewrite nth_error_map, H. cbn [option_map]. rewrite andb_false_r, app_nil_r. auto.
      + destruct (IH i g H) as (g' & A & B & C & D). exists g'. cbn [nth_error]. split; [exact A|]. auto.
  Qed.

  Lemma add_length : forall name (x : P) (gs : list grp), length (add_to_first re_match name x gs) = length gs.
  Proof. intros name x. induction gs as [|h gs IH]; [reflexivity|]. cbn. destruct (group_matches _ _ _); cbn; auto. Qed.

  Lemma add_patterns : forall name (x : P) (gs : list grp), map name_patterns (add_to_first re_match name x gs) = map name_patterns gs.
  Proof. intros name x. induction gs as [|h gs IH]; [reflexivity|]. cbn. destruct (group_matches _ _ _); cbn; [reflexivity|]. rewrite IH. reflexivity. Qed.

  Notation add_all := (fold_left (fun gs (np : string * P) => add_to_first re_match (fst np) (snd np) gs)).

  Lemma all_nth : forall named (gs : list grp) i g, nth_error gs i = Some g ->
    exists g', nth_error (add_all named gs) i = Some g' /\ name_patterns g' = name_patterns g /\ kwargs g' = kwargs g
      /\ params g' = params g ++ members sel (map name_patterns gs) named i.
  Proof.
    induction named as [|[n x] named IH]; intros gs i g H.
    - exists g. unfold members. cbn. rewrite app_nil_r. auto.
    - cbn [fold_left fst snd]. destruct (add_nth n x gs i g H) as (g1 & A & B & C & D).
      destruct (IH _ i g1 A) as (g2 & A2 & B2 & C2 & D2). exists g2. rewrite add_patterns in D2. split; [exact A2|]. split; [congruence|]. split; [congruence|].
      rewrite D2, D, <- app_assoc. f_equal. unfold members. cbn [filter fst]. destruct (belongs _ _ i n); reflexivity.
  Qed.

  Lemma all_length : forall named (gs : list grp), length (add_all named gs) = length gs.
  Proof. induction named as [|[n x] named IH]; intro gs; [reflexivity|]. cbn [fold_left fst snd]. rewrite IH, add_length. reflexivity. Qed.


  Lemma nth_ext_error : forall {A} (l l' : list A), (forall i, nth_error l i = nth_error l' i) -> l = l'.
  Proof.
    intros A. induction l as [|x l IH]; intros [|y l'] H; [reflexivity|specialize (H 0); discriminate|specialize (H 0); discriminate|].
    pose proof (H 0) as H0. injection H0 as ->. f_equal. apply IH. intro i. exact (H (Datatypes.S i)).
  Qed.

  Lemma nth_error_enum : forall {A} (l : list A) i a, nth_error (combine (seq a (length l)) l) i = option_map (pair (a + i)) (nth_error l i).
  Proof.
    intros A. induction l as [|x l IH]; intros i a; [destruct i; reflexivity|]. cbn [length seq combine]. destruct i as [|i]; cbn [nth_error option_map].
    - do 2 f_equal. lia.
    - rewrite IH. destruct (nth_error l i); [|reflexivity]. cbn [option_map]. do 2 f_equal. lia.
  Qed.

  Definition triple (g : grp) := (name_patterns g, kwargs g, params g).

  Lemma all_triples : forall named (gs : list grp), Forall (fun g => params g = []) gs ->
    map triple (add_all named gs)
    = map (fun ig => (name_patterns (snd ig), kwargs (snd ig), members sel (map name_patterns gs) named (fst ig))) (combine (seq 0 (length gs)) gs).
  Proof.
    intros named gs E. apply nth_ext_error. intro i. rewrite !nth_error_map, nth_error_enum. cbn [Nat.add].
    destruct (nth_error gs i) as [g|] eqn:G.
    - destruct (all_nth named gs i g G) as (g' & A & B & C & D). rewrite A. cbn [option_map fst snd]. unfold triple. rewrite B, C, D.
      rewrite Forall_forall in E. rewrite (E g) by (eapply nth_error_In; exact G). reflexivity.
    - cbn [option_map]. apply nth_error_None in G. rewrite <- (all_length named) in G. apply nth_error_None in G. rewrite G. reflexivity.
  Qed.

  (** A group that looks like the fall-back group and is empty. *)
  Definition empty_fall_back (t : list string * S * list P) : bool :=
    match t with ([p], _, []) => String.eqb p ".*"%string | _ => false end.

  Lemma output_triples : forall (gs : list grp), map (fun g => (kwargs g, params g)) (filter kept gs)
    = map (fun t => (snd (fst t), snd t)) (filter (fun t => negb (empty_fall_back t)) (map triple gs)).
  Proof.
    induction gs as [|g gs IH]; [reflexivity|]. cbn [filter map].
    assert (K : kept g = negb (empty_fall_back (triple g))).
    { destruct g as [[|p [|? ?]] k [|x ps] n]; reflexivity. }
    rewrite K. destruct (negb _); cbn [map]; rewrite IH; reflexivity.
  Qed.

  Lemma belongs_last : forall pats ps name, belongs sel (pats ++ [ps]) (length pats) name = sel ps name && forallb (fun qs => negb (sel qs name)) pats.
  Proof.
    intros pats ps name. unfold belongs. rewrite nth_error_app2, Nat.sub_diag by lia. cbn [nth_error].
    rewrite firstn_app, Nat.sub_diag, firstn_all. cbn [firstn]. rewrite app_nil_r. reflexivity.
  Qed.

  Lemma belongs_before : forall pats ps name i, i < length pats -> belongs sel (pats ++ [ps]) i name = belongs sel pats i name.
  Proof.
    intros pats ps name i H. unfold belongs. rewrite nth_error_app1 by exact H. rewrite firstn_app.
    replace (i - length pats) with 0 by lia. cbn [firstn]. rewrite app_nil_r. reflexivity.
  Qed.

  Lemma members_ext : forall pats pats' (named : list (string * P)) i, (forall name, belongs sel pats i name = belongs sel pats' i name) ->
    members sel pats named i = members sel pats' named i.
  Proof. intros pats pats' named i H. unfold members. f_equal. apply filter_ext. intros [n x]. apply H. Qed.

  Lemma prepare_some : forall (named : list (string * P)) (configs : list (list string * S)), configs <> [] ->
    prepare_parameter_groups re_match no_settings named configs =
        let groups := map (fun c => {| name_patterns := fst c; kwargs := snd c; params := []; param_names := [] |}) configs in
        let groups := groups ++ [{| name_patterns := [".*"%string]; kwargs := no_settings; params := []; param_names := [] |}] in
        let groups := add_all named groups in
        map (fun g => (kwargs g, params g)) (filter kept groups).
  Proof. intros named [|c cs] H; [congruence|reflexivity]. Qed.

  (** Every group holds, with its settings and in the order of the model, the
      parameters that its patterns select and no earlier group's do; what no
      group selects forms a last group with the settings of the optimizer.  The
      groups are in the order of their configurations, but groups that select by
      [.*] alone are missing if nothing is left for them. *)
  Theorem C95_groups : dot_star -> forall (named : list (string * P)) (configs : list (list string * S)), configs <> [] ->
    let selected := members sel (map fst configs) named in
    let rest := others sel (map fst configs) named in
    prepare_parameter_groups re_match no_settings named configs
    = flat_map (fun '(i, (patterns, settings)) => if empty_fall_back (patterns, settings, selected i) then [] else [(settings, selected i)])
        (combine (seq 0 (length configs)) configs)
      ++ match rest with [] => [] | _ => [(no_settings, rest)] end.
  Proof.
    intros DS named configs NE selected rest. rewrite prepare_some by exact NE. clear NE. cbv zeta.
    set (fb := {| name_patterns := [".*"%string] |}). set (gs := map _ configs).
    rewrite output_triples, all_triples.
    2:{ apply Forall_app. split; [|repeat constructor]. apply Forall_map, Forall_forall. reflexivity. }
    assert (Pats : map name_patterns (gs ++ [fb]) = map fst configs ++ [[".*"%string]]).
    { rewrite map_app. f_equal. unfold gs. rewrite map_map. reflexivity. }
    rewrite Pats. assert (Lg : length gs = length configs) by (unfold gs; apply map_length).
    rewrite app_length, seq_app. cbn [length seq Nat.add].
    assert (CA : forall {A B} (a a' : list A) (b b' : list B), length a = length b -> combine (a ++ a') (b ++ b') = combine a b ++ combine a' b').
    { intros A B. induction a as [|x a IH]; intros a' [|y b] b' H; try discriminate; [reflexivity|]. cbn. f_equal. apply IH. cbn in H. lia. }
    rewrite CA by apply seq_length. rewrite map_app, filter_app, map_app. f_equal.
    - rewrite Lg. unfold gs. assert (Bd : forall ic, In ic (combine (seq 0 (length configs)) configs) -> fst ic < length (map fst configs)).
      { intros [i c] H. apply in_combine_l in H. apply in_seq in H. rewrite map_length. cbn. lia. }
      assert (MM : forall (l : list nat) (cs : list (list string * S)), (forall ic, In ic (combine l cs) -> fst ic < length (map fst configs)) ->
        map (fun t : list string * S * list P => (snd (fst t), snd t))
          (filter (fun t => negb (empty_fall_back t))
             (map (fun ig : nat * grp => (name_patterns (snd ig), kwargs (snd ig), members sel (map fst configs ++ [[".*"%string]]) named (fst ig)))
                (combine l (map (fun c => {| name_patterns := fst c; kwargs := snd c; params := []; param_names := [] |}) cs))))
        = flat_map (fun '(i, (patterns, settings)) => if empty_fall_back (patterns, settings, selected i) then [] else [(settings, selected i)]) (combine l cs)).
      { clear - DS. induction l as [|i l IH]; intros [|[ps s] cs] H; try reflexivity. cbn [combine map flat_map filter fst snd name_patterns kwargs].
        replace (members sel (map fst configs ++ [[".*"%string]]) named i) with (selected i).
        2:{ apply members_ext. intro name. symmetry. apply belongs_before. apply (H (i, (ps, s))). left. reflexivity. }
        rewrite <- IH by (intros ic X; apply H; right; exact X).
        destruct (empty_fall_back (ps, s, selected i)); reflexivity. }
      apply MM. exact Bd.
    - rewrite Lg. cbn [combine map fst snd]. unfold fb at 1 2. cbn [name_patterns kwargs].
      assert (R : members sel (map fst configs ++ [[".*"%string]]) named (length configs) = rest).
      { unfold members, rest, others. f_equal. apply filter_ext. intros [n x]. cbn [fst].
        replace (length configs) with (length (map fst configs)) by apply map_length. rewrite belongs_last.
        unfold group_matches at 1. cbn [existsb]. rewrite DS, orb_true_r. reflexivity. }
      rewrite R. cbn [filter empty_fall_back]. destruct rest; reflexivity.
  Qed.

  Lemma first_index : forall pats name, existsb (fun ps => sel ps name) pats = true ->
    exists k, k < length pats /\ forall i, belongs sel pats i name = (i =? k).
  Proof.
    induction pats as [|ps pats IH]; intros name H; [discriminate|]. cbn [existsb] in H. destruct (group_matches re_match name ps) eqn:M.
    - exists 0. split; [cbn; lia|]. intros [|i]; unfold belongs; cbn [nth_error firstn forallb Nat.eqb].
      + rewrite M. reflexivity.
      + rewrite M. cbn [negb andb]. destruct (nth_error pats i); [apply andb_false_r|reflexivity].
    - destruct (IH name H) as (k & L & B). exists (Datatypes.S k). split; [cbn; lia|]. intros [|i]; unfold belongs; cbn [nth_error firstn forallb Nat.eqb].
      + rewrite M. reflexivity.
      + rewrite M. cbn [negb andb]. apply B.
  Qed.

  Lemma none_belongs : forall pats name i, existsb (fun ps => sel ps name) pats = false -> belongs sel pats i name = false.
  Proof.
    intros pats name i H. unfold belongs. destruct (nth_error pats i) as [ps|] eqn:E; [|reflexivity].
    apply nth_error_In in E. destruct (group_matches re_match name ps) eqn:M; [|reflexivity].
    exfalso. assert (X : existsb (fun ps => sel ps name) pats = true) by (apply existsb_exists; exists ps; auto). congruence.
  Qed.

  Lemma forallb_existsb : forall pats name, forallb (fun qs => negb (sel qs name)) pats = negb (existsb (fun ps => sel ps name) pats).
  Proof. induction pats as [|ps pats IH]; intro name; [reflexivity|]. cbn. rewrite IH. destruct (group_matches _ _ _); reflexivity. Qed.

  Lemma concat_insert : forall (x : P) k (m : nat -> list P) n a, a <= k < a + n ->
    Permutation (concat (map (fun i => (if i =? k then [x] else []) ++ m i) (seq a n))) (x :: concat (map m (seq a n))).
  Proof.
    intros x k m. induction n as [|n IH]; intros a H; [lia|]. cbn [seq map concat]. destruct (Nat.eqb_spec a k) as [->|N].
    - cbn [app]. constructor. apply Permutation_app_head.
      replace (map (fun i => (if i =? k then [x] else []) ++ m i) (seq (Datatypes.S k) n)) with (map m (seq (Datatypes.S k) n)); [reflexivity|].
      apply map_ext_in. intros i Hi. apply in_seq in Hi. destruct (Nat.eqb_spec i k); [lia|reflexivity].
    - cbn [app]. rewrite IH by lia. symmetry. apply Permutation_middle.
  Qed.

  Lemma partition : forall pats (named : list (string * P)),
    Permutation (concat (map (members sel pats named) (seq 0 (length pats))) ++ others sel pats named) (map snd named).
  Proof.
    intros pats. induction named as [|[n x] named IH].
    - unfold others. cbn. rewrite app_nil_r. assert (Z : concat (map (members sel pats (@nil (string * P))) (seq 0 (length pats))) = []).
      { generalize (seq 0 (length pats)) as l. induction l as [|i l IHl]; [reflexivity|]. exact IHl. }
      rewrite Z. constructor.
    - cbn [map snd]. rewrite <- IH. destruct (existsb (fun ps => sel ps n) pats) eqn:E.
      + destruct (first_index pats n E) as (k & L & B).
        replace (others sel pats ((n, x) :: named)) with (others sel pats named).
        2:{ unfold others. cbn [filter fst]. rewrite forallb_existsb, E. reflexivity. }
        change (x :: concat (map (members sel pats named) (seq 0 (length pats))) ++ others sel pats named)
          with ((x :: concat (map (members sel pats named) (seq 0 (length pats)))) ++ others sel pats named).
        apply Permutation_app_tail. rewrite <- (concat_insert x k) by lia.
        replace (map (members sel pats ((n, x) :: named)) (seq 0 (length pats)))
          with (map (fun i => (if i =? k then [x] else []) ++ members sel pats named i) (seq 0 (length pats))); [reflexivity|].
        apply map_ext. intro i. unfold members. cbn [filter fst]. rewrite B. destruct (i =? k); reflexivity.
      + replace (map (members sel pats ((n, x) :: named)) (seq 0 (length pats))) with (map (members sel pats named) (seq 0 (length pats))).
        2:{ apply map_ext. intro i. unfold members. cbn [filter fst]. rewrite none_belongs by exact E. reflexivity. }
        replace (others sel pats ((n, x) :: named)) with (x :: others sel pats named); [symmetry; apply Permutation_middle|].
        unfold others. cbn [filter fst]. rewrite forallb_existsb, E. reflexivity.
  Qed.

  (** Every parameter of the model is in exactly one group. *)
  Theorem C95_partition : dot_star -> forall (named : list (string * P)) (configs : list (list string * S)),
    Permutation (concat (map snd (prepare_parameter_groups re_match no_settings named configs))) (map snd named).
  Proof.
    intros DS named configs. destruct configs as [|c cs] eqn:E; [cbn; rewrite app_nil_r; reflexivity|]. rewrite <- E.
    rewrite C95_groups by (auto; congruence). rewrite map_app, concat_app.
    rewrite <- (partition (map fst configs) named) at 1. rewrite map_length.
    set (m := members sel (map fst configs) named).
    assert (A : forall (l : list nat) (cs' : list (list string * S)), length l = length cs' ->
      concat (map snd (flat_map (fun '(i, (patterns, settings)) => if empty_fall_back (patterns, settings, m i) then [] else [(settings, m i)]) (combine l cs')))
      = concat (map m l)).
    { induction l as [|i l IH]; intros [|[ps s] cs'] L; try discriminate; [reflexivity|]. cbn [combine flat_map map concat].
      rewrite map_app, concat_app, IH by (cbn in L; lia). f_equal.
      destruct (empty_fall_back (ps, s, m i)) eqn:F; cbn; [|apply app_nil_r].
      destruct ps as [|p [|? ?]]; try discriminate. cbn in F. destruct (m i); [reflexivity|discriminate]. }
    rewrite A by apply seq_length. apply Permutation_app_head.
    destruct (others sel (map fst configs) named); cbn; rewrite ?app_nil_r; reflexivity.
  Qed.

  (** The groups of an optimizer and the configured groups agree in number if
      every parameter is selected and no configuration that selects by [.*] alone
      comes out empty; otherwise the lists of values of a scheduler are refused or
      need one more value. *)
  Theorem C95_values : forall {V} (vs : list V) n, group_values (Each vs) n = Some vs <-> length vs = n.
  Proof.
    intros V vs n. cbn. destruct (Nat.eqb_spec (length vs) n) as [->|N]; cbn [negb]; split; congruence.
  Qed.
End Props.

(** A configured group can be missing, so that a list with one learning rate per
    configured group is refused. *)
Theorem C95_count_refuted : forall {V : Type} (a b : V), exists (named : list (string * nat)) (configs : list (list string * bool)),
  length configs = 2 /\
  forall re_match, (forall name, re_match ".*"%string name = true) ->
    let groups := prepare_parameter_groups re_match false named configs in
    length groups = 1 /\ group_values (Each [a; b]) (length groups) = None.
Proof.
  intros V a b. exists [("w"%string, 0)], [(["w"%string], true); ([".*"%string], false)]. split; [reflexivity|]. intros rm H groups. 
  split; reflexivity.
Qed.

(** A name selects more than the parameter of that name: matches are prefixes. *)
Theorem C95_name_refuted : forall re_match : string -> string -> bool,
  (forall p n, String.prefix p n = true -> re_match p n = true) ->
  prepare_parameter_groups re_match false [("encoder.w"%string, 0); ("encoder.w_extra"%string, 1)] [(["encoder.w"%string], true)]
  = [(true, [0; 1])].
Proof.
  intros rm H. assert (A : rm "encoder.w"%string "encoder.w_extra"%string = true) by (apply H; reflexivity).
  unfold prepare_parameter_groups, group_matches. cbn [map app fold_left fst snd add_to_first name_patterns].
  replace (group_matches rm "encoder.w" ["encoder.w"%string]) with true by reflexivity. cbn [app kwargs params param_names add_to_first name_patterns].
  replace (group_matches rm "encoder.w_extra" ["encoder.w"%string]) with true by (unfold group_matches; cbn [existsb]; rewrite A, orb_true_r; reflexivity).
  reflexivity.
Qed.

Example C95_ex :
  prepare_parameter_groups String.prefix 0 [("enc.w"%string, 1); ("dec.w"%string, 2); ("enc.b"%string, 3)] [(["enc"%string], 7); (["enc.b"%string; "dec"%string], 8)]
  = [(7, [1; 3]); (8, [2])].
Proof. reflexivity. Qed.

Print Assumptions C95_groups.
Print Assumptions C95_partition.
Print Assumptions C95_values.
Print Assumptions C95_count_refuted.
Print Assumptions C95_name_refuted.
