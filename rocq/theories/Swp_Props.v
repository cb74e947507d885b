(** C71: sweep tags *)
From Coq Require Import Decimal List Bool Arith NArith Lia Permutation DecimalNat.
From Verif Require Import Swp_Model Swp_Spec.
Import ListNotations.

Lemma streq_spec : forall a b, reflect (a = b) (streq a b).
Proof. intros. unfold streq. destruct (list_eq_dec N.eq_dec a b); constructor; auto. Qed.

(** ** Formats *)
Lemma loop_placeholder : forall k rest o p u tags, ~ In rbrace k -> format_loop (k ++ rest) PLACEHOLDER o p u tags = format_loop rest PLACEHOLDER o (p ++ k) u tags.
Proof.
  induction k as [|c k IH]; intros rest o p u tags N; [rewrite app_nil_r; auto|]. cbn [app format_loop]. destruct (N.eqb_spec c rbrace) as [->|_]; [destruct N; left; auto|]. rewrite IH, <- app_assoc; auto. intros I. apply N. right. auto.
Qed.
Definition unknown_of (tags : dict) (p : piece) (u : list str) : list str := match p with Key k => match get tags k with Some _ => u | None => add_key k u end | _ => u end.
Lemma loop_piece : forall p rest o u tags, accepted p -> format_loop (text p ++ rest) LITERAL o [] u tags = format_loop rest LITERAL (o ++ replacement tags p) [] (unknown_of tags p u) tags.
Proof.
  intros [c| | |k|c] rest o u tags W; cbn [accepted well_formed] in W.
  - destruct W as [A B]. cbn [text app format_loop replacement unknown_of]. rewrite (proj2 (N.eqb_neq _ _) A), (proj2 (N.eqb_neq _ _) B). auto.
  - reflexivity.
  - reflexivity.
  - destruct W as [A B]. destruct k as [|c k]; [easy|]. cbn [text app]. rewrite <- app_assoc. cbn [format_loop]. rewrite N.eqb_refl, (proj2 (N.eqb_neq _ _) B). destruct (N.eqb_spec c rbrace) as [->|_]; [destruct A; left; auto|].
    rewrite loop_placeholder by (intros I; apply A; right; auto). cbn [app format_loop]. rewrite N.eqb_refl. cbn [replacement unknown_of]. destruct (get tags (c :: k)); auto.
  - cbn [text app format_loop replacement unknown_of]. change (rbrace =? lbrace)%N with false. rewrite N.eqb_refl, (proj2 (N.eqb_neq _ _) W). auto.
Qed.
Lemma loop_pieces : forall ps rest o u tags, Forall accepted ps ->
  format_loop (flat_map text ps ++ rest) LITERAL o [] u tags = format_loop rest LITERAL (o ++ flat_map (replacement tags) ps) [] (fold_left (fun u p => unknown_of tags p u) ps u) tags.
Proof.
  induction ps as [|p ps IH]; intros rest o u tags F; [cbn; rewrite app_nil_r; auto|]. cbn [flat_map fold_left]. rewrite <- app_assoc, loop_piece by (inversion F; auto). rewrite IH by (inversion F; auto). rewrite <- app_assoc. auto.
Qed.
Lemma in_add : forall k l x, In x (add_key k l) <-> x = k \/ In x l.
Proof.
  intros k l x. unfold add_key. destruct (existsb (streq k) l) eqn:E.
  - apply existsb_exists in E. destruct E as (y & I & E). destruct (streq_spec k y) as [<-|]; [|discriminate]. split; auto. intros [->|H]; auto.
  - rewrite in_app_iff. cbn. intuition.
Qed.
Lemma in_unknown : forall tags ps u x, In x (fold_left (fun u p => unknown_of tags p u) ps u) <-> In x u \/ (In (Key x) ps /\ get tags x = None).
Proof.
  induction ps as [|p ps IH]; intros u x; cbn [fold_left]; [cbn; intuition|]. rewrite IH. clear IH. destruct p as [c| | |k|c]; cbn [unknown_of In]; try (split; [intros [H|[H1 H2]]; auto|intros [H|[[H1|H1] H2]]; auto; discriminate]).
  destruct (get tags k) eqn:G.
  - split; [intros [H|[H1 H2]]; auto|]. intros [H|[[H1|H1] H2]]; auto. injection H1 as ->. congruence.
  - rewrite in_add. split; [intros [[->|H]|[H1 H2]]; auto|]. intros [H|[[H1|H1] H2]]; auto. injection H1 as ->. auto.
Qed.
Lemma in_insert_key : forall k l x, In x (insert_key k l) <-> x = k \/ In x l.
Proof. induction l as [|y l IH]; intros x; cbn; [intuition|]. destruct (str_leb k y); cbn; [intuition|]. rewrite IH. intuition. Qed.
Lemma in_sort_keys : forall l x, In x (fold_right insert_key [] l) <-> In x l.
Proof. induction l as [|y l IH]; intros x; cbn; [intuition|]. rewrite in_insert_key, IH. intuition. Qed.
Definition all_known (tags : dict) (ps : list piece) : Prop := forall k, In (Key k) ps -> get tags k <> None.

(** A documented format gives the text with every placeholder replaced by the tag of its key, doubled braces being braces, if all keys exist; and otherwise raises,
    naming exactly the keys that do not. *)
Theorem C71_format : forall ps tags, Forall well_formed ps ->
  (all_known tags ps -> safe_format (flat_map text ps) tags = Tag (flat_map (replacement tags) ps)) /\
  (~ all_known tags ps -> exists keys, safe_format (flat_map text ps) tags = Unknown keys /\ forall k, In k keys <-> In (Key k) ps /\ get tags k = None).
Proof.
  intros ps tags F. assert (F' : Forall accepted ps) by (eapply Forall_impl; [|exact F]; intros [ | | | | ]; cbn; auto; easy).
  unfold safe_format. rewrite <- (app_nil_r (flat_map text ps)), loop_pieces by auto. cbn [format_loop app]. pose proof (in_unknown tags ps []) as U. destruct (fold_left _ ps []) as [|x u] eqn:Eu; split; intros H.
  - auto.
  - exfalso. apply H. intros k I G. apply (proj2 (U k)). auto.
  - exfalso. destruct (proj1 (U x) (or_introl eq_refl)) as [[]|[I G]]. apply (H x I G).
  - eexists. split; [reflexivity|]. intros k. rewrite in_sort_keys, U. cbn. intuition.
Qed.
Print Assumptions C71_format.

(** Whatever is accepted is made of documented pieces and lone closing braces. *)
Theorem C71_accepts : forall fmt tags s, safe_format fmt tags = Tag s ->
  exists ps, Forall accepted ps /\ fmt = flat_map text ps /\ s = flat_map (replacement tags) ps /\ all_known tags ps.
Proof.
  intros fmt tags s E. cut (forall n fmt o u, length fmt <= n -> (exists r, format_loop fmt LITERAL o [] u tags = Tag r) -> exists ps, Forall accepted ps /\ fmt = flat_map text ps).
  - intros H. destruct (H _ fmt [] [] (le_n _) (ex_intro _ s E)) as (ps & F & ->). exists ps. split; auto. split; auto. unfold safe_format in E.
    rewrite <- (app_nil_r (flat_map text ps)), loop_pieces in E by auto. cbn [format_loop app] in E. pose proof (in_unknown tags ps []) as U. destruct (fold_left _ ps []) as [|x u] eqn:Eu; [|discriminate]. split; [congruence|].
    intros k I G. apply (proj2 (U k)). auto.
  - clear. induction n as [|n IH]; intros fmt o u L [r E]. { exists []. destruct fmt; [auto|cbn in L; lia]. }
    destruct fmt as [|c fmt]; [exists []; auto|]. cbn [length] in L. cbn [format_loop] in E. destruct (N.eqb_spec c lbrace) as [->|N1].
    + destruct fmt as [|d fmt]; [discriminate|]. cbn [length] in L. cbn [format_loop] in E. destruct (N.eqb_spec d lbrace) as [->|N2].
      * destruct (IH fmt (o ++ [lbrace]) u) as (ps & F & ->); [lia|eauto|]. exists (LBrace :: ps). split; [constructor; cbn; auto|auto].
      * destruct (N.eqb_spec d rbrace) as [->|N3]; [discriminate|].
        assert (P : forall k fmt p, p <> [] -> ~ In rbrace p -> hd rbrace p <> lbrace -> length fmt <= k -> k <= n -> format_loop fmt PLACEHOLDER o p u tags = Tag r ->
                    exists q ps, fmt = q ++ [rbrace] ++ flat_map text ps /\ Forall accepted ps /\ ~ In rbrace q).
        { clear - IH. induction k as [|k IHk]; intros fmt p P0 P1 P2 Lk Kn E; (destruct fmt as [|c fmt]; [discriminate|]); cbn [length] in Lk; [lia|]. cbn [format_loop] in E. destruct (N.eqb_spec c rbrace) as [->|N].
          - assert (exists o' u', format_loop fmt LITERAL o' [] u' tags = Tag r) as (o' & u' & E') by (destruct (get tags p); eauto). destruct (IH fmt o' u') as (ps & F & ->); [lia|eauto|]. exists [], ps. auto.
          - destruct (IHk fmt (p ++ [c])) as (q & ps & -> & F & Q); auto; try lia.
            + intros Z. destruct p; discriminate.
            + rewrite in_app_iff. cbn. intuition.
            + destruct p; [easy|exact P2].
            + exists (c :: q), ps. split; auto. split; auto. cbn. intuition. }
        destruct (P n fmt [d]) as (q & ps & -> & F & Q); auto; try discriminate; try lia; [cbn; intuition|]. exists (Key (d :: q) :: ps). split.
        { constructor; auto. cbn. split; auto. intuition. }
        { cbn [flat_map text app]. rewrite <- app_assoc. auto. }
    + destruct (N.eqb_spec c rbrace) as [->|N2].
      * destruct fmt as [|d fmt]; [discriminate|]. cbn [length] in L. cbn [format_loop] in E. destruct (N.eqb_spec d rbrace) as [->|N3].
        { destruct (IH fmt (o ++ [rbrace]) u) as (ps & F & ->); [lia|eauto|]. exists (RBrace :: ps). split; [constructor; cbn; auto|auto]. }
        { destruct (IH fmt (o ++ [d]) u) as (ps & F & ->); [lia|eauto|]. exists (Lone d :: ps). split; [constructor; cbn; auto|auto]. }
      * destruct (IH fmt (o ++ [c]) u) as (ps & F & ->); [lia|eauto|]. exists (Lit c :: ps). split; [constructor; cbn; auto|auto].
Qed.
Print Assumptions C71_accepts.

(** A closing brace without an opening one is dropped silently, although the braces must match: "a}b" gives "ab", as "ab" does. *)
Theorem C71_lone_brace_refuted : forall tags, safe_format [97; 125; 98]%N tags = Tag [97; 98]%N /\ safe_format [97; 98]%N tags = Tag [97; 98]%N.
Proof. split; reflexivity. Qed.
Print Assumptions C71_lone_brace_refuted.

(** ** Tags *)
Lemma get_set : forall d k v x, get (set d k v) x = if streq k x then Some v else get d x.
Proof.
  induction d as [|[k' v'] d IH]; intros k v x; [reflexivity|]. cbn. destruct (streq_spec k' k) as [->|N]; cbn [get]; [destruct (streq_spec k x); auto|]. rewrite IH. destruct (streq_spec k' x) as [->|]; auto. destruct (streq_spec k x) as [->|]; [easy|auto].
Qed.
Lemma keys_set : forall d k v x, In x (map fst (set d k v)) <-> x = k \/ In x (map fst d).
Proof. induction d as [|[k' v'] d IH]; intros k v x; cbn; [intuition|]. destruct (streq_spec k' k) as [->|N]; cbn; [intuition|]. rewrite IH. intuition. Qed.
Lemma nodup_set : forall d k v, NoDup (map fst d) -> NoDup (map fst (set d k v)).
Proof.
  induction d as [|[k' v'] d IH]; intros k v H; cbn; [constructor; auto; constructor|]. cbn in H. inversion H; subst. destruct (streq_spec k' k) as [->|N]; cbn; [constructor; auto|]. constructor; auto. rewrite keys_set. intuition.
Qed.
Definition assign (l : list (str * str)) (d : dict) : dict := fold_left (fun d kv => set d (fst kv) (snd kv)) l d.
Lemma get_assign_out : forall l d x, ~ In x (map fst l) -> get (assign l d) x = get d x.
Proof. induction l as [|[k v] l IH]; intros d x N; auto. cbn in *. rewrite IH by intuition. rewrite get_set. destruct (streq_spec k x); intuition. Qed.
Lemma get_assign_in : forall l d x t, (forall t1 t2, In (x, t1) l -> In (x, t2) l -> t1 = t2) -> In (x, t) l -> get (assign l d) x = Some t.
Proof.
  induction l as [|[k v] l IH]; intros d x t C I; [easy|]. cbn. destruct (in_dec (list_eq_dec N.eq_dec) x (map fst l)) as [J|J].
  - apply IH; [intros; apply C; right; auto|]. destruct I as [I|I]; auto. injection I as -> ->. apply in_map_iff in J. destruct J as ([y t'] & E & J). cbn in E. subst y. rewrite (C t t'); auto; [left; auto|right; auto].
  - destruct I as [I|I]; [|destruct J; apply in_map_iff; exists (x, t); auto]. injection I as -> ->. fold (assign l (set d x t)). rewrite get_assign_out by auto. rewrite get_set. destruct (streq_spec x x); easy.
Qed.
Lemma nodup_assign : forall l d, NoDup (map fst d) -> NoDup (map fst (assign l d)).
Proof. induction l as [|[k v] l IH]; intros d H; auto. cbn. apply IH, nodup_set, H. Qed.

Section T.
  Variables (word : N -> bool) (sha : str -> str).
  Fixpoint leaves (v : value) (path : str) : list (str * str) :=
    match v with
    | VList l => (fix go l idx := match l with [] => [] | x :: l' => leaves x (path ++ [lbrack] ++ print_nat idx ++ [rbrack]) ++ go l' (S idx) end) l 0
    | VDict l => (fix go (l : list (str * value)) := match l with [] => [] | (k, x) :: l' => leaves x (match path with [] => k | _ => path ++ [dot] ++ k end) ++ go l' end) l
    | _ => [(path, leaf_tag word sha v)]
    end.
  Lemma assign_app : forall a b d, assign (a ++ b) d = assign b (assign a d).
  Proof. intros. unfold assign. apply fold_left_app. Qed.
  Lemma collect_leaves : forall v tags path, collect_tags word sha v tags path = assign (leaves v path) tags.
  Proof.
    fix IH 1. destruct v as [|s|b|t|l|l]; intros tags path; try reflexivity.
    - cbn [collect_tags leaves]. generalize 0 as idx. revert tags. induction l as [|x l IHl]; intros tags idx; [reflexivity|]. rewrite assign_app, IHl, IH. reflexivity.
    - cbn [collect_tags leaves]. revert tags. induction l as [|[k x] l IHl]; intros tags; [reflexivity|]. rewrite assign_app, IHl, IH. reflexivity.
  Qed.
  Fixpoint extend (path : str) (s : list step) : str :=
    match s with [] => path | Idx i :: s' => extend (path ++ [lbrack] ++ print_nat i ++ [rbrack]) s' | Fld k :: s' => extend (match path with [] => k | _ => path ++ [dot] ++ k end) s' end.
  Lemma in_leaves : forall v path p t, In (p, t) (leaves v path) -> exists s leaf, setting v s leaf /\ p = extend path s /\ t = leaf_tag word sha leaf.
  Proof.
    fix IH 1. destruct v as [|s|b|n|l|l]; intros path p t I.
    - destruct I as [I|[]]. injection I as <- <-. exists [], VNone. split; [constructor; cbn; auto|auto].
    - destruct I as [I|[]]. injection I as <- <-. exists [], (VStr s). split; [constructor; cbn; auto|auto].
    - destruct I as [I|[]]. injection I as <- <-. exists [], (VBool b). split; [constructor; cbn; auto|auto].
    - destruct I as [I|[]]. injection I as <- <-. exists [], (VNum n). split; [constructor; cbn; auto|auto].
    - assert (G : exists i x s leaf, nth_error l i = Some x /\ setting x s leaf /\ p = extend (path ++ [lbrack] ++ print_nat (0 + i) ++ [rbrack]) s /\ t = leaf_tag word sha leaf).
      { cbn [leaves] in I. revert I. generalize 0 as idx. induction l as [|x l IHl]; intros idx I; [easy|]. apply in_app_or in I. destruct I as [I|I].
        - destruct (IH x _ _ _ I) as (s & leaf & A & B & C). exists 0, x, s, leaf. rewrite Nat.add_0_r. auto.
        - destruct (IHl (S idx) I) as (i & y & s & leaf & A & B & C & D). exists (S i), y, s, leaf. rewrite Nat.add_succ_r. auto. }
      destruct G as (i & x & s & leaf & A & B & C & D). exists (Idx i :: s), leaf. split; [econstructor; eauto|auto].
    - assert (G : exists k x s leaf, In (k, x) l /\ setting x s leaf /\ p = extend (match path with [] => k | _ => path ++ [dot] ++ k end) s /\ t = leaf_tag word sha leaf).
      { cbn [leaves] in I. induction l as [|[k x] l IHl]; [easy|]. apply in_app_or in I. destruct I as [I|I].
        - destruct (IH x _ _ _ I) as (s & leaf & A & B & C). exists k, x, s, leaf. cbn; auto.
        - destruct (IHl I) as (k' & y & s & leaf & A & B & C & D). exists k', y, s, leaf. cbn; auto. }
      destruct G as (k & x & s & leaf & A & B & C & D). exists (Fld k :: s), leaf. split; [econstructor; eauto|auto].
  Qed.
  Lemma leaves_in : forall v s leaf, setting v s leaf -> forall path, In (extend path s, leaf_tag word sha leaf) (leaves v path).
  Proof.
    induction 1 as [v L|l i x s leaf N S IH|l k x s leaf N S IH]; intros path.
    - destruct v; try easy; left; auto.
    - cbn [leaves extend]. change (print_nat i) with (print_nat (0 + i)). generalize 0 as idx. revert i N. induction l as [|y l IHl]; intros i N idx; [destruct i; discriminate|]. apply in_or_app. destruct i as [|i]; cbn in N.
      + injection N as ->. left. rewrite Nat.add_0_r. apply IH.
      + right. rewrite Nat.add_succ_r. apply (IHl i N (Datatypes.S idx)).
    - cbn [leaves extend]. induction l as [|[k' y] l IHl]; [easy|]. apply in_or_app. destruct N as [N|N]; [injection N as -> ->; left; apply IH|right; auto].
  Qed.
End T.

(** Paths are written in one way only. *)
Lemma extend_suffix : forall s p, p <> [] -> extend p s = p ++ suffix s.
Proof.
  induction s as [|[i|k] s IH]; intros p N; cbn [extend suffix]; [rewrite app_nil_r; auto| |].
  - rewrite IH by (destruct p; discriminate). rewrite <- !app_assoc. auto.
  - destruct p as [|c p]; [easy|]. rewrite IH by discriminate. rewrite <- !app_assoc. auto.
Qed.
Definition good_step (st : step) : Prop := match st with Idx _ => True | Fld k => good_key k end.
Lemma extend_path : forall s, Forall good_step s -> extend [] s = write_path s.
Proof.
  intros [|[i|k] s] G; auto; cbn [extend write_path].
  - cbn [suffix]. rewrite extend_suffix by discriminate. cbn [app]. rewrite <- app_assoc. auto.
  - inversion G as [|? ? G1 _]; subst. destruct G1 as [K _]. rewrite extend_suffix by auto. auto.
Qed.
Lemma digits_no : forall u, ~ In rbrack (digits u).
Proof. induction u; cbn; try (intros []; fail); intros [H|H]; auto; discriminate. Qed.
Lemma digits_inj : forall u v, digits u = digits v -> u = v.
Proof. induction u; destruct v; cbn; intros E; try discriminate; auto; injection E as E; f_equal; auto. Qed.
Lemma print_nat_inj : forall i j, print_nat i = print_nat j -> i = j.
Proof. intros i j E. apply digits_inj in E. apply (f_equal Nat.of_uint) in E. rewrite !Unsigned.of_to in E. auto. Qed.
Lemma split_at : forall (P : N -> Prop) a a' b b', (forall x, In x a -> ~ P x) -> (forall x, In x a' -> ~ P x) -> (match b with [] => True | x :: _ => P x end) -> (match b' with [] => True | x :: _ => P x end) ->
  a ++ b = a' ++ b' -> a = a' /\ b = b'.
Proof.
  intros P a. induction a as [|x a IH]; intros [|x' a'] b b' A A' B B' E; cbn in E; auto.
  - subst b. exfalso. apply (A' x'); [left; auto|exact B].
  - subst b'. exfalso. apply (A x); [left; auto|exact B'].
  - injection E as -> E. destruct (IH a' b b') as [-> ->]; auto; intros y I; [apply A|apply A']; right; auto.
Qed.
Definition special (c : N) : Prop := c = dot \/ c = lbrack.
Lemma suffix_special : forall s, match suffix s with [] => True | x :: _ => special x end.
Proof. intros [|[i|k] s]; cbn; unfold special; auto. Qed.
Lemma good_special : forall k, good_key k -> forall x, In x k -> ~ special x.
Proof. intros k (_ & A & B & _) x I [->| ->]; auto. Qed.
Lemma suffix_inj : forall s s', Forall good_step s -> Forall good_step s' -> suffix s = suffix s' -> s = s'.
Proof.
  induction s as [|st s IH]; intros [|st' s'] G G' E; auto.
  - destruct st'; discriminate.
  - destruct st; discriminate.
  - inversion G as [|? ? G1 G2]; subst. inversion G' as [|? ? G1' G2']; subst. destruct st as [i|k], st' as [i'|k']; try discriminate; cbn in E; injection E as E.
    + apply (split_at (fun c => c = rbrack)) in E; auto; try (intros x I ->; exact (digits_no _ I)). destruct E as [E1 E2]. injection E2 as E2. apply print_nat_inj in E1. subst. f_equal. auto.
    + apply (split_at special) in E; try apply suffix_special; try (apply good_special; assumption). destruct E as [-> E]. f_equal. auto.
Qed.
Lemma write_path_inj : forall s s', Forall good_step s -> Forall good_step s' -> write_path s = write_path s' -> s = s'.
Proof.
  intros s s' G G' E. destruct s as [|[i|k] s], s' as [|[i'|k'] s']; auto; try (apply suffix_inj; auto; fail); cbn [write_path suffix] in E; try discriminate.
  - inversion G' as [|? ? G1 _]; subst. destruct k'; [destruct G1; easy|discriminate].
  - inversion G' as [|? ? G1 _]; subst. destruct k' as [|c k']; [destruct G1; easy|]. injection E as <- _. destruct G1 as (_ & _ & H & _). destruct H. left. auto.
  - inversion G as [|? ? G1 _]; subst. destruct k; [destruct G1; easy|discriminate].
  - inversion G as [|? ? G1 _]; subst. destruct k as [|c k]; [destruct G1; easy|]. injection E as -> _. destruct G1 as (_ & _ & H & _). destruct H. left. auto.
  - inversion G as [|? ? G1 G2]; subst. inversion G' as [|? ? G1' G2']; subst. apply (split_at special) in E; try apply suffix_special; try (apply good_special; assumption). destruct E as [-> E]. f_equal. apply suffix_inj; auto.
Qed.
Lemma setting_good : forall v s leaf, setting v s leaf -> proper v -> Forall good_step s.
Proof.
  induction 1 as [v L|l i x s leaf N S IH|l k x s leaf N S IH]; intros P; auto; constructor; cbn; auto; (inversion P as [? HL|? F|? ND K F]; subst; [destruct HL|]).
  - apply IH. rewrite Forall_forall in F. apply F. eapply nth_error_In; eauto.
  - rewrite Forall_forall in K. apply (K _ N).
  - apply IH. rewrite Forall_forall in F. apply (F _ N).
Qed.
Lemma nodup_fst : forall (A B : Type) (l : list (A * B)) k x y, NoDup (map fst l) -> In (k, x) l -> In (k, y) l -> x = y.
Proof.
  induction l as [|[k' z] l IH]; intros k x y N I J; [easy|]. cbn in N. inversion N as [|? ? N1 N2]; subst. destruct I as [I|I], J as [J|J]; try congruence; eauto.
  - injection I as -> ->. destruct N1. apply in_map_iff. exists (k, y). auto.
  - injection J as -> ->. destruct N1. apply in_map_iff. exists (k, x). auto.
Qed.
Lemma setting_fun : forall v s l1, setting v s l1 -> forall l2, proper v -> setting v s l2 -> l1 = l2.
Proof.
  induction 1 as [v L|l i x s leaf N S IH|l k x s leaf N S IH]; intros l2 P S2; inversion S2; subst; auto; (inversion P as [? HL|? F|? ND K F]; subst; [destruct HL|]).
  - apply IH; [|congruence]. rewrite Forall_forall in F. apply F. eapply nth_error_In; eauto.
  - assert (x = x0) by (eapply nodup_fst; eauto). subst. apply IH; auto. rewrite Forall_forall in F. apply (F _ N).
Qed.

Section T2.
  Variables (word : N -> bool) (sha : str -> str).
  Notation config_tags := (fun config ws => collect_tags word sha config [(s_world_size, print_nat ws)] []).
  Lemma config_get : forall config ws, proper config -> forall p t, get (config_tags config ws) p = Some t <->
    (exists s leaf, setting config s leaf /\ p = write_path s /\ t = leaf_tag word sha leaf) \/ (p = s_world_size /\ t = print_nat ws /\ forall s leaf, setting config s leaf -> write_path s <> p).
  Proof.
    intros config ws P p t. cbn beta. rewrite collect_leaves. set (d := [(s_world_size, print_nat ws)]).
    assert (C : forall t1 t2, In (p, t1) (leaves word sha config []) -> In (p, t2) (leaves word sha config []) -> t1 = t2).
    { intros t1 t2 I J. apply in_leaves in I. apply in_leaves in J. destruct I as (s & l & S & -> & ->), J as (s' & l' & S' & E & ->). pose proof (setting_good _ _ _ S P) as G. pose proof (setting_good _ _ _ S' P) as G'.
      rewrite !extend_path in E by auto. apply write_path_inj in E; auto. subst s'. f_equal. eapply setting_fun; eauto. }
    assert (W : forall t0, In (p, t0) (leaves word sha config []) <-> exists s leaf, setting config s leaf /\ p = write_path s /\ t0 = leaf_tag word sha leaf).
    { intros t0. split.
      - intros I. apply in_leaves in I. destruct I as (s & l & S & -> & ->). exists s, l. rewrite extend_path by (eapply setting_good; eauto). auto.
      - intros (s & l & S & -> & ->). rewrite <- extend_path by (eapply setting_good; eauto). apply leaves_in. auto. }
    destruct (in_dec (list_eq_dec N.eq_dec) p (map fst (leaves word sha config []))) as [I|I].
    - apply in_map_iff in I. destruct I as ([q t0] & E & I). cbn in E. subst q. rewrite (get_assign_in _ _ _ t0) by auto. split.
      + intros E. injection E as <-. left. apply W. auto.
      + intros [H|(_ & _ & H)]; [apply W in H; f_equal; auto|]. apply W in I. destruct I as (s & l & S & E & _). destruct (H s l S). auto.
    - rewrite get_assign_out by auto. split.
      + intros G. right. unfold d in G. cbn in G. destruct (streq_spec s_world_size p) as [<-|]; [|discriminate]. split; auto. split; [congruence|]. intros s l S E. apply I. apply in_map_iff. exists (s_world_size, leaf_tag word sha l). split; auto. apply W. eauto.
      + intros [H|(-> & -> & _)]; [|reflexivity]. apply W in H. destruct I. apply in_map_iff. exists (p, t). auto.
  Qed.
  Lemma config_nodup : forall config ws, NoDup (map fst (config_tags config ws)).
  Proof. intros. cbn beta. rewrite collect_leaves. apply nodup_assign. repeat constructor. auto. Qed.
End T2.

(** The tag of every setting is found under its path, written with dots and brackets: different settings have different paths. The size of the world and the hash
    are found under their names, the former unless the configuration has a setting of that name. *)
Theorem C71_tags : forall word sha config ws s leaf, proper config ->
  (setting config s leaf -> write_path s <> s_hash -> get (all_tags word sha config ws) (write_path s) = Some (leaf_tag word sha leaf)) /\
  ((forall s leaf, setting config s leaf -> write_path s <> s_world_size) -> get (all_tags word sha config ws) s_world_size = Some (print_nat ws)) /\
  (exists h, get (all_tags word sha config ws) s_hash = Some (firstn 8 (sha h))) /\
  (forall p t, get (all_tags word sha config ws) p = Some t -> p = s_hash \/ p = s_world_size \/ exists s leaf, setting config s leaf /\ p = write_path s /\ t = leaf_tag word sha leaf) /\
  (forall s' leaf', setting config s leaf -> setting config s' leaf' -> write_path s = write_path s' -> s = s').
Proof.
  intros word sha config ws s leaf P. pose proof (config_get word sha config ws P) as G. cbn beta in G. unfold all_tags. split; [|split; [|split; [|split]]].
  - intros S N. rewrite get_set. destruct (streq_spec s_hash (write_path s)) as [E|_]; [congruence|]. apply G. left. eauto.
  - intros N. rewrite get_set. change (streq s_hash s_world_size) with false. cbn match. apply G. right. auto.
  - rewrite get_set. destruct (streq_spec s_hash s_hash); [|easy]. unfold generate_hash. eauto.
  - intros p t E. rewrite get_set in E. destruct (streq_spec s_hash p) as [<-|]; auto. apply G in E. destruct E as [E|(-> & _)]; auto.
  - intros s' leaf' S S' E. apply write_path_inj in E; auto; eapply setting_good; eauto.
Qed.
Print Assumptions C71_tags.

(** ** Hashes *)
Lemma leb_refl : forall a, str_leb a a = true.
Proof. induction a as [|x a IH]; auto. cbn. rewrite N.eqb_refl. auto. Qed.
Lemma leb_total : forall a b, str_leb a b = false -> str_leb b a = true.
Proof. induction a as [|x a IH]; intros [|y b] H; try discriminate; auto. cbn in *. rewrite N.eqb_sym. destruct (N.eqb_spec x y) as [->|N]; auto. apply N.ltb_ge in H. apply N.ltb_lt. lia. Qed.
Lemma leb_anti : forall a b, str_leb a b = true -> str_leb b a = true -> a = b.
Proof.
  induction a as [|x a IH]; intros [|y b] H H'; try discriminate; auto. cbn in *. rewrite N.eqb_sym in H'. destruct (N.eqb_spec x y) as [->|N]; [f_equal; auto|]. apply N.ltb_lt in H. apply N.ltb_lt in H'. lia.
Qed.
Lemma leb_trans : forall a b c, str_leb a b = true -> str_leb b c = true -> str_leb a c = true.
Proof.
  induction a as [|x a IH]; intros [|y b] [|z c] H H'; try discriminate; auto. cbn in *. destruct (N.eqb_spec x y) as [->|N], (N.eqb_spec y z) as [->|N'].
  - eapply IH; eauto.
  - auto.
  - destruct (N.eqb_spec x z); [easy|auto].
  - apply N.ltb_lt in H. apply N.ltb_lt in H'. destruct (N.eqb_spec x z); [lia|]. apply N.ltb_lt. lia.
Qed.
Inductive ordered : dict -> Prop := ONil : ordered [] | OCons : forall x d, (forall y, In y d -> str_leb (fst x) (fst y) = true) -> ordered d -> ordered (x :: d).
Lemma insert_perm : forall x d, Permutation (insert x d) (x :: d).
Proof. induction d as [|y d IH]; cbn; auto. destruct (str_leb (fst x) (fst y)); auto. rewrite IH. apply perm_swap. Qed.
Lemma sorted_perm : forall d, Permutation (sorted d) d.
Proof. induction d as [|x d IH]; auto. cbn [sorted fold_right]. rewrite insert_perm. constructor. exact IH. Qed.
Lemma insert_ordered : forall x d, ordered d -> ordered (insert x d).
Proof.
  intros x d H. induction H as [|y d A O IH]; cbn; [constructor; [intros y []|constructor]|]. destruct (str_leb (fst x) (fst y)) eqn:E.
  - constructor; [|constructor; auto]. intros z [<-|I]; auto. eapply leb_trans; eauto.
  - constructor; auto. intros z I. apply (Permutation_in _ (insert_perm x d)) in I. destruct I as [<-|I]; auto. apply leb_total. auto.
Qed.
Lemma sorted_ordered : forall d, ordered (sorted d).
Proof. induction d as [|x d IH]; [constructor|]. apply insert_ordered, IH. Qed.
Lemma ordered_unique : forall a b, ordered a -> ordered b -> NoDup (map fst a) -> Permutation a b -> a = b.
Proof.
  intros a b A. revert b. induction A as [|x a M A IH]; intros b B ND P. { apply Permutation_nil in P. auto. }
  destruct b as [|y b]; [symmetry in P; apply Permutation_nil in P; discriminate|]. inversion B as [|? ? M' B']; subst. assert (x = y).
  { pose proof (Permutation_in x P (or_introl eq_refl)) as [I|I]; auto. pose proof (Permutation_in y (Permutation_sym P) (or_introl eq_refl)) as [J|J]; auto. assert (E : fst x = fst y) by (apply leb_anti; auto).
    cbn in ND. inversion ND as [|? ? N1 N2]; subst. destruct N1. rewrite E. apply in_map. auto. }
  subst y. f_equal. apply IH; auto; [cbn in ND; inversion ND; auto|]. eapply Permutation_cons_inv; eauto.
Qed.
Lemma in_get : forall d k v, NoDup (map fst d) -> (In (k, v) d <-> get d k = Some v).
Proof.
  induction d as [|[k' v'] d IH]; intros k v N; [cbn; split; [easy|discriminate]|]. cbn in N. inversion N as [|? ? N1 N2]; subst. cbn [get In]. destruct (streq_spec k' k) as [->|NE].
  - split; [intros [I|I]; [congruence|]|intros E; left; congruence]. destruct N1. apply in_map_iff. exists (k, v). auto.
  - rewrite <- IH by auto. split; [intros [I|I]; auto; congruence|auto].
Qed.
Lemma nodup_of_keys : forall (d : dict), NoDup (map fst d) -> NoDup d.
Proof. intros d H. eapply NoDup_map_inv; eauto. Qed.
Lemma nodup_perm_keys : forall (a b : dict), Permutation a b -> NoDup (map fst a) -> NoDup (map fst b).
Proof. intros a b P. apply Permutation_NoDup, Permutation_map, P. Qed.
Lemma ordered_get : forall a b, ordered a -> ordered b -> NoDup (map fst a) -> NoDup (map fst b) -> (forall k, get a k = get b k) -> a = b.
Proof.
  intros a b A B NA NB G. apply ordered_unique; auto. apply NoDup_Permutation; auto using nodup_of_keys. intros [k v]. rewrite !in_get by auto. rewrite G. reflexivity.
Qed.
Lemma get_sorted : forall d k, NoDup (map fst d) -> get (sorted d) k = get d k.
Proof.
  intros d k N. assert (N' : NoDup (map fst (sorted d))) by (eapply nodup_perm_keys; [apply Permutation_sym, sorted_perm|auto]).
  destruct (get d k) as [v|] eqn:E; [apply in_get; auto; apply (Permutation_in _ (Permutation_sym (sorted_perm d))); apply in_get; auto|].
  destruct (get (sorted d) k) as [v|] eqn:E'; auto. apply in_get in E'; auto. apply (Permutation_in _ (sorted_perm d)) in E'. apply in_get in E'; auto. congruence.
Qed.
Lemma nodup_sorted : forall d, NoDup (map fst d) -> NoDup (map fst (sorted d)).
Proof. intros d. apply nodup_perm_keys, Permutation_sym, sorted_perm. Qed.
Lemma hash_get : forall a b, NoDup (map fst a) -> NoDup (map fst b) -> (forall k, get a k = get b k) -> hash_input a = hash_input b.
Proof. intros a b A B G. unfold hash_input. rewrite (ordered_get (sorted a) (sorted b)); auto using sorted_ordered, nodup_sorted. intros k. rewrite !get_sorted by auto. auto. Qed.
Lemma loop_get : forall fmt st o p u a b, (forall k, get a k = get b k) -> format_loop fmt st o p u a = format_loop fmt st o p u b.
Proof.
  induction fmt as [|c fmt IH]; intros st o p u a b G; auto. cbn [format_loop]. destruct st; rewrite ?G; repeat match goal with |- context [if ?x then _ else _] => destruct x end; auto. destruct (get b p); auto.
Qed.

Lemma opt_ext : forall (A : Type) (a b : option A), (forall t, a = Some t <-> b = Some t) -> a = b.
Proof. intros A [x|] b H; [symmetry; apply H; auto|]. destruct b as [y|]; auto. apply H. auto. Qed.

(** The name of the directory does not depend on the order of the keys in the configuration: configurations with the same settings have the same name. *)
Theorem C71_order : forall word sha space no_sweep_dir fmt c1 c2 ws, proper c1 -> proper c2 -> (forall s leaf, setting c1 s leaf <-> setting c2 s leaf) ->
  maybe_generate word sha space no_sweep_dir fmt c1 ws = maybe_generate word sha space no_sweep_dir fmt c2 ws.
Proof.
  intros word sha space nsd fmt c1 c2 ws P1 P2 S. unfold maybe_generate. destruct nsd; auto. f_equal. destruct (strip space fmt) as [|c f]; auto. apply loop_get.
  assert (G : forall k, get (collect_tags word sha c1 [(s_world_size, print_nat ws)] []) k = get (collect_tags word sha c2 [(s_world_size, print_nat ws)] []) k).
  { intros k. pose proof (config_get word sha c1 ws P1 k) as G1. pose proof (config_get word sha c2 ws P2 k) as G2. cbn beta in G1, G2.
    assert (H : forall t, get (collect_tags word sha c1 [(s_world_size, print_nat ws)] []) k = Some t <-> get (collect_tags word sha c2 [(s_world_size, print_nat ws)] []) k = Some t).
    { intros t. rewrite G1, G2. split; (intros [(s & l & A & B & C)|(A & B & C)]; [left; exists s, l; rewrite ?S in *; rewrite <- ?S in *; auto|right; split; auto; split; auto; intros s l A'; apply (C s l); apply S; auto]). }
    apply opt_ext. exact H. }
  intros k. unfold all_tags. rewrite !get_set, G. unfold generate_hash. rewrite (hash_get _ _ (config_nodup word sha c1 ws) (config_nodup word sha c2 ws) G). auto.
Qed.
Print Assumptions C71_order.

(** Two runs whose configurations differ in one setting, with different tags, hash different texts: they get the same name by default only if the digests collide. *)
Lemma change_one : forall a b k t1 t2, NoDup (map fst a) -> NoDup (map fst b) -> get a k = Some t1 -> get b k = Some t2 -> (forall x, x <> k -> get a x = get b x) -> hash_input a = hash_input b -> t1 = t2.
Proof.
  intros a b k t1 t2 A B G1 G2 G E. set (upd := fun kv : str * str => if streq (fst kv) k then (k, t2) else kv).
  assert (Keys : forall l, map fst (map upd l) = map fst l). { intros l. rewrite map_map. apply map_ext. intros [x v]. unfold upd. cbn. destruct (streq_spec x k) as [->|]; auto. }
  assert (Get : forall l x, get (map upd l) x = if streq x k then match get l k with Some _ => Some t2 | None => None end else get l x).
  { induction l as [|[y v] l IH]; intros x; cbn [map get]; [destruct (streq x k); auto|]. unfold upd at 1. cbn [fst]. destruct (streq_spec y k) as [->|N]; cbn [get].
    - destruct (streq_spec k x) as [<-|]; [destruct (streq_spec k k); easy|]. rewrite IH. destruct (streq_spec x k); [congruence|auto].
    - destruct (streq_spec y x) as [->|]; [destruct (streq_spec x k); easy|]. apply IH. }
  assert (Ord : forall l, ordered l -> ordered (map upd l)).
  { induction 1 as [|x l M O IH]; cbn; constructor; auto. intros y I. assert (J : In (fst y) (map fst l)) by (rewrite <- Keys; apply in_map; auto). apply in_map_iff in J. destruct J as (z & E1 & J). rewrite <- E1.
    replace (fst (upd x)) with (fst x); auto. unfold upd. destruct (streq_spec (fst x) k); auto. }
  assert (S : sorted b = map upd (sorted a)).
  { apply ordered_get; auto using sorted_ordered, nodup_sorted; [rewrite Keys; auto using nodup_sorted|]. intros x. rewrite Get, !get_sorted by auto. rewrite G1. destruct (streq_spec x k) as [->|N]; auto. symmetry. auto. }
  unfold hash_input in E. rewrite S in E. clear S. pose proof (nodup_sorted a A) as ND. assert (I : In (k, t1) (sorted a)) by (apply in_get; auto; rewrite get_sorted; auto). revert E I ND. generalize (sorted a) as l. intros l E I ND.
  apply in_split in I. destruct I as (l1 & l2 & ->). rewrite map_app in ND. cbn [map] in ND. apply NoDup_remove_2 in ND. rewrite in_app_iff in ND.
  assert (Id : forall l, ~ In k (map fst l) -> map upd l = l). { clear. induction l as [|[y v] l IH]; intros N; auto. cbn in *. rewrite IH by intuition. f_equal. unfold upd. cbn. destruct (streq_spec y k); intuition. }
  rewrite map_app, !flat_map_app in E. cbn [map] in E. rewrite !Id in E by (cbn [fst] in ND; intuition). apply app_inv_head in E. cbn [flat_map] in E. unfold upd in E. cbn [fst snd] in E. destruct (streq_spec k k); [|easy]. cbn [fst snd] in E.
  apply app_inv_tail in E. apply app_inv_head in E. auto.
Qed.
Definition hashed word sha config ws : str := hash_input (collect_tags word sha config [(s_world_size, print_nat ws)] []).
Theorem C71_one_change : forall word sha c1 c2 ws s0 l1 l2, proper c1 -> proper c2 -> setting c1 s0 l1 -> setting c2 s0 l2 -> (forall s leaf, s <> s0 -> (setting c1 s leaf <-> setting c2 s leaf)) ->
  leaf_tag word sha l1 <> leaf_tag word sha l2 -> hashed word sha c1 ws <> hashed word sha c2 ws.
Proof.
  intros word sha c1 c2 ws s0 l1 l2 P1 P2 S1 S2 S N E. apply N. pose proof (config_get word sha c1 ws P1) as G1. pose proof (config_get word sha c2 ws P2) as G2. cbn beta in G1, G2.
  apply (change_one _ _ (write_path s0) _ _ (config_nodup word sha c1 ws) (config_nodup word sha c2 ws)); auto.
  - apply G1. left. eauto.
  - apply G2. left. eauto.
  - intros x NE. assert (H : forall t, get (collect_tags word sha c1 [(s_world_size, print_nat ws)] []) x = Some t <-> get (collect_tags word sha c2 [(s_world_size, print_nat ws)] []) x = Some t).
    { intros t. rewrite G1, G2. split.
      - intros [(s & l & A & -> & C)|(A & B & C)]; [left; exists s, l; split; auto; apply S; auto; congruence|right; split; auto; split; auto; intros s l A'; destruct (list_eq_dec (fun a b : step => ltac:(decide equality; [apply Nat.eq_dec|apply (list_eq_dec N.eq_dec)])) s s0) as [->|]; [congruence|apply (C s l); apply S; auto]].
      - intros [(s & l & A & -> & C)|(A & B & C)]; [left; exists s, l; split; auto; apply S; auto; congruence|right; split; auto; split; auto; intros s l A'; destruct (list_eq_dec (fun a b : step => ltac:(decide equality; [apply Nat.eq_dec|apply (list_eq_dec N.eq_dec)])) s s0) as [->|]; [congruence|apply (C s l); apply S; auto]]. }
    apply opt_ext. exact H.
Qed.
Print Assumptions C71_one_change.

(** "ws_{world_size}.{hash}", the default *)
Definition default_format : str := [119; 115; 95; 123; 119; 111; 114; 108; 100; 95; 115; 105; 122; 101; 125; 46; 123; 104; 97; 115; 104; 125]%N.
Theorem C71_default : forall word sha space config ws, proper config -> (forall s leaf, setting config s leaf -> write_path s <> s_world_size) -> (forall c, space c = true -> c <> 119%N /\ c <> rbrace) ->
  maybe_generate word sha space false default_format config ws = Some (Tag ([119; 115; 95]%N ++ print_nat ws ++ [46]%N ++ firstn 8 (sha (hashed word sha config ws)))).
Proof.
  intros word sha space config ws P N Sp. unfold maybe_generate. f_equal.
  assert (E : strip space default_format = default_format).
  { unfold strip, default_format. cbn [lstrip]. destruct (space 119%N) eqn:E1; [destruct (Sp _ E1); easy|]. cbn [List.rev List.app lstrip]. destruct (space 125%N) eqn:E2; [destruct (Sp _ E2); easy|]. reflexivity. }
  rewrite E. clear E. set (ps := [Lit 119; Lit 115; Lit 95; Key s_world_size; Lit 46; Key s_hash]%N). change (safe_format (flat_map text ps) (all_tags word sha config ws) = Tag ([119; 115; 95]%N ++ print_nat ws ++ [46]%N ++ firstn 8 (sha (hashed word sha config ws)))). pose proof (C71_tags word sha config ws [] VNone P) as (_ & W & _). specialize (W N).
  assert (H : get (all_tags word sha config ws) s_hash = Some (firstn 8 (sha (hashed word sha config ws)))). { unfold all_tags. rewrite get_set. destruct (streq_spec s_hash s_hash); [reflexivity|easy]. }
  rewrite (proj1 (C71_format ps (all_tags word sha config ws) ltac:(repeat constructor; cbn; intuition; discriminate))).
  - unfold ps. cbn [flat_map replacement]. rewrite W, H. rewrite app_nil_r. reflexivity.
  - intros k I. repeat destruct I as [I|I]; try discriminate; try easy; injection I as <-; congruence.
Qed.
Print Assumptions C71_default.

(** Keys and tags are hashed without separators: two runs that differ in two settings share their directory, for every hash function. With keys a and b:
    a = "xbq", b = "z" and a = "x", b = "qbz". *)
Theorem C71_hash_refuted : forall word sha ws, (forall c, (97 <= c <= 122)%N -> word c = true) ->
  exists c1 c2 s l1 l2, proper c1 /\ proper c2 /\ setting c1 s l1 /\ setting c2 s l2 /\ leaf_tag word sha l1 <> leaf_tag word sha l2 /\ hashed word sha c1 ws = hashed word sha c2 ws.
Proof.
  intros word sha ws W. set (cfg := fun x y => VDict [([97]%N, VStr x); ([98]%N, VStr y)]).
  assert (Pr : forall x y, proper (cfg x y)). { intros. constructor; [repeat constructor; cbn; intuition; discriminate| |repeat constructor]. repeat constructor; cbn; try discriminate; intros [H|[]]; discriminate. }
  assert (Fl : forall x, Forall (fun c => (97 <= c <= 122)%N) x -> filter word x = x). { induction 1 as [|c x H F IH]; cbn; auto. rewrite W, IH; auto. }
  exists (cfg [120; 98; 113]%N [122]%N), (cfg [120]%N [113; 98; 122]%N), [Fld [97]%N], (VStr [120; 98; 113]%N), (VStr [120]%N). split; auto. split; auto.
  split; [econstructor; [left; reflexivity|constructor; cbn; auto]|]. split; [econstructor; [left; reflexivity|constructor; cbn; auto]|].
  split. { cbn [leaf_tag]. rewrite !Fl by (repeat constructor; lia). discriminate. }
  unfold hashed, cfg. cbn [collect_tags]. unfold str_tag, remove_non_word. rewrite !Fl by (repeat constructor; lia). reflexivity.
Qed.
Print Assumptions C71_hash_refuted.

(** Different values have the same tag: none and the text "none", truth and "t", a number and its text, texts that differ in other than word characters. *)
Theorem C71_values_refuted : forall word sha, (forall c, (97 <= c <= 122)%N -> word c = true) -> word 47%N = false ->
  leaf_tag word sha VNone = leaf_tag word sha (VStr s_none) /\ leaf_tag word sha (VBool true) = leaf_tag word sha (VStr s_t) /\ leaf_tag word sha (VStr [97; 47; 98]%N) = leaf_tag word sha (VStr [97; 98]%N).
Proof.
  intros word sha W S. assert (Fl : forall x, Forall (fun c => (97 <= c <= 122)%N) x -> filter word x = x). { induction 1 as [|c x H F IH]; cbn; auto. rewrite W, IH; auto. }
  split; [|split]; cbn [leaf_tag].
  - rewrite Fl by (repeat constructor; lia). reflexivity.
  - rewrite Fl by (repeat constructor; lia). reflexivity.
  - replace (filter word [97; 47; 98]%N) with (filter word [97; 98]%N); auto. cbn. rewrite S. auto.
Qed.
Print Assumptions C71_values_refuted.

(** A case: {"b": {"k": [3, "ab"]}, "a": None}, two worlds, "x{{{b.k[1]}" *)
Definition ex_config : value := VDict [([98]%N, VDict [([107]%N, VList [VNum [51]%N; VStr [97; 98]%N])]); ([97]%N, VNone)].
Example C71_case : proper ex_config /\
  maybe_generate (fun _ => true) (fun s => s) (fun c => (c =? 32)%N) false [32; 120; 123; 123; 123; 98; 46; 107; 91; 49; 93; 125; 125; 125]%N ex_config 2 = Some (Tag [120; 123; 97; 98; 125]%N) /\
  maybe_generate (fun _ => true) (fun s => s) (fun c => (c =? 32)%N) false [123; 98; 125; 123; 97; 125]%N ex_config 2 = Some (Unknown [[98]%N]) /\
  hashed (fun _ => true) (fun s => s) ex_config 2 = ([97] ++ s_none ++ [98; 46; 107; 91; 48; 93; 51] ++ [98; 46; 107; 91; 49; 93; 97; 98] ++ s_world_size ++ [50])%N.
Proof.
  split; [|vm_compute; auto]. assert (K : forall c, c <> dot -> c <> lbrack -> c <> rbrack -> good_key [c]). { intros c A B C. repeat split; try discriminate; intros [H|[]]; auto. }
  apply PDict; cbn [map fst snd].
  - constructor; [intros [H|[]]; discriminate|constructor; [intros []|constructor]].
  - constructor; [|constructor; [|constructor]]; apply K; discriminate.
  - constructor; [|constructor; [apply PLeaf; exact I|constructor]]. apply PDict; cbn [map fst snd].
    + constructor; [intros []|constructor].
    + constructor; [apply K; discriminate|constructor].
    + constructor; [|constructor]. apply PList. constructor; [apply PLeaf; exact I|constructor; [apply PLeaf; exact I|constructor]].
Qed.
