(** Theorems about configurations: merging, directives, validation. *)
From Coq Require Import String Ascii List Bool Arith Lia.
From Verif Require Import Config_Model Config_Spec Config_Proofs Config_Proofs2 Config_Proofs3.
Import ListNotations.
Open Scope nat_scope. Open Scope string_scope. Open Scope list_scope.

Definition cfg0 : cv := CMap [(KStr "model", CMap [(KStr "dim", COther 4); (KStr "act", CStr "relu")]); (KStr "lr", COther 1); (KStr "tags", CList [CStr "a"])].
Definition ovr0 : cv := CMap [(KStr "model", CMap [(KStr "act", CStr "gelu"); (KStr "_set_", CMap [(KStr "extra", CMap [(KStr "x", COther 9)])])]); (DEL, CList [CStr "lr"]); (KStr "tags", CMap [(KStr "b", CNone)])].

(** C42: at every path the merged configuration shows what the overrides say about this path, or else what the original shows. *)
Theorem C42_merge : forall config l r p w, wf (CMap l) -> merge config (CMap l) = Ok r -> mentions (CMap l) p w -> look r p = then_see w (look (CMap (match config with CMap t => t | _ => [] end)) p).
Proof. intros config l r p w Wf H M. simpl merge in H. apply bindr_ok in H. destruct H as (m & H & E). injection E as <-. rewrite (merge_look _ _ _ M Wf _ _ H). destruct config; reflexivity. Qed.
Print Assumptions C42_merge.
(** C42: overrides say something about every path. *)
Theorem C42_mentions : forall l p, exists w, mentions (CMap l) p w.
Proof. intros l p. apply mentions_total. Qed.
Print Assumptions C42_mentions.
Example C42_merge_ex : wf ovr0 /\
  merge cfg0 ovr0 = Ok (CMap [(KStr "model", CMap [(KStr "dim", COther 4); (KStr "act", CStr "gelu"); (KStr "extra", CMap [(KStr "x", COther 9)])]); (KStr "tags", CMap [(KStr "b", CNone)])]) /\
  mentions ovr0 [KStr "model"; KStr "act"] (See (Value (CStr "gelu"))) /\ mentions ovr0 [KStr "model"; KStr "dim"] Keep /\ mentions ovr0 [KStr "lr"] (See Nothing).
Proof.
  split; [unfold ovr0; repeat constructor; simpl; intuition discriminate|]. split; [reflexivity|].
  assert (U : forall k, unset (match ovr0 with CMap l => l | _ => [] end) k) by (intros k s; discriminate).
  assert (L : forall k, k <> KStr "lr" -> ~ listed (Some (CList [CStr "lr"])) k) by (intros k N (ks & s & E & I & ->); injection E as <-; destruct I as [I|[]]; injection I as <-; congruence).
  split; [|split].
  - eapply m_map; [apply U|discriminate|discriminate|reflexivity|apply L; discriminate|].
    apply (m_value _ (CStr "gelu")); [intros s E; injection E as <-; reflexivity|discriminate|discriminate|reflexivity|discriminate].
  - eapply m_map; [apply U|discriminate|discriminate|reflexivity|apply L; discriminate|].
    apply m_keep; [intros s E; injection E as <-; reflexivity|right; right; reflexivity|intros (ks & s & E & _); discriminate].
  - apply m_del; [apply U|right; right; reflexivity|]. exists [CStr "lr"], "lr". split; [reflexivity|]. split; [left; reflexivity|reflexivity].
Qed.

(** C42: merging succeeds for valid overrides and raises a TypeError for all others. *)
Theorem C42_errors : forall config overrides, (valid overrides -> exists r, merge config overrides = Ok r) /\ (~ valid overrides -> forall r, merge config overrides <> Ok r).
Proof.
  intros config o. assert (X : (exists r, merge config o = Ok r) <-> valid o).
  { destruct o as [| | | |l]; try (split; [intros _; apply v_value; discriminate|simpl; eauto]). rewrite <- (merge_map_ok (CMap l) (as_map (Some config))). unfold merge. split.
    - intros (r & H). apply bindr_ok in H. destruct H as (m & H & _). eauto.
    - intros (m & ->). simpl. eauto. }
  split; [apply X|]. intros N r H. apply N, X. eauto.
Qed.
Print Assumptions C42_errors.
Example C42_errors_ex : merge cfg0 (CMap [(KStr "model", CMap [(DEL, CStr "dim")])]) = TypeErr.
Proof. reflexivity. Qed.
Theorem C42_type_error : forall config overrides r, merge config overrides = r -> r <> DirErr.
Proof.
  intros config o r <-. destruct o as [| | | |l]; try discriminate. unfold merge. pose proof (merge_map_ok (CMap l) (as_map (Some config))).
  assert (X : forall s t, merge_map t s <> DirErr).
  { clear. induction s as [| | |l _|l IH] using cv_ind'; intros t; try discriminate. rewrite merge_map_eq.
    assert (D : forall l, del_names l <> DirErr) by (induction l0 as [|[] l0 IHl]; simpl; try discriminate; destruct (del_names l0); simpl; congruence).
    assert (E : del_keys l <> DirErr) by (unfold del_keys; destruct (get DEL l) as [[]|]; try discriminate; apply D).
    destruct (del_keys l) as [ks| |]; simpl; try congruence; try discriminate.
    assert (M : forall out, mloop l out <> DirErr).
    { clear - IH. induction IH as [|[k v] l H F IHl]; intros out; cbn [mloop]; [discriminate|]. destruct (key_eqb k DEL || key_eqb k SET); [apply IHl|]. destruct v; try apply IHl. cbn [snd] in H. specialize (H (as_map (get k out))).
      destruct (merge_map _ (CMap l0)); simpl; [apply IHl|discriminate|congruence]. }
    specialize (M (keep ks t)). destruct (mloop l (keep ks t)) as [o| |]; simpl; try congruence; try discriminate.
    assert (S : forall s out, set_loop s out <> DirErr) by (induction s as [|[[] v] s IHs]; intros out; simpl; try discriminate; apply IHs).
    unfold set_keys. destruct (get SET l) as [[]|]; try discriminate; apply S. }
  specialize (X (CMap l) (as_map (Some config))). destruct (merge_map _ (CMap l)); simpl; try discriminate; congruence.
Qed.
Print Assumptions C42_type_error.
Example C42_type_error_ex : merge cfg0 (CMap [(SET, CMap [(KOther 3, CNone)])]) = TypeErr /\ merge cfg0 (CMap [(SET, CList [])]) = TypeErr.
Proof. split; reflexivity. Qed.

(** C42: no overrides, no change; and merging a second time changes nothing. *)
Theorem C42_empty : forall t, merge (CMap t) (CMap []) = Ok (CMap t).
Proof. intros t. simpl. f_equal. f_equal. induction t as [|x t IH]; simpl; congruence. Qed.
Print Assumptions C42_empty.
Example C42_empty_ex : merge cfg0 (CMap []) = Ok cfg0. Proof. apply C42_empty. Qed.
Theorem C42_twice : forall config overrides r r2, wf overrides -> merge config overrides = Ok r -> merge r overrides = Ok r2 -> forall p, look r2 p = look r p.
Proof.
  intros config o r r2 Wf H H2 p. destruct o as [| | | |l]; try (simpl in H, H2; congruence).
  destruct (mentions_total p l) as (w & M). pose proof (C42_merge _ _ _ _ _ Wf H M) as A. pose proof (C42_merge _ _ _ _ _ Wf H2 M) as B.
  unfold merge in H. apply bindr_ok in H. destruct H as (m & _ & E). injection E as <-. rewrite B. destruct w; [reflexivity|exact (eq_sym A)].
Qed.
Print Assumptions C42_twice.
Example C42_twice_ex : exists r, merge cfg0 ovr0 = Ok r /\ merge r ovr0 = Ok r. Proof. eexists. split; reflexivity. Qed.

(** C42: with identities. The merged configuration is a new object that shares no list or dict with the configuration or the overrides
    (whose numbers are less than [n]), and is otherwise the same as above. *)
Theorem C42_fresh : forall n config i l m h, hmerge n config (HMap i l) = Ok (m, h) -> merge (erase config) (erase (HMap i l)) = Ok (erase h) /\ forall j, In j (ids h) -> n <= j.
Proof.
  intros n config i l m h H. pose proof (hmerge_spec (HMap i l) n (has_map (Some config))) as X. simpl hmerge in H. change (hmerge_map n (has_map (Some config)) (HMap i l) = Ok (m, h)) in H. rewrite H in X.
  unfold agreed in X. destruct X as (_ & (l' & -> & E) & W). split; [|intros j J; apply W in J; lia].
  change (erase (HMap i l)) with (CMap (er l)) in *. unfold merge. replace (as_map (Some (erase config))) with (er (has_map (Some config))) by (destruct config; reflexivity). rewrite E. reflexivity.
Qed.
Print Assumptions C42_fresh.
Example C42_fresh_ex : hmerge 10 (HMap 0 [(KStr "a", HList 1 [HMap 2 []])]) (HMap 3 [(KStr "b", HList 4 [])]) = Ok (14, HMap 10 [(KStr "a", HList 11 [HMap 12 []]); (KStr "b", HList 13 [])]).
Proof. reflexivity. Qed.
(** ... unless the overrides are not a mapping: they are returned as they are, not copied. *)
Theorem C42_alias_refuted : forall n config i l, hmerge n config (HList i l) = Ok (n, HList i l) /\ In i (ids (HList i l)).
Proof. intros. split; [reflexivity|left; reflexivity]. Qed.
Print Assumptions C42_alias_refuted.

(** C43: directives are applied to every string in lists and in values of dicts, at any depth; the shape, the keys and all other values
    are kept. *)
Theorem C43_everywhere : forall defaults extra config r p v, wf config -> process defaults extra config = Ok r -> at_steps config p = Some v ->
  exists o, at_steps r p = Some o /\ processed (defaults ++ extra) config v o.
Proof.
  intros defaults extra config r p v Wf H A.
  assert (X : do_process (defaults ++ extra) config config = Ok r \/ (defaults ++ extra = [] /\ r = config)).
  { destruct defaults, extra; simpl in *; auto. right. split; [reflexivity|congruence]. }
  destruct X as [X|(-> & ->)]; [eapply process_at; eassumption|]. exists v. split; [exact A|]. destruct v; simpl; eauto using chained.
Qed.
Print Assumptions C43_everywhere.
(** C43: the directive for the environment: every ${env:NAME} and ${env:NAME:default} is replaced, once and from left to right, by the
    value of the variable, or else the default, or else nothing; all other text is kept. There is only one such result. *)
Theorem C43_env : forall env s config, exists s', env_directive env s config = Ok (CStr s') /\ substituted env s s' /\ forall s2, substituted env s s2 -> s2 = s'.
Proof. intros env s config. eexists. split; [reflexivity|]. assert (X : substituted env s (sub_env (S (String.length s)) env s)) by (apply sub_env_spec; lia). split; [exact X|]. intros s2 H. eapply substituted_fun; eassumption. Qed.
Print Assumptions C43_env.
Definition env0 (n : string) : option string := if String.eqb n "HOME" then Some "/root/${env:X}" else None.
Example C43_env_ex : env_directive env0 "${env:HOME}/a:${env:NO:b:c}${env:NO}$${env:1}${env:A" CNone = Ok (CStr "/root/${env:X}/a:b:c$${env:1}${env:A").
Proof. reflexivity. Qed.
(** C43: text without a directive is unchanged. *)
Theorem C43_unchanged : forall env s config, (forall a b, s <> (a ++ "${env:" ++ b)%string) -> env_directive env s config = Ok (CStr s).
Proof.
  intros env s config H. destruct (C43_env env s config) as (s' & E & S & U). rewrite E. f_equal. f_equal. symmetry. apply U. clear - H. induction s as [|c s IH]; constructor.
  - intros name dflt r _ E. unfold spelled in E. destruct dflt; rewrite !app_assoc_s in E; eapply (H ""); simpl; simpl in E; exact E.
  - apply IH. intros a b ->. apply (H (String c a) b). reflexivity.
Qed.
Print Assumptions C43_unchanged.
Example C43_unchanged_ex : env_directive env0 "$HOME {env:HOME}" CNone = Ok (CStr "$HOME {env:HOME}"). Proof. reflexivity. Qed.
(** C43: the directive for the directory of the configuration file. *)
Theorem C43_dir : forall dir s config, exists s', path_directive dir s config = Ok (CStr s') /\ replaced "${dir}" dir s s' /\ forall s2, replaced "${dir}" dir s s2 -> s2 = s'.
Proof. intros dir s config. eexists. split; [reflexivity|]. assert (X : replaced "${dir}" dir s (replace_str (S (String.length s)) "${dir}" dir s)) by (apply replace_spec; [discriminate|lia]). split; [exact X|]. intros s2 H. eapply (replaced_fun "${dir}"); [discriminate|eassumption|eassumption]. Qed.
Print Assumptions C43_dir.
Example C43_dir_ex : path_directive "/x" "a${dir}/${dir}b${di}" CNone = Ok (CStr "a/x//xb${di}"). Proof. reflexivity. Qed.
(** C43: with these directives processing never fails. *)
Theorem C43_no_error : forall env dir extra config, (forall d, In d extra -> d = env_directive env \/ d = path_directive dir) -> exists r, process [] extra config = Ok r.
Proof.
  intros env dir extra config H. unfold process. destruct extra as [|d ds]; [eauto|]. apply process_total. simpl app. revert H. generalize (d :: ds). clear. induction l as [|d l IH]; intros H s; [simpl; eauto|].
  cbn [execute_all]. destruct (H d (or_introl eq_refl)) as [->| ->]; simpl; apply IH; intros d' I; apply H; right; exact I.
Qed.
Print Assumptions C43_no_error.
Example C43_everywhere_ex : process [env_directive env0] [path_directive "/d"] (CMap [(KStr "${env:HOME}", CList [CStr "${env:A:${dir}}"; COther 1; CMap [(KOther 2, CStr "${env:HOME}")]])])
  = Ok (CMap [(KStr "${env:HOME}", CList [CStr "/d"; COther 1; CMap [(KOther 2, CStr "/root/${env:X}")]])]).
Proof. reflexivity. Qed.

(** C44: an object is accepted iff nothing inside it reports an error. *)
Theorem C44_accept : forall o, validate o = None <-> forall p x, inside o p x -> ~ reports x.
Proof.
  intros o. unfold validate. pose proof (validate_error o) as E. destruct (has_error (do_validate o)); split; intros H; try discriminate; try reflexivity.
  - exfalso. destruct E as [E _]. destruct (E eq_refl) as (p & x & A & B). exact (H p x A B).
  - intros p x A B. destruct E as [_ E]. discriminate E. eauto.
Qed.
Print Assumptions C44_accept.
(** C44: otherwise the error lists exactly the errors inside, each under the path of the object. *)
Theorem C44_report : forall o r, simple o -> validate o = Some r -> forall p e, reported r p e <-> exists x, inside o p x /\ own_errors x = e /\ e <> [].
Proof. intros o r S H. unfold validate in H. destruct (has_error (do_validate o)); [|discriminate]. injection H as <-. apply validate_reported, S. Qed.
Print Assumptions C44_report.
(** C44: the parts of an object have different names. *)
Theorem C44_paths : forall o p x y, simple o -> inside o p x -> inside o p y -> x = y.
Proof.
  intros o p x y S A. revert S y. induction A as [o|o f x p z P A IH]; intros S y B; inversion B as [|? ? x2 ? ? P2 B2]; subst; [reflexivity|].
  destruct o as [w ps]. inversion S as [? ? _ Sp]; subst. destruct (named_nodup ps Sp) as (N & Sx). apply part_named in P. apply part_named in P2.
  assert (E : x = x2). { clear - N P P2. induction (named ps) as [|[g u] l IH]; [destruct P|]. cbn [map fst] in N. inversion N as [|? ? N1 N2]; subst. destruct P as [P|P], P2 as [P2|P2]; [congruence| | |auto].
    - injection P as -> ->. exfalso. apply N1. apply (in_map fst _ (f, x2)), P2.
    - injection P2 as -> ->. exfalso. apply N1. apply (in_map fst _ (f, x)), P. }
  subst x2. apply IH; [eapply Sx, P|exact B2].
Qed.
Print Assumptions C44_paths.
Definition leaf (e : list string) : obj := Obj (Some (VRes e [])) PLeaf.
Definition tree0 : obj := Obj None (PData [("a", leaf []); ("b", Obj (Some (VRes ["E1"] [])) (PSeq [leaf []; Obj None (PMap [("'k'", leaf ["E2"; "E3"])])]))]).
Example C44_report_ex : simple tree0 /\ validate tree0 = Some (VRes [] [("b", VRes ["E1"] [("[1]", VRes [] [("['k']", VRes ["E2"; "E3"] [])])])]) /\
  error_string (do_validate tree0) = "`b` is not valid: E1 `b[1]['k']` is not valid: E2 E3".
Proof. split; [|split; reflexivity]. unfold tree0, leaf. repeat constructor; simpl; intuition discriminate. Qed.
Example C44_accept_ex : validate (Obj None (PData [("a", leaf []); ("b", Obj None PLeaf)])) = None. Proof. reflexivity. Qed.
(** C44: the message has one entry for every reported object whose messages are not all empty. *)
Theorem C44_message : forall r m, In m (create_error_string [] r) <-> exists p e, reported r p e /\ join_sp e <> "" /\ m = entry p e.
Proof. intros r m. apply create_spec. Qed.
Print Assumptions C44_message.
Lemma bracket_iff q : is_bracket q = true <-> exists i, q = ("[" ++ i ++ "]")%string.
Proof.
  assert (Last : forall t, match String.length t with O => false | S n => String.eqb (substring n 1 t) "]" end = true <-> exists i, t = (i ++ "]")%string).
  { induction t as [|c t IH]; [split; [intros E; discriminate E|intros (i & E); destruct i; discriminate E]|]. cbn [String.length]. destruct t as [|c' t].
    - simpl. destruct (Ascii.eqb_spec c "]") as [->|N]; split; intros H; [exists ""; reflexivity|reflexivity|discriminate H|]. destruct H as (i & E). destruct i as [|a i]; [injection E as ->; congruence|]. destruct i; discriminate E.
    - replace (substring (String.length (String c' t)) 1 (String c (String c' t))) with (substring (String.length t) 1 (String c' t)) by reflexivity. rewrite (proj1 (conj IH I)). split; intros (i & E); [exists (String c i); simpl; congruence|].
      destruct i as [|a i]; [discriminate E|]. injection E as -> E. exists i. exact E. }
  unfold is_bracket. rewrite andb_true_iff. split.
  - intros [P L]. destruct q as [|c q]; [discriminate|]. cbn [String.prefix] in P. destruct (ascii_dec "[" c) as [<-|]; [|discriminate P]. apply Last in L. destruct L as (i & E). destruct i as [|a i]; [simpl in E; discriminate E|]. injection E as <- E. exists i. simpl. congruence.
  - intros (i & ->). split; [simpl; destruct i; reflexivity|]. apply Last. exists ("[" ++ i)%string. reflexivity.
Qed.
(** C44: and this is how the path of an entry is written. *)
Theorem C44_pathname : forall p, p <> [] -> dotted p (pathname p).
Proof.
  intros [|f l] N; [congruence|]. clear N. cbn [pathname]. assert (X : forall l s q, dotted q s -> dotted (q ++ l) (fold_left (fun s q => if is_bracket q then (s ++ q)%string else (s ++ "." ++ q)%string) l s)).
  { clear. induction l as [|a l IH]; intros s q D; [rewrite app_nil_r; exact D|]. cbn [fold_left]. replace (q ++ a :: l) with ((q ++ [a]) ++ l) by (rewrite <- app_assoc; reflexivity). apply IH.
    destruct (is_bracket a) eqn:B; [apply bracket_iff in B; destruct B as (i & ->); apply dt_index, D|]. apply dt_name; [exact D|]. intros i ->. assert (is_bracket ("[" ++ i ++ "]") = true) by (apply bracket_iff; eauto). congruence. }
  apply (X l f [f]). constructor.
Qed.
Print Assumptions C44_pathname.
Example C44_message_ex : entry ["b"; "[1]"; "c"] ["E2"; "E3"] = "`b[1].c` is not valid: E2 E3". Proof. reflexivity. Qed.
(** An error without text is an error, but the message says nothing. *)
Theorem C44_blank_refuted : exists o r, validate o = Some r /\ error_string r = "".
Proof. exists (leaf [""]), (VRes [""] []). split; reflexivity. Qed.
Print Assumptions C44_blank_refuted.
(** Two keys with the same repr: only the last one is reported. *)
Theorem C44_repr_refuted : exists o x y, inside o ["[K]"] x /\ inside o ["[K]"] y /\ reports x /\ reports y /\ own_errors x <> own_errors y /\
  forall r, validate o = Some r -> ~ reported r ["[K]"] (own_errors x).
Proof.
  exists (Obj None (PMap [("K", leaf ["E1"]); ("K", leaf ["E2"])])), (leaf ["E1"]), (leaf ["E2"]).
  split; [eapply in_part; [apply (p_map _ _ "K"); left; reflexivity|constructor]|]. split; [eapply in_part; [apply (p_map _ _ "K"); right; left; reflexivity|constructor]|].
  split; [reflexivity|]. split; [reflexivity|]. split; [discriminate|]. intros r H. injection H as <-. intros R. inversion R as [|e s f r p m I R2]; subst. simpl in I. destruct I as [I|[]]. injection I as <-. inversion R2.
Qed.
Print Assumptions C44_repr_refuted.
