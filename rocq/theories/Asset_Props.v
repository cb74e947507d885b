(** Theorems about assets. *)
From Coq Require Import String Ascii List Bool Arith Lia.
From Verif Require Import Config_Model Config_Spec Config_Proofs Config_Props Asset_Model Asset_Spec Asset_Proofs Asset_Proofs2.
Import ListNotations.
Open Scope string_scope.
Open Scope list_scope.

(** An example: b is the base of a; a has entries for two environments. *)
Definition prov (src : string) (l : list dict) (load : dict -> option (string * dict)) (h : heap) : provider * heap :=
  let (r, h') := place (match collect load l [] with Some x => x | None => [] end) h in (Provider src r, h').
Definition str s := V (CStr s).
Definition p1 := prov "one" [[("name", str "a"); ("base", str " b "); ("x", str "xa"); ("y", str "ya")]; [("name", str "a@user"); ("y", str "yu")]; [("name", str "a@aws"); ("y", str "yw"); ("w", str "ww")]] (yaml_entry "/one") (Heap (fun _ => []) 0).
Definition p2 := prov "two" [[("name", str "b"); ("x", str "xb"); ("z", str "zb"); ("f", str "file")]; [("name", str "c"); ("base", str "d")]; [("name", str "d"); ("base", str "c")]; [("name", str "e"); ("base", str "none")]] (yaml_entry "/two") (snd p1).
Definition h0 := snd p2.
Definition s0 : store := match create [fst p1; fst p2] (Some " aws ") with Some s => s | None => Store [] [] [] end.
Example s0_stored : stored s0 h0 /\ List.length (names s0) = 7.
Proof.
  split; [|reflexivity]. split; [exists [fst p1; fst p2], (Some " aws "); reflexivity|]. split.
  - intros p [<-|[<-|[]]]; vm_compute; repeat (constructor; [simpl; intuition discriminate|]); constructor.
  - intros p n i [<-|[<-|[]]] I; vm_compute in I; repeat (destruct I as [I|I]; [injection I as <- <-; split; [vm_compute; lia|vm_compute; repeat (constructor; [simpl; intuition discriminate|]); constructor]|]); destruct I.
Qed.
Definition fields (name : string) (ks : list string) := match maybe_retrieve s0 8 name h0 with (Ok (Some c), h) => map (fun k => get_field h k c) ks | _ => [] end.
Example C54_ex : fields "a" ["x"; "y"; "z"; "w"] = [Some (str "xa"); Some (str "yu"); Some (str "zb"); None] /\ fields "a@aws" ["x"; "y"; "z"; "w"] = [Some (str "xa"); Some (str "yw"); Some (str "zb"); Some (str "ww")] /\
  fields " a @ " ["y"] = [Some (str "ya")] /\ fst (maybe_retrieve s0 8 "c" h0) = Err Recursion /\ fst (maybe_retrieve s0 8 "e" h0) = Err (BaseMissing "none" "e") /\ fst (maybe_retrieve s0 8 "f" h0) = Ok None.
Proof. vm_compute. repeat split; reflexivity. Qed.

(** C54: creating a store fails if a name is empty or is in two sources, and only then; the environments are "user", then the default. *)
Theorem C54_create : forall ps env,
  ((forall p n, In p ps -> In n (asset_names p) -> n <> "") /\ (forall a p b q c n, ps = a ++ p :: b ++ q :: c -> In n (asset_names p) -> ~ In n (asset_names q)) <-> exists s, create ps env = Some s) /\
  forall s, create ps env = Some s -> providers s = ps /\ (forall n, In n (names s) <-> exists p, In p ps /\ In n (asset_names p)) /\
    envs s = match env with Some e => if String.eqb (strip e) "" then ["user"] else ["user"; strip e] | None => ["user"] end.
Proof.
  intros ps env. unfold create. set (es := match env with Some e => let e := strip e in if String.eqb e "" then ["user"] else ["user"; e] | None => ["user"] end).
  assert (Mem : forall l n, In n (names_of l) <-> exists p, In p l /\ In n (asset_names p)) by (intros l n; apply in_flat_map).
  split; [split|].
  - intros [E D]. enough (X : forall s, names s = names_of (providers s) -> (forall a p b n, ps = a ++ p :: b -> In n (asset_names p) -> ~ In n (names_of (providers s))) -> exists s', add_providers ps s = Some s') by (apply X; [reflexivity|intros a p b n _ _ []]).
    induction ps as [|p ps IH]; intros s N Dj; simpl; [eauto|].
    assert (C : check_names (asset_names p) (providers s) = true).
    { apply check_names_iff. apply Forall_forall. intros n I. split; [apply (E p n); [left; reflexivity|exact I]|]. intros q Q J. apply (Dj [] p ps n eq_refl I). apply Mem. eauto. }
    rewrite C. apply IH.
    + intros q n I. apply E. right. exact I.
    + intros a q b r c n Eq. apply (D (p :: a) q b r c n). rewrite Eq. reflexivity.
    + simpl. unfold names_of in *. rewrite flat_map_app, N. simpl. rewrite app_nil_r. reflexivity.
    + intros a q b n Eq I J. simpl in J. apply Mem in J. destruct J as (r & R & J). apply in_app_or in R. destruct R as [R|[<-|[]]].
      * apply (Dj (p :: a) q b n); [rewrite Eq; reflexivity|exact I|]. apply Mem. eauto.
      * apply (D [] p a q b n); [rewrite Eq; reflexivity|exact J|exact I].
  - intros (s & H). apply add_providers_spec in H; [|reflexivity]. simpl in H. destruct H as (_ & _ & _ & E & D). split.
    + intros p n P I. apply E. apply Mem. eauto.
    + intros a p b q c n Eq I J. apply (D (a ++ p :: b) q c) with (n := n); [rewrite Eq, <- app_assoc; reflexivity|exact J|]. apply Mem. exists p. split; [apply in_or_app; right; left; reflexivity|exact I].
  - intros s H. apply add_providers_spec in H; [|reflexivity]. simpl in H. destruct H as (He & Hp & Hn & _). split; [exact Hp|]. split; [intros n; rewrite Hn, Hp; apply Mem|]. rewrite He. unfold es. destruct env; reflexivity.
Qed.
Print Assumptions C54_create.
(** C54: what a name asks for: "name" for the environments of the store, "name@env" for one, "name@" for none. *)
Theorem C54_name : forall s, (forall a n, no_at a -> strips a n -> parse_name s a = (n, envs s)) /\ (forall a b n, no_at a -> strips a n -> strips b "" -> parse_name s (full_name a b) = (n, [])) /\
  (forall a b n e, no_at a -> strips a n -> strips b e -> e <> "" -> parse_name s (full_name a b) = (n, [e])).
Proof.
  intros s. unfold parse_name. split; [|split].
  - intros a n A S. rewrite (split_first_plain a A), (strips_strip _ _ S). reflexivity.
  - intros a b n A S B. rewrite (split_first_at a b A), (strips_strip _ _ S), (strips_strip _ _ B). reflexivity.
  - intros a b n e A S B N. rewrite (split_first_at a b A), (strips_strip _ _ S), (strips_strip _ _ B). destruct (String.eqb_spec e ""); [contradiction|reflexivity].
Qed.
Print Assumptions C54_name.
Example C54_name_ex : parse_name s0 " a" = ("a", ["user"; "aws"]) /\ parse_name s0 "a @ gcp " = ("a", ["gcp"]) /\ parse_name s0 "a@ " = ("a", []). Proof. vm_compute. auto. Qed.

(** C54: retrieving a card gives the asset and its bases, with every field taken from the first of them that says something about it; it
    gives None if there is no such asset; and an error if a base is missing or the bases lead in a circle. *)
Theorem C54_retrieve : forall s h fuel name n es, stored s h -> parse_name s name = (n, es) -> n <> "" -> List.length (names s) < fuel ->
  let (x, h') := maybe_retrieve s fuel name h in
  match x with
  | Ok None => absent s h (full_name n "")
  | Ok (Some c) => exists l, chain s h es n l /\ shows s h es l h' c
  | Err (BaseMissing b n') => n' = n /\ broken s h es n b
  | Err Recursion => cyclic s h es n
  | Err _ => False
  end.
Proof.
  intros s h fuel name n es St P N F. pose proof (retrieve_spec s h fuel name h n es St (keeps_refl _ _) P F N) as R. cbv zeta in R. destruct (maybe_retrieve s fuel name h) as [[[c|]|[]] h']; simpl in R; destruct R as [_ R]; try exact R. destruct R as (_ & _ & R). exact R.
Qed.
Print Assumptions C54_retrieve.
(** C54: these cases exclude each other, so each is decided; bases in a circle fail however deep the stack. *)
Theorem C54_complete : forall s h name n es, stored s h -> parse_name s name = (n, es) -> n <> "" ->
  (absent s h (full_name n "") -> forall fuel, List.length (names s) < fuel -> fst (maybe_retrieve s fuel name h) = Ok None) /\
  (forall l, chain s h es n l -> forall fuel, List.length (names s) < fuel -> exists c h', maybe_retrieve s fuel name h = (Ok (Some c), h') /\ shows s h es l h' c) /\
  (forall b, broken s h es n b -> forall fuel, List.length (names s) < fuel -> fst (maybe_retrieve s fuel name h) = Err (BaseMissing b n)) /\
  (cyclic s h es n -> forall fuel, fst (maybe_retrieve s fuel name h) = Err Recursion).
Proof.
  intros s h name n es St P N. destruct (exclusive s h es n St) as (X1 & X2 & X3). split; [|split; [|split]].
  - intros A fuel F. pose proof (C54_retrieve s h fuel name n es St P N F) as R. destruct (maybe_retrieve s fuel name h) as [[[c|]|[]] h']; try contradiction; try reflexivity.
    + destruct R as (l & C & _). destruct (X1 l C) as [Y _]. contradiction.
    + destruct R as [_ B]. destruct (X2 _ B) as [Y _]. contradiction.
    + destruct (X3 R A).
  - intros l C fuel F. destruct (X1 l C) as (Y1 & Y2 & Y3 & Y4). pose proof (C54_retrieve s h fuel name n es St P N F) as R. destruct (maybe_retrieve s fuel name h) as [[[c|]|[]] h']; try contradiction.
    + destruct R as (l' & C' & Sh). rewrite (Y4 l' C') in Sh. eauto.
    + destruct R as [_ B]. destruct (Y2 _ B).
  - intros b B fuel F. destruct (X2 b B) as (Y1 & Y2 & Y3). pose proof (C54_retrieve s h fuel name n es St P N F) as R. destruct (maybe_retrieve s fuel name h) as [[[c|]|[]] h']; try contradiction.
    + destruct R as (l & C & _). destruct (X1 l C) as (_ & Z & _). destruct (Z _ B).
    + destruct R as [-> B']. rewrite (Y3 _ B'). reflexivity.
  - intros C fuel. pose proof (viewed_pure s h fuel name h St (keeps_refl _ _)) as V. rewrite P in V. destruct (String.eqb_spec n ""); [contradiction|]. rewrite (pure_cyclic s h es St n fuel n C) in V. destruct (maybe_retrieve s fuel name h) as [[[c|]|x] h']; simpl in *; congruence.
Qed.
Print Assumptions C54_complete.
(** C54: retrieving never changes the store, whatever is done with the cards. *)
Theorem C54_unmodified : forall s h h' fuel name, stored s h -> uses s (next h) h h' -> viewed (maybe_retrieve s fuel name h') = viewed (maybe_retrieve s fuel name h).
Proof. intros s h h' fuel name St U. rewrite !(viewed_pure s h); [reflexivity|exact St|apply keeps_refl|exact St|]. eapply uses_keeps; [exact U|exact St|reflexivity|apply keeps_refl]. Qed.
Print Assumptions C54_unmodified.
(** C54: nor any dict there was before, such as those of other cards. *)
Theorem C54_isolated : forall s h h' fuel name i, stored s h -> uses s (next h) h h' -> i < next h' -> cell (snd (maybe_retrieve s fuel name h')) i = cell h' i.
Proof.
  intros s h h' fuel name i St U L. assert (K : keeps (next h) h h') by (eapply uses_keeps; [exact U|exact St|reflexivity|apply keeps_refl]). unfold maybe_retrieve. destruct (parse_name s name) as [n es]. destruct (String.eqb n ""); [reflexivity|]. apply (do_retrieve_spec s h fuel n es St n h' K). exact L.
Qed.
Print Assumptions C54_isolated.
Example C54_unmodified_ex : uses s0 (next h0) h0 (write (next h0) [("x", str "changed")] (snd (maybe_retrieve s0 8 "a" h0))).
Proof. eapply us_retrieve with (fuel := 8) (name := "a"). eapply us_write; [apply Nat.le_refl|]. apply us_refl. Qed.
(** C54: has_field() tells whether there is a field. *)
Theorem C54_has_field : forall h k c, has_field h k c = match get_field h k c with Some _ => true | None => false end.
Proof.
  intros h k. fix F 1. intros [n i b]. simpl. assert (E : existsb (fun kv => String.eqb k (fst kv)) (cell h i) = match dget k (cell h i) with Some _ => true | None => false end).
  { induction (cell h i) as [|[k' v] d IH]; simpl; [reflexivity|]. destruct (String.eqb k k'); [reflexivity|exact IH]. }
  rewrite E. destruct (dget k (cell h i)); [reflexivity|]. destruct b as [c'|]; [apply F|reflexivity].
Qed.
Print Assumptions C54_has_field.

(** C54: find_cards() gives the cards of exactly the assets whose field has the value, each once, if no asset is broken. *)
Theorem C54_find : forall s h fuel eqv k v ns, stored s h -> List.length (names s) < fuel -> k <> "__source__" -> (forall f, In f ns -> exists n e, f = full_name n e /\ canonical n e) -> NoDup ns ->
  (forall n, In (full_name n "") ns -> exists l, chain s h (envs s) n l) ->
  exists cs h', find_cards s fuel eqv k v ns h = (Ok cs, h') /\ NoDup (map card_name cs) /\
    (forall n, In n (map card_name cs) <-> In (full_name n "") ns /\ exists l w, chain s h (envs s) n l /\ field_of s h (envs s) k l (Some w) /\ eqv v w = true) /\
    (forall c, In c cs -> exists l, chain s h (envs s) (card_name c) l /\ shows s h (envs s) l h' c).
Proof. intros s h fuel eqv k v ns St F K C N Ch. destruct (find_spec s h fuel eqv k v St F K ns h (keeps_refl _ _) C Ch) as (cs & h' & E & _ & A & B & D). exists cs, h'. auto. Qed.
Print Assumptions C54_find.
Definition eqs (v w : value) : bool := match v, w with V (CStr a), V (CStr b) => String.eqb a b | _, _ => false end.
Example C54_find_ex : match find_cards s0 8 eqs "z" (str "zb") ["b@"; "a@aws"; "a@"] h0 with (Ok cs, _) => map card_name cs = ["b"; "a"] | _ => False end. Proof. reflexivity. Qed.
(** One asset with a missing base makes find_cards() fail for all. *)
Theorem C54_find_refuted : exists s h k v n l, stored s h /\ In (full_name n "") (names s) /\ chain s h (envs s) n l /\ field_of s h (envs s) k l (Some v) /\ forall ns, In "e@" ns -> (forall f, In f ns -> In f ["b@"; "e@"]) -> exists e, fst (find_cards s 8 eqs k v ns h) = Err e.
Proof.
  exists s0, h0, "z", (str "zb"), "b", ["b"]. destruct s0_stored as [St _]. split; [exact St|]. split; [vm_compute; auto 6|].
  pose proof (C54_retrieve s0 h0 8 "b" "b" ["user"; "aws"] St eq_refl ltac:(discriminate) ltac:(vm_compute; lia)) as R. assert (E : exists i h, maybe_retrieve s0 8 "b" h0 = (Ok (Some (Card "b" i None)), h) /\ get_field h "z" (Card "b" i None) = Some (str "zb")) by (eexists _, _; split; reflexivity). destruct E as (i & h & E & G). rewrite E in R.
  destruct R as (l & C & M & Sh). simpl in M. subst l. split; [exact C|]. split; [rewrite <- G; apply Sh; discriminate|].
  intros ns I Sub. cut (forall ns h, keeps (next h0) h0 h -> In "e@" ns -> (forall f, In f ns -> In f ["b@"; "e@"]) -> exists e, fst (find_cards s0 8 eqs "z" (str "zb") ns h) = Err e); [intros X; apply X; [apply keeps_refl|assumption|assumption]|]. clear - St.
  induction ns as [|f ns IH]; intros h K I Sub; [destruct I|]. cbn [find_cards]. destruct (Sub f (or_introl eq_refl)) as [<-|[<-|[]]].
  - change (negb (ends_with_at "b@")) with false. cbn [negb]. change (drop_last "b@") with "b". pose proof (retrieve_spec s0 h0 8 "b" h "b" ["user"; "aws"] St K eq_refl ltac:(vm_compute; lia) ltac:(discriminate)) as R. cbv zeta in R. destruct (maybe_retrieve s0 8 "b" h) as [[[c|]|x] h1]; cbn [fst snd] in R; [|eexists; reflexivity|eexists; reflexivity].
    destruct (IH h1) as (e & E); [destruct R as [R _]; eapply keeps_trans; [exact K|eapply keeps_le; [|exact R]; apply K]|destruct I as [I|I]; [discriminate|exact I]|intros f F; apply Sub; right; exact F|]. destruct (find_cards s0 8 eqs "z" (str "zb") ns h1) as [x2 h2]. cbn [fst] in E. subst x2. eexists. reflexivity.
  - change (negb (ends_with_at "e@")) with false. cbn [negb]. change (drop_last "e@") with "e". pose proof (viewed_pure s0 h0 8 "e" h St K) as V. assert (Ev : (let (n, es) := parse_name s0 "e" in if String.eqb n "" then Ok None else pure_retrieve s0 h0 8 n n es) = Err (BaseMissing "none" "e")) by reflexivity. rewrite Ev in V. clear Ev. destruct (maybe_retrieve s0 8 "e" h) as [[[c|]|x] h1]; try discriminate. eexists. reflexivity.
Qed.
Print Assumptions C54_find_refuted.

(** C54: every loaded name is canonical; it is found under the name it was written with, and no source has two assets of one name. *)
Theorem C54_load : forall load l r, (exists dir, load = yaml_entry dir) \/ load = memory_entry -> collect load l [] = Some r ->
  NoDup (map fst r) /\ List.length r = List.length l /\ forall f, In f (map fst r) -> exists n e, f = full_name n e /\ canonical n e.
Proof.
  intros load l r Hl H. apply collect_spec in H; [|constructor]. simpl in H. destruct H as (N & r' & -> & F). split; [exact N|]. split; [clear - F; induction F; simpl; congruence|]. intros f I. apply in_map_iff in I. destruct I as ([n d] & <- & I). simpl.
  assert (X : exists d0, load d0 = Some (n, d)) by (clear - F I; induction F as [|x y l r' L F IH]; [destruct I|]; destruct I as [->|I]; eauto). destruct X as (d0 & X).
  assert (E : exists d', entry_name d0 = Some (n, d')).
  { destruct Hl as [(dir & ->)| ->]; [unfold yaml_entry in X|unfold memory_entry in X]; (destruct (entry_name d0) as [[m d']|]; [|discriminate]); exists d'; destruct (dget "base" d') as [[[]|]|]; try discriminate; try (injection X as <- _; reflexivity); destruct (sanitize_base s); try discriminate; injection X as <- _; reflexivity. }
  destruct E as (d' & E). eapply entry_name_canonical. exact E.
Qed.
Print Assumptions C54_load.
Theorem C54_canonical : forall raw full, canonicalize raw = Some full ->
  exists n e, full = full_name n e /\ canonical n e /\ ((no_at raw /\ e = "" /\ forall s, parse_name s raw = (n, envs s)) \/ (~ no_at raw /\ forall s, parse_name s raw = (n, if String.eqb e "" then [] else [e]))).
Proof.
  intros raw full H. apply canonicalize_spec in H. destruct H as (n & e & -> & C & [(A & S & ->)|(a & b & A & B & -> & Sa & Sb)]); [exists n, ""|exists n, e]; (split; [reflexivity|]); (split; [exact C|]).
  - left. split; [exact A|]. split; [reflexivity|]. intros s. apply (C54_name s); assumption.
  - right. split; [intros N; apply N; unfold full_name; rewrite las_app; apply in_or_app; right; left; reflexivity|]. intros s. destruct (String.eqb_spec e "") as [->|E]; apply (C54_name s); assumption.
Qed.
Print Assumptions C54_canonical.
(** Entries passed in memory keep their base name as written, so that a base in quotes with spaces, accepted, is never found. *)
Theorem C54_base_refuted : exists d n d' b, memory_entry d = Some (n, d') /\ dget "base" d = Some (V (CStr b)) /\ sanitize_base b = Some "b" /\ dget "base" d' = Some (V (CStr " b ")) /\ exists d2, yaml_entry "/" d = Some (n, d2) /\ dget "base" d2 = Some (V (CStr "b")).
Proof. exists [("name", str "a"); ("base", str " b ")]. eexists _, _, _. split; [reflexivity|]. split; [reflexivity|]. split; [reflexivity|]. split; [reflexivity|]. eexists. split; reflexivity. Qed.
Print Assumptions C54_base_refuted.
(** Loading entries in memory removes their names: they cannot be loaded again. *)
Theorem C54_reload_refuted : forall d l, collect memory_entry (after_load (d :: l)) [] = None.
Proof.
  intros d l. cbn [after_load map collect]. assert (E : memory_entry (snd (dpop "name" d)) = None); [|rewrite E; reflexivity]. unfold memory_entry, entry_name, dpop. simpl. replace (dget "name" _) with (@None value); [reflexivity|].
  symmetry. apply dget_none. intros I. apply in_map_iff in I. destruct I as ([k v] & E & I). apply filter_In in I. simpl in *. destruct I as [_ I]. subst k. discriminate.
Qed.
Print Assumptions C54_reload_refuted.
(** A relative path inherited from a base asset is taken relative to the directory of the derived asset. *)
Theorem C54_uri_refuted : exists s h c h', stored s h /\ maybe_retrieve s 8 "a" h = (Ok (Some c), h') /\
  (exists cb hb, maybe_retrieve s 8 "b" h = (Ok (Some cb), hb) /\ as_uri (fun _ => None) (fun _ => false) (fun p x => (p ++ "/" ++ x)%string) (fun p => p) hb "f" cb = Ok "/two/file") /\
  as_uri (fun _ => None) (fun _ => false) (fun p x => (p ++ "/" ++ x)%string) (fun p => p) h' "f" c = Ok "/one/file".
Proof. exists s0, h0. eexists _, _. split; [apply s0_stored|]. split; [reflexivity|]. split; [eexists _, _; split; reflexivity|reflexivity]. Qed.
Print Assumptions C54_uri_refuted.

(** C54: the configuration of an asset is the base configuration with the overrides of the last base applied first and its own last. *)
Theorem C54_config : forall B (unstructure : B -> option cv) structure defaults extra h c base_config k b, load_config unstructure structure defaults extra h c base_config k = Ok b ->
  let l := flat_map (fun nd => match dget k (snd nd) with Some (V CNone) | None => [] | Some (V o) => [(fst nd, o)] | Some (VPath _) => [(fst nd, COther 0)] end) (view h c) in
  (l = [] /\ b = base_config) \/ (l <> [] /\ exists u r, unstructure base_config = Some u /\ applied defaults extra u (rev l) r /\ structure r = Some b).
Proof.
  intros B un st de ex h c bc k b H l. assert (E : all_overrides h k c = l).
  { unfold l. clear. revert c. fix F 1. intros [n i o]. simpl. destruct o as [c'|]; [rewrite (F c')|]; destruct (dget k (cell h i)) as [[[]|]|]; reflexivity. }
  unfold load_config in H. rewrite E in H. destruct l as [|x l]; [left; injection H as ->; auto|right]. split; [discriminate|]. destruct (un bc) as [u|]; [|discriminate]. destruct (apply_all de ex u (rev (x :: l))) as [r|] eqn:A; [|discriminate]. destruct (st r) as [b'|] eqn:Sr; [|discriminate]. injection H as <-. exists u, r. split; [reflexivity|]. split; [|exact Sr].
  revert A. clear. generalize (rev (x :: l)). intros m. revert u. induction m as [|[n o] m IH]; intros u A; simpl in A; [injection A as ->; constructor|]. destruct (merge u o) as [v| |] eqn:M; try discriminate. destruct (process de ex v) as [w| |] eqn:P; try discriminate. econstructor; [exact M|exact P|apply IH, A].
Qed.
Print Assumptions C54_config.
(** C54: so, without directives, each setting is the one of the first asset of the chain that sets it. *)
Theorem C54_config_first : forall l u r p, Forall (fun no => wf (snd no) /\ exists m, snd no = CMap m) l -> (exists m, u = CMap m) -> applied [] [] u (rev l) r ->
  (forall n o, In (n, o) l -> mentions o p Keep) /\ look r p = look u p \/ exists l1 n o l2 w, l = l1 ++ (n, o) :: l2 /\ (forall n o, In (n, o) l1 -> mentions o p Keep) /\ mentions o p (See w) /\ look r p = w.
Proof.
  intros l. induction l as [|[n o] l IH]; intros u r p W U A.
  - inversion A; subst. left. split; [intros ? ? []|reflexivity].
  - inversion W as [|? ? [W1 (m & Em)] W2]; subst. simpl in Em, W1. subst o. simpl in A.
    assert (Sp : forall l1 l2 u r, applied [] [] u (l1 ++ l2) r -> exists t, applied [] [] u l1 t /\ applied [] [] t l2 r) by (clear; induction l1 as [|[n o] l1 IH]; intros l2 u r A; simpl in A; [exists u; split; [constructor|exact A]|inversion A; subst; edestruct IH as (t & X & Y); [eassumption|]; exists t; split; [econstructor; eassumption|exact Y]]).
    destruct (Sp _ _ _ _ A) as (t & A1 & A2). inversion A2 as [|? ? ? m0 m1 ? ? M P A3]; subst. inversion A3; subst. injection P as ->.
    destruct (mentions_total p m) as (w & Mw). pose proof (C42_merge t m r p w W1 M Mw) as L.
    assert (T : exists q, t = CMap q) by (clear - A1 U W2; revert A1 U W2; assert (X : forall l u t, applied [] [] u l t -> (exists m, u = CMap m) -> Forall (fun no => wf (snd no) /\ exists m, snd no = CMap m) l -> exists q, t = CMap q); [|intros A U W; apply (X (rev l) u t A U), Forall_rev, W]; clear; intros l u t A; induction A as [u|u n o m m' l r M P A IH]; intros U W; [exact U|]; inversion W as [|? ? [_ (z & Z)] W2]; subst; simpl in Z; subst o; apply IH; [|exact W2]; simpl in M; apply bindr_ok in M; destruct M as (q & _ & E); injection E as <-; injection P as <-; eauto).
    destruct T as (q & ->). destruct w as [|w].
    + simpl in L. destruct (IH u (CMap q) p W2 U A1) as [[K E]|(l1 & n1 & o1 & l2 & w & -> & K & M1 & E)]; [left|right].
      * split; [|congruence]. intros n' o' [X|X]; [injection X as <- <-; exact Mw|eapply K; exact X].
      * exists ((n, CMap m) :: l1), n1, o1, l2, w. split; [reflexivity|]. split; [intros n' o' [X|X]; [injection X as <- <-; exact Mw|eapply K; exact X]|]. split; [exact M1|congruence].
    + right. exists [], n, (CMap m), l, w. split; [reflexivity|]. split; [intros ? ? []|]. split; [exact Mw|exact L].
Qed.
Print Assumptions C54_config_first.
