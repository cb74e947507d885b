From Coq Require Import String List Bool Arith ZArith QArith Lia.
From Verif Require Import Struct_Model Struct_Spec Struct_Proofs Struct_Proofs2.
Import ListNotations.
Open Scope list_scope. Open Scope nat_scope.

Lemma bindr_ok {A B} (r : res A) (f : A -> res B) b : bindr r f = Ok b -> exists a, r = Ok a /\ f a = Ok b.
Proof. destruct r; simpl; intros H; try discriminate. eauto. Qed.
Lemma map_res_ok {A B} (f : A -> res B) l l' : map_res f l = Ok l' -> Forall2 (fun a b => f a = Ok b) l l'.
Proof. revert l'; induction l as [|a l IH]; intros l' H; simpl in H; [injection H as <-; constructor|]. apply bindr_ok in H. destruct H as (b & E & H). apply bindr_ok in H. destruct H as (bs & E' & H). injection H as <-. constructor; auto. Qed.

(** Dictionaries *)
Definition good (P : val -> Prop) (Q : val -> Prop) (l : list (val * val)) : Prop := Forall (fun kv => P (fst kv) /\ Q (snd kv)) l /\ Forall (fun k => hashable k = true) (map fst l) /\ distinct (map fst l).
Lemma dict_set_keys k v l : map fst (dict_set k v l) = map fst l \/ (map fst (dict_set k v l) = map fst l ++ [k] /\ forall y, In y (map fst l) -> py_eq k y = false).
Proof.
  induction l as [|[k' v'] l IH]; simpl; [right; split; [reflexivity|intros y []]|]. destruct (py_eq k k') eqn:E; [left; reflexivity|]. simpl. destruct IH as [->|[-> IH]]; [left; reflexivity|]. right. split; [reflexivity|]. intros y [<-|Hy]; auto.
Qed.
Lemma dict_set_all (P : val -> Prop) (Q : val -> Prop) k v l : P k -> Q v -> Forall (fun kv => P (fst kv) /\ Q (snd kv)) l -> Forall (fun kv => P (fst kv) /\ Q (snd kv)) (dict_set k v l).
Proof. intros Hk Hv. induction 1 as [|[k' v'] l [H1 H2] F IH]; simpl; [constructor; auto|]. destruct (py_eq k k'); constructor; auto. Qed.
Lemma set_item_good (P Q : val -> Prop) k v l l' : P k -> Q v -> good P Q l -> set_item k v l = Ok l' -> good P Q l'.
Proof.
  unfold set_item. intros Hk Hv (A & B & C) H. destruct (hashable k) eqn:E; [|discriminate]. injection H as <-. split; [apply dict_set_all; assumption|].
  destruct (dict_set_keys k v l) as [->|[-> D]]; [auto|]. split; [apply Forall_app; auto|apply distinct_snoc; assumption].
Qed.
Lemma good_nil P Q : good P Q []. Proof. split; [constructor|]. split; constructor. Qed.

(** Unstructured values are plain *)
Lemma un_plain n : forall v r, unstructure n v = Ok r -> plain r.
Proof.
  induction n as [|n IH]; intros v r H; [discriminate|].
  assert (Seq : forall l, bindr (map_res (unstructure n) l) (fun l' => Ok (VList l')) = Ok r -> plain r).
  { intros l K. apply bindr_ok in K. destruct K as (l' & K & E). injection E as <-. apply map_res_ok in K. apply plain_list. clear - IH K. induction K; constructor; eauto. }
  destruct v; try (injection H as <-; exact I); try (apply (Seq _ H)).
  - change (bindr (undict_loop n l []) (fun out => Ok (VDict out)) = Ok r) in H. apply bindr_ok in H. destruct H as (out & K & E). injection E as <-. apply plain_dict.
    revert K. assert (G := good_nil plain plain). revert G. generalize (@nil (val * val)) as acc. induction l as [|[k x] l IHl]; intros acc G K; simpl in K; [injection K as <-; exact G|].
    apply bindr_ok in K. destruct K as (k' & K1 & K). apply bindr_ok in K. destruct K as (x' & K2 & K). apply bindr_ok in K. destruct K as (x'' & K3 & K). apply bindr_ok in K. destruct K as (acc' & K4 & K).
    apply (IHl acc'); [|exact K]. eapply set_item_good; [| |exact G|exact K4]; eauto.
  - change (bindr (undata_loop n l []) (fun out => Ok (VDict out)) = Ok r) in H. apply bindr_ok in H. destruct H as (out & K & E). injection E as <-. apply plain_dict.
    revert K. assert (G := good_nil plain plain). revert G. generalize (@nil (val * val)) as acc. induction l as [|[k x] l IHl]; intros acc G K; simpl in K; [injection K as <-; exact G|].
    apply bindr_ok in K. destruct K as (x' & K2 & K).
    change (bindr (set_item (VStr k) x' acc) (undata_loop n l) = Ok out) in K. apply bindr_ok in K. destruct K as (acc' & K4 & K).
    apply (IHl acc'); [|exact K]. eapply set_item_good; [| |exact G|exact K4]; [exact I|eauto].
Qed.

(** Structured values have their type *)
Lemma set_of_sound (P : val -> Prop) l : forall acc s, Forall P acc -> Forall P l -> distinct acc -> set_of acc l = Ok s -> Forall P s /\ distinct s.
Proof.
  induction l as [|x l IH]; intros acc s A B D H; simpl in H; [injection H as <-; auto|]. inversion B; subst. destruct (hashable x); [|discriminate]. destruct (existsb (py_eq x) acc) eqn:E.
  - apply (IH _ _ A); assumption.
  - apply (IH _ _) in H; [exact H|apply Forall_app; auto|assumption|apply distinct_snoc; [exact D|apply existsb_false; exact E]].
Qed.
Lemma Forall2_Forall_r {A B} (R : A -> B -> Prop) (P : A -> Prop) (Q : B -> Prop) l l' : (forall a b, P a -> R a b -> Q b) -> Forall2 R l l' -> Forall P l -> Forall Q l'.
Proof. intros H. induction 1; intros F; inversion F; subst; constructor; eauto. Qed.
Lemma chars_plain s : Forall plain (chars s).
Proof. induction s; simpl; constructor; [exact I|assumption]. Qed.
Lemma elements_plain v l : plain v -> elements v = Some l -> Forall plain l.
Proof. destruct v; try discriminate; intros P H; injection H as <-; try (destruct P; fail); [apply chars_plain|apply plain_list, P]. Qed.
Lemma take_sound W (str : val -> ty -> res val) fs : forall values kw rest, (forall v t v', plain v -> str v t = Ok v' -> ok W t v') -> Forall (fun kv => plain (snd kv)) values ->
  take str fs values = Ok (kw, rest) -> Forall (fun nv => exists f, In f fs /\ f_name f = fst nv /\ ok W (f_ty f) (snd nv)) kw /\ forall f, In f fs -> f_init f = true -> lookup (f_name f) kw = None -> f_default f <> None.
Proof.
  induction fs as [|f fs IH]; intros values kw rest Hs Hp H; simpl in H; [injection H as <- <-; split; [constructor|intros f []]|].
  set (rest' := filter _ values) in H.
  assert (Hp' : Forall (fun kv => plain (snd kv)) rest') by (apply Forall_forall; intros kv Hkv; apply filter_In in Hkv; rewrite Forall_forall in Hp; apply Hp, Hkv).
  destruct (f_init f) eqn:Fi; cbn [negb] in H.
  - destruct (find _ values) as [[k x]|] eqn:E.
    + apply bindr_ok in H. destruct H as (v' & H1 & H). apply bindr_ok in H. destruct H as ([kw' r'] & H2 & H). injection H as <- <-. destruct (IH _ _ _ Hs Hp' H2) as [A B]. split.
      * constructor; [|eapply Forall_impl; [|exact A]; intros nv (g & G1 & G2); exists g; split; [right; exact G1|exact G2]]. exists f. split; [left; reflexivity|]. split; [reflexivity|]. simpl. eapply Hs; [|exact H1]. apply find_some in E. rewrite Forall_forall in Hp. apply (Hp _ (proj1 E)).
      * intros g [<-|G] Gi L; simpl in L; [rewrite String.eqb_refl in L; discriminate|]. destruct (String.eqb _ _); [discriminate|]. apply B; assumption.
    + destruct (f_default f) as [d|] eqn:Df; [|discriminate]. destruct (IH _ _ _ Hs Hp' H) as [A B]. split.
      * eapply Forall_impl; [|exact A]. intros nv (g & G1 & G2). exists g. split; [right; exact G1|exact G2].
      * intros g [<-|G] Gi L; [congruence|apply B; assumption].
  - destruct (IH _ _ _ Hs Hp' H) as [A B]. split.
    + eapply Forall_impl; [|exact A]. intros nv (g & G1 & G2). exists g. split; [right; exact G1|exact G2].
    + intros g [<-|G] Gi L; [congruence|apply B; assumption].
Qed.
Lemma lookup_in {A} k (l : list (string * A)) v : lookup k l = Some v -> In (k, v) l.
Proof. induction l as [|[k' v'] l IH]; simpl; [discriminate|]. destruct (String.eqb_spec k k') as [->|]; [intros H; injection H as ->; left; reflexivity|intros H; right; auto]. Qed.
Lemma name_inj fs f g : NoDup (map f_name fs) -> In f fs -> In g fs -> f_name f = f_name g -> f = g.
Proof.
  induction fs as [|h fs IH]; intros N Hf Hg E; [destruct Hf|]. simpl in N. inversion N as [|? ? N1 N2]; subst. destruct Hf as [->|Hf], Hg as [->|Hg]; auto; exfalso; apply N1; [rewrite E|rewrite <- E]; apply in_map; assumption.
Qed.
Definition defaults_ok W : Prop := forall c f d, In f (fields W c) -> f_default f = Some d -> ok W (f_ty f) d.
Lemma construct_sound W c kw : proper W -> defaults_ok W -> Forall (fun nv => exists f, In f (fields W c) /\ f_name f = fst nv /\ ok W (f_ty f) (snd nv)) kw ->
  (forall f, In f (fields W c) -> f_init f = true -> lookup (f_name f) kw = None -> f_default f <> None) -> ok W (TData c) (construct W c kw).
Proof.
  intros Pr Dok A B. unfold construct. apply o_data. specialize (Pr c).
  assert (K : forall fs, incl fs (fields W c) -> Forall2 (fun f nv => fst nv = f_name f /\ (f_init f = true -> ok W (f_ty f) (snd nv))) fs (map (fun f => (f_name f, if f_init f then match lookup (f_name f) kw with Some v => v | None => match f_default f with Some v => v | None => VNone end end else post W c (f_name f) kw)) fs)).
  { induction fs as [|f fs IH]; intros I; simpl; constructor; [|apply IH; intros x Hx; apply I; right; exact Hx]. split; [reflexivity|]. simpl. intros Fi. rewrite Fi. assert (Hf : In f (fields W c)) by (apply I; left; reflexivity).
    destruct (lookup (f_name f) kw) as [v|] eqn:E.
    - apply lookup_in in E. rewrite Forall_forall in A. destruct (A _ E) as (g & G1 & G2 & G3). simpl in *. replace f with g; [exact G3|]. apply (name_inj (fields W c)); assumption.
    - specialize (B f Hf Fi E). destruct (f_default f) as [d|] eqn:Ed; [|congruence]. eapply Dok; eassumption. }
  apply K. apply incl_refl.
Qed.
Lemma stdict_good W n kt vt (P Q : val -> Prop) l : forall acc out, (forall k k', In k (map fst l) -> structure W n k kt = Ok k' -> P k') -> (forall v v', In v (map snd l) -> structure W n v vt = Ok v' -> Q v') ->
  good P Q acc -> stdict_loop W n kt vt l acc = Ok out -> good P Q out.
Proof.
  induction l as [|[k v] l IH]; intros acc out Hk Hv G H; simpl in H; [injection H as <-; exact G|].
  apply bindr_ok in H. destruct H as (k' & H1 & H). apply bindr_ok in H. destruct H as (v' & H2 & H). apply bindr_ok in H. destruct H as (acc' & H3 & H).
  apply (IH acc' out); [intros; eapply Hk; [right|]; eassumption|intros; eapply Hv; [right|]; eassumption| |exact H]. eapply set_item_good; [| |exact G|exact H3]; [eapply Hk; [left; reflexivity|exact H1]|eapply Hv; [left; reflexivity|exact H2]].
Qed.
Lemma sound W : proper W -> defaults_ok W -> forall n obj t v, plain obj -> structure W n obj t = Ok v -> ok W t v.
Proof.
  intros Pr Dok. induction n as [|n IH]; intros obj t v P H; [discriminate|].
  assert (Seq : forall l t l', Forall plain l -> map_res (fun e => structure W n e t) l = Ok l' -> Forall (ok W t) l').
  { intros l u l' F K. apply map_res_ok in K. eapply Forall2_Forall_r; [|exact K|exact F]. intros a b Pa E. apply (IH a u b Pa E). }
  destruct t; cbn [structure] in H.
  - apply o_object.
  - destruct obj; try discriminate. injection H as <-. constructor.
  - destruct obj; try discriminate. injection H as <-. constructor.
  - destruct obj; try discriminate; cbn [to_int] in H; try (injection H as <-; constructor). destruct (parse_int W s); [injection H as <-; constructor|discriminate].
  - destruct obj; try discriminate; cbn [to_float] in H; try (injection H as <-; constructor). destruct (parse_float W s); [injection H as <-; constructor|discriminate].
  - destruct obj; try discriminate. injection H as <-. constructor.
  - destruct obj; try discriminate; injection H as <-; constructor.
  - destruct obj; try discriminate; [|injection H as <-; constructor]. destruct (dtype W _); [injection H as <-; constructor|discriminate].
  - destruct obj; try discriminate; [|injection H as <-; constructor]. destruct (device W _); [injection H as <-; constructor|discriminate].
  - destruct obj; try discriminate; [|destruct P]. destruct (existsb _ _) eqn:E; [|discriminate]. injection H as <-. constructor. apply existsb_exists in E. destruct E as (y & Hy & E). apply String.eqb_eq in E. subst. exact Hy.
  - destruct obj; try discriminate. destruct (existsb _ _) eqn:E; [|discriminate]. injection H as <-. constructor. apply existsb_exists in E. destruct E as (y & Hy & E). apply String.eqb_eq in E. subst. exact Hy.
  - destruct (elements obj) as [l|] eqn:E; [|discriminate]. apply bindr_ok in H. destruct H as (l' & H1 & H). injection H as <-. constructor. eapply Seq; [|exact H1]. eapply elements_plain; eassumption.
  - assert (K : exists l, elements obj = Some l /\ bindr (map_res (fun e => structure W n e t) l) (fun l' => bindr (set_of [] l') (fun s => if Nat.eqb (List.length s) (List.length l') then Ok (VSet s) else Serr)) = Ok v).
    { destruct obj; try discriminate; try (destruct P; fail); eexists; (split; [reflexivity|exact H]). }
    destruct K as (l & E & K). apply bindr_ok in K. destruct K as (l' & H1 & K). apply bindr_ok in K. destruct K as (s & H2 & K). destruct (Nat.eqb _ _); [|discriminate]. injection K as <-.
    destruct (set_of_sound (ok W t) l' [] s) as [A B]; [constructor|eapply Seq; [|exact H1]; eapply elements_plain; eassumption|constructor|exact H2|]. constructor; assumption.
  - destruct (elements obj) as [l|] eqn:E; [|discriminate]. apply bindr_ok in H. destruct H as (l' & H1 & H). injection H as <-. constructor. eapply Seq; [|exact H1]. eapply elements_plain; eassumption.
  - destruct (elements obj) as [l'|] eqn:E; [|discriminate]. destruct (Nat.eqb (List.length l) 0); [discriminate|]. destruct (Nat.eqb_spec (List.length l') (List.length l)) as [L|]; [|discriminate]. cbn [negb] in H. apply bindr_ok in H. destruct H as (out & H1 & H). injection H as <-.
    constructor. apply map_res_ok in H1. pose proof (elements_plain _ _ P E) as F. clear - IH L H1 F. revert l out L H1. induction F as [|x l' Px F IHl]; intros [|t ts] out L H1; try discriminate; simpl in H1; inversion H1; subst; constructor; [eapply IH; eauto|]. apply IHl; [simpl in L; lia|assumption].
  - destruct obj; try discriminate. change (bindr (stdict_loop W n t1 t2 l []) (fun out => Ok (VDict out)) = Ok v) in H. apply bindr_ok in H. destruct H as (out & H1 & H). injection H as <-. apply plain_dict in P. destruct P as (P & _ & _).
    destruct (stdict_good W n t1 t2 (ok W t1) (ok W t2) l [] out) as (A & B & C); [| |apply good_nil|exact H1|constructor; assumption].
    + intros k k' Hk E. apply in_map_iff in Hk. destruct Hk as (kv & <- & Hkv). rewrite Forall_forall in P. apply (IH (fst kv) t1 k'); [apply P, Hkv|exact E].
    + intros x x' Hx E. apply in_map_iff in Hx. destruct Hx as (kv & <- & Hkv). rewrite Forall_forall in P. apply (IH (snd kv) t2 x'); [apply P, Hkv|exact E].
  - assert (K : v = VNone /\ existsb is_none l = true \/ exists b, union_loop W n obj b l = Ok v).
    { destruct (Nat.eqb (List.length l) 2 && existsb is_none l) eqn:E; [|right; exists false; exact H]. apply andb_true_iff in E. destruct obj; try (right; exists true; exact H). left. injection H as <-. tauto. }
    destruct K as [[-> K]|(b & K)].
    + apply existsb_exists in K. destruct K as (t & Ht & K). destruct t; try discriminate. eapply o_union; [exact Ht|constructor].
    + clear H. assert (Sub : forall ts, union_loop W n obj b ts = Ok v -> exists t, In t ts /\ ok W t v).
      { induction ts as [|t ts IHts]; intros K'; simpl in K'; [discriminate|]. destruct (structure W n obj t) eqn:E; try discriminate.
        - injection K' as <-. exists t. split; [left; reflexivity|eapply IH; eauto].
        - destruct b; [discriminate|]. destruct (IHts K') as (t' & T1 & T2). exists t'. split; [right; exact T1|exact T2]. }
      destruct (Sub l K) as (t & T1 & T2). eapply o_union; eassumption.
  - destruct obj; try discriminate; [|destruct P]. apply bindr_ok in H. destruct H as (d & H1 & H). destruct d; try discriminate. apply bindr_ok in H. destruct H as ([kw rest] & H2 & H). simpl in H. destruct rest; [|discriminate]. injection H as <-.
    assert (V : Forall (fun kv => plain (snd kv)) l0).
    { destruct n as [|n']; [discriminate|]. change (bindr (stdict_loop W n' TStr TObject l []) (fun out => Ok (VDict out)) = Ok (VDict l0)) in H1. apply bindr_ok in H1. destruct H1 as (out & H1 & E). injection E as <-.
      apply plain_dict in P. destruct P as (P & _ & _). destruct (stdict_good W n' TStr TObject (fun _ => True) plain l [] out) as (A & _ & _); [auto| |apply good_nil|exact H1|].
      - intros x x' Hx E. apply in_map_iff in Hx. destruct Hx as (kv & <- & Hkv). rewrite Forall_forall in P. destruct n'; [discriminate|]. injection E as <-. apply P, Hkv.
      - eapply Forall_impl; [|exact A]. simpl. tauto. }
    destruct (take_sound W (structure W n) (fields W c) l0 kw [] IH V H2) as [A B]. apply construct_sound; assumption.
Qed.
