From Coq Require Import String List Bool Arith ZArith QArith Lia.
From Verif Require Import Struct_Model Struct_Spec Struct_Proofs.
Import ListNotations.
Open Scope list_scope. Open Scope nat_scope.

Scheme has_m := Minimality for has Sort Prop with has_all_m := Minimality for has_all Sort Prop with has_each_m := Minimality for has_each Sort Prop
  with has_pairs_m := Minimality for has_pairs Sort Prop with has_fields_m := Minimality for has_fields Sort Prop.

Lemma rejected W t raw : plain raw -> no_such W t (form_of raw) = true -> forall n, structure W (S n) raw t = Serr.
Proof.
  intros P H n. destruct t; destruct raw; try (destruct P; fail); try discriminate H; try reflexivity; cbn [form_of no_such] in H; cbn [structure to_int to_float].
  - destruct (parse_int W s); [discriminate|reflexivity].
  - destruct (parse_float W s); [discriminate|reflexivity].
  - destruct (dtype W (strip_torch s)); [discriminate|reflexivity].
  - destruct (device W s); [discriminate|reflexivity].
  - destruct (existsb (String.eqb s) (names W c)); [discriminate|reflexivity].
  - destruct (existsb (String.eqb s) l); [discriminate|reflexivity].
Qed.

Definition union_loop W n obj (opt : bool) := fix loop (ts : list ty) : res val :=
  match ts with [] => Serr | t :: ts' => match structure W n obj t with Serr => if opt then Serr else loop ts' | r => r end end.
Lemma union_ev W raw ts1 t ts2 v : plain raw -> Forall (fun t' => no_such W t' (form_of raw) = true) ts1 -> st W raw t v -> ev (fun n => union_loop W n raw false (ts1 ++ t :: ts2)) (Ok v).
Proof.
  intros P. induction 1 as [|t' ts1 H F IH]; intros H'; simpl.
  - destruct H' as (n0 & H'). exists n0. intros n L. rewrite H' by exact L. reflexivity.
  - destruct (IH H') as (n0 & K). exists (S n0). intros [|n] L; [lia|]. rewrite rejected by assumption. apply K. lia.
Qed.
Lemma st_union W raw ts r : (Nat.eqb (length ts) 2 && existsb is_none ts) = false -> ev (fun n => union_loop W n raw false ts) r -> ev (fun n => structure W n raw (TUnion ts)) r.
Proof. intros E H. eapply ev_S; [|exact H]. intros n. cbn [structure]. rewrite E. reflexivity. Qed.
Lemma st_optional W raw t v : st W raw t v -> raw <> VNone -> st W raw (TUnion [t; TNone]) v.
Proof.
  intros (n0 & H) N. exists (S n0). intros [|n] L; [lia|]. cbn [structure]. cbn [length Nat.eqb existsb andb is_none]. rewrite orb_true_r. rewrite H by lia. destruct raw; try congruence; reflexivity.
Qed.

(** Dataclasses *)
Lemma py_eq_str a b : py_eq (VStr a) (VStr b) = String.eqb a b. Proof. reflexivity. Qed.
Lemma take_ev W fs : forall vs raws, map fst vs = map f_name fs -> map fst raws = map (fun nv => VStr (fst nv)) vs -> NoDup (map f_name fs) ->
  Forall2 (fun p kv' => st W (snd kv') (f_ty (fst p)) (snd (snd p))) (combine fs vs) raws -> ev (fun n => take (structure W n) fs raws) (Ok (init_part fs vs, [])).
Proof.
  induction fs as [|f fs IH]; intros vs raws E1 E2 N F.
  - destruct vs; [|discriminate]. destruct raws; [|discriminate]. exists 0. reflexivity.
  - destruct vs as [|[nm v] vs]; [discriminate|]. simpl in E1. injection E1 as -> E1. simpl in E2. destruct raws as [|[k x] raws]; [discriminate|]. simpl in E2. injection E2 as -> E2.
    simpl in F. inversion F as [|? ? ? ? F1 F2]; subst. simpl in F1. simpl in N. inversion N as [|? ? N1 N2]; subst.
    assert (Fil : filter (fun kv => negb (py_eq (VStr (f_name f)) (fst kv))) raws = raws).
    { clear - E1 E2 N1. assert (K : forall kv, In kv raws -> py_eq (VStr (f_name f)) (fst kv) = false).
      { intros kv Hkv. apply (in_map fst) in Hkv. rewrite E2 in Hkv. apply in_map_iff in Hkv. destruct Hkv as (nv & <- & Hnv). simpl. destruct (String.eqb_spec (f_name f) (fst nv)) as [E|]; [|reflexivity]. exfalso. apply N1. rewrite <- E1, E. apply in_map, Hnv. }
      clear - K. induction raws as [|kv raws IH]; [reflexivity|]. cbn [filter]. rewrite (K kv) by (left; reflexivity). cbn [negb]. f_equal. apply IH. intros y Hy. apply K. right. exact Hy. }
    specialize (IH vs raws E1 E2 N2 F2). cbn [take find filter fst]. rewrite py_eq_str, String.eqb_refl. cbn [negb snd fst]. rewrite Fil. unfold init_part. cbn [combine filter fst snd]. destruct (f_init f); cbn [negb map snd].
    + apply (ev_bind (fun n => structure W n x (f_ty f)) v (fun n v' => bindr (take (structure W n) fs raws) (fun p => Ok ((f_name f, v') :: fst p, snd p)))); [exact F1|].
      apply (ev_bind (fun n => take (structure W n) fs raws) (init_part fs vs, []) (fun n p => Ok ((f_name f, v) :: fst p, snd p))); [exact IH|apply ev_const].
    + exact IH.
Qed.
Lemma lookup_skip {A} k (l1 l2 : list (string * A)) : ~ In k (map fst l1) -> lookup k (l1 ++ l2) = lookup k l2.
Proof. induction l1 as [|[k' v'] l1 IH]; intros H; [reflexivity|]. simpl. destruct (String.eqb_spec k k') as [->|]; [exfalso; apply H; left; reflexivity|]. apply IH. intros X. apply H. right. exact X. Qed.
Lemma construct_aux W c ip fs : forall pre vs, map fst vs = map f_name fs -> NoDup (map f_name fs) -> (forall k, In k (map fst pre) -> ~ In k (map f_name fs)) ->
    Forall (fun p => f_init (fst p) = false -> snd (snd p) = post W c (f_name (fst p)) ip) (combine fs vs) -> ip = pre ++ init_part fs vs ->
    map (fun f => (f_name f, if f_init f then match lookup (f_name f) ip with Some v => v | None => match f_default f with Some v => v | None => VNone end end else post W c (f_name f) ip)) fs = vs.
Proof.
  induction fs as [|f fs IH]; intros pre vs E N D Po Ei; destruct vs as [|[nm v] vs]; try discriminate; [reflexivity|]. simpl in E. injection E as -> E.
  simpl in N. apply NoDup_cons_iff in N. destruct N as [N1 N2]. simpl in Po. apply Forall_cons_iff in Po. destruct Po as [P1 P2]. simpl in P1. cbn [map]. unfold init_part in Ei. cbn [combine filter fst] in Ei. destruct (f_init f) eqn:Fi.
  - cbn [map snd] in Ei. f_equal.
    + f_equal. rewrite Ei. rewrite lookup_skip by (intros X; apply (D _ X); left; reflexivity). simpl. rewrite String.eqb_refl. reflexivity.
    + apply (IH (pre ++ [(f_name f, v)])); [exact E|exact N2| |exact P2|rewrite <- app_assoc; exact Ei].
      intros k. rewrite map_app, in_app_iff. intros [X|[<-|[]]]; [|exact N1]. intros Y. apply (D k X). right. exact Y.
  - f_equal; [f_equal; symmetry; auto|]. apply (IH pre); [exact E|exact N2|intros k X Y; apply (D k X); right; exact Y|exact P2|exact Ei].
Qed.
Lemma construct_ev W c vs : proper W -> map fst vs = map f_name (fields W c) -> post_ok W c vs -> construct W c (init_part (fields W c) vs) = VData c vs.
Proof. intros Pr E Po. unfold construct. f_equal. apply (construct_aux W c _ _ []); [exact E|apply Pr|intros k []|exact Po|reflexivity]. Qed.

Lemma distinct_names l : NoDup l -> distinct (map VStr l).
Proof.
  induction 1 as [|x l N1 N2 IH]; simpl; constructor; [|exact IH]. rewrite Forall_map. apply Forall_forall. intros y Hy. simpl. destruct (String.eqb_spec x y); [congruence|reflexivity].
Qed.
Lemma st_data W c vs raws : proper W -> map fst vs = map f_name (fields W c) -> post_ok W c vs -> map fst raws = map (fun nv => VStr (fst nv)) vs ->
  Forall2 (fun p kv' => st W (snd kv') (f_ty (fst p)) (snd (snd p))) (combine (fields W c) vs) raws -> st W (VDict raws) (TData c) (VData c vs).
Proof.
  intros Pr E1 Po E2 F.
  assert (D : distinct (map fst raws)). { rewrite E2. replace (map (fun nv => VStr (fst nv)) vs) with (map VStr (map fst vs)) by (rewrite map_map; reflexivity). apply distinct_names. rewrite E1. apply Pr. }
  assert (Hh : Forall (fun k => hashable k = true) (map fst raws)). { rewrite E2, Forall_map. apply Forall_forall. reflexivity. }
  assert (A : ev (fun n => structure W n (VDict raws) (TDict TStr TObject)) (Ok (VDict raws))).
  { eapply ev_S; [|apply (ev_bind (fun n => stdict_loop W n TStr TObject raws []) raws (fun _ out => Ok (VDict out))); [|apply ev_const]]; [reflexivity|].
    apply (stdict_ev W TStr TObject raws raws); [|exact Hh|exact D]. apply Forall2_same. apply Forall_forall. intros kv Hkv. split.
    - assert (K : exists s, fst kv = VStr s). { apply (in_map fst) in Hkv. rewrite E2 in Hkv. apply in_map_iff in Hkv. destruct Hkv as (nv & <- & _). eauto. } destruct K as (s & ->). exists 1. intros [|n] L; [lia|reflexivity].
    - exists 1. intros [|n] L; [lia|reflexivity]. }
  eapply ev_S with (f := fun n => bindr (structure W n (VDict raws) (TDict TStr TObject)) (fun d => match d with VDict values => bindr (take (structure W n) (fields W c) values) (fun p => match snd p with [] => Ok (construct W c (fst p)) | _ => Serr end) | _ => Serr end)); [reflexivity|].
  eapply ev_bind; [exact A|]. cbn iota beta. apply (ev_bind (fun n => take (structure W n) (fields W c) raws) (init_part (fields W c) vs, []) (fun _ p => match snd p with [] => Ok (construct W c (fst p)) | _ => Serr end)).
  - apply take_ev; auto.
  - simpl. rewrite construct_ev by assumption. apply ev_const.
Qed.

(** The round trip *)
Definition P1 W t v := exists raw, un v raw /\ plain raw /\ form_of raw = form_of v /\ st W raw t v.
Definition PA W t l := exists raws, Forall2 un l raws /\ Forall plain raws /\ Forall2 (fun raw v => st W raw t v) raws l.
Definition PE W ts l := exists raws, Forall2 un l raws /\ Forall plain raws /\ Forall2 (fun rt v => st W (fst rt) (snd rt) v) (combine raws ts) l /\ length raws = length ts.
Definition PP W kt vt l := exists raws, Forall2 (fun kv kv' => un (fst kv) (fst kv') /\ un (snd kv) (snd kv')) l raws /\ Forall (fun kv => plain (fst kv) /\ plain (snd kv)) raws /\
  Forall2 (fun kv kv' => st W (fst kv') kt (fst kv) /\ st W (snd kv') vt (snd kv)) l raws /\ Forall (fun kv => has W kt (fst kv)) l.
Definition PF W fs vs := exists raws, map fst vs = map f_name fs /\ map fst raws = map (fun nv => VStr (fst nv)) vs /\ Forall2 (fun kv kv' => fst kv' = VStr (fst kv) /\ un (snd kv) (snd kv')) vs raws /\
  Forall (fun kv => plain (snd kv)) raws /\ Forall2 (fun p kv' => st W (snd kv') (f_ty (fst p)) (snd (snd p))) (combine fs vs) raws.
Ltac one := exists 1; intros [|n] L; [lia|reflexivity].
Ltac prim v := exists v; split; [one|split; [exact I|split; [reflexivity|one]]].
Lemma st_seq W t raws l : Forall2 (fun raw v => st W raw t v) raws l -> ev (fun n => map_res (fun e => structure W n e t) raws) (Ok l).
Proof. intros H. apply (ev_map (fun n e => structure W n e t)). exact H. Qed.
Lemma in_existsb s l : In s l -> existsb (String.eqb s) l = true.
Proof. intros H. apply existsb_exists. exists s. split; [exact H|apply String.eqb_refl]. Qed.

Lemma round_trip W : proper W -> forall t v, has W t v -> P1 W t v.
Proof.
  intros Pr. apply (has_m W (P1 W) (PA W) (PE W) (PP W) (PF W)).
  - intros v H. exists v. split; [apply plain_un, H|]. split; [exact H|]. split; [reflexivity|one].
  - prim VNone.
  - intros b. prim (VBool b).
  - intros z. prim (VInt z).
  - intros b. prim (VBool b).
  - intros q. prim (VFloat q).
  - intros s. prim (VStr s).
  - intros s H. exists (VStr s). split; [one|split; [exact I|split; [reflexivity|]]]. exists 1. intros [|n] L; [lia|]. cbn [structure]. rewrite H. reflexivity.
  - intros s H Hp. exists (VStr s). split; [one|split; [exact I|split; [reflexivity|]]]. exists 1. intros [|n] L; [lia|]. cbn [structure]. unfold strip_torch. rewrite Hp, H. reflexivity.
  - intros s H. exists (VStr s). split; [one|split; [exact I|split; [reflexivity|]]]. exists 1. intros [|n] L; [lia|]. cbn [structure]. rewrite H. reflexivity.
  - intros c s H. exists (VStr s). split; [one|split; [exact I|split; [reflexivity|]]]. exists 1. intros [|n] L; [lia|]. cbn [structure]. rewrite in_existsb by exact H. reflexivity.
  - intros l s H. exists (VStr s). split; [one|split; [exact I|split; [reflexivity|]]]. exists 1. intros [|n] L; [lia|]. cbn [structure]. rewrite in_existsb by exact H. reflexivity.
  - intros t l _ (raws & A & B & C). exists (VList raws). split; [apply un_list, A|]. split; [apply plain_list, B|]. split; [reflexivity|].
    eapply ev_S; [|apply (ev_bind (fun n => map_res (fun e => structure W n e t) raws) l (fun _ l' => Ok (VList l'))); [apply st_seq, C|apply ev_const]]. reflexivity.
  - intros t l _ (raws & A & B & C) Hh D. exists (VList raws). split; [apply un_list, A|]. split; [apply plain_list, B|]. split; [reflexivity|].
    eapply ev_S; [|apply (ev_bind (fun n => map_res (fun e => structure W n e t) raws) l (fun _ l' => bindr (set_of [] l') (fun s => if Nat.eqb (List.length s) (List.length l') then Ok (VSet s) else Serr))); [apply st_seq, C|]]; [reflexivity|].
    rewrite (set_of_distinct l [] Hh D). simpl. rewrite Nat.eqb_refl. apply ev_const.
  - intros t l _ (raws & A & B & C). exists (VList raws). split; [apply un_list, A|]. split; [apply plain_list, B|]. split; [reflexivity|].
    eapply ev_S; [|apply (ev_bind (fun n => map_res (fun e => structure W n e t) raws) l (fun _ l' => Ok (VTuple l'))); [apply st_seq, C|apply ev_const]]. reflexivity.
  - intros ts l N _ (raws & A & B & C & E). exists (VList raws). split; [apply un_list, A|]. split; [apply plain_list, B|]. split; [reflexivity|].
    eapply ev_S; [|apply (ev_bind (fun n => map_res (fun et => structure W n (fst et) (snd et)) (combine raws ts)) l (fun _ l' => Ok (VTuple l'))); [apply (ev_map (fun n et => structure W n (fst et) (snd et))); exact C|apply ev_const]].
    intros n. cbn [structure elements]. rewrite E, Nat.eqb_refl. destruct ts; [congruence|]. reflexivity.
  - intros kt vt l K _ (raws & A & B & C & Hk) D.
    assert (R : map fst raws = map key_raw (map fst l)).
    { clear - A Hk K. induction A as [|kv kv' l raws [H1 _] A IH]; [reflexivity|]. inversion Hk; subst. simpl. f_equal; [|auto]. destruct (key_fact W kt (fst kv) K) as (U & _); [assumption|]. pose proof (ev_inj _ _ _ H1 U) as X. congruence. }
    assert (Hl : Forall (has W kt) (map fst l)) by (apply Forall_map; exact Hk).
    assert (DR : distinct (map fst raws)) by (rewrite R; apply (distinct_raw W kt); assumption).
    assert (HR : Forall (fun k => hashable k = true) (map fst raws)). { rewrite R, Forall_map. eapply Forall_impl; [|exact Hl]. intros a Ha. apply (key_fact W kt a K Ha). }
    assert (HL : Forall (fun k => hashable k = true) (map fst l)). { eapply Forall_impl; [|exact Hl]. intros a Ha. apply (key_fact W kt a K Ha). }
    exists (VDict raws). split; [|split; [|split; [reflexivity|]]].
    + apply un_dict; [|exact HR|exact DR]. clear - A B. induction A as [|kv kv' l raws [H1 H2] A IH]; [constructor|]. inversion B as [|? ? [B1 B2] B3]; subst. constructor; [|auto]. split; [exact H1|]. split; [exact H2|apply plain_un, B2].
    + apply plain_dict. auto.
    + eapply ev_S; [|apply (ev_bind (fun n => stdict_loop W n kt vt raws []) l (fun _ out => Ok (VDict out))); [|apply ev_const]]; [reflexivity|]. apply (stdict_ev W kt vt l raws); assumption.
  - intros t. exists VNone. split; [one|]. split; [exact I|]. split; [reflexivity|]. exists 1. intros [|n] L; [lia|]. cbn [structure length Nat.eqb existsb andb is_none]. rewrite orb_true_r. reflexivity.
  - intros t v _ (raw & A & B & F & C). exists raw. split; [exact A|]. split; [exact B|]. split; [exact F|].
    assert (Dn : raw = VNone \/ raw <> VNone) by (destruct raw; auto; right; discriminate). destruct Dn as [->|N]; [|apply st_optional; assumption].
    destruct v; try discriminate F. exists 1. intros [|n] L; [lia|]. cbn [structure length Nat.eqb existsb andb is_none]. rewrite orb_true_r. reflexivity.
  - intros ts1 t ts2 v E _ (raw & A & B & F & C) R. exists raw. split; [exact A|]. split; [exact B|]. split; [exact F|]. apply st_union; [exact E|]. apply union_ev; [exact B|rewrite F; exact R|exact C].
  - intros c vs _ (raws & E1 & E2 & A & B & C) Po. exists (VDict raws).
    assert (D : distinct (map fst raws)). { rewrite E2. replace (map (fun nv => VStr (fst nv)) vs) with (map VStr (map fst vs)) by (rewrite map_map; reflexivity). apply distinct_names. rewrite E1. apply Pr. }
    split; [apply un_data; assumption|]. split; [|split; [reflexivity|apply st_data; assumption]]. apply plain_dict. split; [|split; [rewrite E2, Forall_map; apply Forall_forall; reflexivity|exact D]].
    apply Forall_forall. intros kv Hkv. rewrite Forall_forall in B. split; [|apply B, Hkv]. apply (in_map fst) in Hkv. rewrite E2 in Hkv. apply in_map_iff in Hkv. destruct Hkv as (nv & <- & _). exact I.
  - intros t. exists []. repeat (split; [try reflexivity; constructor|]). try reflexivity; constructor.
  - intros t v l _ (raw & A & B & _ & C) _ (raws & A' & B' & C'). exists (raw :: raws). repeat (split; [constructor; assumption|]). constructor; assumption.
  - exists []. repeat (split; [try reflexivity; constructor|]). try reflexivity; constructor.
  - intros t v ts l _ (raw & A & B & _ & C) _ (raws & A' & B' & C' & E). exists (raw :: raws). repeat (split; [constructor; assumption|]). simpl. congruence.
  - intros kt vt. exists []. repeat (split; [try reflexivity; constructor|]). try reflexivity; constructor.
  - intros kt vt k v l Hk (rk & A & B & _ & C) _ (rv & A2 & B2 & _ & C2) _ (raws & A' & B' & C' & H'). exists ((rk, rv) :: raws). split; [constructor; auto|]. split; [constructor; auto|]. split; constructor; auto.
  - exists []. repeat (split; [try reflexivity; constructor|]). try reflexivity; constructor.
  - intros f v fs vs _ (raw & A & B & _ & C) _ (raws & E1 & E2 & A' & B' & C'). exists ((VStr (f_name f), raw) :: raws). simpl. rewrite E1, E2. split; [reflexivity|]. split; [reflexivity|]. split; [constructor; auto|]. split; constructor; auto.
Qed.
