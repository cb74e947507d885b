From Coq Require Import String List Bool Arith ZArith QArith Lia.
From Verif Require Import Struct_Model Struct_Spec Struct_Proofs Struct_Proofs2 Struct_Proofs3.
Import ListNotations.
Open Scope list_scope. Open Scope nat_scope.

(** Both functions end *)
Definition ends {A} (f : nat -> res A) : Prop := exists r, r <> Fuel /\ ev f r.
Lemma ends_const {A} (r : res A) : r <> Fuel -> ends (fun _ => r). Proof. intros H. exists r. split; [exact H|apply ev_const]. Qed.
Lemma ends_S {A} (f g : nat -> res A) : (forall n, g (S n) = f n) -> ends f -> ends g.
Proof. intros E (r & N & H). exists r. split; [exact N|]. eapply ev_S; eassumption. Qed.
Lemma ends_bind {A B} (f : nat -> res A) (g : nat -> A -> res B) : ends f -> (forall a, ev f (Ok a) -> ends (fun n => g n a)) -> ends (fun n => bindr (f n) (g n)).
Proof.
  intros (r & N & H) K. destruct r as [a| | |].
  - destruct (K a H) as (r' & N' & H'). exists r'. split; [exact N'|]. eapply ev_bind; eassumption.
  - exists Serr. split; [discriminate|]. destruct H as (n0 & H). exists n0. intros n L. rewrite H by exact L. reflexivity.
  - exists Other. split; [discriminate|]. destruct H as (n0 & H). exists n0. intros n L. rewrite H by exact L. reflexivity.
  - congruence.
Qed.
Lemma ends_map {A B} (f : nat -> A -> res B) l : (forall a, In a l -> ends (fun n => f n a)) -> ends (fun n => map_res (f n) l).
Proof.
  induction l as [|a l IH]; intros H; simpl; [apply ends_const; discriminate|]. apply (ends_bind (fun n => f n a) (fun n y => bindr (map_res (f n) l) (fun ys => Ok (y :: ys)))); [apply H; left; reflexivity|].
  intros b _. apply (ends_bind (fun n => map_res (f n) l) (fun n ys => Ok (b :: ys))); [apply IH; intros x Hx; apply H; right; exact Hx|]. intros ys _. apply ends_const. discriminate.
Qed.
Lemma ends_item k v l : set_item k v l <> Fuel. Proof. unfold set_item. destruct (hashable k); discriminate. Qed.
Lemma ends_set_of l : forall acc, set_of acc l <> Fuel. Proof. induction l as [|x l IH]; intros acc; simpl; [discriminate|]. destruct (hashable x); [apply IH|discriminate]. Qed.

Lemma un_ends v : ends (fun n => unstructure n v).
Proof.
  assert (One : forall v r, (forall n, unstructure (S n) v = Ok r) -> ends (fun n => unstructure n v)).
  { intros w r H. exists (Ok r). split; [discriminate|]. exists 1. intros [|n] L; [lia|apply H]. }
  assert (Seq : forall l, Forall (fun v => ends (fun n => unstructure n v)) l -> ends (fun n => bindr (map_res (unstructure n) l) (fun l' => Ok (VList l')))).
  { intros l H. apply (ends_bind (fun n => map_res (unstructure n) l) (fun _ l' => Ok (VList l'))); [|intros; apply ends_const; discriminate]. apply (ends_map unstructure). rewrite Forall_forall in H. exact H. }
  induction v using val_ind'; try (eapply One; reflexivity); try (eapply ends_S; [|apply Seq; eassumption]; reflexivity).
  - eapply ends_S with (f := fun n => bindr (undict_loop n l []) (fun out => Ok (VDict out))); [reflexivity|]. apply (ends_bind _ (fun _ out => Ok (VDict out))); [|intros; apply ends_const; discriminate].
    generalize (@nil (val * val)) as acc. induction H as [|[k x] l [H1 H2] F IH]; intros acc; simpl; [apply ends_const; discriminate|]. simpl in H1, H2.
    apply (ends_bind (fun n => unstructure n k) (fun n k' => bindr (unstructure n x) (fun x' => bindr (unstructure n x') (fun x'' => bindr (set_item k' x'' acc) (undict_loop n l))))); [exact H1|]. intros k' _.
    apply (ends_bind (fun n => unstructure n x) (fun n x' => bindr (unstructure n x') (fun x'' => bindr (set_item k' x'' acc) (undict_loop n l)))); [exact H2|]. intros x' Hx'.
    apply (ends_bind (fun n => unstructure n x') (fun n x'' => bindr (set_item k' x'' acc) (undict_loop n l))).
    { destruct Hx' as (n0 & Hx'). exists (Ok x'). split; [discriminate|]. apply plain_un. apply (un_plain n0 x x'). apply Hx'. lia. }
    intros x'' _. apply (ends_bind (fun n => set_item k' x'' acc) (fun n => undict_loop n l)); [apply ends_const, ends_item|]. intros acc' _. apply IH.
  - eapply ends_S with (f := fun n => bindr (undata_loop n l []) (fun out => Ok (VDict out))); [reflexivity|]. apply (ends_bind _ (fun _ out => Ok (VDict out))); [|intros; apply ends_const; discriminate].
    generalize (@nil (val * val)) as acc. induction H as [|[k x] l H2 F IH]; intros acc; [exists (Ok acc); split; [discriminate|exists 0; reflexivity]|]. simpl in H2.
    apply (ends_bind (fun n => unstructure n x) (fun n x' => bindr (set_item (VStr k) x' acc) (undata_loop n l))); [exact H2|]. intros x' _.
    apply (ends_bind (fun n => set_item (VStr k) x' acc) (fun n => undata_loop n l)); [apply ends_const, ends_item|]. intros acc' _. apply IH.
Qed.

Section TyInd.
  Variable P : ty -> Prop.
  Hypothesis H0 : forall t, match t with TList _ | TSet _ | TTupleH _ | TTuple _ | TDict _ _ | TUnion _ => True | _ => P t end.
  Hypothesis Hl : forall t, P t -> P (TList t). Hypothesis Hs : forall t, P t -> P (TSet t). Hypothesis Hh : forall t, P t -> P (TTupleH t).
  Hypothesis Ht : forall l, Forall P l -> P (TTuple l). Hypothesis Hd : forall k v, P k -> P v -> P (TDict k v). Hypothesis Hu : forall l, Forall P l -> P (TUnion l).
  Fixpoint ty_ind' (t : ty) : P t :=
    match t with
    | TList t => Hl t (ty_ind' t) | TSet t => Hs t (ty_ind' t) | TTupleH t => Hh t (ty_ind' t)
    | TTuple l => Ht l ((fix go l : Forall P l := match l with [] => Forall_nil _ | x :: l' => Forall_cons _ (ty_ind' x) (go l') end) l)
    | TUnion l => Hu l ((fix go l : Forall P l := match l with [] => Forall_nil _ | x :: l' => Forall_cons _ (ty_ind' x) (go l') end) l)
    | TDict k v => Hd k v (ty_ind' k) (ty_ind' v)
    | TObject => H0 TObject | TNone => H0 TNone | TBool => H0 TBool | TInt => H0 TInt | TFloat => H0 TFloat | TStr => H0 TStr | TPath => H0 TPath | TDtype => H0 TDtype | TDevice => H0 TDevice
    | TEnum c => H0 (TEnum c) | TLit l => H0 (TLit l) | TData c => H0 (TData c)
    end.
End TyInd.

Section E.
  Variable W : world.
  Definition se obj t := ends (fun n => structure W n obj t).
  Lemma ends_seq obj t l : (forall e, In e l -> se e t) -> elements obj = Some l -> se obj (TList t) /\ se obj (TTupleH t) /\ se obj (TSet t).
  Proof.
    intros H E. assert (M : ends (fun n => map_res (fun e => structure W n e t) l)) by (apply (ends_map (fun n e => structure W n e t)); exact H).
    split; [|split].
    - eapply ends_S with (f := fun n => bindr (map_res (fun e => structure W n e t) l) (fun l' => Ok (VList l'))); [intros n; cbn [structure]; rewrite E; reflexivity|]. apply (ends_bind _ (fun _ l' => Ok (VList l'))); [exact M|intros; apply ends_const; discriminate].
    - eapply ends_S with (f := fun n => bindr (map_res (fun e => structure W n e t) l) (fun l' => Ok (VTuple l'))); [intros n; cbn [structure]; rewrite E; reflexivity|]. apply (ends_bind _ (fun _ l' => Ok (VTuple l'))); [exact M|intros; apply ends_const; discriminate].
    - eapply ends_S with (f := fun n => bindr (map_res (fun e => structure W n e t) l) (fun l' => bindr (set_of [] l') (fun s => if Nat.eqb (List.length s) (List.length l') then Ok (VSet s) else Serr))).
      + intros n. cbn [structure]. rewrite E. destruct obj; try discriminate E; reflexivity.
      + apply (ends_bind _ (fun _ l' => bindr (set_of [] l') (fun s => if Nat.eqb (List.length s) (List.length l') then Ok (VSet s) else Serr))); [exact M|]. intros l' _. apply ends_const.
        pose proof (ends_set_of l' []) as N. destruct (set_of [] l'); simpl; try discriminate; [|congruence]. destruct (Nat.eqb _ _); discriminate.
  Qed.
  Lemma ends_tuple obj ts l : (forall e t, In e l -> In t ts -> se e t) -> elements obj = Some l -> se obj (TTuple ts).
  Proof.
    intros H E. eapply ends_S with (f := fun n => if Nat.eqb (List.length ts) 0 then Other else if negb (Nat.eqb (List.length l) (List.length ts)) then Serr else bindr (map_res (fun et => structure W n (fst et) (snd et)) (combine l ts)) (fun l' => Ok (VTuple l'))); [intros n; cbn [structure]; rewrite E; reflexivity|].
    destruct (Nat.eqb _ 0); [apply ends_const; discriminate|]. destruct (negb _); [apply ends_const; discriminate|].
    apply (ends_bind (fun n => map_res (fun et => structure W n (fst et) (snd et)) (combine l ts)) (fun _ l' => Ok (VTuple l'))); [|intros; apply ends_const; discriminate].
    apply (ends_map (fun n et => structure W n (fst et) (snd et))). intros [e t] He. simpl. apply H; [eapply in_combine_l, He|eapply in_combine_r, He].
  Qed.
  Lemma ends_union obj ts : (forall t, In t ts -> se obj t) -> se obj (TUnion ts).
  Proof.
    intros H. assert (K : forall b, ends (fun n => union_loop W n obj b ts)).
    { intros b. induction ts as [|t ts IH]; simpl; [apply ends_const; discriminate|]. destruct (H t (or_introl eq_refl)) as (r & N & E). destruct r as [v| | |]; [exists (Ok v)| |exists Other|congruence].
      - split; [discriminate|]. destruct E as (n0 & E). exists n0. intros n L. rewrite E by exact L. reflexivity.
      - destruct b; [exists Serr; split; [discriminate|]; destruct E as (n0 & E); exists n0; intros n L; rewrite E by exact L; reflexivity|].
        destruct IH as (r & N' & E'); [intros t' Ht'; apply H; right; exact Ht'|]. exists r. split; [exact N'|]. destruct E as (n0 & E), E' as (n1 & E'). exists (Nat.max n0 n1). intros n L. rewrite E by lia. apply E'. lia.
      - split; [discriminate|]. destruct E as (n0 & E). exists n0. intros n L. rewrite E by exact L. reflexivity. }
    unfold se. destruct (Nat.eqb (List.length ts) 2 && existsb is_none ts) eqn:O.
    - destruct obj; try (eapply ends_S; [|apply (K true)]; intros n; cbn [structure]; rewrite O; reflexivity). exists (Ok VNone). split; [discriminate|]. exists 1. intros [|n] L; [lia|]. cbn [structure]. rewrite O. reflexivity.
    - eapply ends_S; [|apply (K false)]. intros n. cbn [structure]. rewrite O. reflexivity.
  Qed.
  Lemma ends_dict l kt vt : Forall (fun kv => (forall t, se (fst kv) t) /\ (forall t, se (snd kv) t)) l -> se (VDict l) (TDict kt vt).
  Proof.
    intros H. eapply ends_S with (f := fun n => bindr (stdict_loop W n kt vt l []) (fun out => Ok (VDict out))); [reflexivity|]. apply (ends_bind _ (fun _ out => Ok (VDict out))); [|intros; apply ends_const; discriminate].
    generalize (@nil (val * val)) as acc. induction H as [|[k x] l [H1 H2] F IH]; intros acc; simpl; [apply ends_const; discriminate|].
    apply (ends_bind (fun n => structure W n k kt) (fun n k' => bindr (structure W n x vt) (fun x' => bindr (set_item k' x' acc) (stdict_loop W n kt vt l)))); [apply H1|]. intros k' _.
    apply (ends_bind (fun n => structure W n x vt) (fun n x' => bindr (set_item k' x' acc) (stdict_loop W n kt vt l))); [apply H2|]. intros x' _.
    apply (ends_bind (fun n => set_item k' x' acc) (fun n => stdict_loop W n kt vt l)); [apply ends_const, ends_item|]. intros acc' _. apply IH.
  Qed.
  Lemma ends_take fs : forall values, Forall (fun kv => forall t, se (snd kv) t) values -> ends (fun n => take (structure W n) fs values).
  Proof.
    induction fs as [|f fs IH]; intros values H; simpl; [apply ends_const; discriminate|]. set (rest := filter _ values).
    assert (R : ends (fun n => take (structure W n) fs rest)). { apply IH. apply Forall_forall. intros kv Hkv. apply filter_In in Hkv. rewrite Forall_forall in H. apply H, Hkv. }
    destruct (negb (f_init f)); [exact R|]. destruct (find _ values) as [[k x]|] eqn:E.
    - cbn [snd]. apply (ends_bind (fun n => structure W n x (f_ty f)) (fun n v' => bindr (take (structure W n) fs rest) (fun p => Ok ((f_name f, v') :: fst p, snd p)))).
      + apply find_some in E. rewrite Forall_forall in H. apply (H _ (proj1 E)).
      + intros v' _. apply (ends_bind _ (fun n p => Ok ((f_name f, v') :: fst p, snd p)) R). intros p _. apply ends_const. discriminate.
    - destruct (f_default f); [exact R|apply ends_const; discriminate].
  Qed.
  Lemma ends_data l c : Forall (fun kv => (forall t, se (fst kv) t) /\ (forall t, se (snd kv) t)) l -> se (VDict l) (TData c).
  Proof.
    intros H. eapply ends_S with (f := fun n => bindr (structure W n (VDict l) (TDict TStr TObject)) (fun d => match d with VDict values => bindr (take (structure W n) (fields W c) values) (fun p => match snd p with [] => Ok (construct W c (fst p)) | _ => Serr end) | _ => Serr end)); [reflexivity|].
    apply ends_bind; [apply ends_dict, H|]. intros d (n0 & Hd). destruct d; try (apply ends_const; discriminate).
    apply (ends_bind (fun n => take (structure W n) (fields W c) l0) (fun _ p => match snd p with [] => Ok (construct W c (fst p)) | _ => Serr end)).
    - apply ends_take. specialize (Hd (S n0) ltac:(lia)). change (bindr (stdict_loop W n0 TStr TObject l []) (fun out => Ok (VDict out)) = Ok (VDict l0)) in Hd. apply bindr_ok in Hd. destruct Hd as (out & Hd & E). injection E as <-.
      destruct (stdict_good W n0 TStr TObject (fun _ => True) (fun v => forall t, se v t) l [] out) as (A & _ & _); [auto| |apply good_nil|exact Hd|].
      + intros v v' Hv E. destruct n0; [discriminate|]. injection E as <-. apply in_map_iff in Hv. destruct Hv as (kv & <- & Hkv). rewrite Forall_forall in H. apply H, Hkv.
      + eapply Forall_impl; [|exact A]. simpl. tauto.
    - intros [kw rest] _. apply ends_const. simpl. destruct rest; discriminate.
  Qed.
  Ltac leaf := eexists; split; [|exists 1; intros [|n] L; [lia|]; cbn [structure elements]; reflexivity].
  Lemma leaf obj t : (forall n, exists r, r <> Fuel /\ structure W (S n) obj t = r /\ structure W 1 obj t = r) -> se obj t.
  Proof. intros H. destruct (H 0) as (r & N & E & _). exists r. split; [exact N|]. exists 1. intros [|n] L; [lia|]. destruct (H n) as (r' & _ & E1 & E2). congruence. Qed.
  Lemma simple obj t : match t with TList _ | TSet _ | TTupleH _ | TTuple _ | TDict _ _ | TUnion _ | TData _ => True | _ => se obj t end.
  Proof.
    destruct t; try exact I; apply leaf; intros n; eexists; (split; [|split; reflexivity]); cbn [structure]; destruct obj; cbn [to_int to_float]; try discriminate.
    - destruct (parse_int W s); discriminate.
    - destruct (parse_float W s); discriminate.
    - destruct (dtype W _); discriminate.
    - destruct (device W _); discriminate.
    - destruct (existsb _ _); discriminate.
    - destruct (Nat.eqb _ _); discriminate.
    - destruct (existsb _ _); discriminate.
  Qed.
  Lemma chars_str s e : In e (chars s) -> exists s', e = VStr s'.
  Proof. induction s; simpl; [intros []|]. intros [<-|H]; eauto. Qed.
  Lemma str_ends t : forall s, se (VStr s) t.
  Proof.
    apply (ty_ind' (fun t => forall s, se (VStr s) t)).
    - intros t'. destruct t'; try exact I; intros s; try (match goal with |- se ?o ?u => exact (simple o u) end). apply leaf. intros n. eexists. split; [|split; reflexivity]. discriminate.
    - intros t' IHt s. eapply (ends_seq (VStr s)); [|reflexivity]. intros e He. destruct (chars_str s e He) as (s' & ->). apply IHt.
    - intros t' IHt s. eapply (ends_seq (VStr s)); [|reflexivity]. intros e He. destruct (chars_str s e He) as (s' & ->). apply IHt.
    - intros t' IHt s. eapply (ends_seq (VStr s)); [|reflexivity]. intros e He. destruct (chars_str s e He) as (s' & ->). apply IHt.
    - intros l H s. eapply (ends_tuple (VStr s)); [|reflexivity]. intros e t' He Ht. destruct (chars_str s e He) as (s' & ->). rewrite Forall_forall in H. apply H, Ht.
    - intros k v _ _ s. apply leaf. intros n. eexists. split; [|split; reflexivity]. discriminate.
    - intros l H s. apply ends_union. intros t' Ht. rewrite Forall_forall in H. apply H, Ht.
  Qed.
  Lemma st_ends obj : forall t, se obj t.
  Proof.
    induction obj using val_ind'.
    all: try (intros t; apply str_ends).
    all: intros t; revert t; match goal with |- forall t, se ?o t => apply (ty_ind' (fun t => se o t)) end; intros;
      try (apply ends_union; intros t' Ht'; match goal with F : Forall _ _ |- _ => rewrite Forall_forall in F; apply F, Ht' end);
      try (match goal with |- match ?t with _ => _ end => destruct t; try exact I; try (match goal with |- se ?o ?u => exact (simple o u) end) end).
    all: try (apply leaf; intros n; eexists; (split; [|split; reflexivity]); cbn [structure elements]; discriminate).
    all: try (match goal with F : Forall _ ?l |- se (_ ?l) (TList _) => apply (ends_seq _ _ l); [intros e He; rewrite Forall_forall in F; apply F, He|reflexivity] end).
    all: try (match goal with F : Forall _ ?l |- se (_ ?l) (TTupleH _) => apply (ends_seq _ _ l); [intros e He; rewrite Forall_forall in F; apply F, He|reflexivity] end).
    all: try (match goal with F : Forall _ ?l |- se (VList ?l) (TSet _) => apply (ends_seq _ _ l); [intros e He; rewrite Forall_forall in F; apply F, He|reflexivity] end).
    all: try (match goal with F : Forall _ ?l |- se (VTuple ?l) (TSet _) => apply (ends_seq _ _ l); [intros e He; rewrite Forall_forall in F; apply F, He|reflexivity] end).
    all: try (match goal with F : Forall _ ?l |- se (_ ?l) (TTuple _) => apply (ends_tuple _ _ l); [intros e u He Hu; rewrite Forall_forall in F; apply F, He|reflexivity] end).
    all: try (apply ends_dict; assumption).
    all: try (apply ends_data; assumption).
    - eapply ends_S with (f := fun n => bindr (map_res (fun e => structure W n e t) l) (fun l' => bindr (set_of [] l') (fun s => Ok (VSet s)))); [reflexivity|].
      apply (ends_bind _ (fun _ l' => bindr (set_of [] l') (fun s => Ok (VSet s)))); [apply (ends_map (fun n e => structure W n e t)); intros e He; rewrite Forall_forall in H; apply H, He|].
      intros l' _. apply ends_const. pose proof (ends_set_of l' []) as N. destruct (set_of [] l'); simpl; congruence.
    - apply leaf. intros n. eexists. split; [|split; reflexivity]. cbn [structure]. destruct (Nat.eqb _ _); discriminate.
  Qed.
End E.
