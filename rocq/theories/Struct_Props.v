(** Theorems about structuring and unstructuring. *)
From Coq Require Import String List Bool Arith ZArith QArith Lia.
From Verif Require Import Struct_Model Struct_Spec Struct_Proofs Struct_Proofs2 Struct_Proofs3 Struct_Proofs4.
Import ListNotations.
Open Scope nat_scope. Open Scope string_scope. Open Scope list_scope.

(** A world for the examples. Class 0: Layer(dim: int, act: str | None = "relu"); class 1: Model(name: str, layers: list[Layer],
    scale: int | float = 1.0, size: int with init=False, child: Model | None = None); enumeration 0: CPU, GPU. *)
Definition digit (s : string) : option Z := if String.eqb s "5" then Some 5%Z else None.
Definition W0 : world :=
  World digit (fun s => match digit s with Some z => Some (inject_Z z) | None => None end)
    (fun s => if String.eqb s "float16" then Some "float16" else if String.eqb s "half" then Some "float16" else None)
    (fun s => if String.eqb s "cpu" then Some "cpu" else None) (fun s => s) (fun _ => ["CPU"; "GPU"])
    (fun c => match c with
              | 0 => [Field "dim" TInt true None; Field "act" (TUnion [TStr; TNone]) true (Some (VStr "relu"))]
              | 1 => [Field "name" TStr true None; Field "layers" (TList (TData 0)) true None; Field "size" TInt false None; Field "child" (TUnion [TData 1; TNone]) true (Some VNone)]
              | _ => []
              end)
    (fun c k kw => match lookup "layers" kw with Some (VList l) => VInt (Z.of_nat (List.length l)) | _ => VNone end).
Definition model0 : val :=
  VData 1 [("name", VStr "m"); ("layers", VList [VData 0 [("dim", VInt 4); ("act", VNone)]; VData 0 [("dim", VInt 8); ("act", VStr "gelu")]]); ("size", VInt 2);
           ("child", VData 1 [("name", VStr "n"); ("layers", VList []); ("size", VInt 0); ("child", VNone)])].
Lemma W0_proper : proper W0.
Proof. intros [|[|c]]; simpl; repeat constructor; simpl; intuition discriminate. Qed.

(** C41: structuring the unstructured value gives back the value; in between it is plain data. *)
Theorem C41_round_trip : forall W t v, proper W -> has W t v -> exists raw, unstructures v (Ok raw) /\ plain raw /\ structures W raw t (Ok v).
Proof. intros W t v Pr H. destruct (round_trip W Pr t v H) as (raw & A & B & _ & C). exists raw. split; [exact A|]. split; [exact B|exact C]. Qed.
Print Assumptions C41_round_trip.
Example C41_round_trip_ex : has W0 (TData 1) model0 /\
  unstructure 10 model0 = Ok (VDict [(VStr "name", VStr "m"); (VStr "layers", VList [VDict [(VStr "dim", VInt 4); (VStr "act", VNone)]; VDict [(VStr "dim", VInt 8); (VStr "act", VStr "gelu")]]); (VStr "size", VInt 2);
    (VStr "child", VDict [(VStr "name", VStr "n"); (VStr "layers", VList []); (VStr "size", VInt 0); (VStr "child", VNone)])]).
Proof.
  split; [|reflexivity].
  assert (L : forall z o, has W0 (TUnion [TStr; TNone]) o -> has W0 (TData 0) (VData 0 [("dim", VInt z); ("act", o)])).
  { intros z o Ho. constructor; [apply (hf_cons W0 (Field "dim" TInt true None)); [constructor|]; apply (hf_cons W0 (Field "act" (TUnion [TStr; TNone]) true (Some (VStr "relu")))); [exact Ho|constructor]|].
    unfold post_ok. simpl. repeat constructor; discriminate. }
  assert (M : forall nm ls c, has_all W0 (TData 0) ls -> has W0 (TUnion [TData 1; TNone]) c -> has W0 (TData 1) (VData 1 [("name", VStr nm); ("layers", VList ls); ("size", VInt (Z.of_nat (List.length ls))); ("child", c)])).
  { intros nm ls c Hl Hc. constructor.
    - apply (hf_cons W0 (Field "name" TStr true None)); [constructor|]. apply (hf_cons W0 (Field "layers" (TList (TData 0)) true None)); [constructor; exact Hl|].
      apply (hf_cons W0 (Field "size" TInt false None)); [constructor|]. apply (hf_cons W0 (Field "child" (TUnion [TData 1; TNone]) true (Some VNone))); [exact Hc|constructor].
    - unfold post_ok. simpl. repeat constructor; discriminate. }
  apply (M "m" [_; _]).
  - constructor; [apply L; constructor|]. constructor; [apply L; constructor; constructor|constructor].
  - apply h_optional. apply (M "n" []); constructor.
Qed.
Example C41_round_trip_ex2 : has W0 (TDict (TEnum 0) (TUnion [TLit ["a"]; TPath; TTuple [TInt; TSet TBool]; TNone])) (VDict [(VEnum 0 "GPU", VPath "/x"); (VEnum 0 "CPU", VTuple [VInt 3; VSet [VBool true; VBool false]])]).
Proof.
  apply h_dict; [exact I| |repeat constructor].
  constructor; [constructor; simpl; auto| |constructor; [constructor; simpl; auto| |constructor]].
  - apply (h_union W0 [TLit ["a"]] TPath); [reflexivity|constructor; reflexivity|repeat constructor].
  - apply (h_union W0 [TLit ["a"]; TPath]); [reflexivity| |repeat constructor]. constructor; [discriminate|]. constructor; [constructor|]. constructor; [|constructor]. constructor; [repeat constructor|repeat constructor|repeat constructor].
Qed.

(** C41: unstructuring gives plain data, which unstructuring leaves as it is. *)
Theorem C41_plain : forall v raw, unstructures v (Ok raw) -> plain raw /\ unstructures raw (Ok raw).
Proof. intros v raw (n0 & H). assert (P : plain raw) by (apply (un_plain n0 v), H; lia). split; [exact P|apply plain_un, P]. Qed.
Print Assumptions C41_plain.
Example C41_plain_ex : unstructures (VDict [(VPath "a", VTuple [VEnum 0 "CPU"; VSet [VInt 1]])]) (Ok (VDict [(VStr "a", VList [VStr "CPU"; VList [VInt 1]])])).
Proof. exists 6. intros n L. do 6 (destruct n as [|n]; [lia|]). reflexivity. Qed.

(** C41: whatever plain data structuring accepts for a type, the result is of this type, if the defaults of the dataclasses are. *)
Theorem C41_sound : forall W obj t v, proper W -> (forall c f d, In f (fields W c) -> f_default f = Some d -> ok W (f_ty f) d) -> plain obj -> structures W obj t (Ok v) -> ok W t v.
Proof. intros W obj t v Pr D P (n0 & H). apply (sound W Pr D n0 obj t v P). apply H. lia. Qed.
Print Assumptions C41_sound.
Example C41_sound_ex : proper W0 /\ (forall c f d, In f (fields W0 c) -> f_default f = Some d -> ok W0 (f_ty f) d) /\
  structure W0 10 (VDict [(VStr "layers", VList [VDict [(VStr "dim", VStr "5")]]); (VStr "name", VStr "m")]) (TData 1)
  = Ok (VData 1 [("name", VStr "m"); ("layers", VList [VData 0 [("dim", VInt 5); ("act", VStr "relu")]]); ("size", VInt 1); ("child", VNone)]).
Proof.
  split; [exact W0_proper|]. split; [|reflexivity]. intros [|[|c]] f d H E; simpl in H; repeat (destruct H as [<-|H]; [simpl in E; try discriminate; injection E as <-; simpl|]); try destruct H.
  - apply (o_union W0 _ TStr); [left; reflexivity|constructor].
  - apply (o_union W0 _ TNone); [right; left; reflexivity|constructor].
Qed.

(** C41: both functions end on every object and type, even if a dataclass refers to itself. *)
Theorem C41_ends : forall W obj t, (exists r, r <> Fuel /\ structures W obj t r) /\ exists r, r <> Fuel /\ unstructures obj r.
Proof. intros W obj t. split; [apply st_ends|apply un_ends]. Qed.
Print Assumptions C41_ends.
Example C41_ends_ex : structures W0 (VDict [(VStr "a", VInt 1)]) (TData 1) Serr.
Proof. exists 3. intros n L. do 3 (destruct n as [|n]; [lia|]). reflexivity. Qed.

(** C41: a mapping with a key that is no field, or without a required one, is rejected. *)
Theorem C41_extra : forall W c l k x n, In (VStr k, x) l -> ~ In k (map f_name (fields W c)) -> plain (VDict l) -> forall v, structure W n (VDict l) (TData c) <> Ok v.
Proof.
  intros W c l k x n Hk Hn P v H. destruct n as [|n]; [discriminate|]. cbn [structure] in H. apply bindr_ok in H. destruct H as (d & H1 & H). destruct n as [|n]; [discriminate|].
  change (bindr (stdict_loop W n TStr TObject l []) (fun out => Ok (VDict out)) = Ok d) in H1. apply bindr_ok in H1. destruct H1 as (out & H1 & E). injection E as <-.
  apply plain_dict in P. destruct P as (_ & _ & D).
  assert (O : out = l).
  { clear - H1 D. change l with ([] ++ l) in D at 1. change l with ([] ++ l) at 1. revert D H1. generalize (@nil (val * val)) as acc. induction l as [|[k y] l IH]; intros acc D H1; simpl in H1; [injection H1 as <-; rewrite app_nil_r; reflexivity|].
    apply bindr_ok in H1. destruct H1 as (k' & K1 & H1). apply bindr_ok in H1. destruct H1 as (y' & K2 & H1). apply bindr_ok in H1. destruct H1 as (acc' & K3 & H1).
    destruct n; [discriminate|]. cbn [structure] in K1, K2. injection K2 as <-. destruct k; try discriminate. injection K1 as <-. unfold set_item in K3. simpl in K3. injection K3 as <-.
    rewrite dict_set_new in H1; [|rewrite map_app in D; simpl in D; intros z Hz; eapply distinct_app_inv; eassumption]. rewrite (IH (acc ++ [(VStr s, y)])%list); [rewrite <- app_assoc; reflexivity|rewrite <- app_assoc; exact D|exact H1]. }
  subst out. apply bindr_ok in H. destruct H as ([kw rest] & H2 & H). simpl in H. destruct rest; [|discriminate].
  assert (T : forall fs values kw rest, take (structure W (S n)) fs values = Ok (kw, rest) -> In (VStr k, x) values -> ~ In k (map f_name fs) -> In (VStr k, x) rest).
  { clear. induction fs as [|f fs IH]; intros values kw rest H Hk Hn; simpl in H; [injection H as <- <-; exact Hk|].
    set (r := filter _ values) in H. assert (Hr : In (VStr k, x) r). { apply filter_In. split; [exact Hk|]. simpl. destruct (String.eqb_spec (f_name f) k) as [E|]; [exfalso; apply Hn; left; exact E|reflexivity]. }
    assert (Hn' : ~ In k (map f_name fs)) by (intros X; apply Hn; right; exact X).
    destruct (negb (f_init f)); [eapply IH; eassumption|]. destruct (find _ values).
    - apply bindr_ok in H. destruct H as (v' & _ & H). apply bindr_ok in H. destruct H as ([kw' rest'] & H & E). injection E as <- <-. eapply IH; eassumption.
    - destruct (f_default f); [eapply IH; eassumption|discriminate]. }
  destruct (T _ _ _ _ H2 Hk Hn).
Qed.
Print Assumptions C41_extra.
Example C41_extra_ex : structure W0 10 (VDict [(VStr "dim", VInt 1); (VStr "dimm", VInt 2)]) (TData 0) = Serr.
Proof. reflexivity. Qed.
Theorem C41_missing : forall W c l f n, proper W -> In f (fields W c) -> f_init f = true -> f_default f = None -> plain (VDict l) -> ~ In (VStr (f_name f)) (map fst l) -> forall v, structure W n (VDict l) (TData c) <> Ok v.
Proof.
  intros W c l f n Pr Hf Hi Hd P Hn v H. destruct n as [|n]; [discriminate|]. cbn [structure] in H. apply bindr_ok in H. destruct H as (d & H1 & H). destruct n as [|n]; [discriminate|].
  change (bindr (stdict_loop W n TStr TObject l []) (fun out => Ok (VDict out)) = Ok d) in H1. apply bindr_ok in H1. destruct H1 as (out & H1 & E). injection E as <-.
  assert (O : Forall (fun kv => (exists s, fst kv = VStr s /\ In (VStr s) (map fst l)) /\ True) out).
  { destruct (stdict_good W n TStr TObject (fun k => exists s, k = VStr s /\ In (VStr s) (map fst l)) (fun _ => True) l [] out) as (A & _); [| |apply good_nil|exact H1|exact A]; [|auto].
    intros k k' Hk E. destruct n; [discriminate|]. simpl in E. destruct k; try discriminate. injection E as <-. eauto. }
  apply bindr_ok in H. destruct H as ([kw rest] & H2 & _).
  assert (T : forall fs values kw rest, take (structure W (S n)) fs values = Ok (kw, rest) -> In f fs -> (forall kv, In kv values -> py_eq (VStr (f_name f)) (fst kv) = false) -> False).
  { clear - Hi Hd. induction fs as [|g fs IH]; intros values kw rest H Hf Hv; [destruct Hf|]. cbn [take] in H. cbv zeta in H. set (r := filter _ values) in H.
    assert (Hr : forall kv, In kv r -> py_eq (VStr (f_name f)) (fst kv) = false) by (intros kv Hkv; apply filter_In in Hkv; apply Hv, Hkv).
    destruct Hf as [->|Hf].
    - rewrite Hi in H. simpl negb in H. cbn iota in H. destruct (find _ values) as [kv|] eqn:E; [|rewrite Hd in H; discriminate]. apply find_some in E. destruct E as [E1 E2]. specialize (Hv kv E1). congruence.
    - destruct (negb (f_init g)); [eapply IH; eassumption|]. destruct (find _ values).
      + apply bindr_ok in H. destruct H as (v' & _ & H). apply bindr_ok in H. destruct H as ([kw' rest'] & H & E). eapply IH; eassumption.
      + destruct (f_default g); [eapply IH; eassumption|discriminate]. }
  apply (T _ _ _ _ H2 Hf). intros kv Hkv. rewrite Forall_forall in O. destruct (O kv Hkv) as ((s & E & Hs) & _). rewrite E. rewrite py_eq_str. apply String.eqb_neq. intros X. rewrite X in Hn. tauto.
Qed.
Print Assumptions C41_missing.
Example C41_missing_ex : structure W0 10 (VDict [(VStr "act", VNone)]) (TData 0) = Serr.
Proof. reflexivity. Qed.

(** C41: a field that is not given has its default. *)
Theorem C41_default : forall W c l f d v, proper W -> In f (fields W c) -> f_init f = true -> f_default f = Some d -> ~ In (VStr (f_name f)) (map fst l) -> structures W (VDict l) (TData c) (Ok v) ->
  exists vs, v = VData c vs /\ In (f_name f, d) vs.
Proof.
  intros W c l f d v Pr Hf Hi Hd Hn (n0 & H0). specialize (H0 (S (S n0)) ltac:(lia)). rename H0 into H. remember (S n0) as m eqn:Em. cbn [structure] in H. apply bindr_ok in H. destruct H as (d0 & H1 & H). subst m.
  change (bindr (stdict_loop W n0 TStr TObject l []) (fun out => Ok (VDict out)) = Ok d0) in H1. apply bindr_ok in H1. destruct H1 as (out & H1 & E). injection E as <-.
  assert (O : Forall (fun kv => (exists s, fst kv = VStr s /\ In (VStr s) (map fst l)) /\ True) out).
  { destruct (stdict_good W n0 TStr TObject (fun k => exists s, k = VStr s /\ In (VStr s) (map fst l)) (fun _ => True) l [] out) as (A & _); [| |apply good_nil|exact H1|exact A]; [|auto].
    intros k k' Hk E. destruct n0; [discriminate|]. simpl in E. destruct k; try discriminate. injection E as <-. eauto. }
  apply bindr_ok in H. destruct H as ([kw rest] & H2 & H). simpl in H. destruct rest; [|discriminate]. injection H as <-.
  assert (V : forall kv, In kv out -> py_eq (VStr (f_name f)) (fst kv) = false).
  { intros kv Hkv. rewrite Forall_forall in O. destruct (O kv Hkv) as ((s & E & Hs) & _). rewrite E. rewrite py_eq_str. apply String.eqb_neq. intros X. rewrite X in Hn. tauto. }
  assert (T : forall fs values kw rest, take (structure W (S n0)) fs values = Ok (kw, rest) -> (forall kv, In kv values -> py_eq (VStr (f_name f)) (fst kv) = false) -> lookup (f_name f) kw = None).
  { clear. induction fs as [|g fs IH]; intros values kw rest H Hv; cbn [take] in H; cbv zeta in H; [injection H as <- <-; reflexivity|]. set (r := filter _ values) in H.
    assert (Hr : forall kv, In kv r -> py_eq (VStr (f_name f)) (fst kv) = false) by (intros kv Hkv; apply filter_In in Hkv; apply Hv, Hkv).
    destruct (negb (f_init g)); [eapply IH; eassumption|]. destruct (find _ values) as [kv|] eqn:E.
    + apply bindr_ok in H. destruct H as (v' & _ & H). apply bindr_ok in H. destruct H as ([kw' rest'] & H & E'). injection E' as <- <-. cbn [lookup fst snd].
      apply find_some in E. destruct E as [E1 E2]. specialize (Hv kv E1). destruct (String.eqb_spec (f_name f) (f_name g)) as [X|X]; [rewrite X in Hv; congruence|eapply IH; eassumption].
    + destruct (f_default g); [eapply IH; eassumption|discriminate]. }
  eexists. split; [reflexivity|]. apply in_map_iff. exists f. split; [|exact Hf]. rewrite Hi, (T _ _ _ _ H2 V), Hd. reflexivity.
Qed.
Print Assumptions C41_default.
Example C41_default_ex : structures W0 (VDict [(VStr "dim", VInt 3)]) (TData 0) (Ok (VData 0 [("dim", VInt 3); ("act", VStr "relu")])).
Proof. exists 5. intros n L. do 5 (destruct n as [|n]; [lia|]). reflexivity. Qed.

(** The round trip fails for None | int: only None is accepted. *)
Theorem C41_none_first_refuted : forall W z, ok W (TUnion [TNone; TInt]) (VInt z) /\ unstructures (VInt z) (Ok (VInt z)) /\ structures W (VInt z) (TUnion [TNone; TInt]) Serr.
Proof. intros W z. split; [apply (o_union W _ TInt); [simpl; auto|constructor]|]. split; exists 2; intros n L; do 2 (destruct n as [|n]; [lia|]); reflexivity. Qed.
Print Assumptions C41_none_first_refuted.
(** ... for int | float: 7/2 comes back as 3; ... *)
Theorem C41_int_float_refuted : forall W, ok W (TUnion [TInt; TFloat]) (VFloat (7 # 2)) /\ unstructures (VFloat (7 # 2)) (Ok (VFloat (7 # 2))) /\ structures W (VFloat (7 # 2)) (TUnion [TInt; TFloat]) (Ok (VInt 3)).
Proof. intros W. split; [apply (o_union W _ TFloat); [simpl; auto|constructor]|]. split; exists 2; intros n L; do 2 (destruct n as [|n]; [lia|]); reflexivity. Qed.
Print Assumptions C41_int_float_refuted.
(** ... for int | str: a string of digits comes back as a number; ... *)
Theorem C41_int_str_refuted : forall W s z, parse_int W s = Some z -> ok W (TUnion [TInt; TStr]) (VStr s) /\ unstructures (VStr s) (Ok (VStr s)) /\ structures W (VStr s) (TUnion [TInt; TStr]) (Ok (VInt z)).
Proof. intros W s z H. split; [apply (o_union W _ TStr); [simpl; auto|constructor]|]. split; exists 2; intros n L; do 2 (destruct n as [|n]; [lia|]); [reflexivity|]. simpl. rewrite H. reflexivity. Qed.
Print Assumptions C41_int_str_refuted.
(** ... and mappings whose keys are tuples cannot be unstructured: a TypeError, not a StructureError, is raised. *)
Theorem C41_tuple_keys_refuted : forall W z, ok W (TDict (TTuple [TInt]) TInt) (VDict [(VTuple [VInt z], VInt 0)]) /\ unstructures (VDict [(VTuple [VInt z], VInt 0)]) Other.
Proof.
  intros W z. split; [|exists 3; intros n L; do 3 (destruct n as [|n]; [lia|]); reflexivity]. constructor; [|repeat constructor]. constructor; [|constructor]. split; simpl; [constructor; repeat constructor|constructor].
Qed.
Print Assumptions C41_tuple_keys_refuted.
(** Structuring is lenient where no value of the type was given: a string is split into a list, a fraction is cut off. *)
Theorem C41_lenient_refuted : forall W, structures W (VStr "ab") (TList TStr) (Ok (VList [VStr "a"; VStr "b"])) /\ structures W (VFloat (37 # 10)) TInt (Ok (VInt 3)).
Proof. intros W. split; exists 3; intros n L; do 3 (destruct n as [|n]; [lia|]); reflexivity. Qed.
Print Assumptions C41_lenient_refuted.
(** Keys that become equal are merged silently, the last value wins; equal elements of a set, in contrast, are reported. *)
Theorem C41_equal_keys_refuted : forall W s z a b, parse_int W s = Some z ->
  structures W (VDict [(VInt z, a); (VStr s, b)]) (TDict TInt TObject) (Ok (VDict [(VInt z, b)])) /\ structures W (VList [VInt z; VStr s]) (TSet TInt) Serr.
Proof.
  intros W s z a b H. assert (E : Qeq_bool (inject_Z z) (inject_Z z) = true) by (apply Qeq_bool_iff; reflexivity).
  split; exists 3; intros n L; do 3 (destruct n as [|n]; [lia|]); cbn [structure elements map_res to_int bindr]; rewrite H; cbn [bindr set_item hashable dict_set set_of existsb py_eq num app orb]; rewrite E; reflexivity.
Qed.
Print Assumptions C41_equal_keys_refuted.
Example C41_equal_keys_refuted_ex : parse_int W0 "5" = Some 5%Z. Proof. reflexivity. Qed.

(** C41: an object of another dataclass is not accepted. *)
Theorem C41_other_class : forall W c d l, c <> d -> structures W (VData d l) (TData c) Serr.
Proof. intros W c d l H. exists 1. intros n L. destruct n as [|n]; [lia|]. simpl. destruct (Nat.eqb_spec c d); [contradiction|reflexivity]. Qed.
Print Assumptions C41_other_class.
Example C41_other_class_ex : structures W0 (VData 1 []) (TData 0) Serr. Proof. apply C41_other_class. discriminate. Qed.
