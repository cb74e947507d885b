(** Proofs about zip. *)

From Coq Require Import Lia.
From Verif Require Import DP_Base DP_Spec DP_Sources_Model DP_Bucketing_Model DP_Multi_Model DP_Laws DP_Sources_Proofs
  DP_Sources_Proofs2 DP_Multi_Lemmas.

(** ** Streams *)
Lemma streams_step X s f : mono X -> streams X s f ->
  exists n s', next X n s = Some (Val (f 0), s') /\ streams X s' (fun i => f (S i)).
Proof.
  intros HM H. destruct (H 1) as (s1 & H1). simpl in H1. inversion H1 as [|? ? ? ? ? ? Hn Hy]; subst.
  inversion Hy; subst.
  exists n, s1. split; [assumption|]. intros k. destruct (H (S k)) as (s2 & H2).
  simpl in H2. inversion H2 as [|? ? ? ? ? ? Hn2 Hy2]; subst. pose proof (mono_det X HM _ _ _ _ _ Hn Hn2) as E. inv E. exists s2.
  rewrite <- seq_shift, map_map in Hy2. assumption.
Qed.

Lemma streams_intro X (Rep : St X -> (nat -> data) -> Prop) :
  (forall s f, Rep s f -> exists n s' g, next X n s = Some (Val (f 0), s') /\ Rep s' g /\ forall i, g i = f (S i)) ->
  forall s f, Rep s f -> streams X s f.
Proof.
  intros H s f HR k. revert s f HR. induction k as [|k IH]; intros s f HR; [exists s; constructor|].
  destruct (H s f HR) as (n & s1 & g & Hn & HR1 & Hg). destruct (IH s1 g HR1) as (s2 & H2). exists s2.
  simpl. econstructor; [exact Hn|]. rewrite <- seq_shift, map_map.
  erewrite map_ext; [exact H2|]. intros i. simpl. rewrite Hg. reflexivity.
Qed.

(** ** Contents of a vector of pipelines *)
Definition cholds (X : source) (s : St X) (c : content) : Prop :=
  match c with
  | CList l => holds X s l /\ forall s', finitude_type X s' <> PseudoInfinite
  | CStream f => streams X s f /\ forall s', finitude_type X s' = PseudoInfinite
  end.

Fixpoint hcholds (ps : list source) : hst ps -> list content -> Prop :=
  match ps return hst ps -> list content -> Prop with
  | [] => fun _ cs => cs = []
  | X :: r => fun s cs => match cs with
                          | [] => False
                          | c :: cs' => cholds X (fst s) c /\ hcholds r (snd s) cs'
                          end
  end.

Definition ctail (c : content) : content :=
  match c with CList l => CList (tl l) | CStream f => CStream (fun i => f (S i)) end.

Lemma item_ctail c i : item (ctail c) i = item c (S i).
Proof. destruct c as [[|d l]|f]; simpl; auto. destruct i; reflexivity. Qed.

Lemma cholds_step X s c : mono X -> cholds X s c ->
  exists n s', next X n s = Some (match item c 0 with Some d => Val d | None => Eod end, s') /\ cholds X s' (ctail c).
Proof.
  intros HM H. destruct c as [l|f]; destruct H as [H HF].
  - pose proof (holds_step X HM _ _ H) as HH. destruct l as [|d l]; destruct HH as (n & s' & Hn & Hs');
      exists n, s'; (split; [assumption|split; assumption]).
  - destruct (streams_step X s f HM H) as (n & s' & Hn & Hs'). exists n, s'. split; [assumption|split; assumption].
Qed.

Lemma hcholds_length ps s cs : hcholds ps s cs -> length cs = length ps.
Proof.
  revert s cs. induction ps as [|X ps IH]; intros s cs H; simpl in *; [subst; reflexivity|].
  destruct cs as [|c cs]; [contradiction|]. destruct H as [_ H]. simpl. f_equal. eauto.
Qed.

Definition is_stream (c : content) : bool := match c with CStream _ => true | _ => false end.

Lemma hcnext_step ps : Forall mono ps -> forall i s cs c, hcholds ps s cs -> nth_error cs i = Some c ->
  exists n s', hnext ps i n s = Some (match item c 0 with Some d => Val d | None => Eod end, s') /\
    hcholds ps s' (upd cs i (ctail c)) /\ fin_eqb (hfin ps i s') PseudoInfinite = is_stream c.
Proof.
  intros HF. induction HF as [|X ps HM HF IH]; intros i s cs c HH Hi; simpl in HH.
  - subst cs. destruct i; discriminate.
  - destruct s as [a b]. destruct cs as [|c0 cs]; [contradiction|]. destruct HH as [H0 HH]. simpl in H0, HH.
    destruct i as [|i]; simpl in Hi.
    + inv Hi. destruct (cholds_step X a c HM H0) as (n & s' & Hn & Hs'). exists n, (s', b). simpl. rewrite Hn.
      split; [reflexivity|]. split; [auto|]. destruct c as [l|f]; destruct H0 as [_ H0]; simpl.
      * specialize (H0 s'). destruct (finitude_type X s'); try reflexivity. contradiction.
      * rewrite H0. reflexivity.
    + destruct (IH i b cs c HH Hi) as (n & s' & Hn & Hs' & Hf). exists n, (a, s'). simpl. rewrite Hn. auto.
Qed.

Section ZipP.
  Variable ps : list source.
  Variable names : list string.
  Variables shortest flatten : bool.
  Notation zip := (src_zip ps names shortest flatten).
  Hypothesis HM : Forall mono ps.

  Lemma zip_fetch_mono n m : n <= m -> forall k i s r, zip_fetch ps n k i s = Some r -> zip_fetch ps m k i s = Some r.
  Proof.
    intros Hn k. induction k as [|k IH]; intros i s r H; [exact H|]. cbn [zip_fetch] in *.
    destruct (hnext ps i n s) as [[o s']|] eqn:E; [|discriminate]. rewrite (hnext_mono ps HM _ _ _ _ _ Hn E).
    destruct o as [d| |e]; [|  |assumption]; destruct (zip_fetch ps n k (S i) s') as [y|] eqn:Ef; try discriminate;
      rewrite (IH _ _ _ Ef); assumption.
  Qed.

  Lemma zip_mono : mono zip.
  Proof.
    intros n m s r Hn H. cbn [next src_zip] in *. unfold zip_next in *. destruct (length ps =? 0); auto.
    destruct (zip_fetch ps n (length ps) 0 s) as [y|] eqn:E; [|discriminate]. rewrite (zip_fetch_mono n m Hn _ _ _ _ E). assumption.
  Qed.

  Definition zcode (c : content) : nat := match item c 0 with None => 1 | Some _ => if is_stream c then 2 else 0 end.

  Lemma zip_fetch_run : forall k i s cs, hcholds ps s cs -> k + i = length ps ->
    exists n s', zip_fetch ps n k i s = Some (map (fun c => item c 0) (skipn i cs), map zcode (skipn i cs), None, s') /\
      hcholds ps s' (firstn i cs ++ map ctail (skipn i cs)).
  Proof.
    intros k. induction k as [|k IH]; intros i s cs HH Hk.
    - pose proof (hcholds_length _ _ _ HH) as HL. rewrite skipn_all2 by lia. rewrite firstn_all2 by lia.
      exists 0, s. simpl. rewrite app_nil_r. auto.
    - pose proof (hcholds_length _ _ _ HH) as HL.
      destruct (nth_error cs i) as [c|] eqn:Ec; [|apply nth_error_None in Ec; lia].
      destruct (hcnext_step ps HM i s cs c HH Ec) as (n & s1 & Hn & H1 & Hf).
      destruct (IH (S i) s1 (upd cs i (ctail c)) H1 ltac:(lia)) as (n2 & s2 & H2 & H3).
      exists (n + n2), s2.
      assert (Hsk : skipn i cs = c :: skipn (S i) cs).
      { clear -Ec. revert i Ec. induction cs as [|a cs IH]; intros [|i] Ec; try discriminate; simpl in Ec; [inv Ec; reflexivity|].
        change (skipn i cs = c :: skipn (S i) cs). apply IH. assumption. }
      assert (Hsu : skipn (S i) (upd cs i (ctail c)) = skipn (S i) cs).
      { clear. revert i. induction cs as [|a cs IH]; intros [|i]; try reflexivity. simpl. apply IH. }
      assert (Hfu : firstn (S i) (upd cs i (ctail c)) = firstn i cs ++ [ctail c]).
      { clear -Ec. revert i Ec. induction cs as [|a cs IH]; intros [|i] Ec; try discriminate; [reflexivity|].
        simpl in Ec. cbn [upd]. change (a :: firstn (S i) (upd cs i (ctail c)) = a :: firstn i cs ++ [ctail c]). f_equal. apply IH. assumption. }
      rewrite Hsu in H2, H3. rewrite Hfu in H3. rewrite <- app_assoc in H3. cbn [app] in H3.
      rewrite Hsk. cbn [map]. split; [|assumption].
      cbn [zip_fetch]. rewrite (hnext_mono ps HM _ n (n + n2) _ _ ltac:(lia) Hn).
      apply (zip_fetch_mono n2 (n + n2) ltac:(lia)) in H2. rewrite H2, Hf. unfold zcode.
      destruct (item c 0); reflexivity.
  Qed.

  Lemma zip_fetch_all s cs : hcholds ps s cs ->
    exists n s', zip_fetch ps n (length ps) 0 s = Some (map (fun c => item c 0) cs, map zcode cs, None, s') /\
      hcholds ps s' (map ctail cs).
  Proof. intros H. destruct (zip_fetch_run (length ps) 0 s cs H ltac:(lia)) as (n & s' & H1 & H2). exists n, s'. auto. Qed.

  (** *** The combined value *)
  Lemma existsb_none n (acc : list (string * data)) :
    ~ In n (map fst acc) -> existsb (fun p => String.eqb (fst p) n) acc = false.
  Proof.
    intros H. destruct (existsb _ acc) eqn:E; [|reflexivity]. apply existsb_exists in E. destruct E as (p & Hp & Hn).
    apply String.eqb_eq in Hn. destruct H. rewrite <- Hn. apply in_map. assumption.
  Qed.

  Lemma zip_names_spec ns : forall zs acc, length ns = length zs -> NoDup (map fst acc ++ ns) ->
    zip_names ns zs acc = acc ++ combine ns zs.
  Proof.
    induction ns as [|n ns IH]; intros zs acc HL HN; [simpl; rewrite app_nil_r; reflexivity|].
    destruct zs as [|z zs]; [discriminate|]. cbn [zip_names combine].
    rewrite existsb_none by (apply NoDup_remove_2 in HN; intros HX; apply HN; apply in_or_app; auto).
    rewrite IH.
    - rewrite <- app_assoc. reflexivity.
    - simpl in HL. lia.
    - rewrite map_app, <- app_assoc. exact HN.
  Qed.

  Lemma add_keys_spec kvs : forall acc, NoDup (map fst (acc ++ kvs)) -> add_keys kvs acc = Some (acc ++ kvs).
  Proof.
    induction kvs as [|[k v] kvs IH]; intros acc HN; [rewrite app_nil_r; reflexivity|]. cbn [add_keys].
    rewrite existsb_none.
    - rewrite IH; [rewrite <- app_assoc; reflexivity|]. rewrite <- app_assoc. exact HN.
    - rewrite map_app in HN. cbn [map fst] in HN. apply NoDup_remove_2 in HN. intros HX. apply HN. apply in_or_app. auto.
  Qed.

  Lemma NoDup_app_l {A} (a b : list A) : NoDup (a ++ b) -> NoDup a.
  Proof.
    induction a as [|x a IH]; intros H; [constructor|]. simpl in H. inversion H as [|? ? H1 H2]; subst. constructor; [|auto].
    intros HX. apply H1. apply in_or_app. auto.
  Qed.

  Lemma flatten_dict_spec kvs : forall acc, NoDup (map fst (acc ++ concat kvs)) ->
    flatten_dict (map DDict kvs) acc = Some (DDict (acc ++ concat kvs)).
  Proof.
    induction kvs as [|kv kvs IH]; intros acc HN; [simpl; rewrite app_nil_r; reflexivity|]. cbn [map flatten_dict concat] in *.
    rewrite app_assoc in HN. rewrite add_keys_spec.
    - rewrite IH by assumption. rewrite <- app_assoc. reflexivity.
    - rewrite map_app in HN. apply NoDup_app_l in HN. assumption.
  Qed.

  Lemma flatten_list_spec zs : forall acc, (forall kv, ~ In (DDict kv) zs) ->
    flatten_list zs acc = Some (DList (acc ++ flat_map (fun d => match d with DList l => l | _ => [d] end) zs)).
  Proof.
    induction zs as [|z zs IH]; intros acc HN; [simpl; rewrite app_nil_r; reflexivity|].
    assert (HN' : forall kv, ~ In (DDict kv) zs) by (intros kv Hk; apply (HN kv); right; assumption).
    cbn [flatten_list flat_map]. destruct z; try (rewrite IH by assumption; rewrite <- app_assoc; reflexivity).
    destruct (HN d (or_introl eq_refl)).
  Qed.

  Lemma zip_output_spec zs d : zip_value names flatten zs d -> zip_output names flatten zs = Val d.
  Proof.
    intros H. destruct H as [zs|ns zs H1 H2 H3|kvs H1 H2|zs H1]; unfold zip_output.
    - reflexivity.
    - rewrite zip_names_spec by assumption. destruct ns; [contradiction|reflexivity].
    - destruct kvs as [|kv kvs]; [contradiction|]. pose proof (flatten_dict_spec (kv :: kvs) [] H2) as HX. simpl in HX |- *.
      rewrite HX. reflexivity.
    - pose proof (flatten_list_spec zs [] H1) as HX. destruct zs as [|z zs]; [reflexivity|].
      destruct z; try (rewrite HX; reflexivity). destruct (H1 d (or_introl eq_refl)).
  Qed.

  (** *** Contents *)
  Lemma heads_items cs : flat_map opt_data (map (fun c => item c 0) cs) = items cs 0.
  Proof. unfold items, opt_data. rewrite flat_map_concat_map, map_map, <- flat_map_concat_map. reflexivity. Qed.

  Lemma items_ctail cs i : items (map ctail cs) i = items cs (S i).
  Proof.
    unfold items. rewrite !flat_map_concat_map, map_map. f_equal. apply map_ext. intros c. rewrite item_ctail. reflexivity.
  Qed.

  Lemma zip_step_val cs s d : hcholds ps s cs -> (exists l, In (CList l) cs) ->
    (forall l, In (CList l) cs -> l <> []) -> zip_value names flatten (items cs 0) d ->
    exists n s', next zip n s = Some (Val d, s') /\ hcholds ps s' (map ctail cs).
  Proof.
    intros HH [l0 Hl0] Hne Hd. destruct (zip_fetch_all s cs HH) as (n & s' & H1 & H2). exists n, s'. split; [|assumption].
    cbn [next src_zip]. unfold zip_next.
    destruct (Nat.eqb_spec (length ps) 0) as [E|_].
    { rewrite <- (hcholds_length _ _ _ HH) in E. destruct cs; [destruct Hl0|discriminate]. }
    rewrite H1, heads_items, (zip_output_spec _ _ Hd).
    assert (HA : forallb (fun c => (c =? 2) || (c =? 1)) (map zcode cs) = false).
    { destruct (forallb _ _) eqn:E; [|reflexivity]. rewrite forallb_forall in E.
      specialize (E (zcode (CList l0)) (in_map _ _ _ Hl0)). specialize (Hne l0 Hl0). destruct l0; [contradiction|discriminate]. }
    assert (HB : forallb (fun c => (c =? 2) || (c =? 0)) (map zcode cs) = true).
    { apply forallb_forall. intros x Hx. apply in_map_iff in Hx. destruct Hx as (c & <- & Hc).
      destruct c as [l|f]; [|reflexivity]. specialize (Hne l Hc). destruct l; [contradiction|reflexivity]. }
    rewrite HA, HB. reflexivity.
  Qed.

  Lemma zip_step_end cs s : hcholds ps s cs -> In (CList []) cs ->
    (shortest = true \/ forall l, In (CList l) cs -> l = []) ->
    exists n s', next zip n s = Some (Eod, s') /\ hcholds ps s' (map ctail cs).
  Proof.
    intros HH Hn Hs. destruct (zip_fetch_all s cs HH) as (n & s' & H1 & H2). exists n, s'. split; [|assumption].
    cbn [next src_zip]. unfold zip_next. destruct (Nat.eqb_spec (length ps) 0) as [E|_].
    { rewrite <- (hcholds_length _ _ _ HH) in E. destruct cs; [destruct Hn|discriminate]. }
    rewrite H1.
    assert (HB : forallb (fun c => (c =? 2) || (c =? 0)) (map zcode cs) = false).
    { destruct (forallb _ _) eqn:E; [|reflexivity]. rewrite forallb_forall in E.
      specialize (E (zcode (CList [])) (in_map _ _ _ Hn)). discriminate. }
    rewrite HB, orb_false_r. destruct (forallb (fun c => (c =? 2) || (c =? 1)) (map zcode cs)) eqn:E; [reflexivity|].
    cbn [negb]. destruct Hs as [->|Hs]; [reflexivity|].
    exfalso. rewrite <- not_true_iff_false in E. apply E. apply forallb_forall. intros x Hx.
    apply in_map_iff in Hx. destruct Hx as (c & <- & Hc). destruct c as [l|f]; [|reflexivity]. rewrite (Hs l Hc). reflexivity.
  Qed.
  Lemma in_ctail l cs : In (CList l) (map ctail cs) <-> exists l0, In (CList l0) cs /\ l = tl l0.
  Proof.
    rewrite in_map_iff. split.
    - intros (c & Hc & Hin). destruct c as [l0|f]; simpl in Hc; [|discriminate]. inv Hc. eauto.
    - intros (l0 & Hin & ->). exists (CList l0). auto.
  Qed.

  (** [out] is the result of zipping: as many elements as the shortest list has; without [shortest] all lists have the same
      length. *)
  Definition zip_ok (cs : list content) (out : list data) : Prop :=
    (exists l, In (CList l) cs /\ length l = length out) /\
    (forall l, In (CList l) cs -> length out <= length l /\ (shortest = false -> length l = length out)) /\
    (forall i d, nth_error out i = Some d -> zip_value names flatten (items cs i) d).

  Lemma zip_holds s cs out : hcholds ps s cs -> zip_ok cs out -> holds zip s out.
  Proof.
    intros HH Ho.
    apply (progress_holds zip (fun (s : hst ps) out => exists cs, hcholds ps s cs /\
      (zip_ok cs out \/ out = [] /\ In (CList []) cs /\ (shortest = true \/ forall l, In (CList l) cs -> l = []))));
      [apply zip_mono| |eauto].
    clear s cs out HH Ho. intros s out (cs & HH & Ho).
    destruct out as [|d out].
    - assert (HE : In (CList []) cs /\ (shortest = true \/ forall l, In (CList l) cs -> l = [])).
      { destruct Ho as [((l & Hl & HL) & Ho & _)|(_ & Ho)]; [|assumption].
        split; [destruct l; [assumption|discriminate]|].
        destruct shortest; [auto|]. right. intros l1 H1. destruct (Ho l1 H1) as [_ Ho1].
        specialize (Ho1 eq_refl). destruct l1; [reflexivity|discriminate]. }
      destruct HE as [HE1 HE2]. destruct (zip_step_end cs s HH HE1 HE2) as (n & s' & Hn & Hs').
      exists n, s'. split; [assumption|]. exists (map ctail cs). split; [assumption|]. right. split; [reflexivity|].
      split; [apply in_ctail; exists []; auto|]. destruct HE2 as [|HE2]; [auto|]. right.
      intros l Hl. apply in_ctail in Hl. destruct Hl as (l0 & Hl0 & ->). rewrite (HE2 l0 Hl0). reflexivity.
    - destruct Ho as [((l & Hl & HL) & Ho & Hv)|(Ho & _)]; [|discriminate].
      destruct (zip_step_val cs s d HH) as (n & s' & Hn & Hs'); [eauto| |apply (Hv 0); reflexivity|].
      { intros l1 H1 ->. destruct (Ho [] H1) as [Ho1 _]. simpl in Ho1. lia. }
      exists n, s'. split; [assumption|]. exists (map ctail cs). split; [assumption|]. left. split; [|split].
      + exists (tl l). split; [apply in_ctail; eauto|]. destruct l; simpl in *; lia.
      + intros l1 H1. apply in_ctail in H1. destruct H1 as (l0 & Hl0 & ->). destruct (Ho l0 Hl0) as [A B].
        destruct l0; simpl in *; [lia|]. split; [lia|]. intros E. specialize (B E). lia.
      + intros i d1 Hi. rewrite items_ctail. apply Hv. assumption.
  Qed.

  (** Without [shortest], different lengths are an error once the shortest pipeline ends. *)
  Lemma zip_mismatch out : forall s cs, shortest = false -> hcholds ps s cs ->
    (exists l, In (CList l) cs /\ length l = length out) ->
    (exists l, In (CList l) cs /\ length out < length l) ->
    (forall l, In (CList l) cs -> length out <= length l) ->
    (forall i d, nth_error out i = Some d -> zip_value names flatten (items cs i) d) ->
    exists s', yields zip s (map Val out ++ [Err Fatal]) s'.
  Proof.
    induction out as [|d out IH]; intros s cs Hsh HH (l1 & Hl1 & HL1) (l2 & Hl2 & HL2) Hle Hv.
    - destruct (zip_fetch_all s cs HH) as (n & s' & H1 & H2). exists s'. simpl. apply yields_cons with (n := n) (s1 := s'); [|constructor].
      cbn [next src_zip]. unfold zip_next. destruct (Nat.eqb_spec (length ps) 0) as [E|_].
      { rewrite <- (hcholds_length _ _ _ HH) in E. destruct cs; [destruct Hl1|discriminate]. }
      rewrite H1.
      assert (HA : forallb (fun c => (c =? 2) || (c =? 1)) (map zcode cs) = false).
      { apply not_true_iff_false. intros E. rewrite forallb_forall in E.
        specialize (E (zcode (CList l2)) (in_map _ _ _ Hl2)). destruct l2; [simpl in HL2; lia|discriminate]. }
      assert (HB : forallb (fun c => (c =? 2) || (c =? 0)) (map zcode cs) = false).
      { apply not_true_iff_false. intros E. rewrite forallb_forall in E.
        specialize (E (zcode (CList l1)) (in_map _ _ _ Hl1)). destruct l1; discriminate. }
      rewrite HA, HB, Hsh. reflexivity.
    - destruct (zip_step_val cs s d HH) as (n & s' & Hn & Hs'); [eauto| |apply (Hv 0); reflexivity|].
      { intros l H ->. specialize (Hle [] H). simpl in Hle. lia. }
      destruct (IH s' (map ctail cs) Hsh Hs') as (s2 & H2).
      + exists (tl l1). split; [apply in_ctail; eauto|]. destruct l1; simpl in *; lia.
      + exists (tl l2). split; [apply in_ctail; eauto|]. destruct l2; simpl in *; lia.
      + intros l Hl. apply in_ctail in Hl. destruct Hl as (l0 & Hl0 & ->). specialize (Hle l0 Hl0). destruct l0; simpl in *; lia.
      + intros i d1 Hi. rewrite items_ctail. apply Hv. assumption.
      + exists s2. simpl. econstructor; eassumption.
  Qed.

  (** A zip of endless pipelines only ends immediately. *)
  Lemma zip_streams_end s cs : hcholds ps s cs -> (forall l, ~ In (CList l) cs) -> holds zip s [].
  Proof.
    intros HH Ho.
    apply (progress_holds zip (fun (s : hst ps) out => exists cs, hcholds ps s cs /\ (forall l, ~ In (CList l) cs) /\ out = []));
      [apply zip_mono| |eauto].
    clear s cs HH Ho. intros s out (cs & HH & Ho & ->).
    destruct (zip_fetch_all s cs HH) as (n & s' & H1 & H2).
    cbn [next src_zip]. unfold zip_next. destruct (length ps =? 0).
    { exists 0, s. split; [reflexivity|]. eauto. }
    exists n, s'. rewrite H1.
    assert (HA : forallb (fun c => (c =? 2) || (c =? 1)) (map zcode cs) = true).
    { apply forallb_forall. intros x Hx. apply in_map_iff in Hx. destruct Hx as (c & <- & Hc).
      destruct c as [l|f]; [destruct (Ho l Hc)|reflexivity]. }
    rewrite HA. split; [reflexivity|]. exists (map ctail cs). split; [assumption|]. split; [|reflexivity].
    intros l Hl. apply in_ctail in Hl. destruct Hl as (l0 & Hl0 & _). exact (Ho l0 Hl0).
  Qed.
End ZipP.

(** *** Positions *)
Section ZipPos.
  Variable ps : list source.
  Variable names : list string.
  Variables shortest flatten : bool.
  Notation zip := (src_zip ps names shortest flatten).

  Lemma zip_cong a b : hequiv ps a b -> equiv zip a b.
  Proof.
    intros H. exists (hequiv ps). split; [|assumption]. clear a b H. intros a b H. split; [|split]; simpl.
    - intros n. unfold zip_next. destruct (length ps =? 0); [simpl; auto|].
      assert (G : forall k i a b, hequiv ps a b ->
        match zip_fetch ps n k i a, zip_fetch ps n k i b with
        | Some (z, c, e, s), Some (z', c', e', s') => z = z' /\ c = c' /\ e = e' /\ hequiv ps s s'
        | None, None => True
        | _, _ => False
        end).
      { clear a b H. intros k. induction k as [|k IH]; intros i a b H; [simpl; auto|]. cbn [zip_fetch].
        pose proof (hequiv_next ps i n a b H) as HN.
        destruct (hnext ps i n a) as [[o a']|], (hnext ps i n b) as [[o' b']|]; simpl in HN; try contradiction; auto.
        destruct HN as [<- HN]. specialize (IH (S i) a' b' HN). rewrite (hequiv_fin ps i a' b' HN).
        destruct o as [d| |e]; [| |auto]; destruct (zip_fetch ps n k (S i) a') as [[[[z c] e] s]|];
          destruct (zip_fetch ps n k (S i) b') as [[[[z' c'] e'] s']|]; try contradiction; auto;
          destruct IH as (<- & <- & <- & IH); auto. }
      specialize (G (length ps) 0 a b H).
      destruct (zip_fetch ps n (length ps) 0 a) as [[[[z c] e] s]|];
        destruct (zip_fetch ps n (length ps) 0 b) as [[[[z' c'] e'] s']|]; try contradiction; [|simpl; auto].
      destruct G as (<- & <- & <- & G). destruct e as [e|]; [simpl; auto|].
      destruct (negb _); [destruct shortest; simpl; auto|]. destruct (forallb _ c); simpl; auto.
    - intros g. apply hequiv_reset; assumption.
    - reflexivity.
  Qed.

  Variable clean : bool.
  Variables Is Ts : hpred ps.
  Hypothesis HR : hresumable clean ps Is Ts.
  (** The errors of flattening are recoverable. *)
  Hypothesis Hfl : clean = true -> flatten = false.

  Lemma zip_resumable : resumable clean zip (hall ps Is) (hall ps Ts).
  Proof.
    constructor; simpl.
    - apply (hall_init clean ps Is Ts HR).
    - apply (hall_init clean ps Is Ts HR).
    - intros n s o s' Hs H. unfold zip_next in H. destruct (length ps =? 0); [inv H; simpl; auto|].
      assert (G : forall k i s z c e s', hall ps Is s -> k + i = length ps -> zip_fetch ps n k i s = Some (z, c, e, s') ->
         match e with None => hall ps Is s' | Some e => okstep clean (hall ps Is s') (Err e) end).
      { intros k. induction k as [|k IH]; intros i s1 z c e s2 Hs1 Hk HX; cbn [zip_fetch] in HX; [inv HX; auto|].
        destruct (hnext ps i n s1) as [[o1 s3]|] eqn:E; [|discriminate].
        pose proof (hall_next clean ps Is Ts HR i n s1 o1 s3 Hs1 ltac:(lia) E) as Hs3.
        destruct o1 as [d| |e1]; [| |inv HX; auto];
          (destruct (zip_fetch ps n k (S i) s3) as [[[[z1 c1] e1] s4]|] eqn:E1; [|discriminate]; inv HX;
           eapply (IH (S i)); [eassumption| |eassumption]; lia). }
      destruct (zip_fetch ps n (length ps) 0 s) as [[[[z c] e] s1]|] eqn:E; [|discriminate].
      pose proof (G (length ps) 0 s z c e s1 Hs ltac:(lia) E) as Hs1.
      destruct e as [e|]; [inv H; auto|].
      destruct (negb _); [destruct shortest; inv H; simpl; auto|]. destruct (forallb _ c); [inv H; simpl; auto|]. inv H.
      apply okstep_intro; [assumption|]. unfold zip_output. destruct flatten.
      + destruct (match flat_map opt_data z with DDict _ :: _ => _ | _ => _ end); simpl; auto.
        destruct clean; [specialize (Hfl eq_refl); discriminate|reflexivity].
      + destruct names; simpl; auto.
    - intros g s Hs. eapply hall_reset; eassumption.
    - intros s s0 Hs Ht. destruct (hall_resume clean ps Is Ts s s0 HR Hs Ht) as (t & Hr & Hl).
      exists t. split; auto. intros rest. destruct (Hl rest) as (s1 & E & He & Hi). exists s1. auto using zip_cong.
  Qed.

  Lemma zip_restarts g : hrestarts g ps Is -> restarts zip (hall ps Is) g.
  Proof. intros H s Hs. apply zip_cong. simpl. eapply hrestart; eassumption. Qed.
End ZipPos.
