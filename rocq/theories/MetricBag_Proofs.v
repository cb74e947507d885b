From Coq Require Import String List Bool Arith Lia.
From Verif Require Import MetricBag_Model MetricBag_Spec.
Import ListNotations.
Local Open Scope nat_scope.

Section P.
  Variable MV : Type.
  Variable mreset : MV -> MV.
  Notation step := (step mreset).
  Notation run := (run mreset).
  Implicit Types (w : world MV) (h : list MV).

  Lemma run_app ops1 ops2 w : run (ops1 ++ ops2) w = run ops2 (run ops1 w).
  Proof. revert w. induction ops1; intros w; simpl; auto. Qed.

  Lemma set_nth_length {A} (l : list A) i x : length (set_nth l i x) = length l.
  Proof. revert i. induction l; intros [|i]; simpl; auto. Qed.

  Lemma set_nth_same {A} (l : list A) i x : i < length l -> nth_error (set_nth l i x) i = Some x.
  Proof. revert i. induction l; intros [|i] H; simpl in *; try lia; auto. apply IHl. lia. Qed.

  Lemma set_nth_other {A} (l : list A) i j x : i <> j -> nth_error (set_nth l i x) j = nth_error l j.
  Proof. revert i j. induction l; intros [|i] [|j] H; simpl; auto; try congruence. Qed.

  Lemma upd_length h r f : length (upd_ref h r f) = length h.
  Proof. unfold upd_ref. destruct (nth_error h r); auto using set_nth_length. Qed.

  Lemma upd_nth h r f j : nth_error (upd_ref h r f) j =
    if j =? r then option_map f (nth_error h j) else nth_error h j.
  Proof.
    unfold upd_ref. destruct (Nat.eqb_spec j r) as [->|N].
    - destruct (nth_error h r) eqn:E; simpl; [|rewrite E; reflexivity].
      apply set_nth_same. apply nth_error_Some. congruence.
    - destruct (nth_error h r); auto. apply set_nth_other. auto.
  Qed.

  Lemma load_loop_length ms : forall sd h, length (fst (load_loop ms sd h)) = length h.
  Proof.
    induction ms as [|[n r] ms IH]; intros sd h; simpl; [reflexivity|].
    destruct (lookup n sd) as [[v|]|]; simpl; auto. rewrite IH. apply upd_length.
  Qed.

  Lemma load_loop_other ms : forall sd h j, ~ In j (map snd ms) -> nth_error (fst (load_loop ms sd h)) j = nth_error h j.
  Proof.
    induction ms as [|[n r] ms IH]; intros sd h j H; simpl in *; [reflexivity|].
    destruct (lookup n sd) as [[v|]|]; simpl; auto. rewrite IH by tauto. rewrite upd_nth.
    destruct (Nat.eqb_spec j r); [subst; tauto|reflexivity].
  Qed.

  Lemma reset_length m : forall h, length (fold_left (fun h (kv : string * ref) => upd_ref h (snd kv) mreset) m h) = length h.
  Proof. induction m; intros h; simpl; auto. rewrite IHm. apply upd_length. Qed.

  Lemma reset_other m : forall h j, ~ In j (map snd m) ->
    nth_error (fold_left (fun h (kv : string * ref) => upd_ref h (snd kv) mreset) m h) j = nth_error h j.
  Proof.
    induction m as [|[n r] m IH]; intros h j H; simpl in *; auto. rewrite IH by tauto. rewrite upd_nth.
    destruct (Nat.eqb_spec j r); [subst; tauto|reflexivity].
  Qed.

  (** References are valid; those of the saved copies are known to nobody else. *)
  Definition ok w : Prop :=
    (forall r, In r (vars w) \/ In r (map snd (metrics w)) -> r < length (heap w)) /\
    match original w with
    | None => True
    | Some d => forall r, In r (map snd d) -> r < length (heap w) /\ ~ In r (vars w) /\ ~ In r (map snd (metrics w))
    end.

  Lemma lookup_in {A} name (d : list (string * A)) x : lookup name d = Some x -> In x (map snd d).
  Proof.
    unfold lookup. destruct (find _ d) as [kv|] eqn:E; [|discriminate]. intros H. inversion H; subst.
    apply find_some in E. apply in_map. apply E.
  Qed.

  Lemma copy_in n d r : In r (map snd (copy_dict n d)) -> exists r0, r = r0 + n /\ In r0 (map snd d).
  Proof.
    unfold copy_dict. rewrite map_map. simpl. intros H. apply in_map_iff in H. destruct H as (kv & <- & H).
    exists (snd kv). split; auto. apply in_map. assumption.
  Qed.

  Lemma step_ok o w : ok w -> ok (fst (step o w)).
  Proof.
    destruct w as [h m orig vs]. intros [H1 H2]. simpl in H1, H2.
    assert (Hid : ok (W h m orig vs)) by (split; assumption).
    destruct o as [v|i f|name|name i| | | | |sd]; simpl.
    - split; simpl.
      + intros r [H|H]; rewrite app_length; simpl.
        * apply in_app_or in H. destruct H as [H|[<-|[]]]; [|lia]. pose proof (H1 r (or_introl H)). lia.
        * pose proof (H1 r (or_intror H)). lia.
      + destruct orig as [d|]; auto. intros r Hr. destruct (H2 r Hr) as (A & B & C). rewrite app_length. simpl.
        split; [lia|]. split; [|assumption]. intros HX. apply in_app_or in HX. destruct HX as [HX|[<-|[]]]; [auto|lia].
    - destruct (nth_error vs i); [|exact Hid]. split; simpl; rewrite upd_length; assumption.
    - destruct (lookup name m) as [r|] eqn:E; [|exact Hid]. apply lookup_in in E. split; simpl.
      + intros r0 [H|H]; [|auto]. apply in_app_or in H. destruct H as [H|[<-|[]]]; auto.
      + destruct orig as [d|]; auto. intros r0 Hr. destruct (H2 r0 Hr) as (A & B & C). split; [assumption|]. split; [|assumption].
        intros HX. apply in_app_or in HX. destruct HX as [HX|[<-|[]]]; auto.
    - destruct (lookup name m); [exact Hid|]. destruct (nth_error vs i) as [r|] eqn:E; [|exact Hid].
      apply nth_error_In in E. split; simpl.
      + intros r0 [H|H]; [auto|]. rewrite map_app in H. apply in_app_or in H. destruct H as [H|[<-|[]]]; auto.
      + destruct orig as [d|]; auto. intros r0 Hr. destruct (H2 r0 Hr) as (A & B & C). split; [assumption|]. split; [assumption|].
        rewrite map_app. intros HX. apply in_app_or in HX. destruct HX as [HX|[<-|[]]]; auto.
    - destruct orig as [d|]; [exact Hid|]. split; simpl.
      + intros r Hr. rewrite app_length. pose proof (H1 r Hr). lia.
      + intros r Hr. apply copy_in in Hr. destruct Hr as (r0 & -> & Hr). rewrite app_length.
        pose proof (H1 r0 (or_intror Hr)). split; [lia|]. split; intros HX; [pose proof (H1 _ (or_introl HX))|pose proof (H1 _ (or_intror HX))]; lia.
    - destruct orig as [d|]; [|exact Hid]. split; simpl; auto.
    - destruct orig as [d|]; [|exact Hid]. split; simpl; auto. intros r [H|H]; [auto|]. apply H2. assumption.
    - split; simpl; rewrite reset_length; assumption.
    - destruct (load_loop m sd h) as [h' e] eqn:E. pose proof (load_loop_length m sd h) as HL. rewrite E in HL. simpl in HL.
      split; simpl; rewrite HL; assumption.
  Qed.

  Lemma run_ok ops : forall w, ok w -> ok (run ops w).
  Proof. induction ops; intros w H; simpl; auto using step_ok. Qed.

  Lemma init_ok : ok init.
  Proof. split; simpl; [intros r [[]|[]]|exact Logic.I]. Qed.

  (** Inside a transaction nothing touches the saved copies. *)
  Lemma inside_keeps o w d : ok w -> inside o -> original w = Some d ->
    original (fst (step o w)) = Some d /\ forall r, In r (map snd d) -> nth_error (heap (fst (step o w))) r = nth_error (heap w) r.
  Proof.
    destruct w as [h m orig vs]. intros [H1 H2] Hi Ho. simpl in *. subst orig.
    destruct o as [v|i f|name|name i| | | | |sd]; simpl in *; try contradiction.
    - split; auto. intros r Hr. apply nth_error_app1. apply H2. assumption.
    - destruct (nth_error vs i) as [r0|] eqn:E; simpl; [|auto]. split; auto. intros r Hr. rewrite upd_nth.
      destruct (Nat.eqb_spec r r0); [|reflexivity]. subst. apply nth_error_In in E. destruct (H2 _ Hr) as (_ & HX & _). contradiction.
    - destruct (lookup name m); simpl; auto.
    - destruct (lookup name m); simpl; auto. destruct (nth_error vs i); simpl; auto.
    - split; auto. intros r Hr. apply reset_other. apply H2. assumption.
    - destruct (load_loop m sd h) as [h' e] eqn:E. simpl. split; auto. intros r Hr.
      pose proof (load_loop_other m sd h r) as HL. rewrite E in HL. apply HL. apply H2. assumption.
  Qed.

  Lemma inside_run ops d : forall w, ok w -> Forall inside ops -> original w = Some d ->
    original (run ops w) = Some d /\ forall r, In r (map snd d) -> nth_error (heap (run ops w)) r = nth_error (heap w) r.
  Proof.
    induction ops as [|o ops IH]; intros w Hw HF Ho; simpl; [auto|].
    inversion HF; subst. destruct (inside_keeps o w d Hw) as [E1 E2]; auto.
    destruct (IH (fst (step o w))) as [E3 E4]; auto using step_ok. split; auto.
    intros r Hr. rewrite E4, E2; auto.
  Qed.

  Lemma lookup_copy name n d : lookup name (copy_dict n d) = option_map (fun r => r + n) (lookup name d).
  Proof.
    unfold lookup, copy_dict. induction d as [|[k r] d IH]; simpl; [reflexivity|].
    destruct (String.eqb k name); simpl; auto.
  Qed.

  Lemma rollback_lemma ops0 ops : let w := run ops0 init in original w = None -> Forall inside ops ->
    let w' := run ([OBegin] ++ ops ++ [ORollback]) w in
    original w' = None /\ names w' = names w /\ forall name, value w' name = value w name.
  Proof.
    intros w Ho HF w'. pose proof (run_ok ops0 init init_ok) as Hw. fold w in Hw. clearbody w.
    destruct w as [h m orig vs]. simpl in Ho. subst orig. unfold w'. clear w'.
    pose proof (step_ok OBegin _ Hw) as Hb. rewrite run_app. cbn [MetricBag_Model.run]. rewrite run_app. cbn [MetricBag_Model.run].
    set (w1 := fst (step OBegin (W h m None vs))) in *.
    destruct (inside_run ops (copy_dict (length h) m) w1 Hb HF eq_refl) as [E1 E2].
    destruct (run ops w1) as [h2 m2 o2 vs2]. simpl in E1, E2. subst o2. cbn [MetricBag_Model.step fst]. split; [reflexivity|]. split.
    - unfold names, copy_dict. simpl. rewrite map_map. reflexivity.
    - intros name. unfold value. simpl. rewrite lookup_copy. destruct (lookup name m) as [r|] eqn:E; simpl; [|reflexivity].
      apply lookup_in in E. rewrite E2.
      + simpl. rewrite nth_error_app2 by lia. f_equal. lia.
      + unfold copy_dict. rewrite map_map. simpl. apply in_map_iff in E. destruct E as (kv & <- & E).
        apply in_map_iff. exists kv. auto.
  Qed.

  (** *** Commit: the same operations without the transaction *)
  Definition rho (n r : nat) : nat := if r <? n then r else r + n.
  Definition rho_dict n (d : dict) : dict := map (fun kv => (fst kv, rho n (snd kv))) d.

  Lemma rho_inj n r s : rho n r = rho n s -> r = s.
  Proof. unfold rho. destruct (Nat.ltb_spec r n), (Nat.ltb_spec s n); lia. Qed.

  (** [w2] is [w1] with the [n] copies inserted after the first [n] objects. *)
  Definition like n (cp : list MV) (w1 w2 : world MV) : Prop :=
    metrics w2 = rho_dict n (metrics w1) /\ vars w2 = map (rho n) (vars w1) /\
    n <= length (heap w1) /\ length cp = n /\
    heap w2 = firstn n (heap w1) ++ cp ++ skipn n (heap w1).

  Lemma like_nth n cp w1 w2 r : like n cp w1 w2 -> nth_error (heap w2) (rho n r) = nth_error (heap w1) r.
  Proof.
    intros (_ & _ & Hn & Hc & ->). unfold rho. rewrite <- (firstn_skipn n (heap w1)) at 3.
    assert (HL : length (firstn n (heap w1)) = n) by (rewrite firstn_length; lia).
    destruct (Nat.ltb_spec r n).
    - rewrite !nth_error_app1 by lia. reflexivity.
    - rewrite !nth_error_app2 by lia. f_equal. lia.
  Qed.

  Lemma lookup_rho name n d : lookup name (rho_dict n d) = option_map (rho n) (lookup name d).
  Proof.
    unfold lookup, rho_dict. induction d as [|[k r] d IH]; simpl; [reflexivity|].
    destruct (String.eqb k name); simpl; auto.
  Qed.

  Lemma firstn_upd h n r f : firstn n (upd_ref h r f) = if r <? n then upd_ref (firstn n h) r f else firstn n h.
  Proof.
    unfold upd_ref. revert n r. induction h as [|x h IH]; intros n r.
    - assert (N : forall k, nth_error (@nil MV) k = None) by (intros []; reflexivity).
      rewrite N, !firstn_nil, N. destruct (r <? n); reflexivity.
    - destruct n as [|n]; [reflexivity|]. destruct r as [|r]; simpl; [reflexivity|].
      specialize (IH n r). change (S r <? S n) with (r <? n).
      destruct (nth_error h r) eqn:E; simpl.
      + rewrite IH. destruct (r <? n) eqn:L; [|reflexivity].
        destruct (nth_error (firstn n h) r); reflexivity.
      + destruct (r <? n) eqn:L; [|reflexivity]. destruct (nth_error (firstn n h) r); [|reflexivity].
        rewrite <- IH. reflexivity.
  Qed.

  Lemma skipn_upd h n r f : skipn n (upd_ref h r f) = if r <? n then skipn n h else upd_ref (skipn n h) (r - n) f.
  Proof.
    unfold upd_ref. revert n r. induction h as [|x h IH]; intros n r.
    - assert (N : forall k, nth_error (@nil MV) k = None) by (intros []; reflexivity).
      rewrite N, !skipn_nil, N. destruct (r <? n); reflexivity.
    - destruct n as [|n]; [rewrite Nat.sub_0_r; reflexivity|]. destruct r as [|r]; simpl; [reflexivity|].
      specialize (IH n r). change (S r <? S n) with (r <? n). 
      destruct (nth_error h r) eqn:E; simpl; rewrite <- IH; reflexivity.
  Qed.

  Lemma upd_app1 h1 h2 r f : r < length h1 -> upd_ref (h1 ++ h2) r f = upd_ref h1 r f ++ h2.
  Proof.
    unfold upd_ref. intros H. rewrite nth_error_app1 by assumption.
    destruct (nth_error h1 r) as [v|] eqn:E; [|apply nth_error_None in E; lia].
    clear E. revert r H. induction h1 as [|x h1 IH]; intros [|r] H; simpl in *; try lia; auto. f_equal. apply IH. lia.
  Qed.

  Lemma upd_app2 h1 h2 r f : length h1 <= r -> upd_ref (h1 ++ h2) r f = h1 ++ upd_ref h2 (r - length h1) f.
  Proof.
    unfold upd_ref. intros H. rewrite nth_error_app2 by assumption.
    destruct (nth_error h2 (r - length h1)) as [v|] eqn:E; [|reflexivity].
    clear E. revert r H. induction h1 as [|x h1 IH]; intros r H; simpl in *; [rewrite Nat.sub_0_r; reflexivity|].
    destruct r as [|r]; [lia|]. simpl. f_equal. apply IH. lia.
  Qed.

  Lemma upd_like n cp h r f : n <= length h -> length cp = n ->
    upd_ref (firstn n h ++ cp ++ skipn n h) (rho n r) f = firstn n (upd_ref h r f) ++ cp ++ skipn n (upd_ref h r f).
  Proof.
    intros Hn Hc. assert (HL : length (firstn n h) = n) by (rewrite firstn_length; lia).
    unfold rho. rewrite firstn_upd, skipn_upd. destruct (Nat.ltb_spec r n).
    - apply upd_app1. lia.
    - rewrite upd_app2 by lia. f_equal. rewrite upd_app2 by lia. f_equal. f_equal. lia.
  Qed.

  Lemma load_like n cp ms : forall sd h, n <= length h -> length cp = n ->
    load_loop (rho_dict n ms) sd (firstn n h ++ cp ++ skipn n h) =
    (let (h', e) := load_loop ms sd h in (firstn n h' ++ cp ++ skipn n h', e)).
  Proof.
    induction ms as [|[k r] ms IH]; intros sd h Hn Hc; simpl; [reflexivity|].
    destruct (lookup k sd) as [[v|]|]; try reflexivity. rewrite upd_like by assumption. apply IH; [|assumption]. rewrite upd_length. assumption.
  Qed.

  Lemma reset_like n cp ms : forall h, n <= length h -> length cp = n ->
    fold_left (fun h (kv : string * ref) => upd_ref h (snd kv) mreset) (rho_dict n ms) (firstn n h ++ cp ++ skipn n h) =
    let h' := fold_left (fun h (kv : string * ref) => upd_ref h (snd kv) mreset) ms h in firstn n h' ++ cp ++ skipn n h'.
  Proof.
    induction ms as [|[k r] ms IH]; intros h Hn Hc; simpl; [reflexivity|].
    rewrite upd_like by assumption. apply IH; [|assumption]. rewrite upd_length. assumption.
  Qed.

  Lemma step_like n cp o w1 w2 : like n cp w1 w2 -> inside o ->
    like n cp (fst (step o w1)) (fst (step o w2)) /\ snd (step o w1) = snd (step o w2).
  Proof.
    destruct w1 as [h1 m1 o1 v1], w2 as [h2 m2 o2 v2]. intros (Hm & Hv & Hn & Hc & Hh) Hi. simpl in *. subst m2 v2 h2.
    assert (HL : length (firstn n h1) = n) by (rewrite firstn_length; lia).
    assert (Hid : like n cp (W h1 m1 o1 v1) (W (firstn n h1 ++ cp ++ skipn n h1) (rho_dict n m1) o2 (map (rho n) v1)))
      by (repeat split; assumption).
    destruct o as [v|i f|name|name i| | | | |sd]; simpl in *; try contradiction.
    - split; [|reflexivity]. unfold like; simpl. rewrite map_app. simpl. repeat split; auto.
      + f_equal. unfold rho. destruct (Nat.ltb_spec (length h1) n); [lia|]. f_equal.
        rewrite !app_length, HL, skipn_length. lia.
      + rewrite app_length. lia.
      + rewrite firstn_app, skipn_app. replace (n - length h1) with 0 by lia. simpl. rewrite app_nil_r, <- !app_assoc. reflexivity.
    - unfold ref in *. rewrite nth_error_map. destruct (nth_error v1 i) as [r|]; simpl; [|auto]. split; [|reflexivity].
      unfold like; simpl. rewrite upd_like by assumption. rewrite upd_length. repeat split; auto.
    - rewrite lookup_rho. destruct (lookup name m1) as [r|]; simpl; [|auto]. split; [|reflexivity].
      unfold like; simpl. rewrite map_app. repeat split; auto.
    - rewrite lookup_rho. destruct (lookup name m1) as [r|]; simpl; [auto|]. unfold ref in *. rewrite nth_error_map.
      destruct (nth_error v1 i) as [r|]; simpl; [|auto]. split; [|reflexivity].
      unfold like; simpl. unfold rho_dict. rewrite map_app. repeat split; auto.
    - split; [|reflexivity]. unfold like; simpl. rewrite reset_like by assumption. rewrite reset_length. repeat split; auto.
    - rewrite load_like by assumption. pose proof (load_loop_length m1 sd h1) as HLL.
      destruct (load_loop m1 sd h1) as [h' e]. simpl in *. split; [|reflexivity].
      unfold like; simpl. rewrite HLL. repeat split; auto.
  Qed.

  Lemma run_like n cp ops : forall w1 w2, like n cp w1 w2 -> Forall inside ops -> like n cp (run ops w1) (run ops w2).
  Proof.
    induction ops as [|o ops IH]; intros w1 w2 H HF; simpl; auto. inversion HF; subst. apply IH; auto. apply step_like; assumption.
  Qed.

  Lemma like_value n cp w1 w2 name : like n cp w1 w2 -> value w2 name = value w1 name.
  Proof.
    intros H. unfold value. pose proof H as (-> & _). rewrite lookup_rho. destruct (lookup name (metrics w1)); simpl; [|reflexivity].
    eapply like_nth. eassumption.
  Qed.

  Lemma commit_lemma ops0 ops : let w := run ops0 init in original w = None -> Forall inside ops ->
    let w' := run ([OBegin] ++ ops ++ [OCommit]) w in
    original w' = None /\ names w' = names (run ops w) /\ forall name, value w' name = value (run ops w) name.
  Proof.
    intros w Ho HF w'. pose proof (run_ok ops0 init init_ok) as Hw. fold w in Hw. clearbody w.
    destruct w as [h m orig vs]. simpl in Ho. subst orig. unfold w'. clear w'.
    pose proof (step_ok OBegin _ Hw) as Hb.
    rewrite run_app. cbn [MetricBag_Model.run]. rewrite run_app. cbn [MetricBag_Model.run].
    assert (Hl : like (length h) h (W h m None vs) (fst (step OBegin (W h m None vs)))).
    { destruct Hw as [H1 _]. simpl in H1. unfold like; simpl. repeat split; auto.
      - unfold rho_dict. rewrite <- (map_id m) at 1. apply map_ext_in. intros [k r] Hin. simpl. f_equal. unfold rho.
        destruct (Nat.ltb_spec r (length h)); [reflexivity|]. specialize (H1 r (or_intror (in_map snd _ _ Hin))). lia.
      - rewrite <- (map_id vs) at 1. apply map_ext_in. intros r Hin. unfold rho.
        destruct (Nat.ltb_spec r (length h)); [reflexivity|]. specialize (H1 r (or_introl Hin)). lia.
      - rewrite firstn_all, skipn_all, app_nil_r. reflexivity. }
    pose proof (run_like _ _ ops _ _ Hl HF) as HR.
    destruct (inside_run ops (copy_dict (length h) m) (fst (step OBegin (W h m None vs))) Hb HF eq_refl) as [E1 _].
    set (w2 := run ops (fst (step OBegin (W h m None vs)))) in *. clearbody w2.
    assert (E3 : original (fst (step OCommit w2)) = None /\ metrics (fst (step OCommit w2)) = metrics w2 /\ heap (fst (step OCommit w2)) = heap w2).
    { destruct w2 as [h2 m2 o2 vs2]. simpl in E1. subst o2. simpl. auto. }
    destruct E3 as (E3 & E4 & E5). split; [exact E3|]. split.
    - unfold names. rewrite E4. destruct HR as (-> & _). unfold rho_dict. rewrite map_map. reflexivity.
    - intros name. transitivity (value w2 name); [unfold value; rewrite E4, E5; reflexivity|]. eapply like_value. exact HR.
  Qed.

  Lemma brackets_lemma w :
    (original w <> None -> step OBegin w = (w, Some InvalidOperationError)) /\
    (original w = None -> snd (step OBegin w) = None /\ original (fst (step OBegin w)) <> None) /\
    (original w = None -> step OCommit w = (w, Some InvalidOperationError) /\ step ORollback w = (w, Some InvalidOperationError)) /\
    (original w <> None -> snd (step OCommit w) = None /\ snd (step ORollback w) = None).
  Proof.
    destruct w as [h m [d|] vs]; simpl; (split; [|split; [|split]]); intros H; try congruence; auto; split; auto; discriminate.
  Qed.

  (** *** State dictionaries *)
  Lemma lookup_none_remove {A} k name (d : list (string * A)) : k <> name -> lookup k (remove_key name d) = lookup k d.
  Proof.
    intros H. unfold lookup, remove_key. induction d as [|[x v] d IH]; simpl; [reflexivity|].
    destruct (String.eqb_spec x name) as [->|N]; simpl.
    - rewrite IH. destruct (String.eqb_spec name k); [congruence|reflexivity].
    - destruct (String.eqb x k); auto.
  Qed.

  Definition sdv (d : list (string * MV)) : list (string * sv MV) := map (fun kv => (fst kv, SMetric (snd kv))) d.

  Lemma remove_all {A} (sd : list (string * A)) n : NoDup (map fst sd) -> incl (map fst sd) [n] -> remove_key n sd = [].
  Proof.
    intros _ H. unfold remove_key. induction sd as [|[k v] sd IH]; simpl in *; [reflexivity|].
    assert (k = n) by (specialize (H k (or_introl eq_refl)); destruct H as [H|[]]; auto). subst.
    rewrite String.eqb_refl. simpl. apply IH. intros x Hx. apply H. right. assumption.
  Qed.

  Lemma keys_remove {A} (sd : list (string * A)) n x : In x (map fst (remove_key n sd)) <-> In x (map fst sd) /\ x <> n.
  Proof.
    unfold remove_key. induction sd as [|[k v] sd IH]; simpl; [tauto|].
    destruct (String.eqb_spec k n) as [->|N]; simpl; rewrite IH; intuition congruence.
  Qed.

  Lemma lookup_some_key {A} (sd : list (string * A)) n : In n (map fst sd) <-> exists v, lookup n sd = Some v.
  Proof.
    unfold lookup. induction sd as [|[k v] sd IH]; simpl; [split; [tauto|intros [v H]; discriminate]|].
    destruct (String.eqb_spec k n) as [->|N]; simpl; [split; eauto|].
    rewrite <- IH. intuition congruence.
  Qed.

  (** Loading succeeds iff the keys are exactly the names and all values are metric states. *)
  Lemma load_lemma ms : NoDup (map fst ms) -> NoDup (map snd ms) -> forall (sd : list (string * sv MV)) h,
    (forall r, In r (map snd ms) -> r < length h) ->
    (forall n, In n (map fst ms) <-> In n (map fst sd)) ->
    (forall n, lookup n sd <> Some SBad) ->
    exists h', load_loop ms sd h = (h', None) /\
      forall n r, In (n, r) ms -> exists v, lookup n sd = Some (SMetric v) /\ nth_error h' r = Some v.
  Proof.
    induction ms as [|[k r] ms IH]; intros HN1 HN2 sd h Hr Hk Hb; simpl in *.
    - exists h. destruct sd as [|[a b] sd]; [split; [reflexivity|intros ? ? []]|]. exfalso. apply (Hk a). simpl. auto.
    - inversion HN1; inversion HN2; subst.
      destruct (proj1 (lookup_some_key sd k)) as [v Hv]; [apply Hk; auto|]. rewrite Hv.
      destruct v as [v|]; [|exfalso; eapply Hb; exact Hv].
      destruct (IH H2 H6 (remove_key k sd) (upd_ref h r (fun _ => v))) as (h' & E & HH).
      + intros r0 H0. rewrite upd_length. apply Hr. auto.
      + intros n. rewrite keys_remove. rewrite <- Hk. split; [intros Hn; split; auto; intros ->; contradiction|intros [[->|Hn] HX]; [congruence|assumption]].
      + intros n HX. destruct (string_dec n k) as [->|N].
        * assert (HA : In k (map fst (remove_key k sd))) by (apply lookup_some_key; eauto). apply keys_remove in HA. tauto.
        * rewrite lookup_none_remove in HX by assumption. eapply Hb. exact HX.
      + exists h'. split; [exact E|]. intros n r0 [HE|Hin].
        * inversion HE; subst. exists v. split; [assumption|].
          pose proof (load_loop_other ms (remove_key n sd) (upd_ref h r0 (fun _ => v)) r0 H5) as HO. rewrite E in HO. simpl in HO.
          rewrite HO, upd_nth, Nat.eqb_refl. destruct (nth_error h r0) eqn:En; [reflexivity|].
          apply nth_error_None in En. specialize (Hr r0 (or_introl eq_refl)). lia.
        * destruct (HH n r0 Hin) as (v0 & Hv0 & Hn0). exists v0. split; [|assumption].
          rewrite lookup_none_remove in Hv0; [assumption|]. intros ->. apply H1. apply in_map_iff. exists (k, r0). auto.
  Qed.

  Lemma load_conv ms : NoDup (map fst ms) -> forall (sd : list (string * sv MV)) h h',
    load_loop ms sd h = (h', None) ->
    (forall n, In n (map fst ms) <-> In n (map fst sd)) /\ (forall n, lookup n sd <> Some SBad).
  Proof.
    induction ms as [|[k r] ms IH]; intros HN sd h h' H; simpl in *.
    - destruct sd; [|discriminate]. split; [tauto|]. intros n. discriminate.
    - inversion HN; subst. destruct (lookup k sd) as [[v|]|] eqn:E; try discriminate.
      destruct (IH H3 _ _ _ H) as [A B]. assert (Hk : In k (map fst sd)) by (apply lookup_some_key; eauto). split.
      + intros n. rewrite A, keys_remove. destruct (string_dec n k) as [->|N]; [tauto|].
        split; [intros [<-|HX]; [congruence|tauto]|intros HX; right; tauto].
      + intros n HX. destruct (string_dec n k) as [->|N]; [congruence|]. apply (B n). rewrite lookup_none_remove; assumption.
  Qed.

  Lemma nodup_snoc {A} (l : list A) x : NoDup l -> ~ In x l -> NoDup (l ++ [x]).
  Proof.
    induction l as [|y l IH]; intros HN Hx; simpl; [constructor; [auto|constructor]|].
    inversion HN; subst. constructor; [|apply IH; simpl in Hx; tauto].
    intros HX. apply in_app_or in HX. destruct HX as [HX|[->|[]]]; [contradiction|]. apply Hx. left. reflexivity.
  Qed.

  (** The names in the bag are distinct. *)
  Lemma names_step o w : NoDup (names w) ->
    match original w with Some d => NoDup (map fst d) | None => True end ->
    NoDup (names (fst (step o w))) /\ match original (fst (step o w)) with Some d => NoDup (map fst d) | None => True end.
  Proof.
    destruct w as [h m orig vs]. unfold names. simpl. intros H1 H2.
    destruct o as [v|i f|name|name i| | | | |sd]; simpl; auto.
    - destruct (nth_error vs i); auto.
    - destruct (lookup name m); auto.
    - destruct (lookup name m) eqn:E; auto. destruct (nth_error vs i); simpl; auto. split; auto.
      rewrite map_app. simpl. apply nodup_snoc; auto.
      intros HX. apply lookup_some_key in HX. destruct HX. congruence.
    - destruct orig; simpl; auto. split; auto. unfold copy_dict. rewrite map_map. assumption.
    - destruct orig; simpl; auto.
    - destruct orig; simpl; auto.
    - destruct (load_loop m sd h). simpl. auto.
  Qed.

  Definition nodups w : Prop := NoDup (names w) /\ match original w with Some d => NoDup (map fst d) | None => True end.

  Lemma names_run ops : forall w, nodups w -> nodups (run ops w).
  Proof. induction ops as [|o ops IH]; intros w [H1 H2]; simpl; [split; assumption|]. apply IH. apply names_step; assumption. Qed.

  Lemma reach_names ops : NoDup (names (run ops init)).
  Proof. apply names_run. split; simpl; constructor. Qed.

  Lemma lookup_nodup {A} (d : list (string * A)) n x : NoDup (map fst d) -> In (n, x) d -> lookup n d = Some x.
  Proof.
    unfold lookup. induction d as [|[k v] d IH]; intros HN H; simpl in *; [contradiction|]. inversion HN; subst.
    destruct H as [H|H].
    - inversion H; subst. rewrite String.eqb_refl. reflexivity.
    - destruct (String.eqb_spec k n) as [->|N]; [|auto]. exfalso. apply H2. apply in_map_iff. exists (n, x). auto.
  Qed.

  Lemma lookup_pair {A} (d : list (string * A)) n x : lookup n d = Some x -> In (n, x) d.
  Proof.
    unfold lookup. destruct (find _ d) as [[k v]|] eqn:E; [|discriminate]. intros H. inversion H; subst.
    apply find_some in E. destruct E as [E1 E2]. simpl in E2. apply String.eqb_eq in E2. subst. assumption.
  Qed.

  Lemma state_dict_spec w : ok w -> state_dict w = map (fun kv => (fst kv, match nth_error (heap w) (snd kv) with Some v => SMetric v | None => SBad end)) (metrics w).
  Proof.
    intros [H _]. unfold state_dict. assert (G : forall r, In r (map snd (metrics w)) -> r < length (heap w)) by auto. clear H.
    induction (metrics w) as [|[k r] d IH]; simpl in *; [reflexivity|].
    rewrite IH by auto. destruct (nth_error (heap w) r) eqn:E; [reflexivity|]. apply nth_error_None in E. specialize (G r (or_introl eq_refl)). lia.
  Qed.

  Lemma roundtrip_lemma ops ops2 : let w := run ops init in let w2 := run ops2 init in
    unshared w2 -> (forall n, In n (names w) <-> In n (names w2)) ->
    exists w3, step (OLoad (state_dict w)) w2 = (w3, None) /\ names w3 = names w2 /\ forall n, value w3 n = value w n.
  Proof.
    intros w w2 Hu Hn. pose proof (run_ok ops init init_ok) as Hw. pose proof (run_ok ops2 init init_ok) as Hw2.
    pose proof (reach_names ops) as N1. pose proof (reach_names ops2) as N2. fold w in Hw, N1. fold w2 in Hw2, N2.
    clearbody w w2. clear ops ops2.
    set (sd := state_dict w). assert (Hsd : sd = state_dict w) by reflexivity. clearbody sd. rewrite state_dict_spec in Hsd by assumption.
    assert (Hkeys : map fst sd = names w) by (subst sd; rewrite map_map; reflexivity).
    assert (Hlk : forall n v, lookup n sd = Some v -> exists m, v = SMetric m /\ value w n = Some m).
    { intros n v H. apply lookup_pair in H. rewrite Hsd in H. apply in_map_iff in H. destruct H as ([k r] & HE & Hin). simpl in HE.
      inversion HE; subst. unfold value. rewrite (lookup_nodup _ _ _ N1 Hin).
      destruct (nth_error (heap w) r) eqn:E; [eauto|]. apply nth_error_None in E. destruct Hw as [Hw _].
      specialize (Hw r (or_intror (in_map snd _ _ Hin))). lia. }
    destruct w2 as [h2 m2 o2 v2]. simpl in *. unfold names, unshared in *. simpl in *.
    destruct (load_lemma m2 N2 Hu sd h2) as (h' & E & HH).
    - destruct Hw2 as [Hw2 _]. simpl in Hw2. auto.
    - intros n. rewrite Hkeys. unfold names. symmetry. apply Hn.
    - intros n HX. destruct (Hlk _ _ HX) as (m & HB & _). discriminate.
    - rewrite E. eexists. split; [reflexivity|]. split; [reflexivity|]. intros n. unfold value at 1. simpl.
      destruct (lookup n m2) as [r|] eqn:El.
      + apply lookup_pair in El. destruct (HH _ _ El) as (v & Hv & ->). destruct (Hlk _ _ Hv) as (m & HE & ->). congruence.
      + unfold value. destruct (lookup n (metrics w)) as [r|] eqn:El2; [|reflexivity]. exfalso.
        assert (HX : In n (map fst m2)) by (apply Hn; apply lookup_some_key; eauto). apply lookup_some_key in HX. destruct HX. congruence.
  Qed.

  Lemma load_error_lemma ops sd : let w := run ops init in unshared w ->
    (snd (step (OLoad sd) w) = None <-> (forall n, In n (names w) <-> In n (map fst sd)) /\ (forall n, lookup n sd <> Some SBad)) /\
    (snd (step (OLoad sd) w) <> None -> snd (step (OLoad sd) w) = Some StateDictError).
  Proof.
    intros w Hu. pose proof (run_ok ops init init_ok) as Hw. pose proof (reach_names ops) as N1. fold w in Hw, N1. clearbody w.
    destruct w as [h m o v]. unfold names, unshared in *. simpl in *. destruct Hw as [Hw _]. simpl in Hw. (split; [split|]).
    - destruct (load_loop m sd h) as [h' e] eqn:E. simpl. intros ->. eapply load_conv; eassumption.
    - intros [A B]. destruct (load_lemma m N1 Hu sd h) as (h' & -> & _); auto.
    - destruct (load_loop m sd h) as [h' e] eqn:E. simpl. intros He.
      clear -E He. revert sd h E. induction m as [|[k r] m IH]; intros sd h E; simpl in E.
      + destruct sd; inversion E; subst; congruence.
      + destruct (lookup k sd) as [[x|]|]; [eauto|inversion E; reflexivity|inversion E; reflexivity].
  Qed.

  Lemma reset_all m : forall h j, NoDup (map snd m) -> In j (map snd m) ->
    nth_error (fold_left (fun h (kv : string * ref) => upd_ref h (snd kv) mreset) m h) j = option_map mreset (nth_error h j).
  Proof.
    induction m as [|[n r] m IH]; intros h j HN H; simpl in *; [contradiction|]. inversion HN as [|? ? H1 H2]; subst.
    destruct H as [->|H].
    - rewrite reset_other by assumption. rewrite upd_nth, Nat.eqb_refl. reflexivity.
    - rewrite IH by assumption. rewrite upd_nth. destruct (Nat.eqb_spec j r); [subst; contradiction|reflexivity].
  Qed.

  Lemma reset_lemma ops : let w := run ops init in unshared w ->
    let w' := fst (step OReset w) in
    names w' = names w /\ (forall n, value w' n = option_map mreset (value w n)) /\ original w' = original w /\
    (forall r, ~ In r (map snd (metrics w)) -> nth_error (heap w') r = nth_error (heap w) r).
  Proof.
    intros w HU. destruct w as [h m o vs]. simpl in *. split; [reflexivity|]. split; [|split; [reflexivity|]].
    - intros n. unfold value. simpl. destruct (lookup n m) as [r|] eqn:EL; [|reflexivity]. apply reset_all; [assumption|]. eapply lookup_in; eauto.
    - intros r Hr. apply reset_other. assumption.
  Qed.
End P.
