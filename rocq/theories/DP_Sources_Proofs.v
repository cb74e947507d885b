(** Proofs about the single-input sources and pipelines. *)

From Verif Require Import DP_Base DP_Spec DP_Laws DP_Sources_Model.
From Coq Require Import Lia.

Ltac inv H := inversion H; subst; clear H.

(** Destruct the scrutinee of a match in the hypothesis [H]. *)
Ltac dm H :=
  match type of H with
  | context [match ?x with _ => _ end] => destruct x eqn:?
  end.

Ltac dmg :=
  match goal with
  | |- context [match ?x with _ => _ end] => destruct x eqn:?
  end.

Ltac estep X a b m H :=
  let HN := fresh "HN" in
  pose proof (equiv_next X a b m H) as HN;
  destruct (next X m a) as [[? ?]|]; destruct (next X m b) as [[? ?]|];
  simpl in HN; try contradiction; [destruct HN as [<- HN]|].

(** ** list *)
Lemma list_mono l : mono (src_list l).
Proof. intros n m s r _ H. exact H. Qed.

Lemma list_holds l : holds (src_list l) (init (src_list l)) l.
Proof.
  apply (progress_holds (src_list l) (fun (p:nat) r => p <= length l /\ r = skipn p l)); [apply list_mono| |split; [simpl; lia|reflexivity]].
  intros p r [Hp ->]. simpl.
  destruct (nth_error l p) as [d|] eqn:E.
  - assert (HL : p < length l) by (apply nth_error_Some; congruence).
    destruct (nth_error_split l p E) as (l1 & l2 & -> & <-).
    rewrite skipn_app, skipn_all, Nat.sub_diag. simpl.
    exists 0, (S (length l1)). split; [reflexivity|]. split; [rewrite app_length; simpl; lia|].
    rewrite skipn_app. replace (S (length l1) - length l1) with 1 by lia.
    rewrite skipn_all2 by lia. reflexivity.
  - apply nth_error_None in E. rewrite skipn_all2 by lia.
    exists 0, p. split; [reflexivity|]. split; [lia|].
    rewrite skipn_all2 by lia; reflexivity.
Qed.

Lemma list_resumable l : resumable true (src_list l) (fun p => p <= length l) (fun _ => True).
Proof.
  constructor; simpl; auto; try lia.
  - intros _ s o s' Hs H. destruct (nth_error l s) eqn:E; inv H; simpl; auto.
    assert (s < length l) by (apply nth_error_Some; congruence). lia.
  - intros s s0 Hs _. eexists. split; [reflexivity|]. intros rest.
    exists s. rewrite rd_wr_size.
    destruct (Nat.leb_spec s (length l)); [|lia]. repeat split; auto using equiv_refl.
Qed.

Lemma list_restarts l g : restarts (src_list l) (fun p => p <= length l) g.
Proof. intros s _. apply equiv_refl. Qed.

(** ** count, constant *)
Lemma count_mono a b k : mono (src_count a b k).
Proof. intros n m s r _ H. exact H. Qed.

Lemma count_resumable a b k : resumable true (src_count a b k) (fun _ => True) (fun _ => True).
Proof.
  constructor; simpl; auto.
  - intros. match goal with H : Some _ = Some _ |- _ => inv H end. simpl; auto.
  - intros s s0 _ _. eexists. split; [reflexivity|]. intros rest. exists s.
    repeat split; auto using equiv_refl.
Qed.

Lemma count_restarts a b k g : restarts (src_count a b k) (fun _ => True) g.
Proof. intros s _. apply equiv_refl. Qed.

Lemma constant_mono d k : mono (src_constant d k).
Proof. intros n m s r _ H. exact H. Qed.

Lemma constant_resumable d k : resumable true (src_constant d k) (fun _ => True) (fun _ => True).
Proof.
  constructor; simpl; auto.
  - intros. match goal with H : Some _ = Some _ |- _ => inv H end. simpl; auto.
  - intros s s0 _ _. eexists. split; [reflexivity|]. intros rest. exists s0.
    destruct s, s0. repeat split; auto using equiv_refl.
Qed.

Lemma constant_restarts d k g : restarts (src_constant d k) (fun _ => True) g.
Proof. intros [] _. apply equiv_refl. Qed.

(** ** map, sequential loop *)
Section MapLoop.
  Variable f : data -> fres data.
  Variable I : source.

  Lemma map_loop_mono : mono I -> forall n n' m m' s r, n <= n' -> m <= m' ->
    map_loop f I m n s = Some r -> map_loop f I m' n' s = Some r.
  Proof.
    intros HM n. induction n as [|n IH]; intros n' m m' s r Hn Hm H; [discriminate|].
    destruct n' as [|n']; [lia|]. simpl in *.
    destruct (next I m s) as [[o s']|] eqn:E; [|discriminate].
    rewrite (HM _ _ _ _ Hm E). destruct o as [d| |e]; auto.
    destruct (f d); auto. eapply IH; [| |eassumption]; lia.
  Qed.

  Definition fout (d : data) : list data := match f d with FVal d' => [d'] | _ => [] end.

  Lemma map_loop_run : mono I -> forall L s, holds I s L -> (forall d e, In d L -> f d <> FThrow e) ->
    match flat_map fout L with
    | [] => exists n s', map_loop f I n n s = Some (Eod, s') /\ holds I s' []
    | x :: l' => exists n s' L', map_loop f I n n s = Some (Val x, s') /\ holds I s' L' /\ flat_map fout L' = l' /\ incl L' L
    end.
  Proof.
    intros HM L. induction L as [|d L IH]; intros s Hs Hf.
    - destruct (holds_step I HM _ _ Hs) as (n & s' & Hn & Hs'). simpl.
      exists (S n), s'. split; [|assumption]. simpl.
      rewrite (HM n (S n) _ _ ltac:(lia) Hn). reflexivity.
    - destruct (holds_step I HM _ _ Hs) as (n & s' & Hn & Hs'). simpl.
      unfold fout at 1. destruct (f d) as [d'| |e] eqn:Ef; [| |exfalso; eapply Hf; [left; reflexivity|eassumption]].
      + simpl. exists (S n), s', L. split; [|split; [|split]; auto using incl_tl, incl_refl]. simpl.
        rewrite (HM n (S n) _ _ ltac:(lia) Hn), Ef. reflexivity.
      + simpl. specialize (IH _ Hs' ltac:(intros; apply Hf; right; assumption)). destruct (flat_map fout L) as [|x l'].
        * destruct IH as (n1 & s1 & H1 & H2). exists (S (n + n1)), s1. split; [|assumption]. simpl.
          rewrite (HM n (S (n + n1)) _ _ ltac:(lia) Hn), Ef.
          eapply map_loop_mono; [assumption| | |exact H1]; lia.
        * destruct IH as (n1 & s1 & L' & H1 & H2 & H3 & H4). exists (S (n + n1)), s1, L'. split; [|auto using incl_tl]. simpl.
          rewrite (HM n (S (n + n1)) _ _ ltac:(lia) Hn), Ef.
          eapply map_loop_mono; [assumption| | |exact H1]; lia.
  Qed.

  Lemma map_loop_equiv m n a b : equiv I a b ->
    res_rel (equiv I) (map_loop f I m n a) (map_loop f I m n b).
  Proof.
    revert a b. induction n as [|n IH]; intros a b H; simpl; auto.
    estep I a b m H; [|exact I0 || auto].
    destruct o as [d| |e]; simpl; auto. destruct (f d); simpl; auto.
  Qed.

  Lemma map_loop_inv clean (Inv : St I -> Prop) :
    (forall n s o s', Inv s -> next I n s = Some (o, s') -> okstep clean (Inv s') o) ->
    (forall d e, f d = FThrow e -> okerr clean (Err e)) ->
    forall m n s o s', Inv s -> map_loop f I m n s = Some (o, s') -> okstep clean (Inv s') o.
  Proof.
    intros HI Hf m n. induction n as [|n IH]; intros s o s' Hs H; [discriminate|]. simpl in H.
    destruct (next I m s) as [[o1 s1]|] eqn:E; [|discriminate].
    pose proof (HI _ _ _ _ Hs E) as H1.
    destruct o1 as [d| |e]; [|inv H; auto|inv H; auto]. simpl in H1.
    destruct (f d) eqn:Ef; [inv H; simpl; auto|eauto|inv H; apply okstep_intro; auto; eapply Hf; eassumption].
  Qed.
End MapLoop.

(** ** filter is a special case of the sequential map loop *)
Section FilterP.
  Variable p : data -> fres bool.
  Variable I : source.

  Definition filter_as_map (d : data) : fres data :=
    match p d with FVal true => FVal d | FVal false | FNone => FNone | FThrow e => FThrow e end.

  Lemma filter_loop_map m n s : filter_loop p I m n s = map_loop filter_as_map I m n s.
  Proof.
    revert s. induction n as [|n IH]; intros s; simpl; auto.
    destruct (next I m s) as [[[d| |e] s']|]; auto.
    unfold filter_as_map. destruct (p d) as [[]| |]; auto.
  Qed.

  Lemma filter_mono : mono I -> mono (src_filter p I).
  Proof.
    intros HM n m s r Hn. simpl. rewrite !filter_loop_map. apply map_loop_mono; auto.
  Qed.

  Lemma filter_holds pp : mono I -> forall s L, (forall d, In d L -> p d = FVal (pp d)) -> holds I s L ->
    holds (src_filter p I) s (filter pp L).
  Proof.
    intros HM s L Hp HL.
    assert (HF : forall l, (forall d, In d l -> p d = FVal (pp d)) -> flat_map (fout filter_as_map) l = filter pp l).
    { intros l; induction l as [|d l IH]; simpl; auto. intros Hl. rewrite IH by auto.
      unfold fout, filter_as_map. rewrite Hl by auto. destruct (pp d); reflexivity. }
    apply (progress_holds (src_filter p I) (fun (s:St I) l => exists L, holds I s L /\ l = filter pp L /\ (forall d, In d L -> p d = FVal (pp d))));
      [apply filter_mono; assumption| |eauto].
    clear s L HL Hp. intros s l (L & HL & -> & Hp).
    assert (Hf : forall d e, In d L -> filter_as_map d <> FThrow e).
    { intros d e Hd. unfold filter_as_map. rewrite Hp by assumption. destruct (pp d); discriminate. }
    pose proof (map_loop_run filter_as_map I HM L s HL Hf) as H. rewrite HF in H by assumption.
    destruct (filter pp L) as [|x l'].
    - destruct H as (n & s' & H1 & H2). exists n, s'. simpl. rewrite filter_loop_map. split; [assumption|]. exists []. simpl. intuition.
    - destruct H as (n & s' & L' & H1 & H2 & H3 & H4). exists n, s'. simpl. rewrite filter_loop_map.
      rewrite HF in H3 by auto. split; [assumption|]. exists L'. auto.
  Qed.

  Lemma filter_cong a b : equiv I a b -> equiv (src_filter p I) a b.
  Proof.
    intros H. exists (equiv I). split; [|assumption]. clear a b H. intros a b H. repeat split.
    - intros n. simpl. rewrite !filter_loop_map. apply map_loop_equiv; assumption.
    - intros g. simpl. apply equiv_reset; assumption.
    - simpl. apply equiv_fin; assumption.
  Qed.

  Lemma filter_resumable clean Inv Tgt :
    (forall d e, p d = FThrow e -> okerr clean (Err e)) ->
    resumable clean I Inv Tgt -> resumable clean (src_filter p I) Inv Tgt.
  Proof.
    intros Hp [H1 H2 H3 H4 H5]. constructor; simpl; auto.
    - intros n s o s'. rewrite filter_loop_map. apply map_loop_inv; auto.
      intros d e. unfold filter_as_map. destruct (p d) as [[]| |e'] eqn:E; try discriminate. intros X; inv X. eauto.
    - intros s s0 Hs Ht. destruct (H5 _ _ Hs Ht) as (t & Hr & Hl). exists t. split; auto.
      intros rest. destruct (Hl rest) as (s1 & ? & ? & ?). exists s1. auto using filter_cong.
  Qed.

  Lemma filter_restarts Inv g : restarts I Inv g -> restarts (src_filter p I) Inv g.
  Proof. intros H s Hs. apply filter_cong. apply H; assumption. Qed.
End FilterP.

(** ** skip *)
Section SkipP.
  Variable k : nat.
  Variable I : source.

  Lemma skip_loop_mono : mono I -> forall j m m' s r, m <= m' ->
    skip_loop I m j s = Some r -> skip_loop I m' j s = Some r.
  Proof.
    intros HM j. induction j as [|j IH]; intros m m' s r Hm H; simpl in *; auto.
    destruct (next I m s) as [[o s']|] eqn:E; [|discriminate].
    rewrite (HM _ _ _ _ Hm E). destruct o; eauto.
  Qed.

  Lemma skip_mono : mono I -> mono (src_skip k I).
  Proof.
    intros HM n m [dn s] r Hn. simpl. unfold skip_next.
    assert (G : forall (dn' : bool) s' r', (match next I n s' with None => None | Some (o, s'') => Some (o, (dn', s'')) end) = Some r' ->
              (match next I m s' with None => None | Some (o, s'') => Some (o, (dn', s'')) end) = Some r').
    { intros dn' s' r' H. destruct (next I n s') as [[o s'']|] eqn:E; [|discriminate].
      rewrite (HM _ _ _ _ Hn E). assumption. }
    destruct (k =? 0); auto. destruct (negb dn); auto.
    destruct (skip_loop I n k s) as [[[e|] s1]|] eqn:E; [| |discriminate];
      rewrite (skip_loop_mono HM _ _ _ _ _ Hn E); auto.
  Qed.

  Lemma skip_loop_run : mono I -> forall j L s, holds I s L ->
    exists n s', skip_loop I n j s = Some (None, s') /\ holds I s' (skipn j L).
  Proof.
    intros HM j. induction j as [|j IH]; intros L s Hs; simpl.
    - exists 0, s; auto.
    - destruct L as [|d L]; destruct (holds_step I HM _ _ Hs) as (n & s' & Hn & Hs').
      + exists n, s'. rewrite Hn. auto.
      + destruct (IH _ _ Hs') as (n1 & s1 & H1 & H2). exists (n + n1), s1.
        rewrite (HM n (n + n1) _ _ ltac:(lia) Hn). split; auto.
        eapply skip_loop_mono; [assumption| |eassumption]; lia.
  Qed.

  Lemma skip_holds s L : mono I -> holds I s L -> holds (src_skip k I) (false, s) (skipn k L).
  Proof.
    intros HM HL.
    apply (progress_holds (src_skip k I) (fun (x:bool*St I) l => let (dn, s) := x in
      if (dn || (k =? 0))%bool then holds I s l else exists L, holds I s L /\ l = skipn k L)); [apply skip_mono; assumption| |].
    2:{ simpl. destruct (Nat.eqb_spec k 0) as [->|]; [assumption|eauto]. }
    clear s L HL. intros [dn s] l HR.
    assert (HF : forall s l (dn' : bool), holds I s l ->
      match l with
      | [] => exists n s', next I n s = Some (Eod, s') /\ holds I s' []
      | x :: l' => exists n s', next I n s = Some (Val x, s') /\ holds I s' l'
      end) by (intros; apply holds_step; assumption).
    destruct (dn || (k =? 0))%bool eqn:ED.
    - specialize (HF s l dn HR).
      destruct l as [|x l]; destruct HF as (n & s' & Hn & Hs'); exists n, (dn, s'); simpl; unfold skip_next; rewrite Hn, ED;
        destruct (k =? 0); auto; destruct dn; try discriminate; auto.
    - destruct dn; [discriminate|]. simpl in ED. destruct HR as (L & HL & ->).
      destruct (skip_loop_run HM k L s HL) as (n & s1 & H1 & H2).
      specialize (HF s1 (skipn k L) true H2).
      destruct (skipn k L) as [|x l]; destruct HF as (n1 & s' & Hn & Hs'); exists (n + n1), (true, s'); simpl; unfold skip_next;
        rewrite ED; simpl; rewrite (skip_loop_mono HM _ n (n + n1) _ _ ltac:(lia) H1);
        rewrite (HM n1 (n + n1) _ _ ltac:(lia) Hn); auto.
  Qed.

  Lemma skip_loop_equiv m j a b : equiv I a b ->
    match skip_loop I m j a, skip_loop I m j b with
    | None, None => True
    | Some (e, a'), Some (e', b') => e = e' /\ equiv I a' b'
    | _, _ => False
    end.
  Proof.
    revert a b. induction j as [|j IH]; intros a b H; simpl; auto.
    estep I a b m H; auto. destruct o; auto. apply IH; assumption.
  Qed.

  Lemma skip_cong dn a b : equiv I a b -> equiv (src_skip k I) (dn, a) (dn, b).
  Proof.
    intros H. exists (fun x y : bool * St I => fst x = fst y /\ equiv I (snd x) (snd y)). split; [|auto].
    clear dn a b H. intros [dn a] [dn' b] [E H]. simpl in E, H. subst dn'. repeat split; simpl.
    - intros n. unfold skip_next.
      assert (G : forall (dn' : bool) a b, equiv I a b ->
        res_rel (fun x y : bool * St I => fst x = fst y /\ equiv I (snd x) (snd y))
          (match next I n a with None => None | Some (o, s'') => Some (o, (dn', s'')) end)
          (match next I n b with None => None | Some (o, s'') => Some (o, (dn', s'')) end)).
      { intros dn' a0 b0 H0. estep I a0 b0 n H0; simpl; auto. }
      destruct (k =? 0); auto. destruct (negb dn); auto.
      pose proof (skip_loop_equiv n k a b H) as HS.
      destruct (skip_loop I n k a) as [[[e|] a']|], (skip_loop I n k b) as [[[e'|] b']|];
        try contradiction; simpl; auto; destruct HS as [HE HS]; try discriminate; auto.
      inv HE. auto.
    - apply equiv_reset; assumption.
    - simpl. apply equiv_fin; assumption.
  Qed.

  Lemma skip_loop_inv clean (Inv : St I -> Prop) :
    (forall n s o s', Inv s -> next I n s = Some (o, s') -> okstep clean (Inv s') o) ->
    forall m j s e s', Inv s -> skip_loop I m j s = Some (e, s') ->
      match e with Some e => okstep clean (Inv s') (Err e) | None => Inv s' end.
  Proof.
    intros HI m j. induction j as [|j IH]; intros s e s' Hs H; simpl in H.
    - inv H; auto.
    - destruct (next I m s) as [[o s1]|] eqn:E; [|discriminate].
      pose proof (HI _ _ _ _ Hs E) as H1. destruct o; [eapply IH; eassumption|inv H; auto|inv H; auto].
  Qed.

  Lemma skip_resumable clean Inv Tgt : resumable clean I Inv Tgt ->
    resumable clean (src_skip k I) (fun x => Inv (snd x)) (fun x => Tgt (snd x)).
  Proof.
    intros [H1 H2 H3 H4 H5]. constructor; simpl; auto.
    - intros n [dn s] o s' Hs H. simpl in Hs. unfold skip_next in H.
      assert (G : forall (dn' : bool) s1 , Inv s1 ->
         match next I n s1 with None => None | Some (o, s'') => Some (o, (dn', s'')) end = Some (o, s') ->
         okstep clean (Inv (snd s')) o).
      { intros dn' s1 Hs1 HX. destruct (next I n s1) as [[o1 s2]|] eqn:E; [|discriminate]. inv HX.
        simpl. eapply H3; eassumption. }
      destruct (k =? 0); [eauto|]. destruct (negb dn); [|eauto].
      destruct (skip_loop I n k s) as [[[e|] s1]|] eqn:E; [| |discriminate].
      + pose proof (skip_loop_inv clean Inv H3 _ _ _ _ _ Hs E) as HX. inv H. auto.
      + pose proof (skip_loop_inv clean Inv H3 _ _ _ _ _ Hs E) as HX. eapply G; [exact HX|exact H].
    - intros [dn s] [dn0 s0] Hs Ht. simpl in *. destruct (H5 _ _ Hs Ht) as (t & Hr & Hl). rewrite Hr.
      eexists. split; [reflexivity|]. intros rest. destruct (Hl rest) as (s1 & Hs1 & He & Hi).
      rewrite <- app_assoc, rd_wr_bool, Hs1. exists (dn, s1). auto using skip_cong.
  Qed.

  Lemma skip_restarts Inv g : restarts I Inv g -> restarts (src_skip k I) (fun x => Inv (snd x)) g.
  Proof. intros H [dn s] Hs. apply skip_cong. apply H; assumption. Qed.
End SkipP.

(** ** take *)
Section TakeP.
  Variable k : nat.
  Variable I : source.

  Lemma take_mono : mono I -> mono (src_take k I).
  Proof.
    intros HM n m [c s] r Hn H. simpl in *. unfold take_next in *.
    destruct (c =? k); auto. destruct (next I n s) as [[o s']|] eqn:E; [|discriminate].
    rewrite (HM _ _ _ _ Hn E). assumption.
  Qed.

  Lemma take_holds s L : mono I -> holds I s L -> holds (src_take k I) (0, s) (firstn k L).
  Proof.
    intros HM HL.
    apply (progress_holds (src_take k I) (fun (x:nat*St I) l => let (c, s) := x in c <= k /\ exists L, holds I s L /\ l = firstn (k - c) L));
      [apply take_mono; assumption| |].
    2:{ split; [lia|]. rewrite Nat.sub_0_r. eauto. }
    clear s L HL. intros [c s] l (Hc & L & HL & ->). simpl. unfold take_next.
    destruct (Nat.eqb_spec c k) as [->|Hne].
    - rewrite Nat.sub_diag. simpl. exists 0, (k, s). split; auto. split; auto.
      exists L. rewrite Nat.sub_diag. auto.
    - replace (k - c) with (S (k - S c)) by lia.
      pose proof (holds_step I HM _ _ HL) as HP. destruct L as [|x L]; simpl;
        destruct HP as (n & s' & Hn & Hs').
      + exists n, (c, s'). rewrite Hn. repeat split; auto.
        exists []. rewrite firstn_nil. auto.
      + exists n, (S c, s'). rewrite Hn. repeat split; auto; [lia|].
        exists L. auto.
  Qed.

  Lemma take_cong c a b : equiv I a b -> equiv (src_take k I) (c, a) (c, b).
  Proof.
    intros H. exists (fun x y : nat * St I => fst x = fst y /\ equiv I (snd x) (snd y)). split; [|auto].
    clear c a b H. intros [c a] [c' b] [E H]. simpl in E, H. subst c'. repeat split; simpl.
    - intros n. unfold take_next. destruct (c =? k); simpl; auto.
      estep I a b n H; simpl; auto. destruct o; simpl; auto.
    - apply equiv_reset; assumption.
  Qed.

  Lemma take_resumable clean Inv Tgt : resumable clean I Inv Tgt ->
    resumable clean (src_take k I) (fun x => Inv (snd x)) (fun x => Tgt (snd x)).
  Proof.
    intros [H1 H2 H3 H4 H5]. constructor; simpl; auto.
    - intros n [c s] o s' Hs H. simpl in *. unfold take_next in H.
      destruct (c =? k); [inv H; simpl; auto|].
      destruct (next I n s) as [[o1 s1]|] eqn:E; [|discriminate].
      pose proof (H3 _ _ _ _ Hs E). destruct o1; inv H; auto.
    - intros [c s] [c0 s0] Hs Ht. simpl in *. destruct (H5 _ _ Hs Ht) as (t & Hr & Hl). rewrite Hr.
      eexists. split; [reflexivity|]. intros rest. destruct (Hl rest) as (s1 & Hs1 & He & Hi).
      rewrite <- app_assoc, rd_wr_size, Hs1. exists (c, s1). auto using take_cong.
  Qed.

  Lemma take_restarts Inv g : restarts I Inv g -> restarts (src_take k I) (fun x => Inv (snd x)) g.
  Proof. intros H [c s] Hs. apply take_cong. apply H; assumption. Qed.
End TakeP.
