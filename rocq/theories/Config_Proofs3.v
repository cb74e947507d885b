From Coq Require Import String Ascii List Bool Arith Lia.
From Verif Require Import Config_Model Config_Spec Config_Proofs.
Import ListNotations.
Open Scope list_scope.

(** ** Identities *)
Section Ind.
  Variable P : hv -> Prop.
  Hypothesis H1 : P HNone.
  Hypothesis H2 : forall n, P (HOther n).
  Hypothesis H3 : forall s, P (HStr s).
  Hypothesis H4 : forall i l, Forall P l -> P (HList i l).
  Hypothesis H5 : forall i l, Forall (fun kv => P (snd kv)) l -> P (HMap i l).
  Fixpoint hv_ind' (v : hv) : P v :=
    match v with
    | HNone => H1 | HOther n => H2 n | HStr s => H3 s
    | HList i l => H4 i l ((fix go l : Forall P l := match l with [] => Forall_nil _ | x :: l' => Forall_cons _ (hv_ind' x) (go l') end) l)
    | HMap i l => H5 i l ((fix go l : Forall (fun kv => P (snd kv)) l := match l with [] => Forall_nil _ | x :: l' => Forall_cons _ (hv_ind' (snd x)) (go l') end) l)
    end.
End Ind.
Definition er (l : list (key * hv)) : list (key * cv) := map (fun kv => (fst kv, erase (snd kv))) l.
Definition within (a b : nat) (v : hv) : Prop := forall i, In i (ids v) -> a <= i < b.
Definition withinl (a b : nat) (l : list (key * hv)) : Prop := Forall (fun kv => within a b (snd kv)) l.
Lemma within_le a b a' b' v : within a b v -> a' <= a -> b <= b' -> within a' b' v.
Proof. intros H L1 L2 i I. specialize (H i I). lia. Qed.
Lemma withinl_le a b a' b' l : withinl a b l -> a' <= a -> b <= b' -> withinl a' b' l.
Proof. intros H L1 L2. eapply Forall_impl; [|exact H]. intros kv K. exact (within_le _ _ _ _ _ K L1 L2). Qed.
Lemma ids_map i l : ids (HMap i l) = i :: flat_map (fun kv => ids (snd kv)) l. Proof. reflexivity. Qed.
Lemma withinl_flat a b l : withinl a b l -> forall i, In i (flat_map (fun kv => ids (snd kv)) l) -> a <= i < b.
Proof. intros H i I. apply in_flat_map in I. destruct I as (kv & K & I). unfold withinl in H. rewrite Forall_forall in H. exact (H kv K i I). Qed.

Lemma deepcopy_spec v : forall n m v', deepcopy n v = (m, v') -> n <= m /\ erase v' = erase v /\ within n m v'.
Proof.
  induction v as [|z|z|i l IH|i l IH] using hv_ind'; intros n m v' H; try (simpl in H; injection H as <- <-; split; [lia|]; split; [reflexivity|]; intros j []).
  - simpl in H. match type of H with (let (_, _) := ?f (S n) l in _) = _ => set (loop := f) in H end.
    assert (L : forall n m l', loop n l = (m, l') -> n <= m /\ map erase l' = map erase l /\ Forall (within n m) l').
    { clear H n m v'. induction IH as [|x l X F IHl]; intros n m l' H; simpl in H; [injection H as <- <-; split; [lia|]; split; [reflexivity|constructor]|].
      destruct (deepcopy n x) as [n1 x'] eqn:D. destruct (loop n1 l) as [n2 r] eqn:E. injection H as <- <-. destruct (X _ _ _ D) as (A1 & A2 & A3). destruct (IHl _ _ _ E) as (B1 & B2 & B3).
      split; [lia|]. split; [simpl; congruence|]. constructor; [eapply within_le; eauto|]. eapply Forall_impl; [|exact B3]. intros y Y. eapply within_le; eauto. }
    destruct (loop (S n) l) as [m' l'] eqn:E. injection H as <- <-. destruct (L _ _ _ E) as (A & B & C). split; [lia|]. split; [simpl; congruence|]. intros j J. simpl in J. destruct J as [<-|J]; [lia|].
    apply in_flat_map in J. destruct J as (y & Y & J). rewrite Forall_forall in C. specialize (C y Y j J). lia.
  - simpl in H. match type of H with (let (_, _) := ?f (S n) l in _) = _ => set (loop := f) in H end.
    assert (L : forall n m l', loop n l = (m, l') -> n <= m /\ er l' = er l /\ withinl n m l').
    { clear H n m v'. induction IH as [|[k x] l X F IHl]; intros n m l' H; simpl in H; [injection H as <- <-; split; [lia|]; split; [reflexivity|constructor]|].
      destruct (deepcopy n x) as [n1 x'] eqn:D. destruct (loop n1 l) as [n2 r] eqn:E. injection H as <- <-. destruct (X _ _ _ D) as (A1 & A2 & A3). destruct (IHl _ _ _ E) as (B1 & B2 & B3).
      split; [lia|]. split; [simpl; simpl in A2; congruence|]. constructor; [eapply within_le; eauto|]. eapply withinl_le; eauto. }
    destruct (loop (S n) l) as [m' l'] eqn:E. injection H as <- <-. destruct (L _ _ _ E) as (A & B & C). split; [lia|]. split; [simpl; unfold er in B; congruence|]. intros j J. rewrite ids_map in J. destruct J as [<-|J]; [lia|].
    pose proof (withinl_flat _ _ _ C j J). lia.
Qed.

Lemma get_er k l : get k (er l) = option_map erase (get k l).
Proof. induction l as [|[a x] l IH]; simpl; [reflexivity|]. destruct (key_eqb k a); [reflexivity|exact IH]. Qed.
Lemma put_er k v l : er (put k v l) = put k (erase v) (er l).
Proof. induction l as [|[a x] l IH]; simpl; [reflexivity|]. destruct (key_eqb k a); simpl; [reflexivity|rewrite <- IH; reflexivity]. Qed.
Lemma put_within a b k v l : within a b v -> withinl a b l -> withinl a b (put k v l).
Proof. intros H F. induction F as [|[x y] l X F IH]; simpl; [constructor; [exact H|constructor]|]. destruct (key_eqb k x); constructor; assumption. Qed.
Lemma hdel_er l : hdel_names l = del_names (map erase l).
Proof. induction l as [|x l IH]; [reflexivity|]. destruct x; simpl; try reflexivity. rewrite IH. reflexivity. Qed.
Lemma hdel_keys_er l : hdel_keys l = del_keys (er l).
Proof. unfold hdel_keys, del_keys. rewrite get_er. destruct (get DEL l) as [[| | |i l0|]|]; simpl; try reflexivity. apply hdel_er. Qed.
Lemma hcopy_spec ks t : forall n m t', hcopy n ks t = (m, t') -> n <= m /\ er t' = keep ks (er t) /\ withinl n m t'.
Proof.
  induction t as [|[k v] t IH]; intros n m t' H; simpl in H; [injection H as <- <-; split; [lia|]; split; [reflexivity|constructor]|]. unfold keep in *. simpl.
  destruct (existsb (key_eqb k) ks); simpl; [apply IH, H|]. destruct (deepcopy n v) as [n1 v'] eqn:D. destruct (hcopy n1 ks t) as [n2 r] eqn:E. injection H as <- <-.
  destruct (deepcopy_spec _ _ _ _ D) as (A1 & A2 & A3). destruct (IH _ _ _ E) as (B1 & B2 & B3). split; [lia|]. split; [simpl; congruence|]. constructor; [eapply within_le; eauto|eapply withinl_le; eauto].
Qed.
(** The state and the labelled result correspond to the plain result. *)
Definition agree (n0 n : nat) (h : res (nat * list (key * hv))) (c : res (list (key * cv))) : Prop :=
  match h with Ok (m, l) => n <= m /\ c = Ok (er l) /\ withinl n0 m l | TypeErr => c = TypeErr | DirErr => False end.
Lemma hset_loop_spec n0 l : forall n out, n0 <= n -> withinl n0 n out -> agree n0 n (hset_loop n l out) (set_loop (er l) (er out)).
Proof.
  induction l as [|[k v] l IH]; intros n out L W; simpl; [split; [lia|]; split; [reflexivity|exact W]|]. destruct k; [|reflexivity]. destruct (deepcopy n v) as [n1 v'] eqn:D.
  destruct (deepcopy_spec _ _ _ _ D) as (A1 & A2 & A3). rewrite <- A2, <- put_er. assert (X : agree n0 n1 (hset_loop n1 l (put (KStr s) v' out)) (set_loop (er l) (er (put (KStr s) v' out)))).
  { apply IH; [lia|]. apply put_within; [eapply within_le; eauto|eapply withinl_le; eauto]. }
  unfold agree in *. destruct (hset_loop n1 l _) as [[m r]| |]; [|exact X|exact X]. destruct X as (X1 & X2). split; [lia|exact X2].
Qed.
Lemma hset_keys_spec n0 n l out : n0 <= n -> withinl n0 n out -> agree n0 n (hset_keys n l out) (set_keys (er l) (er out)).
Proof.
  intros L W. unfold hset_keys, set_keys. rewrite get_er. destruct (get SET l) as [[| | | |i s]|]; simpl; try reflexivity; try (split; [lia|]; split; [reflexivity|exact W]). apply hset_loop_spec; assumption.
Qed.
Definition hmloop := fix loop (n : nat) (l output : list (key * hv)) : res (nat * list (key * hv)) :=
  match l with
  | [] => Ok (n, output)
  | (k, v) :: l' =>
      if key_eqb k DEL || key_eqb k SET then loop n l' output
      else match v with
           | HMap _ _ => bindr (hmerge_map n (has_map (get k output)) v) (fun p => loop (fst p) l' (put k (snd p) output))
           | _ => let (n', v') := deepcopy n v in loop n' l' (put k v' output)
           end
  end.
Lemma hmerge_eq n t i l : hmerge_map n t (HMap i l) = bindr (hdel_keys l) (fun ks => let (n1, o) := hcopy (S n) ks t in bindr (hmloop n1 l o) (fun p => bindr (hset_keys (fst p) l (snd p)) (fun q => Ok (fst q, HMap n (snd q))))).
Proof. reflexivity. Qed.
Definition agreed (n : nat) (h : res (nat * hv)) (c : res (list (key * cv))) : Prop :=
  match h with Ok (m, v) => n < m /\ (exists l, v = HMap n l /\ c = Ok (er l)) /\ within n m v | TypeErr => c = TypeErr | DirErr => False end.
Lemma has_map_er o : er (has_map o) = as_map (option_map erase o).
Proof. destruct o as [[]|]; reflexivity. Qed.
Lemma hmloop_spec n0 l : Forall (fun kv => match snd kv with HMap _ _ => forall n t, agreed n (hmerge_map n t (snd kv)) (merge_map (er t) (erase (snd kv))) | _ => True end) l ->
  forall n out, n0 <= n -> withinl n0 n out -> agree n0 n (hmloop n l out) (mloop (er l) (er out)).
Proof.
  induction 1 as [|[k v] l H F IH]; intros n out L W; [split; [lia|]; split; [reflexivity|exact W]|]. cbn [hmloop er map fst snd mloop]. fold (er l).
  destruct (key_eqb k DEL || key_eqb k SET); [apply IH; assumption|].
  assert (D : forall n' v', deepcopy n v = (n', v') -> agree n0 n (hmloop n' l (put k v' out)) (mloop (er l) (put k (erase v) (er out)))).
  { intros n1 v' D. destruct (deepcopy_spec _ _ _ _ D) as (A1 & A2 & A3). rewrite <- A2, <- put_er. pose proof (IH n1 (put k v' out) ltac:(lia) (put_within _ _ _ _ _ (within_le _ _ _ _ _ A3 L (le_n _)) (withinl_le _ _ _ _ _ W (le_n _) A1))) as X.
    unfold agree in *. destruct (hmloop n1 l _) as [[m r]| |]; [|exact X|exact X]. destruct X as (X1 & X2). split; [lia|exact X2]. }
  destruct v as [| | |i lv|i lv]; [apply D; reflexivity|apply D; reflexivity|apply D; reflexivity| |].
  - cbn [erase]. destruct (deepcopy n (HList i lv)) as [n1 v'] eqn:E. exact (D _ _ eq_refl).
  - cbn [snd] in H. clear D. specialize (H n (has_map (get k out))). rewrite has_map_er, <- get_er in H. cbn [erase]. cbn [erase] in H. unfold agreed in H.
    destruct (hmerge_map n (has_map (get k out)) (HMap i lv)) as [[m v']| |]; [|rewrite H; reflexivity|destruct H]. destruct H as (H1 & (lr & -> & H2) & H3). rewrite H2. cbn [bindr fst snd].
    change (CMap (er lr)) with (erase (HMap n lr)). rewrite <- put_er.
    pose proof (IH m (put k (HMap n lr) out) ltac:(lia) (put_within _ _ _ _ _ (within_le _ _ _ _ _ H3 L (le_n _)) (withinl_le _ _ _ _ _ W (le_n _) (Nat.lt_le_incl _ _ H1)))) as X.
    unfold agree in *. destruct (hmloop m l _) as [[m2 r]| |]; [|exact X|exact X]. destruct X as (X1 & X2). split; [lia|exact X2].
Qed.
Lemma hmerge_spec s : match s with HMap _ _ => forall n t, agreed n (hmerge_map n t s) (merge_map (er t) (erase s)) | _ => True end.
Proof.
  apply (hv_ind' (fun s => match s with HMap _ _ => forall n t, agreed n (hmerge_map n t s) (merge_map (er t) (erase s)) | _ => True end)); try exact I; [intros; exact I|intros; exact I|intros; exact I|].
  intros i l F n t. rewrite hmerge_eq. change (erase (HMap i l)) with (CMap (er l)). rewrite merge_map_eq, hdel_keys_er. destruct (del_keys (er l)) as [ks| |] eqn:Dk; [|reflexivity|].
  2: { exfalso. clear - Dk. unfold del_keys in Dk. destruct (get DEL (er l)) as [[| | |l0|]|]; try discriminate. induction l0 as [|x l0 IH]; [discriminate|]. destruct x; try discriminate. simpl in Dk. destruct (del_names l0); try discriminate. apply IH. reflexivity. }
  cbn [bindr]. destruct (hcopy (S n) ks t) as [n1 o] eqn:C. destruct (hcopy_spec _ _ _ _ _ C) as (C1 & C2 & C3). rewrite <- C2.
  pose proof (hmloop_spec (S n) l F n1 o ltac:(lia) C3) as X. unfold agree in X. destruct (hmloop n1 l o) as [[m r]| |]; [|rewrite X; reflexivity|destruct X]. destruct X as (X1 & -> & X3). cbn [bindr fst snd].
  pose proof (hset_keys_spec (S n) m l r ltac:(lia) X3) as Y. unfold agree in Y. destruct (hset_keys m l r) as [[m2 r2]| |]; [|exact Y|destruct Y]. destruct Y as (Y1 & Y2 & Y3). cbn [bindr fst snd agreed].
  split; [lia|]. split; [exists r2; split; [reflexivity|exact Y2]|]. intros j J. rewrite ids_map in J. destruct J as [<-|J]; [lia|]. pose proof (withinl_flat _ _ _ Y3 j J). lia.
Qed.

(** ** Validation *)
Lemma has_error_iff r : has_error r = true <-> errors r <> [] \/ exists f x, In (f, x) (sub_results r) /\ has_error x = true.
Proof.
  destruct r as [e s]. cbn [has_error errors sub_results]. rewrite orb_true_iff. split.
  - intros [H|H]; [left; destruct e; [discriminate|discriminate]|]. right. induction s as [|[f x] s IH]; [discriminate|]. apply orb_true_iff in H. destruct H as [H|H]; [exists f, x; split; [left; reflexivity|exact H]|].
    destruct (IH H) as (g & y & G & Y). exists g, y. split; [right; exact G|exact Y].
  - intros [H|(f & x & I & H)]; [left; destruct e; [congruence|reflexivity]|]. right. induction s as [|[g y] s IH]; [destruct I|]. apply orb_true_iff. destruct I as [I|I]; [injection I as <- <-; left; exact H|right; auto].
Qed.
Lemma sput_in {A} k (v : A) l : In (k, v) (sput k v l).
Proof. induction l as [|[a x] l IH]; simpl; [left; reflexivity|]. destruct (String.eqb_spec k a) as [->|]; [left; reflexivity|right; exact IH]. Qed.
Lemma sput_sub {A} k (v : A) l f x : In (f, x) (sput k v l) -> (f, x) = (k, v) \/ In (f, x) l.
Proof.
  induction l as [|[a y] l IH]; simpl; [intros [H|[]]; left; congruence|]. destruct (String.eqb_spec k a) as [->|]; simpl; [intros [H|H]; [left; congruence|right; right; exact H]|].
  intros [H|H]; [right; left; exact H|]. destruct (IH H) as [X|X]; [left; exact X|right; right; exact X].
Qed.
Lemma sput_keep {A} k (v : A) l f x : In (f, x) l -> f <> k -> In (f, x) (sput k v l).
Proof. induction l as [|[a y] l IH]; simpl; intros H N; [destruct H|]. destruct (String.eqb_spec k a) as [->|]; (destruct H as [H|H]; [try (injection H as -> ->; congruence); left; exact H|right; auto]). Qed.
Lemma note_error r f x : has_error (note_sub r f x) = has_error r || has_error x.
Proof.
  unfold note_sub. destruct (has_error x) eqn:X; [|rewrite orb_false_r; reflexivity]. rewrite orb_true_r. apply has_error_iff. right. exists f, x. destruct r as [e s]. split; [apply sput_in|exact X].
Qed.
Definition vloop (l : list (string * obj)) (r : vres) : vres := fold_left (fun r fx => note_sub r (fst fx) (do_validate (snd fx))) l r.
(** The named parts, in order. *)
Fixpoint number (i : nat) (l : list obj) : list (string * obj) := match l with [] => [] | x :: l' => (bracket (show_nat i), x) :: number (S i) l' end.
Definition named (p : parts) : list (string * obj) :=
  match p with PLeaf => [] | PData l => l | PMap l => map (fun kx => (bracket (fst kx), snd kx)) l | PSeq l => number 0 l end.
Lemma do_validate_eq w p : do_validate (Obj w p) = vloop (named p) (match w with Some r => r | None => VRes [] [] end).
Proof.
  destruct p as [|l|l|l]; simpl.
  - reflexivity.
  - generalize (match w with Some r => r | None => VRes [] [] end). induction l as [|[f x] l IH]; intros r; [reflexivity|]. apply IH.
  - generalize (match w with Some r => r | None => VRes [] [] end). induction l as [|[f x] l IH]; intros r; [reflexivity|]. apply IH.
  - generalize (match w with Some r => r | None => VRes [] [] end). generalize 0. induction l as [|x l IH]; intros i r; [reflexivity|]. apply IH.
Qed.
Lemma number_in l : forall i f x, In (f, x) (number i l) <-> exists j, f = bracket (show_nat (i + j)) /\ nth_error l j = Some x.
Proof.
  induction l as [|y l IH]; intros i f x; simpl; [split; [intros []|intros ([|j] & _ & H); discriminate]|]. rewrite IH. split.
  - intros [H|(j & -> & H)]; [injection H as <- <-; exists 0; rewrite Nat.add_0_r; split; reflexivity|]. exists (S j). rewrite Nat.add_succ_r. split; [reflexivity|exact H].
  - intros ([|j] & -> & H); [left; injection H as ->; rewrite Nat.add_0_r; reflexivity|]. right. exists j. rewrite Nat.add_succ_r. split; [reflexivity|exact H].
Qed.
Lemma part_named w p f x : part (Obj w p) f x <-> In (f, x) (named p).
Proof.
  split.
  - intros H. inversion H as [w' l f' x' I|w' l k x' I|w' l i x' I]; subst; simpl; [exact I|apply in_map_iff; exists (k, x); auto|apply number_in; exists i; split; [reflexivity|exact I]].
  - intros H. destruct p as [|l|l|l]; simpl in H; [destruct H|constructor; exact H| |].
    + apply in_map_iff in H. destruct H as ([k y] & E & I). injection E as <- <-. constructor. exact I.
    + apply number_in in H. destruct H as (j & -> & E). constructor. exact E.
Qed.
Lemma vloop_error l : forall r, has_error (vloop l r) = true <-> has_error r = true \/ exists f x, In (f, x) l /\ has_error (do_validate x) = true.
Proof.
  induction l as [|[g y] l IH]; intros r; simpl; [split; [auto|intros [H|(f & x & [] & _)]; exact H]|]. fold (vloop l (note_sub r g (do_validate y))). rewrite IH, note_error, orb_true_iff. split.
  - intros [[H|H]|(f & x & I & H)]; [left; exact H|right; exists g, y; split; [left; reflexivity|exact H]|right; exists f, x; split; [right; exact I|exact H]].
  - intros [H|(f & x & [I|I] & H)]; [tauto|injection I as <- <-; tauto|right; eauto].
Qed.

Section OInd.
  Variable P : obj -> Prop.
  Hypothesis H0 : forall w, P (Obj w PLeaf).
  Hypothesis H1 : forall w l, Forall (fun fx => P (snd fx)) l -> P (Obj w (PData l)).
  Hypothesis H2 : forall w l, Forall (fun fx => P (snd fx)) l -> P (Obj w (PMap l)).
  Hypothesis H3 : forall w l, Forall P l -> P (Obj w (PSeq l)).
  Fixpoint obj_ind' (o : obj) : P o :=
    match o with
    | Obj w PLeaf => H0 w
    | Obj w (PData l) => H1 w l ((fix go l : Forall (fun fx => P (snd fx)) l := match l with [] => Forall_nil _ | x :: l' => Forall_cons _ (obj_ind' (snd x)) (go l') end) l)
    | Obj w (PMap l) => H2 w l ((fix go l : Forall (fun fx => P (snd fx)) l := match l with [] => Forall_nil _ | x :: l' => Forall_cons _ (obj_ind' (snd x)) (go l') end) l)
    | Obj w (PSeq l) => H3 w l ((fix go l : Forall P l := match l with [] => Forall_nil _ | x :: l' => Forall_cons _ (obj_ind' x) (go l') end) l)
    end.
End OInd.
Lemma obj_named (P : obj -> Prop) : (forall w p, (forall f x, In (f, x) (named p) -> P x) -> P (Obj w p)) -> forall o, P o.
Proof.
  intros H. induction o as [w|w l F|w l F|w l F] using obj_ind'; apply H; intros f x I; simpl in I.
  - destruct I.
  - rewrite Forall_forall in F. apply (F (f, x) I).
  - apply in_map_iff in I. destruct I as ([k y] & E & I). injection E as <- <-. rewrite Forall_forall in F. apply (F (k, y) I).
  - apply number_in in I. destruct I as (j & _ & E). rewrite Forall_forall in F. apply F. eapply nth_error_In, E.
Qed.
Lemma validate_error o : has_error (do_validate o) = true <-> exists p x, inside o p x /\ reports x.
Proof.
  revert o. apply obj_named. intros w p IH. rewrite do_validate_eq, vloop_error. split.
  - intros [H|(f & x & I & H)].
    + exists [], (Obj w p). split; [constructor|]. destruct w; [exact H|discriminate].
    + apply (IH f x I) in H. destruct H as (q & y & A & B). exists (f :: q), y. split; [|exact B]. econstructor; [apply part_named; exact I|exact A].
  - intros (q & x & A & B). inversion A as [o|o f y q' z Hp A']; subst.
    + left. destruct w; [exact B|destruct B].
    + right. exists f, y. apply part_named in Hp. split; [exact Hp|]. apply (IH f y Hp). eauto.
Qed.

(** Decimal numbers are different. *)
Fixpoint value (s : string) (a : nat) : nat := match s with EmptyString => a | String c s' => value s' (10 * a + (nat_of_ascii c - 48)) end.
Lemma digit_value d : d < 10 -> nat_of_ascii (digit d) - 48 = d.
Proof. intros H. unfold digit. rewrite nat_ascii_embedding by lia. lia. Qed.
Lemma show_value fuel : forall n acc, n < fuel -> value (show_nat_aux fuel n acc) 0 = value acc n.
Proof.
  induction fuel as [|fuel IH]; intros n acc H; [lia|]. cbn [show_nat_aux]. pose proof (Nat.mod_upper_bound n 10 ltac:(lia)) as M. destruct (Nat.ltb_spec n 10) as [L|L].
  - cbn [value]. rewrite digit_value by exact M. rewrite Nat.mod_small by exact L. f_equal. 
  - rewrite IH by (apply Nat.lt_le_trans with n; [apply Nat.div_lt; lia|lia]). cbn [value]. rewrite digit_value by exact M. f_equal. rewrite <- Nat.div_mod by lia. reflexivity.
Qed.
Lemma show_nat_inj a b : show_nat a = show_nat b -> a = b.
Proof. intros H. apply (f_equal (fun s => value s 0)) in H. unfold show_nat in H. rewrite !show_value in H by lia. exact H. Qed.
Lemma app_r_inj c : forall a b, (a ++ c)%string = (b ++ c)%string -> a = b.
Proof.
  assert (L : forall x : string, String.length (x ++ c)%string = String.length x + String.length c) by (induction x; simpl; congruence).
  induction a as [|x a IH]; intros [|y b] H; [reflexivity| | |].
  - apply (f_equal String.length) in H. simpl in H. rewrite L in H. lia.
  - apply (f_equal String.length) in H. simpl in H. rewrite L in H. lia.
  - simpl in H. injection H as -> H. f_equal. apply IH, H.
Qed.
Lemma bracket_inj a b : bracket a = bracket b -> a = b.
Proof. unfold bracket. simpl. intros H. injection H as H. apply app_r_inj in H. exact H. Qed.
Lemma number_nodup l : forall i, NoDup (map fst (number i l)).
Proof.
  induction l as [|x l IH]; intros i; simpl; constructor; [|apply IH]. intros I. apply in_map_iff in I. destruct I as ([f y] & E & I). simpl in E. subst f. apply number_in in I. destruct I as (j & E & _).
  apply bracket_inj, show_nat_inj in E. lia.
Qed.
Lemma named_nodup p : simple_parts p -> NoDup (map fst (named p)) /\ forall f x, In (f, x) (named p) -> simple x.
Proof.
  intros H. inversion H as [|l N F|l N F|l F]; subst; simpl.
  - split; [constructor|intros f x []].
  - split; [exact N|]. intros f x I. rewrite Forall_forall in F. apply (F (f, x) I).
  - split; [|intros f x I; apply in_map_iff in I; destruct I as ([k y] & E & I); injection E as <- <-; rewrite Forall_forall in F; apply (F (k, y) I)].
    clear F H. induction l as [|[k x] l IH]; simpl; constructor; inversion N as [|? ? N1 N2]; subst; [|apply IH, N2]. intros I. rewrite map_map in I. apply in_map_iff in I. destruct I as ([k2 y] & E & I). simpl in E.
    apply bracket_inj in E. subst k2. apply N1. apply (in_map fst _ (k, y)), I.
  - split; [apply number_nodup|]. intros f x I. apply number_in in I. destruct I as (j & _ & E). rewrite Forall_forall in F. apply F. eapply nth_error_In, E.
Qed.
Lemma vloop_subs l : forall e s, NoDup (map fst l) -> (forall f, In f (map fst s) -> ~ In f (map fst l)) -> exists s', vloop l (VRes e s) = VRes e s' /\
  forall f r, In (f, r) s' <-> In (f, r) s \/ exists x, In (f, x) l /\ r = do_validate x /\ has_error r = true.
Proof.
  induction l as [|[g y] l IH]; intros e s N D; simpl.
  - exists s. split; [reflexivity|]. intros f r. split; [auto|intros [H|(x & [] & _)]; exact H].
  - cbn [map fst] in N. inversion N as [|? ? N1 N2]; subst. fold (vloop l). unfold note_sub at 1. destruct (has_error (do_validate y)) eqn:E.
    + destruct (IH e (sput g (do_validate y) s) N2) as (s' & S1 & S2).
      { intros f I L. apply in_map_iff in I. destruct I as ([f' r] & X & I). simpl in X. subst f'. apply sput_sub in I. destruct I as [I|I]; [injection I as -> _; exact (N1 L)|]. apply (D f); [apply (in_map fst _ (f, r)), I|right; exact L]. }
      exists s'. split; [exact S1|]. intros f r. rewrite S2. split.
      * intros [I|(x & I & R)]; [|right; exists x; split; [right; exact I|exact R]]. apply sput_sub in I. destruct I as [I|I]; [injection I as -> ->|left; exact I]. right. exists y. split; [left; reflexivity|]. split; [reflexivity|exact E].
      * intros [I|(x & [I|I] & R & R2)].
        -- left. apply sput_keep; [exact I|]. intros ->. apply (D g); [apply (in_map fst _ (g, r)), I|left; reflexivity].
        -- injection I as -> ->. subst r. left. apply sput_in.
        -- right. eauto.
    + destruct (IH e s N2) as (s' & S1 & S2); [intros f I L; apply (D f I); right; exact L|]. exists s'. split; [exact S1|]. intros f r. rewrite S2. split.
      * intros [I|(x & I & R)]; [left; exact I|right; exists x; split; [right; exact I|exact R]].
      * intros [I|(x & [I|I] & R & R2)]; [left; exact I| |right; eauto]. injection I as -> ->. congruence.
Qed.
Lemma reported_error r p e : reported r p e -> has_error r = true.
Proof. induction 1 as [e s H|e s f r p m I R IH]; apply has_error_iff; [left; exact H|right; eauto]. Qed.
Lemma validate_reported o : simple o -> forall p e, reported (do_validate o) p e <-> exists x, inside o p x /\ own_errors x = e /\ e <> [].
Proof.
  revert o. apply (obj_named (fun o => simple o -> forall p e, reported (do_validate o) p e <-> exists x, inside o p x /\ own_errors x = e /\ e <> [])).
  intros w ps IH S p e. inversion S as [w' p' Sw Sp]; subst. destruct (named_nodup ps Sp) as (N & Sx). rewrite do_validate_eq.
  assert (R : exists e0, (match w with Some r => r | None => VRes [] [] end) = VRes e0 [] /\ own_errors (Obj w ps) = e0).
  { destruct w as [[e0 s0]|]; [simpl in Sw; subst s0; simpl; eauto|simpl; eauto]. }
  destruct R as (e0 & -> & Ow). destruct (vloop_subs (named ps) e0 [] N ltac:(intros f [])) as (s' & -> & S2). split.
  - intros H. inversion H as [e' s0 Ne|e' s0 f r q m I Rp]; subst.
    + eexists. split; [constructor|]. split; [reflexivity|exact Ne].
    + apply S2 in I. destruct I as [[]|(x & I & -> & _)]. apply (IH f x I (Sx f x I)) in Rp. destruct Rp as (y & A & B). exists y. split; [|exact B]. econstructor; [apply part_named; exact I|exact A].
  - intros (x & A & <- & Ne). inversion A as [o|o f y q z Hp A']; subst.
    + constructor. exact Ne.
    + apply part_named in Hp. assert (Rp : reported (do_validate y) q (own_errors x)) by (apply (IH f y Hp (Sx f y Hp)); eauto).
      eapply re_sub; [|exact Rp]. apply S2. right. exists y. split; [exact Hp|]. split; [reflexivity|]. eapply reported_error, Rp.
Qed.

(** ** The message *)
Section VInd.
  Variable P : vres -> Prop.
  Hypothesis H : forall e s, Forall (fun fr => P (snd fr)) s -> P (VRes e s).
  Fixpoint vres_ind' (r : vres) : P r :=
    match r with VRes e s => H e s ((fix go l : Forall (fun fx => P (snd fx)) l := match l with [] => Forall_nil _ | x :: l' => Forall_cons _ (vres_ind' (snd x)) (go l') end) s) end.
End VInd.
Lemma create_spec r : forall path m, In m (create_error_string path r) <-> exists p e, reported r p e /\ join_sp e <> EmptyString /\ m = entry (path ++ p) e.
Proof.
  induction r as [e s F] using vres_ind'. intros path m. cbn [create_error_string]. rewrite in_app_iff.
  match goal with |- context [In m (?f s)] => set (loop := f) end.
  assert (L : In m (loop s) <-> exists f r p e', In (f, r) s /\ reported r p e' /\ join_sp e' <> EmptyString /\ m = entry (path ++ f :: p) e').
  { clear e. induction F as [|[f r] s X F IH]; simpl; [split; [intros []|intros (f & r & p & e' & [] & _)]|]. rewrite in_app_iff, IH. simpl in X. rewrite (X (path ++ [f])%list m). split.
    - intros [(p & e' & A & B & C)|(f' & r' & p & e' & I & A)]; [exists f, r, p, e'; split; [left; reflexivity|]; split; [exact A|]; split; [exact B|]; rewrite <- app_assoc in C; exact C|exists f', r', p, e'; split; [right; exact I|exact A]].
    - intros (f' & r' & p & e' & [I|I] & A & B & C); [injection I as <- <-; left; exists p, e'; split; [exact A|]; split; [exact B|]; rewrite <- app_assoc; exact C|right; exists f', r', p, e'; auto]. }
  rewrite L. split.
  - intros [I|(f & r & p & e' & I & A & B)]; [|exists (f :: p), e'; split; [econstructor; eassumption|exact B]].
    destruct (String.eqb_spec (join_sp e) "") as [E|E]; [destruct I|]. exists [], e. split; [constructor; intros ->; apply E; reflexivity|]. split; [exact E|]. rewrite app_nil_r. unfold entry. destruct path; destruct I as [I|[]]; symmetry; exact I.
  - intros (p & e' & R & B & C). inversion R as [e0 s0 Ne|e0 s0 f r q m0 I A]; subst.
    + left. destruct (String.eqb_spec (join_sp e') "") as [E|E]; [contradiction|]. rewrite app_nil_r. unfold entry. destruct path; left; reflexivity.
    + right. exists f, r, q, e'. auto.
Qed.
