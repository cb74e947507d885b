From Coq Require Import String List Bool Arith ZArith QArith Lia.
From Verif Require Import Struct_Model Struct_Spec.
Import ListNotations.
Open Scope list_scope. Open Scope nat_scope.

Section Ind.
  Variable P : val -> Prop.
  Hypothesis Hn : P VNone. Hypothesis Hb : forall b, P (VBool b). Hypothesis Hi : forall z, P (VInt z). Hypothesis Hf : forall q, P (VFloat q). Hypothesis Hs : forall s, P (VStr s).
  Hypothesis Hp : forall s, P (VPath s). Hypothesis Hd : forall s, P (VDtype s). Hypothesis Hde : forall s, P (VDevice s). Hypothesis He : forall c s, P (VEnum c s).
  Hypothesis Hl : forall l, Forall P l -> P (VList l). Hypothesis Ht : forall l, Forall P l -> P (VTuple l). Hypothesis Hset : forall l, Forall P l -> P (VSet l).
  Hypothesis Hdict : forall l, Forall (fun kv => P (fst kv) /\ P (snd kv)) l -> P (VDict l). Hypothesis Hdata : forall c l, Forall (fun kv => P (snd kv)) l -> P (VData c l).
  Fixpoint val_ind' (v : val) : P v :=
    match v with
    | VNone => Hn | VBool b => Hb b | VInt z => Hi z | VFloat q => Hf q | VStr s => Hs s | VPath s => Hp s | VDtype s => Hd s | VDevice s => Hde s | VEnum c s => He c s
    | VList l => Hl l ((fix go l : Forall P l := match l with [] => Forall_nil _ | x :: l' => Forall_cons _ (val_ind' x) (go l') end) l)
    | VTuple l => Ht l ((fix go l : Forall P l := match l with [] => Forall_nil _ | x :: l' => Forall_cons _ (val_ind' x) (go l') end) l)
    | VSet l => Hset l ((fix go l : Forall P l := match l with [] => Forall_nil _ | x :: l' => Forall_cons _ (val_ind' x) (go l') end) l)
    | VDict l => Hdict l ((fix go (l : list (val * val)) : Forall (fun kv => P (fst kv) /\ P (snd kv)) l := match l with [] => Forall_nil _ | x :: l' => Forall_cons _ (conj (val_ind' (fst x)) (val_ind' (snd x))) (go l') end) l)
    | VData c l => Hdata c l ((fix go (l : list (string * val)) : Forall (fun kv => P (snd kv)) l := match l with [] => Forall_nil _ | x :: l' => Forall_cons _ (val_ind' (snd x)) (go l') end) l)
    end.
End Ind.

Lemma Qeq_bool_sym a b : Qeq_bool a b = Qeq_bool b a.
Proof. destruct (Qeq_bool a b) eqn:A, (Qeq_bool b a) eqn:B; try reflexivity; [apply Qeq_bool_iff in A; symmetry in A; apply Qeq_bool_iff in A; congruence|apply Qeq_bool_iff in B; symmetry in B; apply Qeq_bool_iff in B; congruence]. Qed.
Lemma py_eq_sym a : forall b, py_eq a b = py_eq b a.
Proof.
  induction a using val_ind'; intros v; destruct v; try reflexivity; cbn [py_eq num]; try apply Qeq_bool_sym; try apply String.eqb_sym.
  - rewrite Nat.eqb_sym, String.eqb_sym. reflexivity.
  - revert l0. induction H as [|x l Hx Hl IH]; intros [|y m]; try reflexivity. rewrite Hx. f_equal. apply IH.
Qed.
Lemma dict_set_new k v l : (forall k', In k' (map fst l) -> py_eq k k' = false) -> dict_set k v l = l ++ [(k, v)].
Proof.
  induction l as [|[k' v'] l IH]; intros H; simpl; [reflexivity|]. rewrite (H k') by (left; reflexivity). f_equal. apply IH. intros x Hx. apply H. right. exact Hx.
Qed.
Lemma distinct_app_inv l x m : distinct (l ++ x :: m) -> forall y, In y l -> py_eq x y = false.
Proof.
  induction l as [|z l IH]; intros H y Hy; [destruct Hy|]. inversion H as [|? ? H1 H2]; subst. destruct Hy as [->|Hy]; [|apply IH; assumption].
  rewrite py_eq_sym. rewrite Forall_forall in H1. apply H1. apply in_or_app. right. left. reflexivity.
Qed.
Lemma distinct_snoc l x : distinct l -> (forall y, In y l -> py_eq x y = false) -> distinct (l ++ [x]).
Proof.
  induction 1 as [|z l H1 H2 IH]; intros H; simpl; [constructor; constructor|]. constructor.
  - apply Forall_app. split; [exact H1|]. constructor; [|constructor]. rewrite py_eq_sym. apply H. left. reflexivity.
  - apply IH. intros y Hy. apply H. right. exact Hy.
Qed.
Lemma existsb_false {A} (f : A -> bool) l : existsb f l = false <-> forall x, In x l -> f x = false.
Proof. split; [intros H x Hx; destruct (f x) eqn:E; [|reflexivity]; rewrite <- H; symmetry; apply existsb_exists; eauto|]. intros H. destruct (existsb f l) eqn:E; [|reflexivity]. apply existsb_exists in E. destruct E as (x & Hx & E). rewrite H in E by exact Hx. discriminate. Qed.
Lemma set_of_distinct l : forall acc, Forall (fun e => hashable e = true) l -> distinct (acc ++ l) -> set_of acc l = Ok (acc ++ l).
Proof.
  induction l as [|x l IH]; intros acc H D; simpl; [rewrite app_nil_r; reflexivity|]. inversion H as [|? ? H1 H2]; subst. rewrite H1.
  assert (E : existsb (py_eq x) acc = false) by (apply existsb_false; intros y Hy; eapply distinct_app_inv; eassumption). rewrite E.
  rewrite IH; [rewrite <- app_assoc; reflexivity|exact H2|rewrite <- app_assoc; exact D].
Qed.

(** Enough fuel *)
Definition ev {A} (f : nat -> A) (r : A) : Prop := exists n0, forall n, n0 <= n -> f n = r.
Lemma ev_const {A} (r : A) : ev (fun _ => r) r. Proof. exists 0. auto. Qed.
Lemma ev_S {A} (f : nat -> A) (g : nat -> A) r : (forall n, g (S n) = f n) -> ev f r -> ev g r.
Proof. intros E (n0 & H). exists (S n0). intros [|n] L; [lia|]. rewrite E. apply H. lia. Qed.
Lemma ev_bind {A B} (f : nat -> res A) a (g : nat -> A -> res B) r : ev f (Ok a) -> ev (fun n => g n a) r -> ev (fun n => bindr (f n) (g n)) r.
Proof. intros (n0 & H) (n1 & K). exists (Nat.max n0 n1). intros n L. rewrite H by lia. simpl. apply K. lia. Qed.
Lemma ev_ext {A} (f g : nat -> A) r : (forall n, f n = g n) -> ev f r -> ev g r.
Proof. intros E (n0 & H). exists n0. intros n L. rewrite <- E. auto. Qed.
Lemma ev_inj {A} (f : nat -> A) r r' : ev f r -> ev f r' -> r = r'.
Proof. intros (n0 & H) (n1 & K). rewrite <- (H (Nat.max n0 n1)), <- (K (Nat.max n0 n1)) by lia. reflexivity. Qed.
Lemma ev_map {A B} (f : nat -> A -> res B) l l' : Forall2 (fun a b => ev (fun n => f n a) (Ok b)) l l' -> ev (fun n => map_res (f n) l) (Ok l').
Proof.
  induction 1 as [|a b l l' H F IH]; simpl; [apply ev_const|].
  apply (ev_bind (fun n => f n a) b (fun n y => bindr (map_res (f n) l) (fun ys => Ok (y :: ys)))); [exact H|].
  apply (ev_bind (fun n => map_res (f n) l) l' (fun n ys => Ok (b :: ys))); [exact IH|apply ev_const].
Qed.

(** Plain data unstructures to itself *)
Definition un (v r : val) : Prop := ev (fun n => unstructure n v) (Ok r).
Definition st (W : world) (r : val) (t : ty) (v : val) : Prop := ev (fun n => structure W n r t) (Ok v).
Definition undict_loop (n : nat) := fix loop (l out : list (val * val)) : res (list (val * val)) :=
  match l with
  | [] => Ok out
  | (k, x) :: l' => bindr (unstructure n k) (fun k' => bindr (unstructure n x) (fun x' => bindr (unstructure n x') (fun x'' => bindr (set_item k' x'' out) (loop l'))))
  end.
Definition undata_loop (n : nat) := fix loop (l : list (string * val)) (out : list (val * val)) : res (list (val * val)) :=
  match l with [] => Ok out | (k, x) :: l' => bindr (unstructure n x) (fun x' => bindr (set_item (VStr k) x' out) (loop l')) end.
Definition stdict_loop W (n : nat) kt vt := fix loop (l out : list (val * val)) : res (list (val * val)) :=
  match l with
  | [] => Ok out
  | (k, v) :: l' => bindr (structure W n k kt) (fun k' => bindr (structure W n v vt) (fun v' => bindr (set_item k' v' out) (loop l')))
  end.
Lemma undict_ev l raws : Forall2 (fun kv kv' => un (fst kv) (fst kv') /\ un (snd kv) (snd kv') /\ un (snd kv') (snd kv')) l raws ->
  forall out, Forall (fun k => hashable k = true) (map fst raws) -> distinct (map fst (out ++ raws)) -> ev (fun n => undict_loop n l out) (Ok (out ++ raws)).
Proof.
  induction 1 as [|[k x] [k' x'] l raws (H1 & H2 & H3) F IH]; intros out Hh D; simpl; [rewrite app_nil_r; apply ev_const|].
  simpl in *. inversion Hh as [|? ? Hk Hh']; subst.
  apply (ev_bind (fun n => unstructure n k) k' (fun n k' => bindr (unstructure n x) (fun x' => bindr (unstructure n x') (fun x'' => bindr (set_item k' x'' out) (undict_loop n l))))); [exact H1|].
  apply (ev_bind (fun n => unstructure n x) x' (fun n x' => bindr (unstructure n x') (fun x'' => bindr (set_item k' x'' out) (undict_loop n l)))); [exact H2|].
  apply (ev_bind (fun n => unstructure n x') x' (fun n x'' => bindr (set_item k' x'' out) (undict_loop n l))); [exact H3|].
  unfold set_item. rewrite Hk. simpl. rewrite dict_set_new.
  - replace (out ++ (k', x') :: raws) with ((out ++ [(k', x')]) ++ raws) by (rewrite <- app_assoc; reflexivity). apply IH; [exact Hh'|]. rewrite <- app_assoc. exact D.
  - rewrite map_app in D. simpl in D. intros y Hy. eapply distinct_app_inv; eassumption.
Qed.
Lemma undata_ev l raws : Forall2 (fun kv kv' => fst kv' = VStr (fst kv) /\ un (snd kv) (snd kv')) l raws ->
  forall out, distinct (map fst (out ++ raws)) -> ev (fun n => undata_loop n l out) (Ok (out ++ raws)).
Proof.
  induction 1 as [|[k x] [k' x'] l raws (H1 & H2) F IH]; intros out D; simpl; [rewrite app_nil_r; apply ev_const|].
  simpl in *. subst k'.
  apply (ev_bind (fun n => unstructure n x) x' (fun n x' => bindr (set_item (VStr k) x' out) (undata_loop n l))); [exact H2|].
  unfold set_item. simpl. rewrite dict_set_new.
  - replace (out ++ (VStr k, x') :: raws) with ((out ++ [(VStr k, x')]) ++ raws) by (rewrite <- app_assoc; reflexivity). apply IH. rewrite <- app_assoc. exact D.
  - rewrite map_app in D. simpl in D. intros y Hy. eapply distinct_app_inv; eassumption.
Qed.
Lemma stdict_ev W kt vt l raws : Forall2 (fun kv kv' => st W (fst kv') kt (fst kv) /\ st W (snd kv') vt (snd kv)) l raws ->
  forall out, Forall (fun k => hashable k = true) (map fst l) -> distinct (map fst (out ++ l)) -> ev (fun n => stdict_loop W n kt vt raws out) (Ok (out ++ l)).
Proof.
  induction 1 as [|[k x] [k' x'] l raws (H1 & H2) F IH]; intros out Hh D; simpl; [rewrite app_nil_r; apply ev_const|].
  simpl in *. inversion Hh as [|? ? Hk Hh']; subst.
  apply (ev_bind (fun n => structure W n k' kt) k (fun n k => bindr (structure W n x' vt) (fun v' => bindr (set_item k v' out) (stdict_loop W n kt vt raws)))); [exact H1|].
  apply (ev_bind (fun n => structure W n x' vt) x (fun n v' => bindr (set_item k v' out) (stdict_loop W n kt vt raws))); [exact H2|].
  unfold set_item. rewrite Hk. simpl. rewrite dict_set_new.
  - replace (out ++ (k, x) :: l) with ((out ++ [(k, x)]) ++ l) by (rewrite <- app_assoc; reflexivity). apply IH; [exact Hh'|]. rewrite <- app_assoc. exact D.
  - rewrite map_app in D. simpl in D. intros y Hy. eapply distinct_app_inv; eassumption.
Qed.
Lemma un_list l raws : Forall2 un l raws -> un (VList l) (VList raws) /\ un (VTuple l) (VList raws) /\ un (VSet l) (VList raws).
Proof.
  intros H. assert (E : ev (fun n => map_res (unstructure n) l) (Ok raws)) by (apply ev_map; exact H).
  assert (K : ev (fun n => bindr (map_res (unstructure n) l) (fun l' => Ok (VList l'))) (Ok (VList raws))) by (apply (ev_bind _ raws (fun _ l' => Ok (VList l'))); [exact E|apply ev_const]).
  split; [|split]; (eapply ev_S; [|exact K]; reflexivity).
Qed.
Lemma un_dict l raws : Forall2 (fun kv kv' => un (fst kv) (fst kv') /\ un (snd kv) (snd kv') /\ un (snd kv') (snd kv')) l raws ->
  Forall (fun k => hashable k = true) (map fst raws) -> distinct (map fst raws) -> un (VDict l) (VDict raws).
Proof.
  intros H Hh D. assert (E := undict_ev l raws H [] Hh D). eapply ev_S; [|apply (ev_bind (fun n => undict_loop n l []) raws (fun _ out => Ok (VDict out))); [exact E|apply ev_const]]. reflexivity.
Qed.
Lemma un_data c l raws : Forall2 (fun kv kv' => fst kv' = VStr (fst kv) /\ un (snd kv) (snd kv')) l raws -> distinct (map fst raws) -> un (VData c l) (VDict raws).
Proof.
  intros H D. assert (E := undata_ev l raws H [] D). eapply ev_S; [|apply (ev_bind (fun n => undata_loop n l []) raws (fun _ out => Ok (VDict out))); [exact E|apply ev_const]]. reflexivity.
Qed.
Lemma plain_list l : plain (VList l) <-> Forall plain l.
Proof. induction l as [|x l IH]; [split; [constructor|exact (fun _ => I)]|]. change (plain (VList (x :: l))) with (plain x /\ plain (VList l)). rewrite IH. split; [intros []; constructor; assumption|intros H; inversion H; auto]. Qed.
Lemma plain_dict l : plain (VDict l) <-> Forall (fun kv => plain (fst kv) /\ plain (snd kv)) l /\ Forall (fun k => hashable k = true) (map fst l) /\ distinct (map fst l).
Proof.
  assert (K : (fix all (l : list (val * val)) : Prop := match l with [] => True | (k, x) :: l' => plain k /\ plain x /\ all l' end) l <-> Forall (fun kv => plain (fst kv) /\ plain (snd kv)) l).
  { induction l as [|[k x] l IH]; [split; [constructor|exact (fun _ => I)]|]. rewrite IH. split; [intros (A & B & C); constructor; auto|intros H; inversion H; simpl in *; tauto]. }
  change (plain (VDict l)) with ((fix all (l : list (val * val)) : Prop := match l with [] => True | (k, x) :: l' => plain k /\ plain x /\ all l' end) l /\ Forall (fun k => hashable k = true) (map fst l) /\ distinct (map fst l)). rewrite K. reflexivity.
Qed.
Lemma Forall2_same {A} (R : A -> A -> Prop) l : Forall (fun x => R x x) l -> Forall2 R l l.
Proof. induction 1; constructor; assumption. Qed.
Lemma plain_un v : plain v -> un v v.
Proof.
  induction v using val_ind'; intros H'; try (exists 1; intros [|n] L; [lia|reflexivity]); try (exfalso; exact H').
  - apply un_list. apply Forall2_same. apply plain_list in H'. rewrite Forall_forall in *. auto.
  - apply plain_dict in H'. destruct H' as (A & B & C). apply un_dict; [|exact B|exact C]. apply Forall2_same. rewrite Forall_forall in *. intros kv Hkv. destruct (H kv Hkv) as [X Y]. destruct (A kv Hkv). auto.
Qed.

(** Keys *)
Definition key_raw (k : val) : val := match k with VPath s | VDtype s | VDevice s | VEnum _ s => VStr s | _ => k end.
Lemma key_fact W kt a : key_ty kt -> has W kt a -> un a (key_raw a) /\ hashable a = true /\ hashable (key_raw a) = true /\ forall b, has W kt b -> py_eq (key_raw a) (key_raw b) = py_eq a b.
Proof.
  intros K H. destruct kt; try destruct K; inversion H; subst; (split; [exists 1; intros [|n] L; [lia|reflexivity]|]); (split; [reflexivity|]); (split; [reflexivity|]); intros b' Hb'; inversion Hb'; subst; try reflexivity.
  simpl. rewrite Nat.eqb_refl. reflexivity.
Qed.
Lemma distinct_raw W kt l : key_ty kt -> Forall (has W kt) l -> distinct l -> distinct (map key_raw l).
Proof.
  intros K. induction 1 as [|a l Ha Hl IH]; intros D; simpl; [constructor|]. inversion D as [|? ? D1 D2]; subst. constructor; [|apply IH, D2].
  rewrite Forall_map. rewrite Forall_forall in *. intros b Hb. destruct (key_fact W kt a K Ha) as (_ & _ & _ & E). rewrite E by (apply Hl, Hb). apply D1, Hb.
Qed.
