(** Lemmas about the collater *)
From Coq Require Import List Bool Arith NArith ZArith Lia ZifyN ZifyNat ZifyBool.
From Verif Require Import File_Model Sel_Model Sel_Spec Sel_Visit Sel_Map Coll_Model Coll_Spec.
Import ListNotations.

Lemma to_double_exact z : (Z.abs z <= 2 ^ 53)%Z -> to_double z = z.
Proof. unfold to_double. intros H. cbv zeta. destruct (Z.leb_spec (Z.abs z) (2 ^ 53)); [reflexivity|lia]. Qed.

(** ** Padding *)
Lemma width_unique lens m w w' : width_of lens m w -> width_of lens m w' -> w = w'.
Proof. intros (A & B & C) (A' & B' & C'). specialize (C w' A' B'). specialize (C' w A B). lia. Qed.
Lemma max_in lens : forall n, In n lens -> n <= fold_right Nat.max 0 lens.
Proof. induction lens as [|x l IH]; intros n I0; [contradiction|]. destruct I0 as [->|I0]; cbn; [lia|]. specialize (IH n I0). lia. Qed.
Lemma max_least lens w : (forall n, In n lens -> n <= w) -> fold_right Nat.max 0 lens <= w.
Proof. induction lens as [|x l IH]; intros H; cbn; [lia|]. specialize (IH (fun n I0 => H n (or_intror I0))). specialize (H x (or_introl eq_refl)). lia. Qed.
Definition model_width (lens : list nat) (m : nat) : nat :=
  let L := fold_right Nat.max 0 lens in if (1 <? m) && (0 <? L mod m) then L + (m - L mod m) else L.
Lemma model_width_spec lens m : width_of lens m (model_width lens m).
Proof.
  unfold model_width. cbv zeta. set (L := fold_right Nat.max 0 lens). assert (Mx : forall n, In n lens -> n <= L) by apply max_in. assert (Ls : forall w, (forall n, In n lens -> n <= w) -> L <= w) by apply max_least. clearbody L.
  destruct (Nat.ltb_spec 1 m) as [M|M]; cbn [andb].
  - pose proof (Nat.div_mod L m ltac:(lia)) as D. pose proof (Nat.mod_upper_bound L m ltac:(lia)) as U. destruct (Nat.ltb_spec 0 (L mod m)) as [R|R].
    + split; [intros n I0; specialize (Mx n I0); lia|]. split; [intros _; exists (S (L / m)); nia|]. intros w' H W. specialize (W M) as (k & ->). specialize (Ls _ H). assert (L / m < k) by (apply Nat.nle_gt; intros X; nia). nia.
    + split; [exact Mx|]. split; [intros _; exists (L / m); nia|]. intros w' H _. now apply Ls.
  - split; [exact Mx|]. split; [lia|]. intros w' H _. now apply Ls.
Qed.
Lemma ragged_spec lens w : lens <> [] -> (if negb (neighbours_differ lens) && negb (hd 0 lens =? w) then true else neighbours_differ lens) = false <-> forall n, In n lens -> n = w.
Proof.
  intros N0. assert (E : (if negb (neighbours_differ lens) && negb (hd 0 lens =? w) then true else neighbours_differ lens) = neighbours_differ lens || negb (hd 0 lens =? w)) by (destruct (neighbours_differ lens), (hd 0 lens =? w); reflexivity).
  rewrite E. clear E. induction lens as [|n lens IH]; [contradiction|]. destruct lens as [|k lens].
  - cbn. split; [intros H x [<-|[]]; lia|]. intros H. specialize (H n (or_introl eq_refl)). subst. now rewrite Nat.eqb_refl.
  - specialize (IH ltac:(discriminate)). change (neighbours_differ (n :: k :: lens)) with (negb (k =? n) || neighbours_differ (k :: lens)). cbn [hd] in *. split.
    + intros H. assert (k = n /\ n = w) as (-> & ->) by lia. intros x [<-|I0]; [reflexivity|]. apply IH; [|exact I0]. lia.
    + intros H. assert (Hn := H n (or_introl eq_refl)). assert (Hk := H k (or_intror (or_introl eq_refl))). subst. rewrite Nat.eqb_refl in *. assert (X : neighbours_differ (w :: lens) || negb true = false) by (apply IH; intros x I0; apply H; now right). cbn in *. lia.
Qed.

Section Paths.
  Context {A V : Type}.
  Local Notation data := (data A (tensor V)).
  (** ** Elements at a path *)
  Definition plain (p : list segment) : Prop := Forall (fun s => s <> Index wildcard) p.
  Lemma get_app (d : data) p q : get d (p ++ q) = match get d p with Some e => get e q | None => None end.
  Proof.
    revert d. induction p as [|s p IH]; intros d; [reflexivity|]. cbn [app get]. destruct s as [k|n], d as [| |l|kv]; try reflexivity; [destruct (lookup k kv)|destruct (nth_error l (N.to_nat n))]; auto.
  Qed.
  Lemma visit_get p : plain p -> forall i (d : data) place resolved, fst (fst (visit p i d place resolved)) = match get d p with Some _ => true | None => false end.
  Proof.
    induction 1 as [|s p W F IH]; intros i d place resolved; [reflexivity|]. destruct s as [k|n], d as [| |l|kv]; cbn [visit get]; try reflexivity.
    - destruct (lookup k kv); [apply IH|reflexivity].
    - destruct (N.eqb_spec n wildcard) as [->|_]; [contradiction|]. destruct (N.leb_spec (N.of_nat (length l)) n) as [L|L].
      + replace (nth_error l (N.to_nat n)) with (@None data) by (symmetry; apply nth_error_None; lia). reflexivity.
      + destruct (nth_error l (N.to_nat n)); [apply IH|reflexivity].
  Qed.
  Lemma current_get (d : data) p : plain p -> current d p = get d p.
  Proof.
    intros F. unfold current, visit_path. pose proof (visit_get p F 0 d [] []) as G. destruct (visit p 0 d [] []) as [[[|] v] r] eqn:E; cbn [fst] in G.
    - apply visit_plain in E as (-> & _); [|exact F]. reflexivity.
    - destruct (get d p); [discriminate|reflexivity].
  Qed.

End Paths.

Section Collater.
  Context {A V : Type}.
  Local Notation data := (data A (tensor V)).
  Variable type_of : A -> nat.
  Variable of_bool : bool -> A.
  Variable of_int : nat -> A.
  Variable of_Z : nat -> Z -> V.
  Variable mixed_pad : list (tensor V) -> Z -> nat -> option data.
  Variable mixed_stack : list (tensor V) -> option data.
  Local Notation pad_tensors := (pad_tensors of_bool of_int of_Z mixed_pad).
  Local Notation stack := (stack mixed_stack).
  Local Notation padded := (padded of_bool of_int of_Z).

  Lemma pad_iff ts z m out : ts <> [] -> (Z.abs z <= 2 ^ 53)%Z ->
    (forall t t', In t ts -> In t' ts -> dtype t = dtype t' /\ (shape t <> [] -> shape t' <> [] -> tl (shape t) = tl (shape t'))) ->
    pad_tensors ts z m = Some out <-> padded z m ts out.
  Proof.
    intros N0 Z0 Al. destruct ts as [|t0 ts'] eqn:Ets; [contradiction|]. rewrite <- Ets in *. assert (I0 : In t0 ts) by (rewrite Ets; now left).
    assert (Red : forall n trail, shape t0 = n :: trail -> (forall t, In t ts -> exists k, shape t = k :: trail) ->
      exists ragged, pad_tensors ts z m = Some (Dict [(str_is_ragged, Atom (of_bool ragged)); (str_seqs, Tensor (Tn (dtype t0) (length ts :: model_width (map seq_len ts) m :: trail)
        (concat (map (fun t => elems t ++ repeat (of_Z (dtype t0) z) ((model_width (map seq_len ts) m - seq_len t) * prod trail)) ts)))); (str_seq_lens, Items (map (fun n => Atom (of_int n)) (map seq_len ts)))]) /\
        (ragged = false <-> forall n, In n (map seq_len ts) -> n = model_width (map seq_len ts) m)).
    { intros n trail E0 Sh. eexists. unfold Coll_Model.pad_tensors. rewrite Ets. rewrite <- Ets. rewrite E0.
      assert (C : forallb (fun t => (dtype t =? dtype t0) && match shape t with _ :: trail' => if shape_dec trail' trail then true else false | [] => false end) ts = true).
      { apply forallb_forall. intros t I1. destruct (Al t t0 I1 I0) as (-> & _). rewrite Nat.eqb_refl. destruct (Sh t I1) as (k & ->). destruct (shape_dec trail trail); [reflexivity|contradiction]. }
      rewrite C. cbv zeta. rewrite to_double_exact by exact Z0. set (L := fold_right Nat.max 0 (map seq_len ts)).
      assert (Mx : forall t, In t ts -> seq_len t <= L) by (intros t I1; apply max_in; now apply in_map).
      assert (R : (if (1 <? m) && (0 <? L mod m) then (L + (m - L mod m), map (fun r => r ++ repeat (of_Z (dtype t0) z) ((m - L mod m) * prod trail)) (map (fun t => elems t ++ repeat (of_Z (dtype t0) z) ((L - seq_len t) * prod trail)) ts))
                   else (L, map (fun t => elems t ++ repeat (of_Z (dtype t0) z) ((L - seq_len t) * prod trail)) ts)) =
                  (model_width (map seq_len ts) m, map (fun t => elems t ++ repeat (of_Z (dtype t0) z) ((model_width (map seq_len ts) m - seq_len t) * prod trail)) ts)).
      { unfold model_width. fold L. cbv zeta. destruct ((1 <? m) && (0 <? L mod m)); [|reflexivity]. f_equal. rewrite map_map. apply map_ext_in. intros t I1. rewrite <- app_assoc, <- repeat_app. f_equal. f_equal. specialize (Mx t I1). nia. }
      rewrite R. split; [reflexivity|]. apply ragged_spec. rewrite Ets. discriminate. }
    split.
    - intros E. assert (Sh : exists n trail, shape t0 = n :: trail /\ forall t, In t ts -> exists k, shape t = k :: trail).
      { unfold Coll_Model.pad_tensors in E. rewrite Ets in E. rewrite <- Ets in E. destruct (shape t0) as [|n trail] eqn:E0; [discriminate|]. exists n, trail. split; [reflexivity|].
        assert (Ne : forallb (fun t => match shape t with [] => false | _ => true end) ts = true).
        { destruct (forallb (fun t => (dtype t =? dtype t0) && _) ts) eqn:C; [|destruct (forallb (fun t => match shape t with [] => false | _ => true end) ts); [reflexivity|discriminate]].
          rewrite forallb_forall in *. intros t I1. specialize (C t I1). apply andb_prop in C as (_ & C). destruct (shape t); [discriminate|reflexivity]. }
        rewrite forallb_forall in Ne. intros t I1. specialize (Ne t I1). destruct (Al t t0 I1 I0) as (_ & T). destruct (shape t) as [|k tr]; [discriminate|]. exists k. rewrite E0 in T. specialize (T ltac:(discriminate) ltac:(discriminate)). cbn in T. congruence. }
      destruct Sh as (n & trail & E0 & Sh). destruct (Red n trail E0 Sh) as (rg & E' & Rg). rewrite E in E'. injection E' as ->.
      exists (dtype t0), trail, (map seq_len ts), (model_width (map seq_len ts) m), (map (fun t => elems t ++ repeat (of_Z (dtype t0) z) ((model_width (map seq_len ts) m - seq_len t) * prod trail)) ts), rg.
      split; [|split; [apply model_width_spec|split; [|split; [exact Rg|reflexivity]]]].
      + assert (G : forall l, (forall t, In t l -> In t ts) -> Forall2 (fun t n0 => dtype t = dtype t0 /\ shape t = n0 :: trail) l (map seq_len l)); [|apply G; auto].
        induction l as [|t l IH]; intros H; cbn; constructor; [|apply IH; intros x X; apply H; now right]. split; [apply (Al t t0 (H t (or_introl eq_refl)) I0)|]. destruct (Sh t (H t (or_introl eq_refl))) as (k & Ek). unfold seq_len. now rewrite Ek.
      + generalize (model_width (map seq_len ts) m) as w. intros w. clear. induction ts as [|t l IH]; cbn; constructor; [reflexivity|exact IH].
    - intros (dt & trail & lens & w & rows & rg & F & W & R & Rg & ->).
      assert (Sl : map seq_len ts = lens /\ (forall t, In t ts -> dtype t = dt) /\ forall t, In t ts -> exists k, shape t = k :: trail).
      { clear - F. induction F as [|t n ts lens (D & S0) F (IH1 & IH2 & IH3)]; [split; [reflexivity|split; contradiction]|]. split; [cbn; unfold seq_len at 1; rewrite S0, IH1; reflexivity|]. split; intros x [<-|I0]; auto. now exists n. }
      destruct Sl as (Sl & Dt & Sh). destruct (Sh t0 I0) as (n & E0). destruct (Red n trail E0 Sh) as (rg' & E' & Rg'). rewrite E'. rewrite Sl in *. assert (w = model_width lens m) as Ew by (eapply width_unique; [exact W|apply model_width_spec]); rewrite <- Ew in Rg' |- *.
      rewrite (Dt t0 I0). replace rg' with rg by (clear - Rg Rg'; destruct rg, rg'; try reflexivity; [apply Rg, Rg'; reflexivity|symmetry; apply Rg', Rg; reflexivity]).
      assert (Er : rows = map (fun t => elems t ++ repeat (of_Z dt z) ((w - seq_len t) * prod trail)) ts).
      { rewrite <- Sl in R. clear - R. revert rows R. induction ts as [|t ts IH]; intros rows R; cbn in R; inversion R as [|? row ? rows' E R']; subst; [reflexivity|]. cbn. f_equal. now apply IH. }
      now rewrite <- Er.
  Qed.
  Lemma stack_iff ts out : ts <> [] -> (forall t t', In t ts -> In t' ts -> dtype t = dtype t') ->
    stack ts = Some out <-> exists dt sh, (forall t, In t ts -> dtype t = dt /\ shape t = sh) /\ out = Tensor (Tn dt (length ts :: sh) (concat (map elems ts))).
  Proof.
    intros N0 Al. destruct ts as [|t0 ts'] eqn:Ets; [contradiction|]. rewrite <- Ets in *. assert (I0 : In t0 ts) by (rewrite Ets; now left). 
    assert (St : stack ts = if forallb (fun t => if shape_dec (shape t) (shape t0) then true else false) ts then
      (if forallb (fun t => dtype t =? dtype t0) ts then Some (Tensor (Tn (dtype t0) (length ts :: shape t0) (concat (map elems ts)))) else mixed_stack ts) else None) by (rewrite Ets; reflexivity).
    rewrite St. clear St. assert (D : forallb (fun t => dtype t =? dtype t0) ts = true) by (apply forallb_forall; intros t I1; apply Nat.eqb_eq; now apply Al). rewrite D. split.
    - destruct (forallb (fun t => if shape_dec (shape t) (shape t0) then true else false) ts) eqn:C; [|discriminate]. intros [= <-]. exists (dtype t0), (shape t0). split; [|reflexivity]. rewrite forallb_forall in C. intros t I1. split; [now apply Al|]. specialize (C t I1). destruct (shape_dec (shape t) (shape t0)); [assumption|discriminate].
    - intros (dt & sh & H & ->). assert (C : forallb (fun t => if shape_dec (shape t) (shape t0) then true else false) ts = true).
      { apply forallb_forall. intros t I1. destruct (H t I1) as (_ & ->). destruct (H t0 I0) as (_ & ->). destruct (shape_dec sh sh); [reflexivity|contradiction]. }
      rewrite C. destruct (H t0 I0) as (-> & ->). reflexivity.
  Qed.

  Section Op.
    Variable opts : options.
    Variable overrides : list (list (list segment) * options).
    Local Notation opt := (get_options opts overrides).
    Variables (b0 : data) (rest : list data).
    Hypothesis P : forall b, In b (b0 :: rest) -> proper b.
    Hypothesis Sh : short b0.
    Hypothesis Al : alike opt (b0 :: rest).
    Hypothesis Ex : exact_pads opt.
    Local Notation collate := (collate type_of of_bool of_int of_Z mixed_pad mixed_stack opts overrides rest).
    Local Notation Collated := (Collated type_of of_bool of_int of_Z opt).

    Fixpoint each_item (F : data -> list segment -> option data) (path : list segment) (i : N) (l : list data) : option (list data) :=
      match l with [] => Some [] | x :: l' => match F x (path ++ [Index i]) with Some y => option_map (cons y) (each_item F path (N.succ i) l') | None => None end end.
    Fixpoint each_entry (F : data -> list segment -> option data) (path : list segment) (kv : list (str * data)) : option (list (str * data)) :=
      match kv with [] => Some [] | (k, x) :: kv' => match F x (path ++ [Key k]) with Some y => option_map (cons (k, y)) (each_entry F path kv') | None => None end end.
    Lemma collate_items l path : collate (Items l) path =
      if forallb (fun b => match current b path with Some (Items l') => length l' =? length l | _ => false end) rest then option_map Items (each_item collate path 0 l) else None.
    Proof. cbn [Coll_Model.collate]. destruct (forallb _ rest); [|reflexivity]. f_equal. generalize 0%N as i. induction l as [|x l IH]; intros i; [reflexivity|]. cbn [each_item]. now rewrite IH. Qed.
    Lemma collate_dict kv path : collate (Dict kv) path =
      if forallb (fun b => match current b path with Some (Dict kv') => length kv' =? length kv | _ => false end) rest then option_map Dict (each_entry collate path kv) else None.
    Proof. cbn [Coll_Model.collate]. destruct (forallb _ rest); [|reflexivity]. f_equal. induction kv as [|[k x] kv IH]; [reflexivity|]. cbn [each_entry]. now rewrite IH. Qed.
    Lemma each_item_iff F path l : forall i outs, each_item F path i l = Some outs <->
      length outs = length l /\ forall k x out, nth_error l k = Some x -> nth_error outs k = Some out -> F x (path ++ [Index (i + N.of_nat k)]) = Some out.
    Proof.
      induction l as [|x l IH]; intros i outs; cbn [each_item].
      - split; [intros [= <-]; split; [reflexivity|]; intros [|k]; discriminate|]. intros (L & _). destruct outs; [reflexivity|discriminate].
      - split.
        + destruct (F x (path ++ [Index i])) as [y|] eqn:E; [|discriminate]. destruct (each_item F path (N.succ i) l) as [ys|] eqn:E'; [|discriminate]. intros [= <-]. apply IH in E' as (L & H). split; [cbn; congruence|].
          intros [|k] x' out Ex' Eo; cbn in Ex', Eo; [injection Ex' as <-; injection Eo as <-; now rewrite N.add_0_r|]. replace (i + N.of_nat (S k))%N with (N.succ i + N.of_nat k)%N by lia. now apply H.
        + intros (L & H). destruct outs as [|y ys]; [discriminate|]. assert (E := H 0 x y eq_refl eq_refl). rewrite N.add_0_r in E. rewrite E. rewrite (proj2 (IH (N.succ i) ys)); [reflexivity|]. split; [cbn in L; congruence|].
          intros k x' out Ex' Eo. replace (N.succ i + N.of_nat k)%N with (i + N.of_nat (S k))%N by lia. now apply (H (S k)).
    Qed.
    Lemma each_entry_iff F path kv : forall outs, each_entry F path kv = Some outs <-> Forall2 (fun e out => fst out = fst e /\ F (snd e) (path ++ [Key (fst e)]) = Some (snd out)) kv outs.
    Proof.
      induction kv as [|[k x] kv IH]; intros outs; cbn [each_entry].
      - split; [intros [= <-]; constructor|]. intros H. now inversion H.
      - split.
        + destruct (F x (path ++ [Key k])) as [y|] eqn:E; [|discriminate]. destruct (each_entry F path kv) as [ys|] eqn:E'; [|discriminate]. intros [= <-]. constructor; [now split|now apply IH].
        + intros H. inversion H as [|? [k' y] ? ys (E1 & E2) H']; subst. cbn in *. subst. rewrite E2. apply IH in H'. now rewrite H'.
    Qed.
    Lemma rest_missing path el : plain path -> (exists b, In b rest /\ get b path = None) -> collate el path = None.
    Proof.
      intros Pl (b & I0 & G). destruct el as [a|t|l|kv].
      - cbn [Coll_Model.collate]. assert (X : values type_of (type_of a) rest path = None); [|now rewrite X]. clear - I0 G Pl. induction rest as [|c r IH]; [contradiction|]. cbn [values]. rewrite current_get by exact Pl.
        destruct I0 as [->|I0]; [now rewrite G|]. destruct (get c path) as [[a'| | |]|]; try reflexivity. rewrite (IH I0). now destruct (type_of a' =? type_of a).
      - cbn [Coll_Model.collate]. assert (X : tensors rest path = None); [|now rewrite X]. clear - I0 G Pl. induction rest as [|c r IH]; [contradiction|]. cbn [tensors]. rewrite current_get by exact Pl.
        destruct I0 as [->|I0]; [now rewrite G|]. destruct (get c path) as [[| t'| |]|]; try reflexivity. now rewrite (IH I0).
      - rewrite collate_items. destruct (forallb _ rest) eqn:E; [|reflexivity]. rewrite forallb_forall in E. specialize (E b I0). rewrite current_get, G in E by exact Pl. discriminate.
      - rewrite collate_dict. destruct (forallb _ rest) eqn:E; [|reflexivity]. rewrite forallb_forall in E. specialize (E b I0). rewrite current_get, G in E by exact Pl. discriminate.
    Qed.
    Lemma forall2_or_missing path : (exists os, Forall2 (fun b o => get b path = Some o) rest os) \/ exists b, In b rest /\ get b path = None.
    Proof.
      clear. induction rest as [|b r [(os & F)|(c & I0 & G)]]; [left; exists []; constructor| |right; exists c; split; [now right|exact G]].
      destruct (get b path) as [o|] eqn:E; [left; exists (o :: os); now constructor|right; exists b; split; [now left|exact E]].
    Qed.
    Lemma values_iff ty path os l : plain path -> Forall2 (fun b o => get b path = Some o) rest os ->
      values type_of ty rest path = Some l <-> l = os /\ exists vs, os = map Atom vs /\ forall a, In a vs -> type_of a = ty.
    Proof.
      intros Pl F. clear - Pl F. revert l. induction F as [|b o r os G F IH]; intros l; cbn [values].
      - split; [intros [= <-]; split; [reflexivity|]; exists []; split; [reflexivity|contradiction]|]. now intros (-> & _).
      - rewrite current_get, G by exact Pl. destruct o as [a| | |]; try (split; [discriminate|]; intros (_ & [|v vs] & E & _); discriminate). destruct (Nat.eqb_spec (type_of a) ty) as [T0|T0].
        + split.
          * destruct (values type_of ty r path) as [l'|]; [|discriminate]. intros [= <-]. destruct (proj1 (IH l') eq_refl) as (-> & vs & -> & H). split; [reflexivity|]. exists (a :: vs). split; [reflexivity|]. intros x [<-|I0]; auto.
          * intros (-> & vs & E & H). destruct vs as [|v vs]; [discriminate|]. injection E as <- ->. rewrite (proj2 (IH (map Atom vs))); [reflexivity|]. split; [reflexivity|]. exists vs. split; [reflexivity|]. intros x I0. apply H. now right.
        + split; [discriminate|]. intros (_ & vs & E & H). destruct vs as [|v vs]; [discriminate|]. injection E as <- ->. destruct T0. apply H. now left.
    Qed.
    Lemma tensors_iff path os ts : plain path -> Forall2 (fun b o => get b path = Some o) rest os -> tensors rest path = Some ts <-> os = map Tensor ts.
    Proof.
      intros Pl F. clear - Pl F. revert ts. induction F as [|b o r os G F IH]; intros ts; cbn [tensors].
      - split; [now intros [= <-]|]. intros E. destruct ts; [reflexivity|discriminate].
      - rewrite current_get, G by exact Pl. destruct o as [|t| |]; try (split; [discriminate|]; destruct ts; discriminate). split.
        + destruct (tensors r path) as [ts'|]; [|discriminate]. intros [= <-]. cbn. f_equal. now apply IH.
        + destruct ts as [|t' ts]; [discriminate|]. intros [= <- E]. apply IH in E. now rewrite E.
    Qed.
    Lemma map_inj {X Y} (f : X -> Y) : (forall x y, f x = f y -> x = y) -> forall l l', map f l = map f l' -> l = l'.
    Proof. intros H l. induction l as [|x l IH]; intros [|y l'] E; try discriminate; [reflexivity|]. injection E as E1 E2. f_equal; auto. Qed.
    Lemma forall2_in {X Y} (R : X -> Y -> Prop) l l' y : Forall2 R l l' -> In y l' -> exists x, In x l /\ R x y.
    Proof. induction 1 as [|a b l l' H F IH]; intros I1; [contradiction|]. destruct I1 as [<-|H0]; [exists a; split; [now left|exact H]|]. destruct (IH H0) as (x & I0 & H1). exists x. split; [now right|exact H1]. Qed.
    Lemma forall2_in_l {X Y} (R : X -> Y -> Prop) l l' x : Forall2 R l l' -> In x l -> exists y, In y l' /\ R x y.
    Proof. induction 1 as [|a b l l' H F IH]; intros I1; [contradiction|]. destruct I1 as [<-|H0]; [exists b; split; [now left|exact H]|]. destruct (IH H0) as (y & I0 & H1). exists y. split; [now right|exact H1]. Qed.
    Lemma forall2_choice {X Y} (R : X -> Y -> Prop) l : (forall x, In x l -> exists y, R x y) -> exists l', Forall2 R l l'.
    Proof. induction l as [|x l IH]; intros H; [exists []; constructor|]. destruct (H x (or_introl eq_refl)) as (y & Y0). destruct (IH (fun z I0 => H z (or_intror I0))) as (l' & F). exists (y :: l'). now constructor. Qed.
    Lemma forall2_compose {X Y Z} (R : X -> Y -> Prop) (Q : Y -> Z -> Prop) (S : X -> Z -> Prop) l m n : (forall x y z, R x y -> Q y z -> S x z) -> Forall2 R l m -> Forall2 Q m n -> Forall2 S l n.
    Proof. intros H F. revert n. induction F as [|x y l m Hxy F IH]; intros n G; inversion G; subst; constructor; eauto. Qed.
    Lemma forall2_map {X Y Z} (R : X -> Z -> Prop) (f : Y -> Z) l m : Forall2 R l (map f m) <-> Forall2 (fun x y => R x (f y)) l m.
    Proof.
      split.
      - revert m. induction l as [|x l IH]; intros [|y m] F; inversion F; subst; constructor; auto.
      - induction 1; cbn; constructor; auto.
    Qed.
    Lemma get_proper (b e : data) p : In b (b0 :: rest) -> get b p = Some e -> proper e.
    Proof.
      intros I0 G. specialize (P b I0). clear - P G. revert b P G. induction p as [|s p IH]; intros b P G; [injection G as <-; exact P|]. apply get_at in G; [|exact P]. inversion G as [|? ? x ? ? C G']; subst. apply (IH x); [exact (proper_child _ _ _ P C)|].
      apply get_at; [exact (proper_child _ _ _ P C)|exact G'].
    Qed.

    Lemma collate_iff el : forall path, get b0 path = Some el -> plain path -> forall os, Forall2 (fun b o => get b path = Some o) rest os -> forall out, collate el path = Some out <-> Collated path (el :: os) out.
    Proof.
      induction el as [a|t|l IH|kv IH] using data_ind'; intros path G0 Pl os F out.
      - cbn [Coll_Model.collate]. split.
        + destruct (values type_of (type_of a) rest path) as [l|] eqn:E; [|discriminate]. intros [= <-]. apply (values_iff _ _ _ _ Pl F) in E as (-> & vs & -> & H).
          apply (Co_values type_of of_bool of_int of_Z opt path (a :: vs)). intros x y [<-|I0] [<-|I1]; [reflexivity|symmetry; now apply H|now apply H|transitivity (type_of a); [now apply H|symmetry; now apply H]].
        + intros C. inversion C as [ls ? ? ? E|kvs ? ? ? ? E|ts ? ? ? ? E|ts ? ? ? ? E|vs H E]; try (destruct ls; discriminate); try (destruct kvs; discriminate); try (destruct ts; discriminate). subst out.
          destruct vs as [|v vs]; [discriminate|]. injection E as -> <-. rewrite (proj2 (values_iff (type_of a) path (map Atom vs) (map Atom vs) Pl F)); [reflexivity|]. split; [reflexivity|]. exists vs. split; [reflexivity|]. intros x I0. apply H; [now right|now left].
      - cbn [Coll_Model.collate].
        assert (Alt : forall ts, os = map Tensor ts -> forall x y, In x (t :: ts) -> In y (t :: ts) -> dtype x = dtype y /\ (pad_value (opt path) <> None -> shape x <> [] -> shape y <> [] -> tl (shape x) = tl (shape y))).
        { intros ts -> x y X Y. assert (Src : forall u, In u (t :: ts) -> exists b, In b (b0 :: rest) /\ get b path = Some (Tensor u)).
          { intros u [<-|U]; [exists b0; split; [now left|exact G0]|]. destruct (forall2_in _ _ _ (Tensor u) F (in_map Tensor _ _ U)) as (b & Ib & Gb). exists b. split; [now right|exact Gb]. }
          destruct (Src x X) as (b & Ib & Gb), (Src y Y) as (b' & Ib' & Gb'). apply (Al b b' path x y Ib Ib'); apply get_at; auto. }
        assert (Opt : forall ts, os = map Tensor ts -> (match pad_value (opt path) with Some z => pad_tensors (t :: ts) z (pad_to_multiple (opt path)) | None => stack (t :: ts) end = Some out <-> Collated path (Tensor t :: os) out)).
        { intros ts Eos. specialize (Alt ts Eos). subst os. destruct (pad_value (opt path)) as [z|] eqn:Ez.
          - rewrite pad_iff; [|discriminate|exact (Ex path z Ez)|intros x y X Y; destruct (Alt x y X Y) as (D & S0); split; [exact D|apply S0; discriminate]]. split.
            + intros Pd. apply (Co_pad type_of of_bool of_int of_Z opt path (t :: ts) z out Ez Pd).
            + intros C. inversion C as [ls ? ? ? E|kvs ? ? ? ? E|us z' o' Ez' Pd E|us dt sh Ez' H E|vs H E]; try (destruct ls; discriminate); try (destruct kvs; discriminate); try (destruct vs; discriminate); [|congruence]. subst o'.
              change (Tensor t :: map Tensor ts) with (map (@Tensor A (tensor V)) (t :: ts)) in E. apply map_inj in E; [|now intros x y [= ->]]. subst us. rewrite Ez in Ez'. injection Ez' as <-. exact Pd.
          - rewrite stack_iff; [|discriminate|intros x y X Y; now apply (Alt x y X Y)]. split.
            + intros (dt & sh & H & ->). apply (Co_stack type_of of_bool of_int of_Z opt path (t :: ts) dt sh Ez H).
            + intros C. inversion C as [ls ? ? ? E|kvs ? ? ? ? E|us z' o' Ez' Pd E|us dt sh Ez' H E|vs H E]; try (destruct ls; discriminate); try (destruct kvs; discriminate); try (destruct vs; discriminate); [congruence|].
              change (Tensor t :: map Tensor ts) with (map (@Tensor A (tensor V)) (t :: ts)) in E. apply map_inj in E; [|now intros x y [= ->]]. subst us. now exists dt, sh. }
        split.
        + destruct (tensors rest path) as [ts|] eqn:E; [|discriminate]. apply (tensors_iff _ _ _ Pl F) in E. now apply Opt.
        + intros C. assert (Ex' : exists ts, os = map Tensor ts).
          { inversion C as [ls ? ? ? E|kvs ? ? ? ? E|us z' o' Ez' Pd E|us dt sh Ez' H E|vs H E]; try (destruct ls; discriminate); try (destruct kvs; discriminate); try (destruct vs; discriminate); (destruct us as [|u us]; [discriminate|]; injection E as -> <-; now exists us). }
          destruct Ex' as (ts & E). rewrite (proj2 (tensors_iff path os ts Pl F) E). now apply Opt.
      - rewrite collate_items. assert (Lw : (N.of_nat (length l) < 2 ^ 64 - 1)%N) by (apply (Sh path); apply get_at; [apply P; now left|exact G0]).
        assert (Col : forall ls i x col, os = map Items ls -> nth_error l i = Some x -> Forall2 (fun l0 y => nth_error l0 i = Some y) ls col -> forall o, collate x (path ++ [Index (N.of_nat i)]) = Some o <-> Collated (path ++ [Index (N.of_nat i)]) (x :: col) o).
        { intros ls i x col -> Ei Fc. rewrite Forall_forall in IH. apply (IH x (nth_error_In _ _ Ei)).
          - rewrite get_app, G0. cbn. now rewrite Nnat.Nat2N.id, Ei.
          - apply Forall_app. split; [exact Pl|]. constructor; [|constructor]. intros [= W]. assert (i < length l) by (apply nth_error_Some; congruence). unfold wildcard in W. lia.
          - rewrite forall2_map in F. eapply forall2_compose; [|exact F|exact Fc]. intros b l0 y Gb Ey. cbv beta in *. rewrite get_app, Gb. cbn. now rewrite Nnat.Nat2N.id, Ey. }
        split.
        + destruct (forallb _ rest) eqn:E; [|discriminate]. destruct (each_item collate path 0 l) as [outs|] eqn:Eo; [|discriminate]. intros [= <-]. apply each_item_iff in Eo as (Lo & Ho).
          assert (Ls : exists ls, os = map Items ls /\ forall l0, In l0 ls -> length l0 = length l).
          { clear - E F Pl. induction F as [|b o r os G F IH]; [exists []; split; [reflexivity|contradiction]|]. cbn [forallb] in E. apply andb_prop in E as (E1 & E2). destruct (IH E2) as (ls & -> & H). rewrite current_get, G in E1 by exact Pl.
            destruct o as [| |l0|]; try discriminate. apply Nat.eqb_eq in E1. exists (l0 :: ls). split; [reflexivity|]. intros l1 [<-|I0]; auto. }
          destruct Ls as (ls & Eos & Ls). rewrite Eos. apply (Co_items type_of of_bool of_int of_Z opt path (l :: ls) outs).
          * intros l0 [<-|I0]; [now rewrite Lo|]. rewrite (Ls l0 I0). now rewrite Lo.
          * intros i o col Ei Fc. inversion Fc as [|? x ? col' Ex' Fc']; subst. apply (Col ls i x col' eq_refl Ex' Fc'). exact (Ho i x o Ex' Ei).
        + intros C. inversion C as [ls outs Ll Hc E Eo|kvs ? ? ? ? E|us z' o' Ez' Pd E|us dt sh Ez' H E|vs H E]; try (destruct kvs; discriminate); try (destruct vs; discriminate); try (destruct us; discriminate). subst out. destruct ls as [|l1 ls]; [discriminate|]. injection E as -> Eos.
          assert (Fb : forallb (fun b => match current b path with Some (Items l') => length l' =? length l | _ => false end) rest = true).
          { apply forallb_forall. intros b Ib. rewrite current_get by exact Pl. destruct (forall2_in_l _ _ _ b F Ib) as (o & Io & Go). rewrite Go. rewrite <- Eos in Io. apply in_map_iff in Io as (l0 & <- & I0). apply Nat.eqb_eq. rewrite (Ll l0 (or_intror I0)), (Ll l (or_introl eq_refl)). reflexivity. }
          rewrite Fb. assert (Eo : each_item collate path 0 l = Some outs); [|now rewrite Eo]. apply each_item_iff. split; [symmetry; apply Ll; now left|]. intros k x o Ek Eok. cbn [N.add].
          destruct (forall2_choice (fun l0 y => nth_error l0 k = Some y) ls) as (col & Fc).
          { intros l0 I0. assert (L0 : k < length l0) by (rewrite (Ll l0 (or_intror I0)); apply nth_error_Some; congruence). apply nth_error_Some in L0. destruct (nth_error l0 k) as [y|]; [now exists y|contradiction]. }
          apply (Col ls k x col (eq_sym Eos) Ek Fc). apply (Hc k o (x :: col) Eok). now constructor.
      - rewrite collate_dict. assert (Nd : forall b kv0, In b (b0 :: rest) -> get b path = Some (Dict kv0) -> NoDup (map fst kv0)) by (intros b kv0 Ib Gb; assert (Pb := get_proper b _ path Ib Gb); now inversion Pb).
        assert (N0 := Nd b0 kv (or_introl eq_refl) G0).
        assert (Ndo : forall kvs, os = map Dict kvs -> forall kv0, In kv0 kvs -> NoDup (map fst kv0)).
        { intros kvs -> kv0 I0. destruct (forall2_in _ _ _ (Dict kv0) F (in_map Dict _ _ I0)) as (b & Ib & Gb). apply (Nd b); [now right|exact Gb]. }
        assert (Col : forall kvs k x col, os = map Dict kvs -> In (k, x) kv -> Forall2 (fun kv0 y => In (k, y) kv0) kvs col -> forall o, collate x (path ++ [Key k]) = Some o <-> Collated (path ++ [Key k]) (x :: col) o).
        { intros kvs k x col Eos Ei Fc. rewrite Forall_forall in IH. apply (IH (k, x) Ei).
          - rewrite get_app, G0. cbn. now rewrite (lookup_in _ _ _ N0 Ei).
          - apply Forall_app. split; [exact Pl|]. constructor; [discriminate|constructor].
          - specialize (Ndo kvs Eos). subst os. rewrite forall2_map in F. assert (Fc' : Forall2 (fun kv0 y => lookup k kv0 = Some y) kvs col).
            { clear - Fc Ndo. induction Fc as [|kv0 y kvs col H Fc IH]; constructor; [apply lookup_in; [apply Ndo; now left|exact H]|]. apply IH. intros kv1 I1. apply Ndo. now right. }
            eapply forall2_compose; [|exact F|exact Fc']. intros b kv0 y Gb Ey. cbv beta in *. rewrite get_app, Gb. cbn. now rewrite Ey. }
        split.
        + destruct (forallb _ rest) eqn:E; [|discriminate]. destruct (each_entry collate path kv) as [okv|] eqn:Eo; [|discriminate]. intros [= <-]. apply each_entry_iff in Eo.
          assert (Ls : exists kvs, os = map Dict kvs /\ forall kv0, In kv0 kvs -> length kv0 = length kv).
          { clear - E F Pl. induction F as [|b o r os G F IH]; [exists []; split; [reflexivity|contradiction]|]. cbn [forallb] in E. apply andb_prop in E as (E1 & E2). destruct (IH E2) as (ls & -> & H). rewrite current_get, G in E1 by exact Pl.
            destruct o as [| | |l0]; try discriminate. apply Nat.eqb_eq in E1. exists (l0 :: ls). split; [reflexivity|]. intros l1 [<-|I0]; auto. }
          destruct Ls as (kvs & Eos & Ls). assert (Keys : map fst okv = map fst kv) by (clear - Eo; induction Eo as [|e o kv okv (H & _) F IH]; [reflexivity|]; cbn; congruence).
          rewrite Eos. apply (Co_dict type_of of_bool of_int of_Z opt path (kv :: kvs) okv); [|exact Keys|].
          * intros kv0 [<-|I0] k; [now rewrite Keys|]. rewrite Keys. assert (Inc : incl (map fst kv) (map fst kv0)).
            { intros k' I1. apply in_map_iff in I1 as ([k1 x] & Ek & I1). cbn in Ek. subst k1. destruct (forall2_in_l _ _ _ (k', x) Eo I1) as (o & _ & _ & Ho). cbn in Ho. rewrite Eos in F. destruct (forall2_in _ _ _ (Dict kv0) F (in_map Dict _ _ I0)) as (b & Ib & Gb).
              destruct (lookup k' kv0) as [y|] eqn:El; [apply lookup_some in El; apply in_map_iff; now exists (k', y)|]. rewrite rest_missing in Ho; [discriminate| |].
              - apply Forall_app. split; [exact Pl|]. constructor; [discriminate|constructor].
              - exists b. split; [exact Ib|]. rewrite get_app, Gb. cbn. now rewrite El. }
            split; [|apply Inc]. apply (NoDup_length_incl N0); [rewrite !map_length; rewrite (Ls kv0 I0); lia|exact Inc].
          * intros k o col Io Fc. inversion Fc as [|? x ? col' Ix Fc']; subst. destruct (forall2_in _ _ _ (k, o) Eo Io) as ([k1 x1] & I1 & Ek & Hx). cbn in Ek, Hx. subst k1.
            assert (x1 = x) as -> by (apply (lookup_in _ _ _ N0) in I1, Ix; congruence). now apply (Col kvs k x col' eq_refl Ix Fc').
        + intros C. inversion C as [ls ? ? ? E|kvs okv Hk Hf Hc E Eo|us z' o' Ez' Pd E|us dt sh Ez' H E|vs H E]; try (destruct ls; discriminate); try (destruct vs; discriminate); try (destruct us; discriminate). subst out. destruct kvs as [|kv1 kvs]; [discriminate|]. injection E as -> Eos. cbn [hd] in Hf.
          assert (Fb : forallb (fun b => match current b path with Some (Dict kv') => length kv' =? length kv | _ => false end) rest = true).
          { apply forallb_forall. intros b Ib. rewrite current_get by exact Pl. destruct (forall2_in_l _ _ _ b F Ib) as (o & Io & Go). rewrite Go. rewrite <- Eos in Io. apply in_map_iff in Io as (kv0 & <- & I0). apply Nat.eqb_eq.
            assert (N1 := Ndo kvs (eq_sym Eos) kv0 I0). rewrite <- (map_length fst kv0), <- (map_length fst kv). apply Nat.le_antisymm; apply NoDup_incl_length; try assumption; intros k I1; [apply (Hk kv (or_introl eq_refl)), (Hk kv0 (or_intror I0)), I1|apply (Hk kv0 (or_intror I0)), (Hk kv (or_introl eq_refl)), I1]. }
          rewrite Fb. assert (Eo : each_entry collate path kv = Some okv); [|now rewrite Eo]. apply each_entry_iff.
          assert (Gen : forall kv' okv', (forall e, In e kv' -> In e kv) -> (forall e, In e okv' -> In e okv) -> map fst okv' = map fst kv' -> Forall2 (fun e o => fst o = fst e /\ collate (snd e) (path ++ [Key (fst e)]) = Some (snd o)) kv' okv'); [|apply Gen; auto].
          induction kv' as [|[k x] kv' IHk]; intros [|[k' o] okv'] I1 I2 Em; try discriminate; constructor; [|apply IHk; [intros e I0; apply I1; now right|intros e I0; apply I2; now right|now injection Em]].
          cbn in Em. injection Em as -> Em. cbn [fst snd]. split; [reflexivity|]. destruct (forall2_choice (fun kv0 y => In (k, y) kv0) kvs) as (col & Fc).
          { intros kv0 I0. assert (K : In k (map fst kv0)) by (apply (Hk kv0 (or_intror I0)); apply in_map_iff; exists (k, o); split; [reflexivity|apply I2; now left]). apply in_map_iff in K as ([k2 y] & E & I3). cbn in E. subst k2. now exists y. }
          apply (Col kvs k x col (eq_sym Eos) (I1 _ (or_introl eq_refl)) Fc). apply (Hc k o (x :: col) (I2 _ (or_introl eq_refl))). constructor; [apply I1; now left|exact Fc].
    Qed.
  End Op.
End Collater.
