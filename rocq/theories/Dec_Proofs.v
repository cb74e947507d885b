(** The proofs about incremental decoding. *)
From Coq Require Import List Bool Arith ZArith Lia.
From Verif Require Import Attn_Model Attn_Spec Attn_Proofs Attn_Props Dec_Model Dec_Spec.
Import ListNotations.

(** ** Lists *)
Lemma mapi_map {A B C} (f : nat -> B -> C) (g : A -> B) : forall l i, mapi f i (map g l) = mapi (fun i a => f i (g a)) i l.
Proof. induction l as [|a l IH]; intros i; cbn; congruence. Qed.
Lemma mapi_length {A B} (f : nat -> A -> B) : forall l i, length (mapi f i l) = length l.
Proof. induction l as [|a l IH]; intros i; cbn; congruence. Qed.
Lemma mapi_firstn {A B} (f : nat -> A -> B) : forall n l i, firstn n (mapi f i l) = mapi f i (firstn n l).
Proof. induction n as [|n IH]; intros [|a l] i; cbn; try reflexivity. f_equal. apply IH. Qed.
Lemma mapi_skipn {A B} (f : nat -> A -> B) : forall n l i, skipn n (mapi f i l) = mapi f (i + n) (skipn n l).
Proof. induction n as [|n IH]; intros [|a l] i; cbn; try reflexivity; rewrite ?Nat.add_0_r; try reflexivity. rewrite IH. f_equal. lia. Qed.
Lemma mapi_shift {A B} (f : nat -> A -> B) s : forall l i, mapi f (i + s) l = mapi (fun j => f (j + s)) i l.
Proof. induction l as [|a l IH]; intros i; cbn; [reflexivity|]. f_equal. apply (IH (S i)). Qed.
Lemma mapi_ext {A B} (f g : nat -> A -> B) : forall l i, (forall j a, i <= j < i + length l -> f j a = g j a) -> mapi f i l = mapi g i l.
Proof. induction l as [|a l IH]; intros i H; cbn; [reflexivity|]. f_equal; [apply H; cbn; lia|]. apply IH. intros j b Hj. apply H. cbn. lia. Qed.
Lemma map2_length {A B C} (f : A -> B -> C) : forall a b, length (map2 f a b) = Nat.min (length a) (length b).
Proof. intros a b. unfold map2. rewrite map_length, combine_length. reflexivity. Qed.
Lemma map2_firstn {A B C} (f : A -> B -> C) n : forall a b, firstn n (map2 f a b) = map2 f (firstn n a) (firstn n b).
Proof. intros a b. unfold map2. rewrite firstn_map, combine_firstn. reflexivity. Qed.
Lemma combine_skipn' {A B} : forall n (a : list A) (b : list B), skipn n (combine a b) = combine (skipn n a) (skipn n b).
Proof.
  induction n as [|n IH]; intros [|x a] [|y b]; cbn; try reflexivity; [|apply IH].
  destruct (skipn n a); reflexivity.
Qed.
Lemma map2_skipn {A B C} (f : A -> B -> C) n : forall a b, skipn n (map2 f a b) = map2 f (skipn n a) (skipn n b).
Proof. intros a b. unfold map2. rewrite skipn_map, combine_skipn'. reflexivity. Qed.
Lemma combine_map2 {A B C} (f : A -> B) (g : A -> C) : forall l, combine (map f l) (map g l) = map (fun x => (f x, g x)) l.
Proof. induction l; cbn; congruence. Qed.
Lemma map2_map {A B C D} (h : B -> C -> D) (f : A -> B) (g : A -> C) : forall l, map2 h (map f l) (map g l) = map (fun x => h (f x) (g x)) l.
Proof. intros l. unfold map2. rewrite combine_map2, map_map. reflexivity. Qed.
Lemma list_ext {A} : forall (a b : list A), length a = length b -> (forall i, i < length a -> nth_error a i = nth_error b i) -> a = b.
Proof.
  induction a as [|x a IH]; intros [|y b] L H; cbn in L; try discriminate; [reflexivity|].
  f_equal; [assert (E : nth_error (x :: a) 0 = nth_error (y :: b) 0) by (apply H; cbn; lia); cbn in E; congruence|].
  apply IH; [lia|]. intros i Hi. apply (H (S i)). cbn. lia.
Qed.
Lemma nth_map_in {A B} (f : A -> B) d d' : forall l i, i < length l -> nth i (map f l) d' = f (nth i l d).
Proof. induction l as [|a l IH]; intros [|i] H; cbn in *; try lia; [reflexivity|]. apply IH. lia. Qed.

(** The keys that a query sees *)
Lemma seen_all {A} : forall (l : list A) s k, map snd (filter (fun p => (Z.of_nat (fst p) <=? k)%Z) (mapi pair s l)) = firstn (Z.to_nat (k + 1 - Z.of_nat s)) l.
Proof.
  induction l as [|a l IH]; intros s k; cbn [mapi filter map fst]; [now rewrite firstn_nil|].
  destruct (Z.leb_spec (Z.of_nat s) k) as [E|E].
  - cbn [map snd]. rewrite IH. replace (Z.to_nat (k + 1 - Z.of_nat s)) with (S (Z.to_nat (k + 1 - Z.of_nat (S s)))) by lia. reflexivity.
  - rewrite IH. replace (Z.to_nat (k + 1 - Z.of_nat s)) with 0 by lia. replace (Z.to_nat (k + 1 - Z.of_nat (S s))) with 0 by lia. reflexivity.
Qed.
Lemma seen_spec {A} (l : list A) s n i : length l = s + n -> i < n -> seen n i l = firstn (S (i + s)) l.
Proof.
  intros L Hi. unfold seen. destruct (Nat.eqb_spec n 1) as [->|N].
  - rewrite firstn_all2 by lia. reflexivity.
  - rewrite (filter_ext _ (fun p => (Z.of_nat (fst p) <=? Z.of_nat (i + s))%Z)).
    + rewrite seen_all. f_equal. lia.
    + intros p. rewrite L. destruct (Z.leb_spec (Z.of_nat (fst p)) (Z.of_nat (i + s))); [apply Z.leb_le|apply Z.leb_gt]; lia.
Qed.

Section D.
Context {Tk X Q K V Y : Type}.
Notation layer := (layer X Q K V). Notation model := (model Tk X Q K V Y).

(** ** One row at a time *)
Definition enc {A} (e : option (encoder A)) (l : list A) : list A := match e with None => l | Some e => mapi (encode e) 0 l end.
Definition long {A} (e : option (encoder A)) (n : nat) : bool := match e with None => true | Some e => negb (max_len e <? n) end.
Definition pre (L : layer) (x : list X) : list X := if post L then x else map (ln1 L) x.
Definition qs (L : layer) (x : list X) : list Q := enc (pos_q L) (map (proj_q L) (pre L x)).
Definition ks (L : layer) (x : list X) : list K := enc (pos_k L) (map (proj_k L) (pre L x)).
Definition vs (L : layer) (x : list X) : list V := map (proj_v L) (pre L x).
Definition att_row (L : layer) (x : list X) : list X :=
  mapi (fun i q => attend L q (firstn (S i) (combine (map Some (ks L x)) (map Some (vs L x))))) 0 (qs L x).
Definition mid (L : layer) (x : list X) : list X := let y := map2 (residual1 L) (att_row L x) x in if post L then map (ln1 L) y else y.
Definition layer_row (L : layer) (x : list X) : list X :=
  let x := mid L x in
  let y := map2 (residual2 L) (map (ffn L) (if post L then x else map (ln2 L) x)) x in
  if post L then map (ln2 L) y else y.
Definition fits_layer (L : layer) (n : nat) : bool := long (pos_q L) n && long (pos_k L) n.

Lemma enc_length {A} (e : option (encoder A)) l : length (enc e l) = length l.
Proof. destruct e; cbn; auto using mapi_length. Qed.
Lemma enc_firstn {A} (e : option (encoder A)) n l : firstn n (enc e l) = enc e (firstn n l).
Proof. destruct e; cbn; auto using mapi_firstn. Qed.
Lemma pre_length L x : length (pre L x) = length x.
Proof. unfold pre. destruct (post L); auto using map_length. Qed.
Lemma pre_firstn L n x : firstn n (pre L x) = pre L (firstn n x).
Proof. unfold pre. destruct (post L); auto using firstn_map. Qed.
Lemma pre_skipn L n x : skipn n (pre L x) = pre L (skipn n x).
Proof. unfold pre. destruct (post L); auto using skipn_map. Qed.
Lemma qs_length L x : length (qs L x) = length x.
Proof. unfold qs. rewrite enc_length, map_length, pre_length. reflexivity. Qed.
Lemma ks_length L x : length (ks L x) = length x.
Proof. unfold ks. rewrite enc_length, map_length, pre_length. reflexivity. Qed.
Lemma vs_length L x : length (vs L x) = length x.
Proof. unfold vs. rewrite map_length, pre_length. reflexivity. Qed.
Lemma ks_firstn L n x : firstn n (ks L x) = ks L (firstn n x).
Proof. unfold ks. rewrite enc_firstn, firstn_map, pre_firstn. reflexivity. Qed.
Lemma vs_firstn L n x : firstn n (vs L x) = vs L (firstn n x).
Proof. unfold vs. rewrite firstn_map, pre_firstn. reflexivity. Qed.
Lemma att_length L x : length (att_row L x) = length x.
Proof. unfold att_row. rewrite mapi_length. apply qs_length. Qed.
Lemma mid_length L x : length (mid L x) = length x.
Proof. unfold mid. destruct (post L); rewrite ?map_length, map2_length, att_length; lia. Qed.
Lemma layer_row_length L x : length (layer_row L x) = length x.
Proof. unfold layer_row. destruct (post L); rewrite ?map_length, map2_length, !map_length, mid_length; lia. Qed.
(** What a position yields does not depend on later positions *)
Lemma att_firstn L n x : firstn n (att_row L x) = att_row L (firstn n x).
Proof.
  unfold att_row. rewrite mapi_firstn. unfold qs at 1. rewrite enc_firstn, firstn_map, pre_firstn. fold (qs L (firstn n x)).
  apply mapi_ext. intros j q Hj. cbn in Hj. rewrite qs_length, firstn_length in Hj. f_equal.
  rewrite <- ks_firstn, <- vs_firstn, <- !firstn_map, <- combine_firstn, firstn_firstn. f_equal. lia.
Qed.
Lemma mid_firstn L n x : firstn n (mid L x) = mid L (firstn n x).
Proof. unfold mid. destruct (post L); rewrite ?firstn_map, map2_firstn, att_firstn; reflexivity. Qed.
Lemma layer_row_firstn L n x : firstn n (layer_row L x) = layer_row L (firstn n x).
Proof. unfold layer_row. destruct (post L); rewrite ?firstn_map, map2_firstn, !firstn_map, mid_firstn; reflexivity. Qed.

(** ** From the rows to the program *)
Definition tail {A} (s n : nat) (R : list (list A)) : mat A := Mat n (map (skipn s) R).
Lemma each_tail {A B} (f : A -> B) s n R : each f (tail s n R) = tail s n (map (map f) R).
Proof. unfold each, tail. cbn. f_equal. rewrite !map_map. apply map_ext. intros a. symmetry. apply skipn_map. Qed.
Lemma zip_tail {A B C D} (h : B -> C -> D) (f : A -> list B) (g : A -> list C) s n R :
  zip h (tail s n (map f R)) (tail s n (map g R)) = tail s n (map (fun x => map2 h (f x) (g x)) R).
Proof. unfold zip, tail. cbn [rows width]. f_equal. rewrite !map_map, map2_map. apply map_ext. intros a. symmetry. apply map2_skipn. Qed.
Lemma pos_encode_tail {A} (e : option (encoder A)) (b : option (bag K V)) s n R : start_of b = s ->
  pos_encode e b (tail s n R) = if long e (s + n) then Some (tail s n (map (enc e) R)) else None.
Proof.
  intros E. unfold pos_encode, long, enc. destruct e as [e|]; [|now rewrite map_id]. rewrite E. cbn [width tail]. destruct (max_len e <? s + n); cbn [negb]; [reflexivity|].
  unfold each_at, tail. cbn. do 2 f_equal. rewrite !map_map. apply map_ext. intros a. rewrite mapi_skipn. reflexivity.
Qed.
Lemma sdpa_tail L s n x : length x = s + n ->
  sdpa (attend L) n (skipn s (qs L x)) (map Some (ks L x)) (map Some (vs L x)) = skipn s (att_row L x).
Proof.
  intros E. unfold sdpa, att_row. rewrite mapi_skipn. rewrite mapi_shift. apply mapi_ext. intros j q Hj. rewrite skipn_length, qs_length in Hj. f_equal.
  apply seen_spec; [|lia]. rewrite combine_length, !map_length, ks_length, vs_length. lia.
Qed.
(** What the module [m] has been fed *)
Definition fit1 (h : list (event K V)) (L : layer) (s : nat) (XS : list (list X)) : Prop :=
  (h = [] \/ size h = length XS) /\ total h = s /\
  (forall i, i < length XS -> keys h i = firstn s (ks L (nth i XS []))) /\ (forall i, i < length XS -> values h i = firstn s (vs L (nth i XS []))).

Lemma given_tail {A} n (R : list (list A)) : given (tail 0 n R) = Mat n (map (map Some) R).
Proof. unfold given, tail. cbn. rewrite map_map. reflexivity. Qed.
Lemma pre_tail L s n XS : (if post L then tail s n XS else each (ln1 L) (tail s n XS)) = tail s n (map (pre L) XS).
Proof. unfold pre. destruct (post L); [now rewrite map_id|apply each_tail]. Qed.
Lemma rest_tail L s n XS :
  (let y := zip (residual1 L) (tail s n (map (att_row L) XS)) (tail s n XS) in
   let x := if post L then each (ln1 L) y else y in
   let y := each (ffn L) (if post L then x else each (ln2 L) x) in
   let y := zip (residual2 L) y x in
   if post L then each (ln2 L) y else y) = tail s n (map (layer_row L) XS).
Proof.
  cbv zeta. unfold layer_row, mid. replace (tail s n XS) with (tail s n (map (fun x => x) XS)) by (now rewrite map_id). rewrite zip_tail.
  destruct (post L); rewrite ?each_tail, ?map_map, ?zip_tail, ?each_tail, ?map_map; [|f_equal].
  all: try reflexivity.
Qed.
Lemma out_tail L s n XS : (forall x, In x XS -> length x = s + n) ->
  map (fun p => sdpa (attend L) n (fst p) (fst (snd p)) (snd (snd p))) (combine (rows (tail s n (map (qs L) XS))) (combine (map (fun x => map Some (ks L x)) XS) (map (fun x => map Some (vs L x)) XS)))
  = rows (tail s n (map (att_row L) XS)).
Proof.
  intros H. unfold tail. cbn [rows]. rewrite !map_map. rewrite !combine_map2, map_map. apply map_ext_in. intros x Hx. cbn [fst snd]. apply sdpa_tail. auto.
Qed.
Lemma self_attn_none m L n XS : (forall x, In x XS -> length x = n) ->
  forward_layer m L (tail 0 n XS) None = if fits_layer L n then Some (tail 0 n (map (layer_row L) XS), None) else None.
Proof.
  intros Hl. unfold forward_layer. rewrite pre_tail. unfold self_attn. rewrite !each_tail, !map_map. rewrite !(pos_encode_tail _ None 0) by reflexivity.
  unfold fits_layer. cbn [Nat.add]. destruct (long (pos_q L) n); [|reflexivity]. destruct (long (pos_k L) n); [|reflexivity]. cbn [andb].
  rewrite !map_map, !given_tail. cbn [rows width tail]. rewrite !map_map.
  fold (tail 0 n (map (fun x => enc (pos_q L) (map (proj_q L) (pre L x))) XS)).
  pose proof (out_tail L 0 n XS Hl) as O. unfold tail at 1 in O. cbn [rows] in O. rewrite map_map in O. unfold ks, vs, qs in O. rewrite O.
  rewrite <- (rest_tail L 0 n XS). reflexivity.
Qed.
Definition keep : nat -> option nat := fun _ => None.
Lemma self_attend_step m f (k : mat K) (v : mat V) b ok ov b' : self_attend m f k v b = Ok (ok, ov, b') -> step_nr b' = step_nr b.
Proof.
  unfold self_attend. destruct (lookup m (states b)).
  - destruct (append k v s); cbn [bind]; [|discriminate]. intros [= <- <- <-]. reflexivity.
  - destruct (self_factory f k v (max_steps b) (inc b)); cbn [bind]; [|discriminate]. intros [= <- <- <-]. reflexivity.
Qed.
Lemma nth_tail {A B} (f : A -> list B) s n R d i : i < length R -> nth i (rows (tail s n (map f R))) [] = skipn s (f (nth i R d)).
Proof. intros H. unfold tail. cbn [rows]. rewrite map_map. now apply (nth_map_in (fun x => skipn s (f x))). Qed.
Lemma tail_rows {A B} (f : A -> list B) s n R : length (rows (tail s n (map f R))) = length R.
Proof. unfold tail. cbn [rows]. now rewrite !map_length. Qed.
Lemma tail_rect {A B} (f : A -> list B) s n R : (forall x, In x R -> length (f x) = s + n) -> rect (tail s n (map f R)).
Proof.
  intros H r Hr. unfold tail in *. cbn [rows width] in *. apply in_map_iff in Hr as (y & <- & Hy). apply in_map_iff in Hy as (x & <- & Hx). rewrite skipn_length, (H x Hx). lia.
Qed.

Section Bag.
Variables (mx : nat) (inc' : option nat).
Lemma layer_bag m L s n XS b H : session keep mx inc' b H -> step_nr b = s -> fit1 (H m) L s XS -> (forall x, In x XS -> length x = s + n) ->
  inc' <> None \/ s + n <= mx ->
  (fits_layer L (s + n) = false /\ forward_layer m L (tail s n XS) (Some b) = None) \/
  (fits_layer L (s + n) = true /\ exists b' H', forward_layer m L (tail s n XS) (Some b) = Some (tail s n (map (layer_row L) XS), Some b') /\
    session keep mx inc' b' H' /\ step_nr b' = s /\ fit1 (H' m) L (s + n) XS /\ H' m <> [] /\ forall m', m' <> m -> H' m' = H m').
Proof.
  intros Se St (F1 & F2 & F3 & F4) Hl Rm. unfold forward_layer. rewrite pre_tail. unfold self_attn. rewrite !each_tail, !map_map. rewrite !(pos_encode_tail _ (Some b) s) by exact St.
  unfold fits_layer. destruct (long (pos_q L) (s + n)); [|left; split; reflexivity]. destruct (long (pos_k L) (s + n)); [|left; split; reflexivity]. right. split; [reflexivity|].
  rewrite !map_map. change (fun x => enc (pos_k L) (map (proj_k L) (pre L x))) with (ks L). change (fun x => enc (pos_q L) (map (proj_q L) (pre L x))) with (qs L).
  change (fun x => map (proj_v L) (pre L x)) with (vs L).
  set (k := tail s n (map (ks L) XS)). set (v := tail s n (map (vs L) XS)).
  assert (Lk : length (rows k) = length XS) by apply tail_rows. assert (Lv : length (rows v) = length XS) by apply tail_rows.
  assert (Le : legal_event (Fed k v) (H m)).
  { cbn [legal_event]. split; [apply tail_rect; intros x Hx; rewrite ks_length; auto|]. split; [apply tail_rect; intros x Hx; rewrite vs_length; auto|].
    split; [reflexivity|]. split; [congruence|]. destruct F1 as [F1|F1]; [left; auto|right; congruence]. }
  destruct (session_agrees _ _ _ _ _ Se) as (Ei & Em & _ & _ & _).
  destruct (C50_attend keep mx inc' b H m k v Se eq_refl Le) as (ok & ov & b' & E & G1 & G2 & G3 & G4).
  { unfold room. rewrite Ei, Em, F2. cbn [k tail width]. tauto. }
  change (keep m) with (@None nat) in E. rewrite E.
  assert (KN : forall i, i < length XS -> keys (Fed k v :: H m) i = ks L (nth i XS [])).
  { intros i Hi. cbn [keys]. rewrite F3 by exact Hi. unfold k. rewrite (nth_tail (ks L) s n XS [] i Hi). apply firstn_skipn. }
  assert (VN : forall i, i < length XS -> values (Fed k v :: H m) i = vs L (nth i XS [])).
  { intros i Hi. cbn [values]. rewrite F4 by exact Hi. unfold v. rewrite (nth_tail (vs L) s n XS [] i Hi). apply firstn_skipn. }
  assert (Eok : rows ok = map (fun x => map Some (ks L x)) XS).
  { apply list_ext; [rewrite map_length; congruence|]. intros i Hi. rewrite G3, Lk in Hi. rewrite G1 by lia. rewrite KN by exact Hi. rewrite (nth_error_nth' _ []); [|rewrite map_length; exact Hi].
    f_equal. symmetry. apply (nth_map_in (fun x => map Some (ks L x))). exact Hi. }
  assert (Eov : rows ov = map (fun x => map Some (vs L x)) XS).
  { apply list_ext; [rewrite map_length; congruence|]. intros i Hi. rewrite G4, Lk in Hi. rewrite G2 by lia. rewrite VN by exact Hi. rewrite (nth_error_nth' _ []); [|rewrite map_length; exact Hi].
    f_equal. symmetry. apply (nth_map_in (fun x => map Some (vs L x))). exact Hi. }
  rewrite Eok, Eov. cbn [width tail]. pose proof (out_tail L s n XS Hl) as O. rewrite O.
  exists b', (fun m' => if m' =? m then Fed k v :: H m else H m').
  split; [do 2 f_equal; rewrite <- (rest_tail L s n XS); reflexivity|].
  split; [eapply Attended; eauto|]. split; [apply self_attend_step in E; congruence|]. rewrite Nat.eqb_refl. split; [|split; [discriminate|]].
  - split; [right; exact Lk|]. split; [cbn [total]; rewrite F2; reflexivity|]. split; intros i Hi; [rewrite KN by exact Hi|rewrite VN by exact Hi]; symmetry; apply firstn_all2.
    + rewrite ks_length, Hl by (now apply nth_In). lia.
    + rewrite vs_length, Hl by (now apply nth_In). lia.
  - intros m' N. destruct (Nat.eqb_spec m' m); [contradiction|reflexivity].
Qed.

(** All layers: what the modules from [m] on have been fed *)
Fixpoint fit (Ls : list layer) (m : nat) (H : nat -> list (event K V)) (s : nat) (XS : list (list X)) : Prop :=
  match Ls with [] => True | L :: Ls' => fit1 (H m) L s XS /\ fit Ls' (S m) H s (map (layer_row L) XS) end.
Definition layers_row (Ls : list layer) (x : list X) : list X := fold_left (fun x L => layer_row L x) Ls x.
Lemma layers_row_length Ls : forall x, length (layers_row Ls x) = length x.
Proof. induction Ls as [|L Ls IH]; intros x; cbn; [reflexivity|]. unfold layers_row in IH. rewrite IH. apply layer_row_length. Qed.
Lemma fit_ext Ls : forall m H H' s XS, (forall m', m <= m' -> H' m' = H m') -> fit Ls m H s XS -> fit Ls m H' s XS.
Proof. induction Ls as [|L Ls IH]; intros m H H' s XS E; cbn; [auto|]. intros (A & B). rewrite E by lia. split; auto. apply (IH _ H); auto. intros m' Hm. apply E. lia. Qed.
Lemma rows_length {n} L XS : (forall x : list X, In x XS -> length x = n) -> forall x, In x (map (layer_row L) XS) -> length x = n.
Proof. intros H x Hx. apply in_map_iff in Hx as (y & <- & Hy). rewrite layer_row_length. auto. Qed.
Lemma layers_none hs N n Ls : forall m XS, (forall x, In x XS -> length x = n) ->
  option_map fst (forward_layers hs N m Ls (tail 0 n XS) None) =
  if forallb (fun L => fits_layer L n) Ls then Some (tail 0 n (map (layers_row Ls) XS), None) else None.
Proof.
  induction Ls as [|L Ls IH]; intros m XS Hl; cbn [forward_layers forallb].
  - cbn. now rewrite map_id.
  - rewrite self_attn_none by exact Hl. destruct (fits_layer L n); [|reflexivity]. cbn [andb].
    specialize (IH (S m) (map (layer_row L) XS) (rows_length L XS Hl)). rewrite map_map in IH. destruct (forward_layers hs N (S m) Ls (tail 0 n (map (layer_row L) XS)) None) as [[[y b] c]|]; exact IH.
Qed.
Lemma layers_bag hs N s n Ls : forall m XS b H, session keep mx inc' b H -> step_nr b = s -> fit Ls m H s XS -> (forall x, In x XS -> length x = s + n) ->
  inc' <> None \/ s + n <= mx ->
  (forallb (fun L => fits_layer L (s + n)) Ls = false /\ forward_layers hs N m Ls (tail s n XS) (Some b) = None) \/
  (forallb (fun L => fits_layer L (s + n)) Ls = true /\ exists b' H', option_map fst (forward_layers hs N m Ls (tail s n XS) (Some b)) = Some (tail s n (map (layers_row Ls) XS), Some b') /\
    session keep mx inc' b' H' /\ step_nr b' = s /\ fit Ls m H' (s + n) XS /\ (forall m', m <= m' < m + length Ls -> H' m' <> []) /\
    forall m', m' < m \/ m + length Ls <= m' -> H' m' = H m').
Proof.
  induction Ls as [|L Ls IH]; intros m XS b H Se St F Hl Rm; cbn [forward_layers forallb].
  - right. split; [reflexivity|]. exists b, H. cbn. rewrite map_id. repeat split; auto. intros m' Hm. lia.
  - destruct F as (F1 & F2). destruct (layer_bag m L s n XS b H Se St F1 Hl Rm) as [(A & B)|(A & b1 & H1 & E & S1 & T1 & G1 & G2 & G3)].
    + left. rewrite A, B. split; reflexivity.
    + rewrite A, E. cbn [andb]. destruct (IH (S m) (map (layer_row L) XS) b1 H1 S1 T1) as [(C & D)|(C & b2 & H2 & E2 & S2 & T2 & I1 & I2 & I3)]; auto.
      * apply (fit_ext _ _ H); auto. intros m' Hm. apply G3. lia.
      * apply rows_length, Hl.
      * left. rewrite C, D. split; reflexivity.
      * right. split; [exact C|]. exists b2, H2. split.
        { destruct (forward_layers hs N (S m) Ls (tail s n (map (layer_row L) XS)) (Some b1)) as [[[y b'] c]|]; cbn in *; [|discriminate]. rewrite E2, map_map. reflexivity. }
        split; auto. split; auto. split; [split; auto|].
        { rewrite I3 by lia. exact G1. }
        cbn [length]. split.
        { intros m' Hm. destruct (Nat.eq_dec m' m) as [->|Ne]; [rewrite I3 by lia; exact G2|]. apply I2. lia. }
        { intros m' Hm. rewrite I3 by lia. apply G3. lia. }
Qed.
End Bag.
End D.
