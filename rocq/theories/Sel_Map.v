(** Lemmas about replacing the elements at places that do not overlap *)
From Coq Require Import List Bool Arith NArith Ascii Lia ZifyN ZifyNat ZifyBool Permutation.
From Verif Require Import File_Model Sel_Model Sel_Spec Sel_Visit.
Import ListNotations.

Section Data.
  Context {A T : Type}.
  Local Notation data := (data A T).

  Lemma get_at (d : data) p e : proper d -> get d p = Some e <-> at_place d p e.
  Proof.
    revert d. induction p as [|s p IH]; intros d P; cbn [get].
    - split; [intros [= ->]; constructor|]. intros H. now inversion H.
    - split.
      + destruct s as [k|n], d as [| |l|kv]; try discriminate.
        * destruct (lookup k kv) as [y|] eqn:E; [|discriminate]. apply lookup_some in E. intros H. apply at_child with y; [exact E|]. apply IH; [|exact H]. apply (proper_child _ _ (Key k) P E).
        * destruct (nth_error l (N.to_nat n)) as [y|] eqn:E; [|discriminate]. intros H. apply at_child with y; [exact E|]. apply IH; [|exact H]. apply (proper_child _ _ (Index n) P E).
      + intros H. inversion H as [|? ? y ? ? C H']; subst. assert (Py := proper_child _ _ _ P C). destruct s as [k|n], d as [| |l|kv]; cbn in C; try contradiction.
        * inversion P; subst. rewrite (lookup_in _ _ _ H1 C). now apply IH.
        * rewrite C. now apply IH.
  Qed.

  (** ** changed_at *)
  Fixpoint mapi (F : N -> data -> data) (i : N) (l : list data) : list data := match l with [] => [] | x :: l' => F i x :: mapi F (N.succ i) l' end.
  Lemma changed_items g S (l : list data) : S [] = false -> changed_at g S (Items l) = Items (mapi (fun i x => changed_at g (fun p => S (Index i :: p)) x) 0 l).
  Proof. intros E. cbn [changed_at]. rewrite E. f_equal. generalize 0%N as i. induction l as [|x l IH]; intros i; [reflexivity|]. cbn. now rewrite IH. Qed.
  Lemma changed_dict g S (kv : list (str * data)) : S [] = false -> changed_at g S (Dict kv) = Dict (map (fun e => (fst e, changed_at g (fun p => S (Key (fst e) :: p)) (snd e))) kv).
  Proof. intros E. cbn [changed_at]. now rewrite E. Qed.
  Lemma changed_here g S (d : data) : S [] = true -> changed_at g S d = g d.
  Proof. intros E. destruct d; cbn [changed_at]; now rewrite E. Qed.
  Lemma changed_ext g (d : data) : forall S S', (forall p, S p = S' p) -> changed_at g S d = changed_at g S' d.
  Proof.
    induction d as [a|t|l IH|kv IH] using data_ind'; intros S S' E.
    - cbn. now rewrite E.
    - cbn. now rewrite E.
    - destruct (S []) eqn:E0; [now rewrite !changed_here by congruence|]. rewrite !changed_items by congruence. f_equal. generalize 0%N as i. induction IH as [|x l Hx IH IHl]; intros i; [reflexivity|]. cbn. f_equal; [now apply Hx|apply IHl].
    - destruct (S []) eqn:E0; [now rewrite !changed_here by congruence|]. rewrite !changed_dict by congruence. f_equal. apply map_ext_in. intros e I0. rewrite Forall_forall in IH. f_equal. now apply IH.
  Qed.
  Lemma changed_none g (d : data) : forall S, (forall p, S p = false) -> changed_at g S d = d.
  Proof.
    induction d as [a|t|l IH|kv IH] using data_ind'; intros S E.
    - cbn. now rewrite E.
    - cbn. now rewrite E.
    - rewrite changed_items by apply E. f_equal. generalize 0%N as i. induction IH as [|x l Hx IH IHl]; intros i; [reflexivity|]. cbn. f_equal; [now apply Hx|apply IHl].
    - rewrite changed_dict by apply E. f_equal. rewrite <- (map_id kv) at 2. apply map_ext_in. intros [k e] I0. rewrite Forall_forall in IH. cbn. f_equal. now apply (IH (k, e)).
  Qed.
  Lemma nth_mapi F l : forall i k, nth_error (mapi F i l) k = option_map (F (i + N.of_nat k)%N) (nth_error l k).
  Proof. induction l as [|x l IH]; intros i [|k]; cbn [mapi nth_error option_map]; try reflexivity; [f_equal; f_equal; lia|]. rewrite IH. now replace (N.succ i + N.of_nat k)%N with (i + N.of_nat (S k))%N by lia. Qed.
  Lemma set_mapi F F' l : forall i k x, nth_error l k = Some x -> (forall j y, j <> (i + N.of_nat k)%N -> F j y = F' j y) -> set_nth k (F' (i + N.of_nat k)%N x) (mapi F i l) = mapi F' i l.
  Proof.
    induction l as [|y l IH]; intros i k x E H; [destruct k; discriminate|]. destruct k as [|k]; cbn [mapi set_nth nth_error] in *.
    - injection E as ->. f_equal; [f_equal; lia|]. assert (G : forall i', (i < i')%N -> mapi F i' l = mapi F' i' l); [|apply G; lia]. clear - H. induction l as [|z l IH]; intros i' L; [reflexivity|]. cbn. f_equal; [apply H; lia|apply IH; lia].
    - f_equal; [apply H; lia|]. replace (i + N.of_nat (S k))%N with (N.succ i + N.of_nat k)%N in * by lia. now apply IH.
  Qed.
  Lemma lookup_map (F : str -> data -> data) kv k : lookup k (map (fun e => (fst e, F (fst e) (snd e))) kv) = option_map (F k) (lookup k kv).
  Proof.
    unfold lookup. induction kv as [|[k' y] kv IH]; [reflexivity|]. cbn. destruct (str_eqb k' k) eqn:E; [|exact IH]. apply str_eqb_iff in E as ->. reflexivity.
  Qed.
  Lemma set_key_map (F F' : str -> data -> data) kv k x : NoDup (map fst kv) -> lookup k kv = Some x -> (forall k' y, k' <> k -> F k' y = F' k' y) ->
    set_key k (F' k x) (map (fun e => (fst e, F (fst e) (snd e))) kv) = map (fun e => (fst e, F' (fst e) (snd e))) kv.
  Proof.
    unfold lookup. induction kv as [|[k' y] kv IH]; intros N0 E H; [discriminate|]. cbn in *. inversion N0 as [|? ? N1 N2]; subst. destruct (str_eqb k' k) eqn:E'.
    - apply str_eqb_iff in E' as ->. injection E as ->. f_equal. apply map_ext_in. intros [k' z] I0. cbn. f_equal. apply H. intros ->. apply N1. apply in_map_iff. now exists (k, z).
    - assert (k' <> k) by (intros ->; rewrite (proj2 (str_eqb_iff k k) eq_refl) in E'; discriminate). f_equal; [f_equal; now apply H|]. now apply IH.
  Qed.

  Definition same_place (p q : list segment) : bool := if list_eq_dec segment_dec p q then true else false.
  Lemma same_place_iff p q : same_place p q = true <-> p = q.
  Proof. unfold same_place. destruct (list_eq_dec segment_dec p q); split; congruence. Qed.
  Lemma same_place_cons s p t q : same_place (s :: p) (t :: q) = (if segment_dec s t then same_place p q else false).
  Proof. apply Bool.eq_iff_eq_true. destruct (segment_dec s t); rewrite ?same_place_iff; split; congruence. Qed.
  Lemma change_one g p : forall S (d e : data), proper d -> get d p = Some e -> (forall q r, S q = true -> q ++ r <> p /\ p ++ r <> q) ->
    get (changed_at g S d) p = Some e /\ put (changed_at g S d) p (g e) = changed_at g (fun q => S q || same_place q p) d.
  Proof.
    induction p as [|s p IH]; intros S d e P G Ap.
    - cbn in G. injection G as ->. rewrite changed_none; [|intros q; destruct (S q) eqn:E; [destruct (Ap q q E) as (_ & []); reflexivity|reflexivity]]. split; [reflexivity|]. cbn [put]. rewrite changed_here; [reflexivity|]. apply orb_true_r.
    - assert (S0 : S [] = false) by (destruct (S []) eqn:E; [destruct (Ap [] (s :: p) E) as ([] & _); reflexivity|reflexivity]).
      assert (S1 : (S [] || same_place [] (s :: p)) = false) by (rewrite S0; reflexivity).
      assert (Ap' : forall q r, S (s :: q) = true -> q ++ r <> p /\ p ++ r <> q) by (intros q r E; destruct (Ap (s :: q) r E) as (X & Y); split; intros <-; [now apply X|now apply Y]).
      destruct s as [k|n], d as [| |l|kv]; cbn [get] in G; try discriminate.
      + destruct (lookup k kv) as [x|] eqn:E; [|discriminate]. destruct (IH (fun q => S (Key k :: q)) x e (proper_child _ _ (Key k) P (lookup_some _ _ _ E)) G Ap') as (H1 & H2).
        rewrite (changed_dict g S) by exact S0. rewrite (changed_dict g (fun q => S q || same_place q (Key k :: p))) by exact S1. cbn [get put]. rewrite (lookup_map (fun k' y => changed_at g (fun p => S (Key k' :: p)) y)), E. cbn [option_map]. split; [exact H1|]. rewrite H2. f_equal.
        assert (X : changed_at g (fun q => S (Key k :: q) || same_place q p) x = changed_at g (fun q => S (Key k :: q) || same_place (Key k :: q) (Key k :: p)) x).
        { apply changed_ext. intros q. f_equal. rewrite same_place_cons. destruct (segment_dec (Key k) (Key k)); [reflexivity|contradiction]. }
        rewrite X. inversion P; subst. apply (set_key_map (fun k' y => changed_at g (fun p0 => S (Key k' :: p0)) y) (fun k' y => changed_at g (fun q => S (Key k' :: q) || same_place (Key k' :: q) (Key k :: p)) y)); [assumption|exact E|].
        intros k' y D. apply changed_ext. intros q. rewrite same_place_cons. destruct (segment_dec (Key k') (Key k)); [congruence|]. now rewrite orb_false_r.
      + destruct (nth_error l (N.to_nat n)) as [x|] eqn:E; [|discriminate]. destruct (IH (fun q => S (Index n :: q)) x e (proper_child _ _ (Index n) P E) G Ap') as (H1 & H2).
        rewrite (changed_items g S) by exact S0. rewrite (changed_items g (fun q => S q || same_place q (Index n :: p))) by exact S1. cbn [get put]. rewrite nth_mapi, E. cbn [option_map]. replace (0 + N.of_nat (N.to_nat n))%N with n by lia. split; [exact H1|]. rewrite H2. f_equal.
        assert (X : changed_at g (fun q => S (Index n :: q) || same_place q p) x = changed_at g (fun q => S (Index n :: q) || same_place (Index n :: q) (Index n :: p)) x).
        { apply changed_ext. intros q. f_equal. rewrite same_place_cons. destruct (segment_dec (Index n) (Index n)); [reflexivity|contradiction]. }
        rewrite X. pose proof (set_mapi (fun i y => changed_at g (fun p0 => S (Index i :: p0)) y) (fun i y => changed_at g (fun q => S (Index i :: q) || same_place (Index i :: q) (Index n :: p)) y) l 0%N (N.to_nat n) x E) as M.
        cbv beta in M. replace (0 + N.of_nat (N.to_nat n))%N with n in M by lia. apply M.
        intros i y D. apply changed_ext. intros q. rewrite same_place_cons. destruct (segment_dec (Index i) (Index n)); [congruence|]. now rewrite orb_false_r.
  Qed.

  (** ** apply *)
  Definition apart (ps : list (list segment)) : Prop := NoDup ps /\ forall p q r, In p ps -> In q ps -> p ++ r = q -> p = q.
  Lemma is_prefix_iff p q : is_prefix p q = true <-> exists r, p ++ r = q.
  Proof.
    revert q. induction p as [|x p IH]; intros q; cbn; [split; [now exists q|reflexivity]|]. destruct q as [|y q]; [split; [discriminate|intros (r & [=])]|]. destruct (segment_dec x y) as [->|D].
    - rewrite IH. split; intros (r & E); exists r; [now rewrite E|now injection E].
    - split; [discriminate|]. intros (r & [= E _]). contradiction.
  Qed.
  Lemma apply_spec (f : data -> option data) g (d : data) order : forall done, proper d -> apart (done ++ order) -> (forall p, In p order -> exists e, get d p = Some e) ->
    (forall p e y, In p order -> get d p = Some e -> f e = Some y -> y = g e) ->
    ((exists p e, In p order /\ get d p = Some e /\ f e = None) -> apply f order done (changed_at g (one_of done) d) = Raised) /\
    ((forall p e, In p order -> get d p = Some e -> f e <> None) -> apply f order done (changed_at g (one_of done) d) = Done (changed_at g (one_of (done ++ order)) d)).
  Proof.
    induction order as [|p order IH]; intros done P Ap Ge Hg.
    - split; [now intros (p & e & [] & _)|]. intros _. cbn. f_equal. apply changed_ext. intros q. now rewrite app_nil_r.
    - destruct (Ge p (or_introl eq_refl)) as (e & G). destruct Ap as (N0 & Ap).
      assert (Np : ~ In p (done ++ order)) by (apply NoDup_remove_2; exact N0).
      assert (D : forall q r, one_of done q = true -> q ++ r <> p /\ p ++ r <> q).
      { intros q r E. unfold one_of in E. destruct (in_dec _ q done) as [I0|]; [|discriminate]. split; intros X; apply Np; rewrite in_app_iff; left.
        - rewrite <- (Ap q p r); [exact I0|apply in_or_app; now left|apply in_or_app; right; now left|exact X].
        - rewrite (Ap p q r); [exact I0|apply in_or_app; right; now left|apply in_or_app; now left|exact X]. }
      destruct (change_one g p (one_of done) d e P G D) as (H1 & H2). cbn [apply].
      assert (Ex : existsb (fun w => is_strict_prefix w p) done = false).
      { destruct (existsb _ done) eqn:E; [|reflexivity]. apply existsb_exists in E as (w & I0 & E). unfold is_strict_prefix in E. apply andb_prop in E as (E & _). apply is_prefix_iff in E as (r & E).
        destruct (D w r) as (X & _); [unfold one_of; destruct (in_dec _ w done); [reflexivity|contradiction]|contradiction]. }
      rewrite Ex, H1. assert (Pm : Permutation (done ++ p :: order) ((p :: done) ++ order)) by (symmetry; apply Permutation_middle).
      assert (IHp := IH (p :: done) P). destruct IHp as (R & Dn).
      { split; [eapply Permutation_NoDup; eassumption|]. intros q q' r I0 I1. apply Ap; (eapply Permutation_in; [apply Permutation_sym, Pm|assumption]). }
      { intros q I0. apply Ge. now right. } { intros q y z I0. apply Hg. now right. }
      assert (C : changed_at g (fun q => one_of done q || same_place q p) d = changed_at g (one_of (p :: done)) d).
      { apply changed_ext. intros q. apply Bool.eq_iff_eq_true. rewrite orb_true_iff, same_place_iff. unfold one_of. destruct (in_dec _ q done) as [I0|I0], (in_dec _ q (p :: done)) as [I1|I1]; cbn in I1; intuition congruence. }
      split.
      + intros (q & x & I0 & Gq & Fq). destruct (f e) as [y|] eqn:Fe; [|reflexivity]. rewrite (Hg p e y (or_introl eq_refl) G Fe), H2, C. apply R. destruct I0 as [<-|I0]; [congruence|]. exists q, x. auto.
      + intros F. destruct (f e) as [y|] eqn:Fe; [|destruct (F p e (or_introl eq_refl) G Fe)]. rewrite (Hg p e y (or_introl eq_refl) G Fe), H2, C. rewrite Dn; [|intros q x I0; apply F; now right]. f_equal. apply changed_ext.
        intros q. unfold one_of. destruct (in_dec _ q ((p :: done) ++ order)) as [I0|I0], (in_dec _ q (done ++ p :: order)) as [I1|I1]; try reflexivity; exfalso; [apply I1; eapply Permutation_in; [apply Permutation_sym, Pm|exact I0]|apply I0; eapply Permutation_in; [apply Pm|exact I1]].
  Qed.
  Lemma addressed_length (d : data) path q : addressed d path q -> length q = length path.
  Proof. intros (F & _). induction F; cbn; congruence. Qed.
  Lemma visited_apart (d : data) ps v : proper d -> separate d ps -> visit_paths d ps = Some v -> apart (map fst v).
  Proof.
    intros P Sp E. pose proof (visit_paths_spec d ps P) as V. rewrite E in V. destruct V as (_ & Q & N0). split; [now apply N0|]. intros p q r I0 I1 X. apply Q in I0 as (a & Ia & Aa), I1 as (b & Ib & Ab).
    apply In_nth_error in Ia as (i & Ei), Ib as (j & Ej). destruct (Nat.eq_dec i j) as [->|D].
    - rewrite Ei in Ej. injection Ej as ->. apply addressed_length in Aa, Ab. rewrite <- X, app_length in Ab. destruct r; [now rewrite app_nil_r in X|cbn in Ab; lia].
    - destruct (Sp i j a b p q D Ei Ej Aa Ab r X).
  Qed.
End Data.
