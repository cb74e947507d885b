From Coq Require Import String Ascii List Bool Arith Lia Decimal DecimalString DecimalNat.
From Verif Require Import Hub_Model Hub_Spec.
Import ListNotations.

Lemma str_eqb_eq : forall a b, str_eqb a b = true <-> a = b.
Proof. intros. unfold str_eqb. destruct (list_eq_dec ascii_dec a b); split; congruence. Qed.
Lemma str_eqb_refl : forall a, str_eqb a a = true. Proof. intros. now apply str_eqb_eq. Qed.
Lemma str_eqb_neq : forall a b, str_eqb a b = false <-> a <> b.
Proof. intros. unfold str_eqb. destruct (list_eq_dec ascii_dec a b); split; congruence. Qed.

(** ** Symbolic keys: characters and the number, followed by anything *)
Notation sym := (list (option ascii)).
Definition conc (d sfx : str) (s : sym) : str := flat_map (fun o => match o with Some c => [c] | None => d end) s ++ sfx.
Inductive outcome := Match (num : bool) (rest : sym) | NoMatch | Unknown.
Fixpoint sym_match (p : list item) (num : bool) (s : sym) : outcome :=
  match p with
  | [] => Match num s
  | Chr c :: p' => match s with
                   | Some d :: s' => if Ascii.eqb c d then sym_match p' num s' else NoMatch
                   | None :: _ => if is_digit c then Unknown else NoMatch
                   | [] => Unknown end
  | Num :: p' => match s with
                 | None :: (Some b :: _) as s' => if is_digit b then Unknown else sym_match p' true (tl s)
                 | Some b :: _ => if is_digit b then Unknown else NoMatch
                 | _ => Unknown end
  | AnyChar :: _ => Unknown
  | End :: _ => match s with Some _ :: _ => NoMatch | None :: _ => NoMatch | [] => Unknown end
  end.
Fixpoint sym_expand (r : str) : sym :=
  match r with
  | [] => []
  | c :: r => if Ascii.eqb c "\" then match r with d :: r' => if Ascii.eqb d "1" then None :: sym_expand r' else Some d :: sym_expand r' | [] => [] end
              else Some c :: sym_expand r
  end.
Fixpoint no_group (s : sym) : bool := match s with [] => true | None :: _ => false | _ :: s' => no_group s' end.
Definition differ (a b : sym) : bool := match a, b with Some c :: _, Some d :: _ => negb (Ascii.eqb c d) | _, _ => false end.
Fixpoint sym_convert (m : key_map) (s : sym) : option sym :=
  match m with
  | [] => Some s
  | (c :: p, r) :: m' =>
    if Ascii.eqb c "^" then
      match sym_match (parse p) false s with
      | Match num rest => let k := sym_expand r ++ rest in if (num || no_group (sym_expand r)) && differ k s then Some k else None
      | NoMatch => sym_convert m' s
      | Unknown => None
      end
    else None
  | _ => None
  end.

Definition number (d : str) : Prop := d <> [] /\ forallb is_digit d = true.
Lemma digits_number : forall d c s, forallb is_digit d = true -> is_digit c = false -> digits (d ++ c :: s) = (d, c :: s).
Proof.
  induction d; cbn; intros c s H Hc; [rewrite Hc; auto|]. apply andb_prop in H as [H1 H2]. rewrite H1, IHd; auto.
Qed.
Lemma sym_match_ok : forall d sfx, number d -> forall p num s cap,
  match sym_match p num s with
  | Match n r => exists cap', match_items p cap (conc d sfx s) = Some (cap', conc d sfx r) /\ (cap' = if n then (if num then cap' else d) else cap) /\ (n = true -> num = true -> cap = d -> cap' = d) /\ (num = true -> n = true)
  | NoMatch => match_items p cap (conc d sfx s) = None
  | Unknown => True
  end.
Proof.
  intros d sfx [Nd Dd]. induction p as [|i p IH]; intros num s cap; cbn [sym_match].
  { exists cap. split; [reflexivity|]. destruct num; auto. }
  destruct i.
  - destruct s as [|[b|] s]; auto.
    + cbn [match_items]. change (conc d sfx (Some b :: s)) with (b :: conc d sfx s). cbv iota. destruct (Ascii.eqb c b); [apply IH|reflexivity].
    + destruct (is_digit c) eqn:E; auto. destruct d as [|x d]; [easy|]. change (conc (x :: d) sfx (None :: s)) with (x :: (d ++ flat_map (fun o => match o with Some c => [c] | None => x :: d end) s) ++ sfx).
      cbn [match_items]. cbn in Dd. apply andb_prop in Dd as [Dx _]. destruct (Ascii.eqb c x) eqn:E'; auto. apply Ascii.eqb_eq in E'. congruence.
  - exact I.
  - destruct s as [|[b|] s]; auto.
    + destruct (is_digit b) eqn:E; auto. cbn [match_items]. change (conc d sfx (Some b :: s)) with (b :: conc d sfx s). cbn [digits]. rewrite E. reflexivity.
    + destruct s as [|[b|] s]; auto. destruct (is_digit b) eqn:E; auto. cbn [tl].
      assert (X : match_items (Num :: p) cap (conc d sfx (None :: Some b :: s)) = match_items p d (conc d sfx (Some b :: s))).
      { cbn [match_items]. replace (conc d sfx (None :: Some b :: s)) with (d ++ b :: conc d sfx s) by (unfold conc; cbn; rewrite <- app_assoc; reflexivity).
        rewrite digits_number by auto. destruct d; [easy|reflexivity]. }
      rewrite X. specialize (IH true (Some b :: s) d). destruct (sym_match p true (Some b :: s)); auto.
      destruct IH as (cap' & A & B & C & D). exists cap'. split; auto. rewrite D in * by auto. split; [|split; auto]. destruct num; auto.
  - destruct s as [|[b|] s]; auto. destruct d as [|x d]; [easy|]. reflexivity.
Qed.
Lemma sym_expand_ok : forall d sfx r cap, (no_group (sym_expand r) = true \/ cap = d) -> conc d sfx (sym_expand r) = expand r cap ++ sfx.
Proof.
  intros d sfx r cap. cut (forall n r, length r <= n -> (no_group (sym_expand r) = true \/ cap = d) -> conc d sfx (sym_expand r) = expand r cap ++ sfx).
  { intros H. apply (H (length r)). auto. }
  clear r. induction n; intros r L H; destruct r as [|c r]; try reflexivity; cbn in L; [lia|]. cbn [sym_expand expand] in *.
  destruct (Ascii.eqb c "\").
  - destruct r as [|e r]; [reflexivity|]. cbn in L. destruct (Ascii.eqb e "1").
    + destruct H as [H|H]; [cbn in H; discriminate|]. subst cap. unfold conc in *. cbn [flat_map]. rewrite <- !app_assoc. apply (f_equal (List.app d)). apply IHn; [lia|auto].
    + unfold conc in *. cbn [flat_map]. rewrite <- app_assoc. cbn [app]. apply (f_equal (cons _)). apply IHn; [lia|auto].
  - unfold conc in *. cbn [flat_map]. rewrite <- app_assoc. cbn [app]. apply (f_equal (cons _)). apply IHn; [lia|auto].
Qed.
Lemma conc_app : forall d sfx a b, conc d sfx (a ++ b) = conc d [] a ++ conc d sfx b.
Proof. intros. unfold conc. rewrite flat_map_app, app_nil_r, app_assoc. reflexivity. Qed.
Lemma sym_convert_ok : forall d sfx, number d -> forall m s k, sym_convert m s = Some k -> get_converted_key m (conc d sfx s) = conc d sfx k.
Proof.
  intros d sfx N. induction m as [|[p r] m IH]; cbn [sym_convert get_converted_key]; intros s k H; [congruence|].
  destruct p as [|c p]; [discriminate|]. destruct (Ascii.eqb c "^") eqn:Ec; [|discriminate].
  unfold re_sub. rewrite Ec. pose proof (sym_match_ok d sfx N (parse p) false s []) as M.
  destruct (sym_match (parse p) false s) as [num rest| |]; [|rewrite M, str_eqb_refl; auto|discriminate].
  destruct M as (cap & E & C & _). rewrite E. destruct ((num || no_group (sym_expand r)) && differ (sym_expand r ++ rest) s) eqn:B; [|discriminate].
  apply andb_prop in B as [B1 B2]. injection H as <-.
  assert (X : expand r cap ++ conc d sfx rest = conc d sfx (sym_expand r ++ rest)).
  { rewrite conc_app. f_equal. rewrite (sym_expand_ok d [] r cap); [now rewrite app_nil_r|]. destruct num; [right; exact C|left; exact B1]. }
  rewrite X. destruct (str_eqb _ _) eqn:Q; auto. exfalso. apply str_eqb_eq in Q. unfold differ in B2.
  destruct (sym_expand r ++ rest) as [|[x|] u]; try discriminate. destruct s as [|[y|] s']; try discriminate. change (conc d sfx (Some x :: u)) with (x :: conc d sfx u) in Q. change (conc d sfx (Some y :: s')) with (y :: conc d sfx s') in Q.
  injection Q as -> _. rewrite Ascii.eqb_refl in B2. discriminate.
Qed.

(** Templates *)
Definition sym_of (t : string) : sym := map (fun c => if Ascii.eqb c "#" then None else Some c) (list_ascii_of_string t).
Lemma name_conc : forall t d sfx, name t d sfx = conc d sfx (sym_of t).
Proof. intros. unfold name, conc, sym_of. f_equal. induction (list_ascii_of_string t); cbn; auto. rewrite IHl. destruct (Ascii.eqb a "#"); auto. Qed.
Lemma a_number_ok : forall d, a_number d -> number d.
Proof.
  intros d [H1 H2]. split; auto. apply forallb_forall. intros c I. apply H2 in I. unfold is_digit. apply andb_true_intro. split; apply Nat.leb_le; lia.
Qed.
Definition sym_eqb (a b : sym) : bool := if list_eq_dec (fun x y : option ascii => ltac:(decide equality; apply ascii_dec)) a b then true else false.
Definition renames (m : key_map) (from to : string) : bool := match sym_convert m (sym_of from) with Some k => sym_eqb k (sym_of to) | None => false end.
Lemma renames_ok : forall m from to, renames m from to = true -> forall d sfx, a_number d -> get_converted_key m (name from d sfx) = name to d sfx.
Proof.
  intros m f t H d sfx N. rewrite !name_conc. unfold renames in H. destruct (sym_convert m (sym_of f)) eqn:E; [|discriminate].
  rewrite (sym_convert_ok d sfx (a_number_ok d N) _ _ _ E). unfold sym_eqb in H. destruct (list_eq_dec _ l (sym_of t)); [congruence|discriminate].
Qed.
(** A map that renames every template of a list *)
Definition renames_all (m : key_map) (l : list (string * string)) : bool := forallb (fun e => renames m (fst e) (snd e)) l.
Lemma renames_all_ok : forall m l, renames_all m l = true -> forall f t d sfx, In (f, t) l -> a_number d -> get_converted_key m (name f d sfx) = name t d sfx.
Proof. intros m l H f t d sfx I N. unfold renames_all in H. rewrite forallb_forall in H. apply H in I. apply renames_ok; auto. Qed.

(** ** Dictionaries *)
Section D.
  Context {V : Type}.
  Implicit Types d : dict V.
  Lemma get_set : forall k k' v d, get k (set k' v d) = if str_eqb k k' then Some v else get k d.
  Proof.
    induction d as [|[a w] d IH]; cbn [set get]; [reflexivity|]. destruct (str_eqb k' a) eqn:E; cbn [get].
    - apply str_eqb_eq in E. subst a. destruct (str_eqb k k'); auto.
    - rewrite IH. destruct (str_eqb k a) eqn:E1; auto. apply str_eqb_eq in E1. subst a. apply str_eqb_neq in E. destruct (str_eqb k k') eqn:E2; auto. apply str_eqb_eq in E2. congruence.
  Qed.
  Lemma get_del : forall k k' d, get k (del k' d) = if str_eqb k k' then None else get k d.
  Proof.
    unfold del. induction d as [|[a w] d IH]; cbn [filter get fst]; [destruct (str_eqb k k'); auto|]. destruct (str_eqb k' a) eqn:E; cbn [negb get].
    - apply str_eqb_eq in E. subst a. rewrite IH. destruct (str_eqb k k'); auto.
    - rewrite IH. destruct (str_eqb k a) eqn:E1; auto. apply str_eqb_eq in E1. subst a. apply str_eqb_neq in E. destruct (str_eqb k k') eqn:E2; auto. apply str_eqb_eq in E2. congruence.
  Qed.
  Lemma get_in : forall k d, get k d <> None <-> In k (map fst d).
  Proof.
    induction d as [|[a w] d IH]; cbn; [tauto|]. destruct (str_eqb k a) eqn:E.
    - apply str_eqb_eq in E. subst. split; auto. discriminate.
    - apply str_eqb_neq in E. rewrite IH. split; auto. intros [->|]; auto. easy.
  Qed.
  Lemma keys_set : forall k v d, map fst (set k v d) = if in_dec (list_eq_dec ascii_dec) k (map fst d) then map fst d else map fst d ++ [k].
  Proof.
    induction d as [|[a w] d IH]; cbn [set map fst app]; [destruct (in_dec _ _ []) as [[]|]; auto|]. destruct (str_eqb k a) eqn:E.
    - apply str_eqb_eq in E. subst. cbn [map fst]. destruct (in_dec _ a (a :: map fst d)) as [|n]; auto. exfalso. apply n. left; auto.
    - apply str_eqb_neq in E. cbn [map fst]. rewrite IH. destruct (in_dec _ k (map fst d)) as [i|n], (in_dec _ k (a :: map fst d)) as [i'|n']; auto.
      + exfalso. apply n'. right; auto.
      + exfalso. destruct i' as [->|]; auto.
  Qed.
  (** Renaming with a map that is one-to-one on the keys *)
  Lemma get_convert : forall m d, (forall k k', In k (map fst d) -> In k' (map fst d) -> get_converted_key m k = get_converted_key m k' -> k = k') -> NoDup (map fst d) ->
    (forall k, In k (map fst d) -> get (get_converted_key m k) (convert_state_dict m d) = get k d) /\
    (forall x, get x (convert_state_dict m d) <> None <-> exists k, In k (map fst d) /\ x = get_converted_key m k) /\
    map fst (convert_state_dict m d) = map (get_converted_key m) (map fst d).
  Proof.
    intros m d Inj Nd. unfold convert_state_dict.
    cut (forall acc, (forall k, In k (map fst d) -> ~ In (get_converted_key m k) (map fst acc)) ->
      let r := fold_left (fun acc e => set (get_converted_key m (fst e)) (snd e) acc) d acc in
      map fst r = map fst acc ++ map (get_converted_key m) (map fst d) /\ (forall k, In k (map fst d) -> get (get_converted_key m k) r = get k d) /\ forall x, In x (map fst acc) -> get x r = get x acc).
    { intros H. destruct (H []) as (A & B & _); [intros ? ? []|]. cbn in A. split; auto. split; auto. intros x. rewrite get_in, A, in_map_iff. split; intros (k & ?); exists k; intuition. }
    revert Inj Nd. induction d as [|[a v] d IH]; intros Inj Nd acc Disj r.
    { subst r. cbn. rewrite app_nil_r. split; [auto|]. split; [intros ? []|auto]. }
    cbn [map fst] in *. inversion Nd as [|? ? Na Nd']. subst.
    assert (Ka : map fst (set (get_converted_key m a) v acc) = map fst acc ++ [get_converted_key m a]).
    { rewrite keys_set. destruct (in_dec _ _ _) as [i|]; auto. exfalso. eapply Disj; [left; reflexivity|exact i]. }
    destruct (IH ltac:(intros; apply Inj; auto; right; auto) Nd' (set (get_converted_key m a) v acc)) as (A & B & C).
    { intros k Ik. rewrite Ka, in_app_iff. intros [I|[I|[]]]; [eapply Disj; [right; exact Ik|exact I]|]. apply Inj in I; auto; [subst; contradiction|left; auto|right; auto]. }
    subst r. cbn [fold_left fst snd]. split; [rewrite A, Ka, <- app_assoc; auto|]. split.
    - intros k [<-|Ik].
      + cbn [get]. rewrite str_eqb_refl. rewrite C by (rewrite Ka, in_app_iff; right; left; auto). rewrite get_set, str_eqb_refl. auto.
      + cbn [get]. destruct (str_eqb k a) eqn:E; [apply str_eqb_eq in E; subst; contradiction|]. auto.
    - intros x Ix. rewrite C by (rewrite Ka, in_app_iff; auto). rewrite get_set. destruct (str_eqb x _) eqn:E; auto. apply str_eqb_eq in E. subst. exfalso. eapply Disj; [left; reflexivity|auto].
  Qed.
End D.

(** ** Decimal numbers *)
Lemma decimal_number : forall n, a_number (decimal n).
Proof.
  intros n. unfold decimal, of_string. split.
  - intros H. assert (X : NilZero.string_of_uint (Nat.to_uint n) = EmptyString). { rewrite <- (string_of_list_ascii_of_string (NilZero.string_of_uint (Nat.to_uint n))), H. reflexivity. }
    destruct (Nat.to_uint n); discriminate X.
  - assert (Y : forall u c, In c (list_ascii_of_string (NilEmpty.string_of_uint u)) -> 48 <= nat_of_ascii c <= 57).
    { induction u; cbn; intros c; try (intros [<-|H]; [cbn; lia|auto]). intros []. }
    intros c. destruct (Nat.to_uint n) eqn:E; try (apply (Y _ c)). cbn. intros [<-|[]]. cbn. lia.
Qed.
Lemma to_uint_nonnil : forall n, Nat.to_uint n <> Nil.
Proof. intros n H. pose proof (Unsigned.to_of (Nat.to_uint n)) as E. rewrite Unsigned.of_to, H in E. discriminate E. Qed.
Lemma decimal_inj : forall n m, decimal n = decimal m -> n = m.
Proof.
  intros n m H. unfold decimal, of_string in H. apply (f_equal string_of_list_ascii) in H. rewrite !string_of_list_ascii_of_string in H.
  apply Unsigned.to_uint_inj. apply (f_equal NilZero.uint_of_string) in H. rewrite !NilZero.usu in H by (apply to_uint_nonnil). congruence.
Qed.
