(** Filters and layouts of Arrow tables (C94). *)

Require Import List Arith ZArith Bool Lia.
From Verif Require Import Arw_Model Arw_Spec.
Import ListNotations.

Lemma sublist_refl : forall {A} (l : list A), sublist l l.
Proof. induction l; constructor; assumption. Qed.

Lemma sublist_filter : forall {A} (f : A -> bool) l, sublist (filter f l) l.
Proof. induction l as [|x l IH]; cbn; [constructor|]. destruct (f x); constructor; exact IH. Qed.

Lemma sublist_trans : forall {A} (a b c : list A), sublist a b -> sublist b c -> sublist a c.
Proof.
  intros A a b c H1 H2. revert a H1. induction H2 as [|x l l' H IH|x l l' H IH]; intros a H1.
  - exact H1.
  - inversion H1; subst; constructor; apply IH; assumption.
  - constructor. apply IH. exact H1.
Qed.

Lemma non_null_in : forall {A} (l : list (option A)) v, In v (non_null l) <-> In (Some v) l.
Proof.
  intros A l v. unfold non_null. rewrite in_flat_map. split.
  - intros ([w|] & H & I); cbn in I; [|contradiction]. destruct I as [->|[]]. exact H.
  - intro H. exists (Some v). split; [exact H|left; reflexivity].
Qed.

Lemma pc_all_true : forall mask, pc_all mask = true -> forall m, In m mask -> m <> Some false.
Proof.
  intros mask H m I E. subst m. unfold pc_all in H. apply non_null_in in I. destruct (non_null mask) as [|b l]; [destruct I|].
  rewrite forallb_forall in H. specialize (H _ I). discriminate.
Qed.

(** What survives of the rows that have a mask does not depend on the others. *)
Lemma unless_all_in : forall {R} (mask : R -> option bool) t r, In r t -> mask r <> None -> (In r (filter_unless_all mask t) <-> mask r = Some true).
Proof.
  intros R mask t r I N. unfold filter_unless_all, table_filter. destruct (pc_all (map mask t)) eqn:E.
  - pose proof (pc_all_true _ E (mask r) (in_map mask _ _ I)) as F. destruct (mask r) as [[]|]; try congruence. tauto.
  - rewrite filter_In. unfold is_true. destruct (mask r) as [[]|]; split; try congruence; try tauto; intros [? ?]; congruence.
Qed.

Lemma unless_all_sub : forall {R} (mask : R -> option bool) t, sublist (filter_unless_all mask t) t.
Proof. intros R mask t. unfold filter_unless_all, table_filter. destruct (pc_all _); [apply sublist_refl|apply sublist_filter]. Qed.

Lemma fold_min : forall xs x, (forall y, In y (x :: xs) -> (fold_left Z.min xs x <= y)%Z) /\ In (fold_left Z.min xs x) (x :: xs).
Proof.
  induction xs as [|z xs IH]; intro x; cbn [fold_left].
  - split; [intros y [->|[]]; lia|left; reflexivity].
  - destruct (IH (Z.min x z)) as [A B]. split.
    + intros y [->|[->|H]].
      * specialize (A _ (or_introl eq_refl)). lia.
      * specialize (A _ (or_introl eq_refl)). lia.
      * apply A. right. exact H.
    + destruct B as [B|B]; [|right; right; exact B]. destruct (Z.min_spec x z) as [[_ M]|[_ M]]; rewrite M in B at 1; rewrite <- B; [left|right; left]; rewrite B; congruence.
Qed.

Lemma fold_max : forall xs x, (forall y, In y (x :: xs) -> (y <= fold_left Z.max xs x)%Z) /\ In (fold_left Z.max xs x) (x :: xs).
Proof.
  induction xs as [|z xs IH]; intro x; cbn [fold_left].
  - split; [intros y [->|[]]; lia|left; reflexivity].
  - destruct (IH (Z.max x z)) as [A B]. split.
    + intros y [->|[->|H]].
      * specialize (A _ (or_introl eq_refl)). lia.
      * specialize (A _ (or_introl eq_refl)). lia.
      * apply A. right. exact H.
    + destruct B as [B|B]; [|right; right; exact B]. destruct (Z.max_spec x z) as [[_ M]|[_ M]]; rewrite M in B at 1; rewrite <- B; [right; left|left]; rewrite B; congruence.
Qed.

Lemma within_mask_spec : forall lo hi l, (exists v, In (Some v) l) ->
  within_mask lo hi (Some l) <> None /\ (within_mask lo hi (Some l) = Some true <-> all_between lo hi l).
Proof.
  intros lo hi l (v & Hv). unfold within_mask, list_min, list_max. cbn [bind]. apply non_null_in in Hv.
  assert (E : forall w, In w (non_null l) <-> In (Some w) l) by apply non_null_in.
  destruct (non_null l) as [|x xs]; [destruct Hv|]. cbn [option_map]. destruct (fold_min xs x) as [A1 A2], (fold_max xs x) as [B1 B2].
  set (mn := fold_left Z.min xs x) in *. set (mx := fold_left Z.max xs x) in *.
  set (p := match lo with None => true | Some b => (b <=? mn)%Z end). set (q := match hi with None => true | Some b => (mx <=? b)%Z end).
  assert (K : kleene_and (Some p) (Some q) = Some (p && q)) by (destruct p, q; reflexivity). rewrite K. split; [discriminate|].
  assert (Hp : p = true <-> forall w, In w (x :: xs) -> match lo with None => True | Some b => (b <= w)%Z end).
  { unfold p. destruct lo as [b|]; [|tauto]. rewrite Z.leb_le. split; [intros H w Hw; specialize (A1 w Hw); lia|intro H; apply H; exact A2]. }
  assert (Hq : q = true <-> forall w, In w (x :: xs) -> match hi with None => True | Some b => (w <= b)%Z end).
  { unfold q. destruct hi as [b|]; [|tauto]. rewrite Z.leb_le. split; [intros H w Hw; specialize (B1 w Hw); lia|intro H; apply H; exact B2]. }
  split.
  - intro H. injection H as H. apply andb_prop in H as [H1 H2]. intros w Hw. apply E in Hw. split; [apply (proj1 Hp H1)|apply (proj1 Hq H2)]; exact Hw.
  - intro H. f_equal. apply andb_true_intro. split; [apply Hp|apply Hq]; intros w Hw; apply H, E, Hw.
Qed.

(** Strings: rows keep their order, and a row whose list has a string stays if and
    only if all its strings are within the bounds, whatever the other rows are. *)
Theorem C94_strings : forall {R} (column : R -> option (list (option Z))) lo hi table result,
  filter_strings_by_length column lo hi table = Some result ->
  sublist result table /\
  forall r l, In r table -> column r = Some l -> has_value (column r) -> (forall n, In (Some n) l -> 0 <= n <= 2 ^ 32)%Z ->
    (In r result <-> all_between lo hi l).
Proof.
  intros R column lo hi table result H. unfold filter_strings_by_length in H.
  set (a := match lo with None => 0%Z | Some m => m end) in *. set (b := match hi with None => (2 ^ 32)%Z | Some m => m end) in *.
  assert (E : result = filter_unless_all (fun r => within_mask (Some a) (Some b) (column r)) table) by (destruct lo, hi; congruence).
  clear H. subst result. split; [apply unless_all_sub|]. intros r l I C (l' & v & C' & Hv) Bd.
  assert (l' = l) by congruence. subst l'. destruct (within_mask_spec (Some a) (Some b) l (ex_intro _ v Hv)) as [N S]. rewrite <- C in N, S.
  rewrite (unless_all_in _ _ _ I N), S. unfold all_between, between, a, b. split; intros H w Hw; specialize (H w Hw); specialize (Bd w Hw); destruct lo, hi; lia.
Qed.

Theorem C94_range : forall {R} (column : R -> option (list (option Z))) lo hi table,
  let result := filter_list_by_range column lo hi table in
  sublist result table /\
  forall r l, In r table -> column r = Some l -> has_value (column r) -> (In r result <-> all_between lo hi l).
Proof.
  intros R column lo hi table result. assert (E : (lo = None /\ hi = None) \/ result = filter_unless_all (fun r => within_mask lo hi (column r)) table).
  { unfold result, filter_list_by_range. destruct lo, hi; tauto. }
  destruct E as [[-> ->]| ->].
  - split; [apply sublist_refl|]. intros r l I C _. cbn. unfold all_between, between. split; [tauto|intros _; exact I].
  - split; [apply unless_all_sub|]. intros r l I C (l' & v & C' & Hv). assert (l' = l) by congruence. subst l'.
    destruct (within_mask_spec lo hi l (ex_intro _ v Hv)) as [N S]. rewrite <- C in N, S. rewrite (unless_all_in _ _ _ I N). exact S.
Qed.

Theorem C94_lengths : forall {R} (columns : list (R -> option nat)) lo hi table,
  let result := filter_list_with_min_max_length columns lo hi table in
  sublist result table /\
  forall r, In r table -> (forall c, In c columns -> c r <> None) ->
    (In r result <-> forall c n, In c columns -> c r = Some n -> lo <= n <= hi).
Proof.
  intros R columns lo hi. unfold filter_list_with_min_max_length. induction columns as [|c columns IH]; intros table; cbn [fold_left].
  - split; [apply sublist_refl|]. intros r I _. split; [intros _ c n []|intros _; exact I].
  - cbv zeta in IH. set (t1 := filter_unless_all _ table). destruct (IH t1) as [A B]. split; [eapply sublist_trans; [exact A|apply unless_all_sub]|].
    intros r I N. destruct (c r) as [n|] eqn:C; [|exfalso; apply (N c); [left; reflexivity|exact C]].
    assert (M : length_mask lo hi (c r) = Some ((lo <=? n) && (n <=? hi))) by (rewrite C; unfold length_mask; cbn; destruct (lo <=? n), (n <=? hi); reflexivity).
    assert (In1 : In r t1 <-> lo <= n <= hi).
    { unfold t1. rewrite unless_all_in by (auto; rewrite M; discriminate). rewrite M. split.
      - intro H. injection H as H. apply andb_prop in H as [H1 H2]. apply Nat.leb_le in H1, H2. lia.
      - intros [H1 H2]. f_equal. apply andb_true_intro. split; apply Nat.leb_le; assumption. }
    assert (Sub : forall x, In x (fold_left (fun t column => filter_unless_all (fun r0 => length_mask lo hi (column r0)) t) columns t1) -> In x t1).
    { clear - A. intros x Hx. revert Hx. induction A as [|y l l' H IHA|y l l' H IHA]; cbn; [tauto| |]; intuition. }
    split.
    + intro H. pose proof (Sub _ H) as I1. intros c' n' [<-|Hc] E; [rewrite C in E; injection E as <-; apply In1, I1|].
      apply (proj1 (B r I1 (fun c0 H0 => N c0 (or_intror H0))) H c' n' Hc E).
    + intro H. assert (I1 : In r t1) by (apply In1, (H c n (or_introl eq_refl) C)).
      apply (B r I1 (fun c0 H0 => N c0 (or_intror H0))). intros c' n' Hc. apply H. right. exact Hc.
Qed.

(** Whether a row with an empty list stays depends on the other rows: it is kept
    beside a row that passes, and dropped beside one that does not, and if it is
    alone, although all of its (no) strings are within the bounds. *)
Theorem C94_empty_refuted : forall lo hi ok bad, (lo <= ok <= hi)%Z -> (bad < lo \/ hi < bad)%Z ->
  let filt := filter_strings_by_length (fun r : list (option Z) => Some r) (Some lo) (Some hi) in
  filt [[Some ok]; []] = Some [[Some ok]; []] /\ filt [[Some bad]; []] = Some [] /\ filt [[]] = Some [].
Proof.
  intros lo hi ok bad H1 H2 filt. unfold filt, filter_strings_by_length, filter_unless_all, table_filter. cbn [map filter].
  set (m := within_mask (Some lo) (Some hi)).
  assert (E0 : m (Some []) = None) by reflexivity. rewrite E0.
  assert (E1 : m (Some [Some ok]) = Some true).
  { unfold m, within_mask. cbn. rewrite (proj2 (Z.leb_le lo ok)), (proj2 (Z.leb_le ok hi)) by lia. reflexivity. }
  assert (E2 : m (Some [Some bad]) = Some false).
  { unfold m, within_mask. cbn. destruct (Z.leb_spec lo bad), (Z.leb_spec bad hi); try reflexivity. lia. }
  rewrite E1, E2. repeat split; reflexivity.
Qed.

(** So a table and its parts are filtered differently; the same holds of rows with
    null instead of a list. *)
Theorem C94_parts_refuted : exists (a b : list (option nat)),
  filter_list_with_min_max_length [fun r => r] 1 2 (a ++ b)
  <> filter_list_with_min_max_length [fun r => r] 1 2 a ++ filter_list_with_min_max_length [fun r => r] 1 2 b.
Proof. exists [Some 1; None], [Some 3]. vm_compute. discriminate. Qed.

Example C94_strings_ex : filter_strings_by_length (fun r => r) (Some 2%Z) None [Some [Some 2; Some 5]; Some [Some 1; Some 3]; Some [None; Some 4]]%Z
  = Some [Some [Some 2; Some 5]; Some [None; Some 4]]%Z.
Proof. reflexivity. Qed.
Example C94_lengths_ex : filter_list_with_min_max_length [fst; snd] 1 3 [(Some 1, Some 2); (Some 0, Some 2); (Some 3, Some 4)] = [(Some 1, Some 2)].
Proof. reflexivity. Qed.

(** ** Layouts *)
Fixpoint ascending (l : list nat) : Prop :=
  match l with a :: ((b :: _) as l') => a <= b /\ ascending l' | _ => True end.

Lemma rows_shift : forall {V} (offs : list nat) (valid : list bool) (vs : list V) base,
  ascending offs -> Forall (fun v => v = true) valid -> length offs = S (length valid) -> base <= hd 0 offs -> last offs 0 <= length vs ->
  forall pre, length pre = hd 0 offs - base ->
  rows_of (pre ++ concat (non_null (rows_of vs offs valid))) (map (fun o => o - base) offs) (repeat true (length valid))
  = rows_of vs offs valid.
Proof.
  intros V. induction offs as [|a offs IH]; intros valid vs base As Fv L Hb Hl pre Lp; [discriminate|].
  destruct offs as [|b offs]; [destruct valid; [reflexivity|discriminate]|]. destruct valid as [|v valid]; [discriminate|].
  pose proof (Forall_inv Fv) as Ev. cbn beta in Ev. subst v. destruct As as [Hab As]. cbn [hd] in *.
  cbn [map rows_of length repeat non_null flat_map app concat].
  assert (Hbl : b <= last (b :: offs) 0).
  { clear - As. revert b As. induction offs as [|c offs IHo]; intros b As; [cbn; lia|]. destruct As as [H As]. specialize (IHo c As).
    change (last (b :: c :: offs) 0) with (last (c :: offs) 0). lia. }
  change (last (a :: b :: offs) 0) with (last (b :: offs) 0) in Hl.
  assert (Lc : length (cut vs a b) = b - a) by (unfold cut; rewrite firstn_length, skipn_length; lia).
  f_equal.
  - f_equal. unfold cut at 1. replace (b - base - (a - base)) with (b - a) by lia. rewrite skipn_app, skipn_all2 by lia. cbn [app].
    rewrite Lp. replace (a - base - (a - base)) with 0 by lia. cbn [skipn]. rewrite firstn_app, Lc, Nat.sub_diag. cbn [firstn]. rewrite app_nil_r, <- Lc. apply firstn_all.
  - fold (@non_null (list V)). change (b - base :: map (fun o => o - base) offs) with (map (fun o => o - base) (b :: offs)).
    rewrite app_assoc. apply IH; auto.
    + exact (Forall_inv_tail Fv).
    + cbn [hd]. lia.
    + rewrite app_length, Lc, Lp. cbn [hd]. lia.
Qed.

(** An array of lists without nulls keeps its lists. *)
Theorem C94_fixed : forall {V} (a : list_array V),
  ascending (offsets a) -> last (offsets a) 0 <= length (values a) -> length (offsets a) = S (length (validity a)) ->
  Forall (fun v => v = true) (validity a) ->
  to_pylist (fix_list_offset a) = to_pylist a
  /\ (offset (fix_list_offset a) = 0 /\ hd 0 (offsets (fix_list_offset a)) = 0).
Proof.
  intros V a As Hl L Fv. unfold fix_list_offset. destruct (Nat.eqb_spec (offset a) 0) as [E1|E1]; cbn [andb].
  - destruct (Nat.eqb_spec (hd 0 (offsets a)) 0) as [E2|E2]; [auto|]. split; [|split; [reflexivity|]].
    + unfold to_pylist, from_arrays, list_flatten, to_pylist. cbn [values offsets validity]. rewrite map_length, L. cbn [Nat.sub]. rewrite Nat.sub_0_r.
      apply (rows_shift (offsets a) (validity a) (values a) (hd 0 (offsets a)) As Fv L (le_n _) Hl []). cbn. lia.
    + cbn [from_arrays offsets]. destruct (offsets a); [discriminate|]. cbn. lia.
  - split; [|split; [reflexivity|]].
    + unfold to_pylist, from_arrays, list_flatten, to_pylist. cbn [values offsets validity]. rewrite map_length, L. cbn [Nat.sub]. rewrite Nat.sub_0_r.
      apply (rows_shift (offsets a) (validity a) (values a) (hd 0 (offsets a)) As Fv L (le_n _) Hl []). cbn. lia.
    + cbn [from_arrays offsets]. destruct (offsets a); [discriminate|]. cbn. lia.
Qed.

(** With nulls it does not: in a slice that does not begin with the array, a null
    becomes an empty list. *)
Theorem C94_null_refuted : forall {V} (x y : V),
  let a := {| values := [x; y]; offsets := [1; 1; 2]; validity := [false; true]; offset := 1 |} in
  to_pylist a = [None; Some [y]] /\ to_pylist (fix_list_offset a) = [Some []; Some [y]].
Proof. intros V x y. split; reflexivity. Qed.

Theorem C94_nested : forall {V} (l : list V), to_pylist (simple_array_to_nested l) = map (fun x => Some [x]) l.
Proof.
  intros V l. unfold simple_array_to_nested, to_pylist, from_arrays. cbn [values offsets validity]. rewrite seq_length, Nat.add_sub.
  assert (G : forall (suf pre : list V), rows_of (pre ++ suf) (seq (length pre) (length suf + 1)) (repeat true (length suf)) = map (fun x => Some [x]) suf).
  { induction suf as [|x suf IH]; intro pre; [reflexivity|]. cbn [length Nat.add repeat map].
    replace (seq (length pre) (S (length suf + 1))) with (length pre :: seq (S (length pre)) (length suf + 1)) by reflexivity.
    assert (Hs : exists tl0, seq (S (length pre)) (length suf + 1) = S (length pre) :: tl0) by (rewrite Nat.add_1_r; eexists; reflexivity).
    destruct Hs as (tl0 & Hs). specialize (IH (pre ++ [x])). rewrite app_length in IH. cbn [length] in IH. rewrite Nat.add_1_r, <- app_assoc in IH. cbn [app] in IH.
    rewrite Hs in *. cbn [rows_of]. f_equal; [|exact IH]. f_equal. unfold cut. replace (S (length pre) - length pre) with 1 by lia.
    rewrite skipn_app, skipn_all, Nat.sub_diag. reflexivity. }
  exact (G l []).
Qed.

Theorem C94_repeated : forall {V} (l : list V) n, repeat_list_column l n = repeat (Some l) n.
Proof.
  intros V l n. unfold repeat_list_column, to_pylist, from_arrays. cbn. unfold cut. cbn [skipn]. rewrite Nat.sub_0_r, firstn_all.
  induction n as [|n IH]; [reflexivity|]. cbn. rewrite IH. reflexivity.
Qed.

Example C94_fixed_ex : let a := {| values := [7; 8; 9]; offsets := [1; 2; 3]; validity := [true; true]; offset := 1 |} in
  to_pylist (fix_list_offset a) = [Some [8]; Some [9]] /\ offsets (fix_list_offset a) = [0; 1; 2].
Proof. split; reflexivity. Qed.

Print Assumptions C94_strings.
Print Assumptions C94_range.
Print Assumptions C94_lengths.
Print Assumptions C94_empty_refuted.
Print Assumptions C94_parts_refuted.
Print Assumptions C94_fixed.
Print Assumptions C94_null_refuted.
Print Assumptions C94_nested.
Print Assumptions C94_repeated.
