From Coq Require Import List Bool Arith Ascii Lia.
From Verif Require Import File_Model Text_Spec Text_Model.
Import ListNotations.

(** ** Characters *)
Lemma is_lf_spec c : is_lf c = true <-> c = lf.
Proof.
  unfold is_lf. rewrite Nat.eqb_eq. split; [|now intros ->].
  intros H. rewrite <- (ascii_nat_embedding c), H. reflexivity.
Qed.
Lemma is_cr_spec c : is_cr c = true <-> c = cr.
Proof.
  unfold is_cr. rewrite Nat.eqb_eq. split; [|now intros ->].
  intros H. rewrite <- (ascii_nat_embedding c), H. reflexivity.
Qed.
Lemma is_lf_false c : is_lf c = false <-> c <> lf.
Proof. rewrite <- is_lf_spec. destruct (is_lf c); intuition congruence. Qed.
Lemma is_cr_false c : is_cr c = false <-> c <> cr.
Proof. rewrite <- is_cr_spec. destruct (is_cr c); intuition congruence. Qed.
Lemma lf_cr : lf <> cr. Proof. vm_compute. intros [=]. Qed.

(** ** Searching *)
Fixpoint carry (h : bool) (a : list ascii) : bool := match a with [] => h | c :: a' => carry (if is_lf c then h else is_cr c) a' end.
Lemma find_lf_app a b : find_lf (a ++ b) = match find_lf a with Some o => Some o | None => option_map (plus (length a)) (find_lf b) end.
Proof.
  induction a as [|c a IH]; cbn.
  - destruct (find_lf b); reflexivity.
  - destruct (is_lf c); [reflexivity|]. rewrite IH. destruct (find_lf a); cbn; [reflexivity|]. destruct (find_lf b); reflexivity.
Qed.
Lemma find_crlf_app a : forall h b, find_crlf h (a ++ b) = match find_crlf h a with Some o => Some o | None => option_map (plus (length a)) (find_crlf (carry h a) b) end.
Proof.
  induction a as [|c a IH]; intros h b; cbn.
  - destruct (find_crlf h b); reflexivity.
  - destruct (is_lf c).
    + destruct h; [reflexivity|]. rewrite IH. destruct (find_crlf false a); cbn; [reflexivity|]. destruct (find_crlf _ b); reflexivity.
    + rewrite IH. destruct (find_crlf _ a); cbn; [reflexivity|]. destruct (find_crlf _ b); reflexivity.
Qed.
Lemma find_crlf_start h b : (forall b', b <> lf :: b') -> find_crlf h b = find_crlf false b.
Proof.
  intros H. destruct b as [|c b]; [reflexivity|]. cbn. destruct (is_lf c) eqn:E; [|reflexivity].
  apply is_lf_spec in E. subst. now elim (H b).
Qed.
Lemma carry_last a : forall h, carry h a = true -> find_crlf h a = None -> (a = [] /\ h = true) \/ (exists a', a = a' ++ [cr]).
Proof.
  induction a as [|c a IH]; intros h H F; cbn in *; [now left|].
  right. destruct (is_lf c) eqn:E.
  - destruct h; [discriminate F|]. destruct (find_crlf false a) eqn:F'; [discriminate F|].
    destruct (IH _ H F') as [[-> X]|[a' ->]]; [discriminate X|]. now exists (c :: a').
  - destruct (find_crlf (is_cr c) a) eqn:F'; [discriminate F|].
    destruct (IH _ H F') as [[-> X]|[a' ->]]; [|now exists (c :: a')].
    apply is_cr_spec in X. subst. now exists [].
Qed.
Lemma infer_app a : forall h b, infer h (a ++ b) = match infer h a with Infer => infer (carry h a) b | e => e end.
Proof.
  induction a as [|c a IH]; intros h b; cbn; [reflexivity|].
  destruct (is_lf c); [destruct h; reflexivity|]. apply IH.
Qed.
Lemma infer_none a : forall h, infer h a = Infer -> find_lf a = None /\ find_crlf h a = None.
Proof.
  induction a as [|c a IH]; intros h H; cbn in *; [auto|].
  destruct (is_lf c); [destruct h; discriminate H|]. destruct (IH _ H) as [F _]. specialize (IH _ H). destruct IH as [F1 F2].
  now rewrite F1, F2.
Qed.
Lemma infer_start h b : (forall b', b <> lf :: b') -> infer h b = infer false b.
Proof.
  intros H. destruct b as [|c b]; [reflexivity|]. cbn. destruct (is_lf c) eqn:E; [|reflexivity].
  apply is_lf_spec in E. subst. now elim (H b).
Qed.
(** The search for a given line ending *)
Definition find (e : ending) (cs : list ascii) : option nat := match e with Infer => None | Lf => find_lf cs | Crlf => find_crlf false cs end.
Definition joint (e : ending) (a b : list ascii) : Prop := e = Lf \/ ~ (exists a' b', a = a' ++ [cr] /\ b = lf :: b').
Lemma find_app e a b : e <> Infer -> joint e a b -> find e a = None -> find e (a ++ b) = option_map (plus (length a)) (find e b).
Proof.
  destruct e; intros HE J F; cbn in *; [now rewrite find_lf_app, F| |congruence].
  rewrite find_crlf_app, F. destruct J as [J|J]; [discriminate J|].
  destruct (carry false a) eqn:C; [|reflexivity]. f_equal. apply find_crlf_start. intros b' ->.
  destruct (carry_last _ _ C F) as [[-> X]|[a' ->]]; [discriminate X|]. apply J. eauto.
Qed.
Lemma find_app_some e a b o : find e a = Some o -> find e (a ++ b) = Some o.
Proof. destruct e; cbn; intros F; [now rewrite find_lf_app, F|now rewrite find_crlf_app, F|discriminate F]. Qed.
Lemma find_lf_bound a : forall o, find_lf a = Some o -> 1 <= o <= length a.
Proof.
  induction a as [|c a IH]; cbn; intros o H; [discriminate H|]. destruct (is_lf c); [injection H as <-; lia|].
  destruct (find_lf a); [|discriminate H]. injection H as <-. specialize (IH _ eq_refl). lia.
Qed.
Lemma find_crlf_bound a : forall h o, find_crlf h a = Some o -> 1 <= o <= length a.
Proof.
  induction a as [|c a IH]; cbn; intros h o H; [discriminate H|].
  destruct (is_lf c); [destruct h; [injection H as <-; lia|]|].
  all: destruct (find_crlf _ a) eqn:F in H; [|discriminate H]; injection H as <-; apply IH in F; lia.
Qed.
Lemma find_bound e a o : find e a = Some o -> 1 <= o <= length a.
Proof. destruct e; cbn; [apply find_lf_bound|apply find_crlf_bound|discriminate]. Qed.

(** ** Streams *)
Definition good (s : stream) : Prop :=
  chunk s <> Some 0 /\ pos s <= length (bytes s) /\
  (match chunk s with Some _ => is_eod s = true -> pos s = length (bytes s) | None => is_eod s = false end) /\
  (match chunk s with Some k => pos s = length (bytes s) \/ (exists i, pos s = i * k) | None => pos s = 0 \/ pos s = length (bytes s) end).
Definition unread (s : stream) : list ascii := skipn (pos s) (bytes s).
Lemma read_chunk_spec s c s' : good s -> read_chunk s = (c, s') ->
  good s' /\ bytes s' = bytes s /\ chunk s' = chunk s /\ c ++ unread s' = unread s /\ pos s' = pos s + length c /\ (c = [] -> unread s = []).
Proof.
  intros (HK & HP & HE & HA) H. unfold read_chunk in H. unfold good, unread.
  destruct (chunk s) as [k|] eqn:K.
  - assert (k <> 0) by congruence. destruct (is_eod s) eqn:E.
    + injection H as <- <-. rewrite K, E. specialize (HE eq_refl). cbn.
      split; [repeat split; auto; congruence|]. repeat split; auto. intros _. rewrite HE. apply skipn_all.
    + injection H as <- <-. cbn. set (u := skipn (pos s) (bytes s)).
      assert (LU : length u = length (bytes s) - pos s) by apply skipn_length.
      assert (LC : length (firstn k u) = min k (length u)) by apply firstn_length.
      split; [split; [congruence|]; split; [lia|]; split|].
      * intros X. apply Nat.ltb_lt in X. lia.
      * destruct (le_lt_dec k (length u)) as [X|X]; [|left; lia]. destruct HA as [HA|[i HA]]; [left; lia|]. right. exists (S i). lia.
      * repeat split; auto.
        -- replace (skipn (pos s + length (firstn k u)) (bytes s)) with (skipn (length (firstn k u)) u).
           ++ transitivity (firstn k u ++ skipn k u); [|apply firstn_skipn]. apply (f_equal (app _)). rewrite LC.
              destruct (le_lt_dec k (length u)); [now rewrite Nat.min_l by lia|].
              rewrite Nat.min_r by lia. rewrite skipn_all, skipn_all2; [reflexivity|lia].
           ++ unfold u. clear. set (n := length _). clearbody n. revert n. generalize (pos s), (bytes s).
              intros p l. revert l. induction p as [|p IH]; intros l n; [reflexivity|]. destruct l; [cbn; now rewrite ?skipn_nil|]. cbn. apply IH.
        -- intros X. destruct u; [reflexivity|]. destruct k; [congruence|]. discriminate X.
  - injection H as <- <-. cbn. set (u := skipn (pos s) (bytes s)).
    assert (LU : length u = length (bytes s) - pos s) by apply skipn_length.
    split; [split; [congruence|]; split; [lia|]; split; [exact HE|right; lia]|].
    repeat split; auto. rewrite skipn_all2 by lia. apply app_nil_r.
Qed.

(** ** Loading a record *)
Definition rest (r : reader) : list ascii := current r ++ unread (source r).
(** Nothing is split where a chunk starts. *)
Definition sound (e : ending) (s : stream) : Prop := e = Lf \/ unsplit (chunk s) (bytes s).
Definition set_ending (e : ending) (r : reader) : reader := Reader (source r) (current r) (previous r) (stream_offset r) (chunk_offset r) e.
Lemma find_end_fixed e cs : e <> Infer -> find_end e cs = (find e cs, e).
Proof. destruct e; cbn; intros H; [reflexivity|reflexivity|now elim H]. Qed.
(** The current chunk is what is in front of the position of the stream. *)
Definition aligned (r : reader) : Prop := exists x, bytes (source r) = x ++ rest r /\ length x + length (current r) = pos (source r).
Lemma aligned_joint e r : good (source r) -> aligned r -> sound e (source r) -> joint e (current r) (unread (source r)).
Proof.
  intros (HK & HP & HE & HA) (x & HB & HX) [->|HS]; [now left|]. right. intros (a & b & HC & HU).
  unfold rest in HB. rewrite HC, HU in HB. rewrite HC, app_length in HX. cbn in HX.
  assert (N1 : nth_error (bytes (source r)) (pos (source r) - 1) = Some cr).
  { rewrite HB, <- HX. replace (length x + (length a + 1) - 1) with (length x + length a) by lia.
    rewrite <- app_assoc, app_assoc. rewrite nth_error_app2; rewrite app_length; [|lia]. now rewrite Nat.sub_diag. }
  assert (N2 : nth_error (bytes (source r)) (pos (source r)) = Some lf).
  { rewrite HB, <- HX. rewrite app_assoc. rewrite nth_error_app2; rewrite !app_length; cbn; [|lia]. now replace (_ - _) with 0 by lia. }
  assert (pos (source r) < length (bytes (source r))) by (apply nth_error_Some; congruence).
  destruct (chunk (source r)) as [k|]; [|lia].
  destruct HA as [HA|[i HA]]; [lia|]. cbn in HS. rewrite HA in *. apply (HS i); auto. destruct i; lia.
Qed.

(** Where the current chunk was read *)
Definition placed (r : reader) : Prop :=
  (chunk_offset r = 0 /\ current r = [] /\ pos (source r) = stream_offset r) \/
  (exists c, read_chunk (Stream (bytes (source r)) (chunk (source r)) (stream_offset r) false) = (c, source r) /\ c <> [] /\
     current r = skipn (chunk_offset r) c /\ chunk_offset r <= length c /\ good (Stream (bytes (source r)) (chunk (source r)) (stream_offset r) false)).
Lemma read_nonempty s c s' : good s -> read_chunk s = (c, s') -> c <> [] -> s = Stream (bytes s) (chunk s) (pos s) false.
Proof.
  intros (HK & HP & HE & HA) H N. destruct s as [b k p e]. cbn in *. destruct e; [|reflexivity].
  unfold read_chunk in H. cbn in H. destruct k; [injection H as <- <-; congruence|discriminate HE].
Qed.
Lemma skipn_app_le {A} n (l m : list A) : n <= length l -> skipn n (l ++ m) = skipn n l ++ m.
Proof. intros H. rewrite skipn_app. now replace (n - length l) with 0 by lia. Qed.
Lemma firstn_app_le {A} n (l m : list A) : n <= length l -> firstn n (l ++ m) = firstn n l.
Proof. intros H. rewrite firstn_app. replace (n - length l) with 0 by lia. apply app_nil_r. Qed.
Lemma skipn_app_add {A} n (l m : list A) : skipn (length l + n) (l ++ m) = skipn n m.
Proof. rewrite skipn_app, skipn_all2 by lia. now replace (length l + n - length l) with n by lia. Qed.
Lemma firstn_app_add {A} n (l m : list A) : firstn (length l + n) (l ++ m) = l ++ firstn n m.
Proof. rewrite firstn_app, firstn_all2 by lia. now replace (length l + n - length l) with n by lia. Qed.

Section Fixed.
  Variable e : ending.
  Hypothesis He : e <> Infer.
  Definition well (r : reader) : Prop := line_ending r = e /\ good (source r) /\ aligned r /\ sound e (source r).
  Lemma load_fixed fuel : forall len r, well r -> placed r -> length (unread (source r)) < fuel ->
    exists res r', load fuel len r = Some (res, r') /\ well r' /\ bytes (source r') = bytes (source r) /\ chunk (source r') = chunk (source r) /\
      match find e (rest r) with
      | Some o => exists o', res = inl (Some o', len + o) /\ 1 <= o' <= length (current r') /\
          concat (previous r') ++ firstn o' (current r') = concat (previous r) ++ firstn o (rest r) /\
          length (concat (previous r')) + o' = length (concat (previous r)) + o /\
          skipn o' (rest r') = skipn o (rest r) /\ (previous r' = [] -> previous r = [] /\ o' = o) /\ placed r'
      | None => match rest r with [] => res = inl (None, len) /\ rest r' = [] /\ previous r' = previous r /\ placed r' /\ chunk_offset r' = 0 | _ => res = inr tt end
      end.
  Proof.
    induction fuel as [|fuel IH]; intros len r (HL & HG & HA & HS) HP HF; [lia|].
    cbn [load]. rewrite HL, (find_end_fixed e _ He). cbn [source current previous stream_offset chunk_offset line_ending].
    assert (Er : Reader (source r) (current r) (previous r) (stream_offset r) (chunk_offset r) e = r) by (rewrite <- HL; now destruct r).
    destruct (find e (current r)) as [o|] eqn:F.
    - exists (inl (Some o, len + o)), r. rewrite Er. split; [reflexivity|]. split; [now split|]. split; [reflexivity|]. split; [reflexivity|].
      unfold rest. rewrite (find_app_some _ _ _ _ F). pose proof (find_bound _ _ _ F) as B.
      exists o. split; [reflexivity|]. split; [exact B|]. rewrite firstn_app_le by lia. auto 8.
    - destruct (read_chunk (source r)) as [c s'] eqn:RC. pose proof (read_chunk_spec _ _ _ HG RC) as (HG' & HB & HC & HU & HPos & HN).
      pose proof (aligned_joint e r HG HA HS) as J. pose proof (find_app _ _ _ He J F) as FA. fold (rest r) in FA.
      destruct c as [|c0 c].
      + specialize (HN eq_refl). assert (R : rest r = current r) by (unfold rest; rewrite HN; apply app_nil_r).
        rewrite FA, HN. replace (find e []) with (@None nat) by (destruct e; reflexivity). cbn [option_map].
        assert (U' : unread s' = []) by (cbn in HU; congruence). cbn in HPos. rewrite Nat.add_0_r in HPos.
        assert (W : forall cs so co, current r = cs -> well (Reader s' cs (previous r) so co e)).
        { intros cs so co <-. split; [reflexivity|]. split; [exact HG'|]. split.
          - destruct HA as (x & HX & HY). exists x. cbn. rewrite HB, HPos. split; [|exact HY]. unfold rest in *. cbn. now rewrite U', <- HN.
          - unfold sound in *. cbn. now rewrite HB, HC. }
        rewrite R. destruct (current r) as [|c1 cs] eqn:C.
        * eexists _, _. split; [reflexivity|]. split; [now apply W|]. split; [exact HB|]. split; [exact HC|].
          split; [reflexivity|]. split; [exact U'|]. split; [reflexivity|]. split; [left; cbn; auto|reflexivity].
        * eexists _, _. split; [reflexivity|]. split; [now apply W|]. split; [exact HB|]. split; [exact HC|]. reflexivity.
      + set (r1 := Reader s' (c0 :: c) (previous r ++ [current r]) (pos (source r)) 0 e).
        assert (R1 : rest r1 = unread (source r)) by exact HU.
        destruct (IH (len + length (current r)) r1) as (res & r' & L & W & B & C & M).
        * split; [reflexivity|]. split; [exact HG'|]. split.
          -- destruct HA as (x & HX & HY). exists (x ++ current r). rewrite R1. cbn. rewrite HB, HPos, app_length. split; [|cbn; lia].
             rewrite HX. unfold rest. now rewrite app_assoc.
          -- unfold sound in *. cbn. now rewrite HB, HC.
        * right. exists (c0 :: c). cbn. rewrite HB, HC. rewrite <- (read_nonempty _ _ _ HG RC) by discriminate.
          split; [exact RC|]. split; [discriminate|]. split; [reflexivity|]. split; [lia|exact HG].
        * cbn. rewrite <- HU in HF. rewrite app_length in HF. cbn in HF. lia.
        * exists res, r'. split; [exact L|]. split; [exact W|]. split; [rewrite B; exact HB|]. split; [rewrite C; exact HC|].
          rewrite R1 in M. rewrite FA. destruct (find e (unread (source r))) as [o|]; cbn [option_map].
          -- destruct M as (o' & -> & B' & M1 & M2 & M3 & M4 & M5). exists o'. split; [f_equal; f_equal; lia|]. split; [exact B'|].
             cbn [previous r1] in M1, M2, M4. rewrite concat_app in M1, M2. cbn [concat] in M1, M2. rewrite app_nil_r in M1, M2. rewrite app_length in M2.
             unfold rest at 1 3. rewrite firstn_app_add, skipn_app_add. split; [now rewrite M1, app_assoc|]. split; [lia|]. split; [exact M3|].
             split; [|exact M5]. intros X. destruct (M4 X) as [Y _]. now apply app_eq_nil in Y.
          -- destruct (unread (source r)) eqn:U; [discriminate HU|]. unfold rest. rewrite U. destruct (current r); exact M.
  Qed.

  Definition ready (r : reader) : Prop := well r /\ placed r /\ previous r = [].
  Lemma unread_bound r : length (unread (source r)) < S (length (bytes (source r))).
  Proof. unfold unread. rewrite skipn_length. lia. Qed.
  Lemma next_record_spec r : ready r -> exists out r', next_record r = Some (out, r') /\ bytes (source r') = bytes (source r) /\ chunk (source r') = chunk (source r) /\
    match find e (rest r) with
    | Some o => out = Record_ (firstn o (rest r)) /\ ready r' /\ rest r' = skipn o (rest r) /\ 0 < chunk_offset r'
    | None => match rest r with [] => out = End /\ ready r' /\ rest r' = [] /\ chunk_offset r' = 0 | _ => out = Partial end
    end.
  Proof.
    intros (W & P & PR). unfold next_record.
    destruct (load_fixed (S (length (bytes (source r)))) 0 r W P (unread_bound r)) as (res & r' & -> & W' & B & C & M).
    destruct (find e (rest r)) as [o|] eqn:F.
    - destruct M as (o' & -> & B' & M1 & M2 & M3 & M4 & M5). rewrite PR in M1, M2. cbn [concat app length] in M1, M2.
      eexists _, _. split; [reflexivity|]. split; [exact B|]. split; [exact C|].
      assert (E1 : rest (Reader (source r') (skipn o' (current r')) [] (stream_offset r') (chunk_offset r' + o') (line_ending r')) = skipn o (rest r)).
      { rewrite <- M3. unfold rest. cbn. now rewrite skipn_app_le by lia. }
      split; [|split; [|split; [exact E1|cbn; lia]]].
      + destruct (previous r') as [|p ps] eqn:Pv.
        * destruct (M4 eq_refl) as [_ ->]. cbn in M1. cbn [plus]. now rewrite M1.
        * rewrite M2. cbn [plus]. rewrite Nat.eqb_refl. now rewrite M1.
      + destruct W' as (W1 & W2 & (x & X1 & X2) & W4). split; [split; [exact W1|split; [exact W2|split; [|exact W4]]]|split; [|reflexivity]].
        * exists (x ++ firstn o' (current r')). cbn. rewrite <- app_assoc. unfold rest in *. cbn. split.
          -- rewrite X1. f_equal. rewrite app_assoc, firstn_skipn. reflexivity.
          -- rewrite app_length, firstn_length, skipn_length. lia.
        * destruct M5 as [(Q1 & Q2 & Q3)|(c & Q1 & Q2 & Q3 & Q4 & Q5)]; [rewrite Q2 in B'; cbn in B'; lia|].
          right. exists c. cbn. split; [exact Q1|]. split; [exact Q2|]. rewrite Q3, skipn_length in B'. split; [|split; [lia|exact Q5]].
          rewrite Q3. clear. revert c. generalize (chunk_offset r'). intros n. induction n as [|n IH]; intros c; [reflexivity|].
          destruct c; [cbn; now rewrite skipn_nil|]. cbn. apply IH.
    - destruct (rest r) eqn:R.
      + destruct M as (-> & M1 & M2 & M3 & M4). eexists _, _. split; [reflexivity|]. split; [exact B|]. split; [exact C|]. split; [reflexivity|]. split; [|auto].
        split; [exact W'|]. split; [exact M3|]. congruence.
      + rewrite M. eexists _, _. split; [reflexivity|]. auto.
  Qed.
End Fixed.
