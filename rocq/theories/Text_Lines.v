From Coq Require Import List Bool Arith Ascii Lia.
From Verif Require Import File_Model Text_Spec Text_Model Text_Proofs.
Import ListNotations.

(** ** Cutting contents into lines *)
Inductive cut (e : ending) : list ascii -> list (list ascii) -> list ascii -> Prop :=
| cut_rest b : find e b = None -> cut e b [] b
| cut_line b o ls u : find e b = Some o -> cut e (skipn o b) ls u -> cut e b (firstn o b :: ls) u.
Lemma cut_exists e b : exists ls u, cut e b ls u.
Proof.
  remember (length b) as n eqn:N. revert b N. induction n as [n IH] using lt_wf_ind. intros b ->.
  destruct (find e b) as [o|] eqn:F; [|eexists _, _; constructor; exact F].
  pose proof (find_bound _ _ _ F). destruct (IH (length (skipn o b)) ltac:(rewrite skipn_length; lia) _ eq_refl) as (ls & u & C).
  eexists _, _. econstructor; eassumption.
Qed.
Lemma cut_concat e b ls u : cut e b ls u -> b = concat ls ++ u.
Proof. induction 1; [reflexivity|]. cbn. rewrite <- app_assoc, <- IHcut. symmetry. apply firstn_skipn. Qed.
Lemma cut_length e b ls u : cut e b ls u -> length ls <= length b.
Proof. induction 1; cbn; [lia|]. pose proof (find_bound _ _ _ H). rewrite skipn_length in IHcut. lia. Qed.
Lemma cut_rest_none e b ls u : cut e b ls u -> find e u = None.
Proof. induction 1; auto. Qed.
Lemma find_lf_none b : find_lf b = None -> ~ In lf b.
Proof.
  induction b as [|c b IH]; cbn; intros H; [tauto|]. destruct (is_lf c) eqn:E; [discriminate H|].
  destruct (find_lf b); [discriminate H|]. intros [->|I]; [now apply is_lf_false in E|]. now apply IH.
Qed.
Lemma find_lf_some b : forall o, find_lf b = Some o -> lf_line (firstn o b).
Proof.
  induction b as [|c b IH]; cbn; intros o H; [discriminate H|]. destruct (is_lf c) eqn:E.
  - injection H as <-. apply is_lf_spec in E. subst. exists []. cbn. tauto.
  - destruct (find_lf b) as [o'|]; [|discriminate H]. injection H as <-. destruct (IH _ eq_refl) as (t & T & N).
    exists (c :: t). cbn. rewrite T. split; [reflexivity|]. intros [->|I]; [now apply is_lf_false in E|]. contradiction.
Qed.
Lemma cut_lf b ls u : cut Lf b ls u -> lf_lines b ls u.
Proof.
  intros C. split; [exact (cut_concat _ _ _ _ C)|]. split; [|exact (find_lf_none _ (cut_rest_none _ _ _ _ C))].
  induction C; constructor; auto. now apply find_lf_some.
Qed.
(** With a carriage return just before when [h] *)
Definition crlf_in (h : bool) (b : list ascii) : Prop := has_crlf (if h then cr :: b else b).
Lemma has_crlf_cons c b : has_crlf (c :: b) <-> (c = cr /\ exists b', b = lf :: b') \/ has_crlf b.
Proof.
  split.
  - intros ([|x0 x] & y & H); injection H as H1 H2; subst; [left; eauto|right; now exists x, y].
  - intros [[-> (b' & ->)]|(x & y & ->)]; [now exists [], b'|now exists (c :: x), y].
Qed.
Lemma has_crlf_nil : ~ has_crlf [].
Proof. intros ([|? x] & y & H); discriminate H. Qed.
Lemma crlf_in_nil h : ~ crlf_in h [].
Proof. unfold crlf_in. destruct h; [|apply has_crlf_nil]. rewrite has_crlf_cons. intros [[_ (b' & H)]|H]; [discriminate H|now apply has_crlf_nil]. Qed.
Lemma crlf_in_cons h c b : crlf_in h (c :: b) <-> (h = true /\ c = lf) \/ (if is_lf c then has_crlf b else crlf_in (is_cr c) b).
Proof.
  assert (K : has_crlf (c :: b) <-> (if is_lf c then has_crlf b else crlf_in (is_cr c) b)).
  { destruct (is_lf c) eqn:E.
    - apply is_lf_spec in E. rewrite has_crlf_cons. subst. split; [|auto]. intros [[X _]|X]; [now elim lf_cr|exact X].
    - unfold crlf_in. destruct (is_cr c) eqn:R; [apply is_cr_spec in R; now subst|]. rewrite has_crlf_cons. apply is_cr_false in R. tauto. }
  rewrite <- K. destruct h; unfold crlf_in at 1; [|split; [tauto|intros [[X _]|X]; [discriminate X|exact X]]].
  rewrite (has_crlf_cons cr). split.
  - intros [[_ (b' & [= <- <-])]|X]; auto.
  - intros [[_ ->]|X]; [left; eauto|auto].
Qed.
Lemma find_crlf_none b : forall h, find_crlf h b = None -> ~ crlf_in h b.
Proof.
  induction b as [|c b IH]; intros h H; [apply crlf_in_nil|]. rewrite crlf_in_cons. cbn in H. destruct (is_lf c) eqn:E.
  - destruct h; [discriminate H|]. destruct (find_crlf false b) eqn:F; [discriminate H|]. intros [[X _]|X]; [discriminate X|]. exact (IH false F X).
  - destruct (find_crlf (is_cr c) b) eqn:F; [discriminate H|]. intros [[_ X]|X]; [now apply is_lf_false in E|]. exact (IH _ F X).
Qed.
Lemma find_crlf_some b : forall h o, find_crlf h b = Some o ->
  exists t, firstn o b = t ++ [lf] /\ ~ crlf_in h t /\ (if h then cr :: t else t) <> [] /\ exists t', (if h then cr :: t else t) = t' ++ [cr].
Proof.
  induction b as [|c b IH]; cbn; intros h o H; [discriminate H|]. destruct (is_lf c) eqn:E.
  - destruct h.
    + injection H as <-. apply is_lf_spec in E. subst. exists []. repeat split; [apply crlf_in_nil|discriminate|now exists []].
    + destruct (find_crlf false b) as [o'|] eqn:F; [|discriminate H]. injection H as <-.
      destruct (IH false _ F) as (t & T & N & N' & t' & T'). exists (c :: t). cbn. rewrite T. repeat split; [|discriminate|exists (c :: t'); cbn in *; now rewrite T'].
      rewrite crlf_in_cons, E. intros [[X _]|X]; [discriminate X|]. exact (N X).
  - destruct (find_crlf (is_cr c) b) as [o'|] eqn:F; [|discriminate H]. injection H as <-.
    destruct (IH _ _ F) as (t & T & N & N' & t' & T'). exists (c :: t). cbn. rewrite T.
    split; [reflexivity|]. split; [rewrite crlf_in_cons, E; intros [[_ X]|X]; [now apply is_lf_false in E|contradiction]|].
    split; [destruct h; discriminate|].
    assert (G : exists t'', c :: t = t'' ++ [cr]).
    { destruct (is_cr c) eqn:R; [apply is_cr_spec in R; subst; eauto|]. exists (c :: t'). cbn. now rewrite T'. }
    destruct G as [t'' ->]. destruct h; [now exists (cr :: t'')|eauto].
Qed.
Lemma cut_crlf b ls u : cut Crlf b ls u -> crlf_lines b ls u.
Proof.
  intros C. split; [exact (cut_concat _ _ _ _ C)|]. split; [|exact (find_crlf_none _ false (cut_rest_none _ _ _ _ C))].
  induction C; constructor; auto. destruct (find_crlf_some _ _ _ H) as (t & T & N & _ & t' & T'). cbn in T'. subst t.
  exists t'. rewrite T, <- app_assoc. split; [reflexivity|exact N].
Qed.

(** ** Trimming *)
Lemma is_space_spec c : is_space c = true <-> white c.
Proof. unfold is_space, white. cbv zeta. rewrite orb_true_iff, andb_true_iff, Nat.eqb_eq, !Nat.leb_le. tauto. Qed.
Lemma ltrim_spec s : exists a, s = a ++ ltrim s /\ Forall white a /\ forall c m, ltrim s = c :: m -> ~ white c.
Proof.
  induction s as [|c s (a & A & F & N)]; [exists []; repeat split; auto; discriminate|]. cbn. destruct (is_space c) eqn:E.
  - exists (c :: a). cbn. split; [congruence|]. split; [constructor; [now apply is_space_spec|exact F]|exact N].
  - exists []. repeat split; auto. intros c' m [= <- <-] W. apply is_space_spec in W. congruence.
Qed.
Lemma rtrim_spec s : exists z, s = rtrim s ++ z /\ Forall white z /\ forall c m, rtrim s = m ++ [c] -> ~ white c.
Proof.
  unfold rtrim. destruct (ltrim_spec (rev s)) as (a & A & F & N). exists (rev a). split; [|split].
  - rewrite <- rev_app_distr, <- A. symmetry. apply rev_involutive.
  - rewrite Forall_forall in *. intros x X. apply F. now apply in_rev.
  - intros c m H. apply (f_equal (@rev _)) in H. rewrite rev_involutive, rev_app_distr in H. cbn in H. exact (N _ _ H).
Qed.
Definition trim_line (o : options) (l : list ascii) : list ascii :=
  let l := if do_ltrim o then ltrim l else l in if do_rtrim o then rtrim l else l.
Lemma trim_line_spec o l : trimmed (do_ltrim o) (do_rtrim o) l (trim_line o l).
Proof.
  unfold trim_line. destruct (do_ltrim o).
  - destruct (ltrim_spec l) as (a & A & FA & NA). destruct (do_rtrim o).
    + destruct (rtrim_spec (ltrim l)) as (z & Z & FZ & NZ). exists a, z. rewrite <- Z. repeat split; auto; try discriminate.
      intros _ c m' H. apply (NA c (m' ++ z)). rewrite Z, H. reflexivity.
    + exists a, []. rewrite app_nil_r. repeat split; auto; try discriminate.
  - destruct (do_rtrim o).
    + destruct (rtrim_spec l) as (z & Z & FZ & NZ). exists [], z. cbn. repeat split; auto; discriminate.
    + exists [], []. cbn. rewrite app_nil_r. repeat split; auto; discriminate.
Qed.

(** ** Reading to the end *)
Section Fixed.
  Variable e : ending.
  Hypothesis He : e <> Infer.
  Variable o : options.
  Definition kept (l : list ascii) : bool := negb (skip_empty o && is_empty_line e l).
  Definition ending_of (u : list ascii) : line := match u with [] => NoMore | _ => ReadError end.
  Lemma read_next_line_spec fuel : forall r ls u, ready e r -> cut e (rest r) ls u -> length ls < fuel ->
    exists out r', read_next_line fuel o r = Some (out, r') /\ bytes (source r') = bytes (source r) /\ chunk (source r') = chunk (source r) /\
      ((exists l1 l l2, ls = l1 ++ l :: l2 /\ forallb (fun x => negb (kept x)) l1 = true /\ kept l = true /\ out = Record_ l /\ ready e r' /\ cut e (rest r') l2 u /\ 0 < chunk_offset r') \/
       (forallb (fun x => negb (kept x)) ls = true /\ ((u = [] /\ out = End /\ ready e r' /\ rest r' = [] /\ chunk_offset r' = 0) \/ (u <> [] /\ out = Partial)))).
  Proof.
    induction fuel as [|fuel IH]; intros r ls u R C L; [lia|]. cbn.
    destruct (next_record_spec e He r R) as (out & r' & -> & B & K & M).
    inversion C as [b F E1 E2 E3|b n ls' u' F C' E1 E2 E3]; subst; rewrite F in M.
    - destruct (rest r) eqn:E.
      + destruct M as (-> & R' & E' & P'). eexists _, _. split; [reflexivity|]. split; [exact B|]. split; [exact K|]. right. split; [reflexivity|]. left. auto.
      + subst out. eexists _, _. split; [reflexivity|]. split; [exact B|]. split; [exact K|]. right. split; [reflexivity|]. right. split; [discriminate|reflexivity].
    - destruct M as (-> & R' & E' & P'). assert (EL : line_ending r' = e) by (destruct R' as [[? _] _]; assumption). rewrite EL.
      destruct (skip_empty o && is_empty_line e (firstn n (rest r))) eqn:S.
      + cbn in L. rewrite <- E' in C'. destruct (IH r' ls' u R' C' ltac:(lia)) as (out & r'' & Q & B' & K' & D). exists out, r''. split; [exact Q|].
        split; [congruence|]. split; [congruence|]. destruct D as [(l1 & l & l2 & -> & D1 & D)|[D1 D]].
        * left. exists (firstn n (rest r) :: l1), l, l2. split; [reflexivity|]. split; [|exact D]. cbn. unfold kept at 1. now rewrite S, D1.
        * right. split; [|exact D]. cbn. unfold kept at 1. now rewrite S, D1.
      + eexists _, _. split; [reflexivity|]. split; [exact B|]. split; [exact K|]. left. exists [], (firstn n (rest r)), ls'.
        split; [reflexivity|]. split; [reflexivity|]. split; [unfold kept; now rewrite S|]. rewrite E'. auto.
  Qed.
  Lemma rest_length r : ready e r -> length (rest r) <= length (bytes (source r)).
  Proof. intros ((_ & _ & (x & X & _) & _) & _). rewrite X, app_length. lia. Qed.
  Lemma filter_skip (l1 l2 : list (list ascii)) : forallb (fun x => negb (kept x)) l1 = true -> filter kept (l1 ++ l2) = filter kept l2.
  Proof.
    induction l1 as [|x l1 IH]; cbn; [auto|]. intros H. apply andb_true_iff in H as [H1 H2]. destruct (kept x); [discriminate H1|auto].
  Qed.
  Lemma next_spec r ls u : ready e r -> cut e (rest r) ls u -> exists x r', next o r = Some (x, r') /\ bytes (source r') = bytes (source r) /\ chunk (source r') = chunk (source r) /\
    match filter kept ls with
    | l :: ls' => x = Line (trim_line o l) /\ ready e r' /\ 0 < chunk_offset r' /\ exists ls1 ls2, ls = ls1 ++ ls2 /\ cut e (rest r') ls2 u /\ filter kept ls1 = [l] /\ filter kept ls2 = ls' /\ ls1 <> []
    | [] => x = ending_of u /\ (u = [] -> ready e r' /\ rest r' = [] /\ chunk_offset r' = 0)
    end.
  Proof.
    intros R C. unfold next. pose proof (cut_length _ _ _ _ C) as L. pose proof (rest_length r R) as L'.
    destruct (read_next_line_spec (S (length (bytes (source r)))) r ls u R C ltac:(lia)) as (out & r' & -> & B & K & D).
    destruct D as [(l1 & l & l2 & -> & D1 & D2 & -> & D3 & D4 & D5)|[D1 D]].
    - eexists _, r'. split; [reflexivity|]. split; [exact B|]. split; [exact K|]. rewrite filter_skip by exact D1. cbn. rewrite D2. split; [reflexivity|].
      split; [exact D3|]. split; [exact D5|]. exists (l1 ++ [l]), l2. split; [now rewrite <- app_assoc|]. split; [exact D4|]. split; [|split; [reflexivity|destruct l1; discriminate]].
      rewrite filter_skip by exact D1. cbn. now rewrite D2.
    - assert (Fl : filter kept ls = []). { rewrite <- (app_nil_r ls). rewrite filter_skip by exact D1. reflexivity. } rewrite Fl.
      destruct D as [(-> & -> & R' & E & P')|(N & ->)]; eexists _, r'; (split; [reflexivity|]); (split; [exact B|]); (split; [exact K|]).
      + split; [reflexivity|]. auto.
      + split; [|congruence]. destruct u; [congruence|reflexivity].
  Qed.
  Lemma read_all_spec fuel : forall r ls u, ready e r -> cut e (rest r) ls u -> length ls < fuel ->
    exists r', read_all fuel o r = Some (map (trim_line o) (filter kept ls), ending_of u, r').
  Proof.
    induction fuel as [|fuel IH]; intros r ls u R C L; [lia|]. cbn. destruct (next_spec r ls u R C) as (x & r' & -> & B & K & M).
    destruct (filter kept ls) as [|l ls'] eqn:F.
    - destruct M as [-> M]. destruct u; cbn; eauto.
    - destruct M as (-> & R' & P' & ls1 & ls2 & -> & C2 & F1 & F2 & N1). assert (L2 : length ls2 < length (ls1 ++ ls2)) by (rewrite app_length; destruct ls1; [congruence|cbn; lia]). destruct (IH r' ls2 u R' C2 ltac:(lia)) as (r'' & ->). rewrite F2. cbn. eauto.
  Qed.
End Fixed.
Definition valid (k : option nat) : Prop := k <> Some 0.
Lemma ready_open e b k : valid k -> e = Lf \/ unsplit k b -> ready e (make (open b k) e).
Proof.
  intros V S. split; [|split; [left; cbn; auto|reflexivity]]. split; [reflexivity|]. split; [|split].
  - split; [exact V|]. cbn. split; [lia|]. split; [destruct k; [discriminate|reflexivity]|]. destruct k; [right; now exists 0|now left].
  - exists []. split; reflexivity.
  - exact S.
Qed.
