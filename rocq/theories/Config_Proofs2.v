From Coq Require Import String Ascii List Bool Arith Lia.
From Verif Require Import Config_Model Config_Spec Config_Proofs.
Import ListNotations.
Open Scope string_scope. Open Scope list_scope.

(** ** Processing *)
Definition plist ds config := fix loop (l : list cv) : res (list cv) := match l with [] => Ok [] | e :: l' => bindr (do_process ds config e) (fun e' => bindr (loop l') (fun r => Ok (e' :: r))) end.
Definition pmap ds config := fix loop (l output : list (key * cv)) : res (list (key * cv)) := match l with [] => Ok output | (k, v) :: l' => bindr (do_process ds config v) (fun v' => loop l' (put k v' output)) end.
Lemma plist_spec ds config l r : plist ds config l = Ok r -> Forall2 (fun a b => do_process ds config a = Ok b) l r.
Proof.
  revert r. induction l as [|x l IH]; intros r H; [injection H as <-; constructor|]. apply bindr_ok in H. destruct H as (e & H1 & H). apply bindr_ok in H. destruct H as (r' & H2 & H). injection H as <-.
  constructor; [exact H1|apply IH, H2].
Qed.
Lemma put_new {A} k (v : A) l : ~ In k (map fst l) -> put k v l = l ++ [(k, v)].
Proof. induction l as [|[a x] l IH]; simpl; intros H; [reflexivity|]. destruct (key_eqb_spec k a) as [E|E]; [exfalso; apply H; left; congruence|]. rewrite IH; tauto. Qed.
Lemma pmap_spec ds config l : forall out r, NoDup (map fst out ++ map fst l) -> pmap ds config l out = Ok r ->
  exists l', r = out ++ l' /\ Forall2 (fun a b => fst a = fst b /\ do_process ds config (snd a) = Ok (snd b)) l l'.
Proof.
  induction l as [|[k v] l IH]; intros out r N H; [injection H as <-; exists []; rewrite app_nil_r; split; [reflexivity|constructor]|].
  apply bindr_ok in H. destruct H as (v' & H1 & H). rewrite put_new in H; [|intros I; apply NoDup_remove_2 in N; apply N, in_or_app; left; exact I].
  destruct (IH (out ++ [(k, v')]) r) as (l' & -> & F); [rewrite map_app; simpl; rewrite <- app_assoc; exact N|exact H|].
  exists ((k, v') :: l'). split; [rewrite <- app_assoc; reflexivity|]. constructor; [split; [reflexivity|exact H1]|exact F].
Qed.
Lemma Forall2_nth {A B} (R : A -> B -> Prop) l m i a : Forall2 R l m -> nth_error l i = Some a -> exists b, nth_error m i = Some b /\ R a b.
Proof. intros F. revert i. induction F as [|x y l m H F IH]; intros [|i] E; try discriminate; simpl in *; [injection E as <-; eauto|auto]. Qed.
Lemma Forall2_get {B} (R : cv -> B -> Prop) l m k a : Forall2 (fun a b => fst a = fst b /\ R (snd a) (snd b)) l m -> get k l = Some a -> exists b, get k m = Some b /\ R a b.
Proof. induction 1 as [|[x u] [y w] l m [H1 H2] F IH]; simpl in *; [discriminate|]. subst y. destruct (key_eqb k x); [intros E; injection E as <-; eauto|exact IH]. Qed.
Lemma Forall2_len {A B} (R : A -> B -> Prop) l m : Forall2 R l m -> List.length l = List.length m.
Proof. induction 1; simpl; congruence. Qed.
Lemma Forall2_fst {A B C} (R : A * B -> A * C -> Prop) l m : Forall2 (fun a b => fst a = fst b /\ R a b) l m -> map fst m = map fst l.
Proof. induction 1 as [|a b l m [H _] F IH]; simpl; congruence. Qed.

Lemma execute_chained config ds : forall s r, execute_all ds s config = Ok r -> chained config ds s r.
Proof.
  induction ds as [|d ds IH]; intros s r H; [injection H as <-; constructor|]. cbn [execute_all] in H. apply bindr_ok in H. destruct H as (o & E & H).
  destruct o; try (injection H as <-; apply ch_stop; [exact E|discriminate]). eapply ch_next; [exact E|apply IH, H].
Qed.
Lemma process_at ds config p : forall c r v, wf c -> do_process ds config c = Ok r -> at_steps c p = Some v -> exists o, at_steps r p = Some o /\ processed ds config v o.
Proof.
  induction p as [|[k|i] p IH]; intros c r v Wf H A.
  - injection A as <-. exists r. split; [reflexivity|]. destruct c; simpl in *; try congruence.
    + apply execute_chained, H.
    + apply bindr_ok in H. destruct H as (l' & H & E). injection E as <-. exists l'. split; [reflexivity|]. symmetry. eapply Forall2_len, (plist_spec ds config l l' H).
    + apply bindr_ok in H. destruct H as (l' & H & E). injection E as <-. exists l'. split; [reflexivity|].
      destruct (pmap_spec ds config l [] l' (wf_nodup _ Wf) H) as (l2 & -> & F). simpl. eapply (Forall2_fst (fun a b => do_process ds config (snd a) = Ok (snd b))), F.
  - destruct c as [| | | |l]; try discriminate. simpl in A. destruct (get k l) as [x|] eqn:G; [|discriminate].
    apply bindr_ok in H. destruct H as (l' & H & E). injection E as <-. destruct (pmap_spec ds config l [] l' (wf_nodup _ Wf) H) as (l2 & -> & F).
    destruct (Forall2_get (fun a b => do_process ds config a = Ok b) _ _ _ _ F G) as (y & Y1 & Y2). simpl. rewrite Y1. eapply IH; [eapply wf_get; eassumption|exact Y2|exact A].
  - destruct c as [| | |l|]; try discriminate. simpl in A. destruct (nth_error l i) as [x|] eqn:G; [|discriminate].
    apply bindr_ok in H. destruct H as (l' & H & E). injection E as <-. apply plist_spec in H. destruct (Forall2_nth _ _ _ _ _ H G) as (y & Y1 & Y2). simpl. rewrite Y1.
    eapply IH; [|exact Y2|exact A]. inversion Wf as [| | |l0 W|]; subst. rewrite Forall_forall in W. apply W. eapply nth_error_In, G.
Qed.
Lemma process_total ds config c : (forall s, exists r, execute_all ds s config = Ok r) -> exists r, do_process ds config c = Ok r.
Proof.
  intros H. induction c as [| | s |l IH|l IH] using cv_ind'; try (simpl; eauto; fail).
  - assert (X : exists r, plist ds config l = Ok r). { induction IH as [|x l (e & E) F IHl]; [simpl; eauto|]. destruct IHl as (r & R). cbn [plist]. rewrite E. cbn [bindr]. fold (plist ds config). rewrite R. simpl. eauto. }
    destruct X as (r & X). exists (CList r). change (bindr (plist ds config l) (fun r => Ok (CList r)) = Ok (CList r)). rewrite X. reflexivity.
  - assert (X : forall out, exists r, pmap ds config l out = Ok r). { induction IH as [|x l (e & E) F IHl]; intros out; [simpl; eauto|]. destruct x as [k x]. cbn [pmap]. cbn [snd] in E. rewrite E. cbn [bindr]. apply IHl. }
    destruct (X []) as (r & Y). exists (CMap r). change (bindr (pmap ds config l []) (fun r => Ok (CMap r)) = Ok (CMap r)). rewrite Y. reflexivity.
Qed.

(** ** Strings *)
Lemma app_assoc_s a b c : ((a ++ b) ++ c)%string = (a ++ (b ++ c))%string.
Proof. induction a; simpl; congruence. Qed.
Lemma prefix_app a s : String.prefix a (a ++ s)%string = true.
Proof. induction a as [|c a IH]; simpl; [destruct s; reflexivity|]. destruct (ascii_dec c c); [exact IH|congruence]. Qed.
Lemma prefix_inv a : forall s, String.prefix a s = true -> exists r, s = (a ++ r)%string.
Proof.
  induction a as [|c a IH]; intros s H; [exists s; reflexivity|]. destruct s as [|d s]; [discriminate|]. simpl in H. destruct (ascii_dec c d) as [->|]; [|discriminate]. destruct (IH _ H) as (r & ->). exists r. reflexivity.
Qed.
Lemma substring_all s : substring 0 (String.length s) s = s.
Proof. induction s; simpl; congruence. Qed.
Lemma substring_app a s : substring (String.length a) (String.length (a ++ s) - String.length a) (a ++ s)%string = s.
Proof. induction a as [|c a IH]; simpl; [rewrite Nat.sub_0_r; apply substring_all|exact IH]. Qed.
Lemma len_app a s : String.length (a ++ s)%string = String.length a + String.length s.
Proof. induction a; simpl; congruence. Qed.

Lemma span_app p a s : all_chars p a = true -> match s with EmptyString => True | String c _ => p c = false end -> span p (a ++ s)%string = (a, s).
Proof.
  intros H N. induction a as [|c a IH]; simpl.
  - destruct s; [reflexivity|]. simpl. rewrite N. reflexivity.
  - unfold all_chars in H. simpl in H. apply andb_true_iff in H. destruct H as [H1 H2]. rewrite H1. rewrite IH by exact H2. reflexivity.
Qed.
Lemma span_inv p s a b : span p s = (a, b) -> s = (a ++ b)%string /\ all_chars p a = true /\ match b with EmptyString => True | String c _ => p c = false end.
Proof.
  revert a b. induction s as [|c s IH]; intros a b H; simpl in H; [injection H as <- <-; repeat split|]. destruct (p c) eqn:E.
  - destruct (span p s) as [a' b'] eqn:X. injection H as <- <-. destruct (IH _ _ eq_refl) as (-> & B & C). split; [reflexivity|]. split; [unfold all_chars; simpl; rewrite E; exact B|exact C].
  - injection H as <- <-. split; [reflexivity|]. split; [reflexivity|exact E].
Qed.

Lemma match_spelled name dflt r : well name dflt -> match_env (spelled name dflt ++ r)%string = Some (name, dflt, r).
Proof.
  intros [V D]. destruct name as [|c name]; [discriminate|]. simpl in V. apply andb_true_iff in V. destruct V as [V1 V2].
  assert (X : exists t, (spelled (String c name) dflt ++ r)%string = ("${env:" ++ String c (name ++ t))%string /\ t = (match dflt with None => "}" ++ r | Some d => ":" ++ (d ++ ("}" ++ r)) end)%string).
  { unfold spelled. destruct dflt as [d|]; (eexists; split; [|reflexivity]); rewrite !app_assoc_s; reflexivity. }
  destruct X as (t & X & T). rewrite X. unfold match_env. rewrite prefix_app. change 6 with (String.length "${env:"). rewrite substring_app. rewrite V1.
  destruct dflt as [d|]; subst t.
  - rewrite span_app; [|exact V2|reflexivity]. cbn [append]. rewrite span_app; [reflexivity|exact D|reflexivity].
  - rewrite span_app; [reflexivity|exact V2|reflexivity].
Qed.
Lemma match_inv s name dflt r : match_env s = Some (name, dflt, r) -> s = (spelled name dflt ++ r)%string /\ well name dflt.
Proof.
  unfold match_env. destruct (String.prefix "${env:" s) eqn:P; [|discriminate]. apply prefix_inv in P. destruct P as (t & ->). change 6 with (String.length "${env:"). rewrite substring_app.
  destruct t as [|c t]; [discriminate|]. destruct (name_start c) eqn:N; [|discriminate]. destruct (span name_char t) as [a b] eqn:S. apply span_inv in S. destruct S as (-> & A & B).
  assert (W : forall d, match d with None => True | Some d => all_chars (fun c => negb (Ascii.eqb c "}")) d = true end -> well (String c a) d). { intros d D. split; [simpl; rewrite N; exact A|exact D]. }
  destruct b as [|e b]; [discriminate|].
  destruct (ascii_dec e "}") as [->|E1].
  - intros H. injection H as <- <- <-. split; [unfold spelled; rewrite !app_assoc_s; reflexivity|apply W; exact I].
  - destruct (ascii_dec e ":") as [->|E2].
    + destruct (span (fun c => negb (Ascii.eqb c "}")) b) as [d q] eqn:S. apply span_inv in S. destruct S as (-> & D & Q). destruct q as [|f q]; [discriminate|].
      intros H. injection H as <- <- <-. apply negb_false_iff, Ascii.eqb_eq in Q. subst f. split; [unfold spelled; rewrite !app_assoc_s; cbn [append]; try rewrite app_assoc_s; reflexivity|apply W; exact D].
    + intros H. exfalso. destruct e as [[] [] [] [] [] [] [] []]; try discriminate H; congruence.
Qed.
Lemma spelled_len name dflt : 0 < String.length (spelled name dflt).
Proof. destruct dflt; simpl; lia. Qed.

Lemma sub_env_spec env fuel : forall s, String.length s < fuel -> substituted env s (sub_env fuel env s).
Proof.
  induction fuel as [|fuel IH]; intros s L; [lia|]. cbn [sub_env]. destruct (match_env s) as [[[name dflt] rest]|] eqn:M.
  - apply match_inv in M. destruct M as (-> & W). pose proof (spelled_len name dflt). rewrite len_app in L. eapply su_directive; [exact W| |apply IH; lia]. reflexivity.
  - destruct s as [|c s]; [constructor|]. constructor; [|apply IH; simpl in L; lia]. intros name dflt r W E. rewrite E, (match_spelled name dflt r W) in M. discriminate.
Qed.
Lemma substituted_fun env s a : substituted env s a -> forall b, substituted env s b -> a = b.
Proof.
  induction 1 as [|name dflt v s s' W -> S IH|c s s' N S IH]; intros b H.
  - inversion H as [|name dflt v s s' W V S E|]; subst; [reflexivity|]. pose proof (spelled_len name dflt). apply (f_equal String.length) in E. rewrite len_app in E. simpl in E. lia.
  - inversion H as [E|name2 dflt2 v2 s2 s2' W2 V2 S2 E|c s2 s2' N S2 E]; subst.
    + pose proof (spelled_len name dflt). apply (f_equal String.length) in E. rewrite len_app in E. simpl in E. lia.
    + pose proof (match_spelled name dflt s W) as M1. rewrite <- E in M1. rewrite (match_spelled name2 dflt2 s2 W2) in M1. injection M1 as -> -> ->. f_equal. apply IH, S2.
    + exfalso. eapply N; [exact W|exact E].
  - inversion H as [|name2 dflt2 v2 s2 s2' W2 V2 S2 E|c2 s2 s2' N2 S2]; subst.
    + exfalso. eapply N; [exact W2|]. symmetry. exact E.
    + f_equal. apply IH, S2.
Qed.

Lemma replace_spec old new fuel : old <> EmptyString -> forall s, String.length s < fuel -> replaced old new s (replace_str fuel old new s).
Proof.
  intros O. induction fuel as [|fuel IH]; intros s L; [lia|]. cbn [replace_str]. destruct (String.prefix old s) eqn:P.
  - apply prefix_inv in P. destruct P as (r & ->). rewrite substring_app. constructor. apply IH. rewrite len_app in L. destruct old; [congruence|]. simpl in L. lia.
  - destruct s as [|c s]; [constructor|]. constructor; [|apply IH; simpl in L; lia]. intros r E. rewrite E, prefix_app in P. discriminate.
Qed.
Lemma app_inv a : forall s t, (a ++ s)%string = (a ++ t)%string -> s = t.
Proof. induction a as [|c a IH]; simpl; intros s t H; [exact H|]. injection H as H. auto. Qed.
Lemma replaced_fun old new s a : old <> EmptyString -> replaced old new s a -> forall b, replaced old new s b -> a = b.
Proof.
  intros O. assert (Z : forall s, (old ++ s)%string <> EmptyString) by (destruct old; [congruence|discriminate]).
  induction 1 as [|s s' S IH|c s s' N S IH]; intros b H.
  - inversion H as [|s s' S E|]; subst; [reflexivity|]. exfalso. eapply Z. exact E.
  - inversion H as [E|s2 s2' S2 E|c s2 s2' N S2 E]; subst.
    + exfalso. eapply Z. symmetry. exact E.
    + apply app_inv in E. subst s2. f_equal. apply IH, S2.
    + exfalso. eapply N. exact E.
  - inversion H as [|s2 s2' S2 E|c2 s2 s2' N2 S2]; subst; [exfalso; eapply N; symmetry; exact E|]. f_equal. apply IH, S2.
Qed.
