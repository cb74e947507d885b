(** Properties of selectors and of mapping with them *)
From Coq Require Import String List Bool Arith NArith Ascii Lia ZifyN ZifyNat ZifyBool Permutation.
From Verif Require Import File_Model Sel_Model Sel_Spec Sel_Proofs Sel_Visit Sel_Map.
Import ListNotations.
Local Open Scope list_scope.

Definition s_ (x : string) : str := list_ascii_of_string x.

(** ** C21: which selectors are accepted *)
(** A string of the documented syntax is accepted, and read as the paths it spells. *)
Theorem C21_syntax s ps : selector_text index_text ps s -> selector s = Some ps.
Proof.
  intros (ts & us & N0 & F & G). apply selector_iff. exists ts, us. split; [exact N0|]. split; [|exact G]. clear - F. induction F as [|p t ps ts H F IH]; constructor; [|exact IH].
  revert H. apply path_text_impl, index_text_lenient.
Qed.
Print Assumptions C21_syntax.
(** The other way round, but for what stands between brackets: that is made of digits and stars, and if it is a proper index it is read as such. *)
Definition loose (b : str) (n : N) : Prop := b <> [] /\ Forall (fun c => is_digit c \/ c = "*"%char) b /\ forall m, index_text b m -> n = m.
Theorem C21_accepted s ps : selector s = Some ps -> selector_text loose ps s.
Proof.
  intros E. apply selector_iff in E as (ts & us & N0 & F & G). exists ts, us. split; [exact N0|]. split; [|exact G]. clear - F. induction F as [|p t ps ts H F IH]; constructor; [|exact IH].
  revert H. apply path_text_impl. intros b n (B & C & X). split; [exact B|]. split; [exact C|]. intros m M. apply index_text_ix in M. congruence.
Qed.
Print Assumptions C21_accepted.
Example C21_ex_syntax : selector_text index_text [[Key (s_ "foo1"); Index 0]; [Key (s_ "foo"); Index wildcard; Index 13; Key (s_ "x")]] (s_ " foo1[0] ,foo[*][13].x").
Proof.
  assert (W : forall k, good_key (s_ k) <-> good_key (s_ k)) by tauto. clear W.
  exists [s_ "foo1[0]"; s_ "foo[*][13].x"], [s_ " foo1[0] "; s_ "foo[*][13].x"]. split; [discriminate|].
  assert (D : forall b n, b <> [] -> Forall is_digit b -> n = decimal b -> (n < 2 ^ 64 - 1)%N -> exists b', index_text b' n /\ "["%char :: b ++ ["]"%char] = "["%char :: b' ++ ["]"%char]) by (intros b n ? ? ? ?; exists b; split; [left; now repeat split|reflexivity]).
  split; [|split; [|split; [reflexivity|]]].
  - constructor; [|constructor; [|constructor]].
    + exists [s_ ".foo1"; s_ "[0]"]. split; [discriminate|]. split; [|reflexivity]. constructor; [|constructor; [|constructor]].
      * split; [|reflexivity]. split; [discriminate|]. repeat constructor; discriminate.
      * apply (D (s_ "0")); [discriminate| |reflexivity|reflexivity]. constructor; [|constructor]. unfold is_digit. cbn. lia.
    + exists [s_ ".foo"; s_ "[*]"; s_ "[13]"; s_ ".x"]. split; [discriminate|]. split; [|reflexivity]. constructor; [|constructor; [|constructor; [|constructor; [|constructor]]]].
      * split; [|reflexivity]. split; [discriminate|]. repeat constructor; discriminate.
      * exists (s_ "*"). split; [right; now split|reflexivity].
      * apply (D (s_ "13")); [discriminate| |reflexivity|reflexivity]. constructor; [|constructor; [|constructor]]; unfold is_digit; cbn; lia.
      * split; [|reflexivity]. split; [discriminate|]. repeat constructor; discriminate.
  - constructor; [|constructor; [|constructor]].
    + exists (s_ " "), (s_ " "). repeat split; repeat constructor.
    + exists [], []. repeat split; constructor.
  - constructor; [|constructor; [|constructor]]; cbn; intuition discriminate.
Qed.
(** Strings outside the documented syntax are accepted: text between brackets that is neither a number nor a star. *)
Theorem C21_junk_index_refuted : ~ (forall s ps, selector s = Some ps -> selector_text index_text ps s).
Proof.
  intros H. specialize (H (s_ "[5*]") [[Index wildcard]] eq_refl). destruct H as (ts & us & _ & F & G & E & _).
  inversion F as [|? t ? ts' P F']; subst. inversion F'; subst. inversion G as [|? u ? us' S0 G']; subst. inversion G'; subst. cbn in E. subst u. destruct S0 as (a & z & E & Fa & Fz).
  destruct P as (ts & _ & F1 & Et). inversion F1 as [|? x ? xs X F2]; subst. inversion F2; subst. cbn in X. destruct X as (b & B & ->). cbn in E. rewrite app_nil_r in E.
  destruct a as [|c a]; [|injection E as <- _; apply Forall_cons_iff in Fa as (X & _); discriminate]. cbn in E. injection E as E.
  rewrite <- app_assoc in E. destruct B as [(N0 & D & _)|(-> & _)]; [|discriminate]. destruct b as [|c1 b]; [contradiction|]. injection E as <- E. destruct b as [|c2 b]; [discriminate E|]. injection E as <- _.
  apply Forall_cons_iff in D as (_ & D). apply Forall_cons_iff in D as (D & _). unfold is_digit in D. cbn in D. lia.
Qed.
Print Assumptions C21_junk_index_refuted.
(** An index that does not fit is accepted as a different one, although an overflow is meant to be rejected: the check only notices a value that
    became smaller. (The test of the overflow uses a number for which the check works.) *)
Theorem C21_big_index_refuted : ~ (forall b n, b <> [] -> Forall is_digit b -> selector ("["%char :: b ++ ["]"%char]) = Some [[Index n]] -> n = decimal b).
Proof.
  intros H. assert (D : Forall is_digit (s_ "30000000000000000000")) by (cbn; repeat (constructor; [unfold is_digit; cbn; lia|]); constructor).
  specialize (H (s_ "30000000000000000000") 11553255926290448384%N ltac:(discriminate) D ltac:(vm_compute; reflexivity)). vm_compute in H. discriminate.
Qed.
Print Assumptions C21_big_index_refuted.
(** The greatest index is read as a star. *)
Theorem C21_greatest_index_refuted : exists s, s = s_ "[18446744073709551615]" /\ selector s = selector (s_ "[*]") /\ selector s <> None.
Proof. exists (s_ "[18446744073709551615]"). split; [reflexivity|]. split; [vm_compute; reflexivity|vm_compute; discriminate]. Qed.
Print Assumptions C21_greatest_index_refuted.
Example C21_ex_rejected : Forall (fun x => selector (s_ x) = None) [""; "  "; "."; "foo."; "foo[[0]"; "foo["; "foo[]"; "foo[0"; "foo.[0]"; "foo[*"; ".foo"; ","; " , "; "foo,"; " , foo"; "fo o"; "foo [0]"; "foo[999999999999999999999999999999]"]%string.
Proof. repeat (constructor; [vm_compute; reflexivity|]). constructor. Qed.

Section Data.
  Context {A T : Type}.
  Local Notation data := (data A T).

  (** ** C21: what is visited *)
  (** Every addressed element, each once if the paths are separate; and an error exactly if something on the way is missing. *)
  Theorem C21_visit (d : data) ps : proper d ->
    match visit_paths d ps with
    | None => exists path, In path ps /\ ~ all_there d path
    | Some v => (forall path, In path ps -> all_there d path) /\ (forall q, In q (map fst v) <-> exists path, In path ps /\ addressed d path q) /\ (separate d ps -> NoDup (map fst v))
    end.
  Proof. apply visit_paths_spec. Qed.
  (** The paths handed to the visitor, as they appear in error messages, are those of the elements if a path has at most one star. *)
  Theorem C21_report (d : data) path v : (Forall (fun s => s <> Index wildcard) path \/ exists p q, path = p ++ Index wildcard :: q /\ Forall (fun s => s <> Index wildcard) p /\ Forall (fun s => s <> Index wildcard) q) ->
    visit_path d path = Some v -> Forall (fun x => snd x = fst x) v.
  Proof.
    unfold visit_path. intros H E. destruct (visit path 0 d [] []) as [[[|] v0] r] eqn:V; [|discriminate]. injection E as ->. destruct H as [F|(p & q & -> & Fp & Fq)].
    - apply visit_plain in V as (-> & _); [|exact F]. repeat constructor.
    - exact (visit_reports p q 0 d [] v r Fp Fq V).
  Qed.

  (** ** C21: mapping *)
  (** With every order in which the elements are processed: exactly the addressed elements are replaced by their images. *)
  Theorem C21_map (f : data -> option data) (g : data -> data) reorder ps (d : data) (S : list segment -> bool) :
    (forall b, Permutation (reorder b) b) -> proper d -> separate d ps -> (forall path, In path ps -> all_there d path) ->
    (forall p, S p = true <-> exists path, In path ps /\ addressed d path p) -> (forall p e, S p = true -> at_place d p e -> f e = Some (g e)) ->
    map_element f (Some ps) reorder d = Done (changed_at g S d).
  Proof.
    intros R P Sp Th HS Hf. pose proof (visit_paths_spec d ps P) as V. unfold map_element, buffer. destruct (visit_paths d ps) as [v|] eqn:E; [|destruct V as (path & I0 & H); destruct (H (Th path I0))]. destruct V as (_ & Q & _). cbn [option_map].
    assert (In_ : forall p, In p (reorder (map fst v)) <-> S p = true) by (intros p; rewrite HS, <- Q; split; apply Permutation_in; [apply R|apply Permutation_sym, R]).
    destruct (visited_apart d ps v P Sp E) as (N0 & Ap). destruct (apply_spec f g d (reorder (map fst v)) [] P) as (_ & H).
    - cbn. split; [eapply Permutation_NoDup; [apply Permutation_sym, R|exact N0]|]. intros p q r I0 I1. apply Ap; (eapply Permutation_in; [apply R|assumption]).
    - intros p I0. apply In_, HS in I0 as (path & _ & _ & e & A0). exists e. now apply get_at.
    - intros p e y I0 G Y. apply In_ in I0. apply get_at in G; [|exact P]. rewrite (Hf p e I0 G) in Y. now injection Y.
    - rewrite changed_none in H; [|intros p; unfold one_of; destruct (in_dec _ p []) as [[]|]; reflexivity]. rewrite H.
      + f_equal. apply changed_ext. intros p. cbn. apply Bool.eq_iff_eq_true. rewrite <- In_. unfold one_of. destruct (in_dec _ p _); intuition congruence.
      + intros p e I0 G. apply In_ in I0. apply get_at in G; [|exact P]. rewrite (Hf p e I0 G). discriminate.
  Qed.
  (** It raises exactly if something is missing, or the function raises for an addressed element; whatever the order. *)
  Theorem C21_map_raises (f : data -> option data) reorder ps (d : data) :
    (forall b, Permutation (reorder b) b) -> proper d -> separate d ps ->
    (map_element f (Some ps) reorder d = Raised <-> (exists path, In path ps /\ ~ all_there d path) \/ exists path p e, In path ps /\ addressed d path p /\ at_place d p e /\ f e = None) /\
    map_element f (Some ps) reorder d <> Dangling.
  Proof.
    intros R P Sp. pose proof (visit_paths_spec d ps P) as V. unfold map_element, buffer. destruct (visit_paths d ps) as [v|] eqn:E; cbn [option_map]; [|split; [tauto|discriminate]]. destruct V as (Th & Q & _).
    assert (In_ : forall p, In p (reorder (map fst v)) <-> exists path, In path ps /\ addressed d path p) by (intros p; rewrite <- Q; split; apply Permutation_in; [apply R|apply Permutation_sym, R]).
    destruct (visited_apart d ps v P Sp E) as (N0 & Ap). pose (g x := match f x with Some y => y | None => x end). destruct (apply_spec f g d (reorder (map fst v)) [] P) as (H1 & H2).
    - cbn. split; [eapply Permutation_NoDup; [apply Permutation_sym, R|exact N0]|]. intros p q r I0 I1. apply Ap; (eapply Permutation_in; [apply R|assumption]).
    - intros p I0. apply In_ in I0 as (path & _ & _ & e & A0). exists e. now apply get_at.
    - intros p e y I0 G Y. unfold g. now rewrite Y.
    - rewrite changed_none in H1, H2 by (intros p; unfold one_of; destruct (in_dec _ p []) as [[]|]; reflexivity).
      assert (Dec : (exists p e, In p (reorder (map fst v)) /\ get d p = Some e /\ f e = None) \/ (forall p e, In p (reorder (map fst v)) -> get d p = Some e -> f e <> None)).
      { clear. induction (reorder (map fst v)) as [|p l IH]; [right; contradiction|]. destruct IH as [(q & e & I0 & G & F)|IH]; [left; exists q, e; split; [now right|auto]|].
        destruct (get d p) as [e|] eqn:G; [destruct (f e) as [y|] eqn:F|].
        - right. intros q x [<-|I0]; [congruence|now apply IH].
        - left. exists p, e. split; [now left|auto].
        - right. intros q x [<-|I0]; [congruence|now apply IH]. }
      destruct Dec as [X|X].
      + rewrite (H1 X). split; [|discriminate]. split; [|reflexivity]. intros _. right. destruct X as (p & e & I0 & G & F). apply In_ in I0 as (path & Ip & A0). exists path, p, e. repeat split; try assumption; [apply A0|apply A0|now apply get_at].
      + rewrite (H2 X). split; [|discriminate]. split; [discriminate|]. intros [(path & I0 & H)|(path & p & e & I0 & A0 & At & F)]; [destruct (H (Th path I0))|]. destruct (X p e); [apply In_; now exists path|now apply get_at|exact F].
  Qed.
  (** Without selector the function gets the whole example. *)
  Theorem C21_map_whole (f : data -> option data) reorder (d : data) : map_element f None reorder d = match f d with Some d' => Done d' | None => Raised end.
  Proof. reflexivity. Qed.

  Lemma length_of_selected size0 int_of ps (d : data) n : proper d -> data_length size0 int_of (Some ps) d = Some n <->
    (forall path, In path ps -> all_there d path) /\
    (forall path p e, In path ps -> addressed d path p -> at_place d p e -> exists k, extract_length size0 int_of e = Some k /\ k <= n) /\
    (n = 0 \/ exists path p e, In path ps /\ addressed d path p /\ at_place d p e /\ extract_length size0 int_of e = Some n).
  Proof.
    intros P. unfold data_length. pose proof (visit_paths_spec d ps P) as V. destruct (visit_paths d ps) as [v|]; [|split; [discriminate|]; intros (Th & _); destruct V as (path & I0 & H); destruct (H (Th path I0))].
    destruct V as (Th & Q & _).
    assert (M : forall l acc n, max_length size0 int_of acc l = Some n <-> acc <= n /\ (forall o, In o l -> exists e k, o = Some e /\ extract_length size0 int_of e = Some k /\ k <= n) /\ (n = acc \/ exists e, In (Some e) l /\ extract_length size0 int_of e = Some n)).
    { clear. induction l as [|[e|] l IH]; intros acc n; cbn [max_length].
      - split; [intros [= ->]; split; [lia|]; split; [contradiction|now left]|]. intros (_ & _ & [->|(e & [] & _)]). reflexivity.
      - destruct (extract_length size0 int_of e) as [k|] eqn:K.
        + rewrite IH. split.
          * intros (L & F & M). split; [lia|]. split; [intros o [<-|I0]; [exists e, k; repeat split; [exact K|lia]|now apply F]|]. destruct M as [M|(x & I0 & X)]; [|right; exists x; split; [now right|exact X]].
            destruct (Nat.max_spec acc k) as [(_ & Y)|(_ & Y)]; [right; exists e; split; [now left|]|left]; congruence.
          * intros (L & F & M). destruct (F (Some e) (or_introl eq_refl)) as (e' & k' & [= <-] & K' & L'). rewrite K in K'. injection K' as <-. split; [lia|]. split; [intros o I0; apply F; now right|].
            destruct M as [->|(x & [[= <-]|I0] & X)]; [left; lia|rewrite K in X; injection X as ->; left; lia|right; now exists x].
        + split; [discriminate|]. intros (_ & F & _). destruct (F (Some e) (or_introl eq_refl)) as (e' & k & [= <-] & X & _). congruence.
      - split; [discriminate|]. intros (_ & F & _). destruct (F None (or_introl eq_refl)) as (e' & k & [=] & _). }
    rewrite M. split.
    - intros (_ & F & Mx). split; [exact Th|]. split.
      + intros path p e I0 A0 At. destruct (F (Some e)) as (e' & k & [= <-] & K & L); [|now exists k]. apply get_at in At; [|exact P]. rewrite <- At. assert (Ip : In p (map fst v)) by (apply Q; now exists path). apply in_map_iff in Ip as (x & <- & Ix). apply in_map_iff. now exists x.
      + destruct Mx as [->|(e & I0 & K)]; [now left|right]. apply in_map_iff in I0 as (x & G & Ix). assert (Ip : In (fst x) (map fst v)) by now apply in_map. apply Q in Ip as (path & Ip & A0). exists path, (fst x), e. repeat split; try assumption; [apply A0|apply A0|]. now apply get_at.
    - intros (_ & F & Mx). split; [lia|]. split.
      + intros o I0. apply in_map_iff in I0 as (x & <- & Ix). assert (Ip : In (fst x) (map fst v)) by now apply in_map. apply Q in Ip as (path & Ip & A0). destruct A0 as (Fs & e & At) eqn:EA. destruct (F path (fst x) e Ip A0 At) as (k & K & L). exists e, k. split; [now apply get_at|auto].
      + destruct Mx as [->|(path & p & e & I0 & A0 & At & K)]; [now left|right]. exists e. split; [|exact K]. apply get_at in At; [|exact P]. rewrite <- At. assert (Ip : In p (map fst v)) by (apply Q; now exists path). apply in_map_iff in Ip as (x & <- & Ix). apply in_map_iff. now exists x.
  Qed.
  Lemma has_length_iff size0 int_of (d : data) n : extract_length size0 int_of d = Some n <-> has_length size0 int_of d n.
  Proof. destruct d; cbn; (split; [intros H; first [discriminate|constructor; exact H|injection H as <-; constructor]|intros H; inversion H; subst; auto]). Qed.
  (** ** C61: lengths for bucketing *)
  (** With a selector the length of an example is the longest of the lengths of the addressed elements; it raises exactly if one is missing or has no length. *)
  Theorem C61_length size0 int_of ps (d : data) n : proper d -> data_length size0 int_of (Some ps) d = Some n <->
    (forall path, In path ps -> all_there d path) /\
    (forall path p e, In path ps -> addressed d path p -> at_place d p e -> exists k, has_length size0 int_of e k /\ k <= n) /\
    (n = 0 \/ exists path p e, In path ps /\ addressed d path p /\ at_place d p e /\ has_length size0 int_of e n).
  Proof.
    intros P. rewrite length_of_selected by exact P. split; intros (Th & F & M); (split; [exact Th|]); split.
    - intros path p e I0 A0 At. destruct (F path p e I0 A0 At) as (k & K & L). exists k. split; [apply has_length_iff; exact K|exact L].
    - destruct M as [M|(path & p & e & I0 & A0 & At & K)]; [left; exact M|right]. exists path, p, e. repeat split; try assumption; try apply A0. apply has_length_iff; exact K.
    - intros path p e I0 A0 At. destruct (F path p e I0 A0 At) as (k & K & L). exists k. split; [apply has_length_iff; exact K|exact L].
    - destruct M as [M|(path & p & e & I0 & A0 & At & K)]; [left; exact M|right]. exists path, p, e. repeat split; try assumption; try apply A0. apply has_length_iff; exact K.
  Qed.
  (** Without selector it is the length of the example itself. *)
  Theorem C61_whole size0 int_of (d : data) n : data_length size0 int_of None d = Some n <-> has_length size0 int_of d n.
  Proof. apply has_length_iff. Qed.
End Data.
Print Assumptions C21_visit.
Print Assumptions C21_report.
Print Assumptions C21_map.
Print Assumptions C21_map_raises.
Print Assumptions C21_map_whole.
Print Assumptions C61_length.
Print Assumptions C61_whole.

(** ** C21: which paths a selector matches *)
(** A selector with an option of the collater applies to the paths that one of its paths stands for. *)
Theorem C21_matches ps path : matches ps path = true <-> exists p, In p ps /\ Forall2 stands_for p path.
Proof.
  unfold matches. rewrite existsb_exists. assert (M : forall p path, matches_path p path = true <-> Forall2 stands_for p path); [|split; intros (p & I0 & H); exists p; (split; [exact I0|]); now apply M].
  clear. induction p as [|x p IH]; intros [|y path]; cbn [matches_path]; [split; [intros _; constructor|reflexivity]|split; [discriminate|intros H; inversion H]|split; [discriminate|intros H; inversion H]|].
  destruct (segment_dec x y) as [->|D].
  - rewrite IH. split; [intros H; constructor; [apply stands_for_self|exact H]|intros H; now inversion H].
  - split.
    + destruct x as [k|n], y as [k'|m]; try discriminate. destruct (N.eq_dec n wildcard) as [->|]; [|discriminate]. intros H. constructor; [|now apply IH]. unfold stands_for. destruct (N.eq_dec wildcard wildcard); [now exists m|contradiction].
    + intros H. inversion H as [|? ? ? ? St F]; subst. apply IH in F. destruct x as [k|n]; [cbn in St; congruence|]. unfold stands_for in St. destruct (N.eq_dec n wildcard); [destruct St as (j & ->); exact F|congruence].
Qed.
Print Assumptions C21_matches.

(** ** Concrete cases and what does not hold *)
Definition leaf (n : nat) : data nat nat := Atom n.
Definition double (d : data nat nat) : option (data nat nat) := match d with Atom n => Some (Atom (n + n)) | _ => None end.
Definition nested : data nat nat := Dict [(s_ "a", Items [leaf 1; leaf 2]); (s_ "b", Dict [(s_ "c", leaf 3); (s_ "d", leaf 4)])].
Example C21_ex_map : exists ps, selector (s_ "a[*], b.d") = Some ps /\
  map_element double (Some ps) (@rev _) nested = Done (Dict [(s_ "a", Items [leaf 2; leaf 4]); (s_ "b", Dict [(s_ "c", leaf 3); (s_ "d", leaf 8)])]).
Proof. eexists. split; vm_compute; reflexivity. Qed.
Lemma nested_proper : proper nested.
Proof.
  unfold nested. constructor; [|constructor; [|constructor; [|constructor]]]; cbn.
  - constructor; [intros [|[]]; discriminate|]. constructor; [tauto|constructor].
  - repeat constructor.
  - constructor; [|repeat constructor]. cbn. constructor; [intros [|[]]; discriminate|]. constructor; [tauto|constructor].
Qed.
Example C21_ex_hypotheses : exists ps, selector (s_ "a[*],b.d") = Some ps /\ proper nested /\ separate nested ps /\ forall path, In path ps -> all_there nested path.
Proof.
  eexists. split; [vm_compute; reflexivity|]. split; [|split].
  - exact nested_proper.
  - intros i j path path' p p' D Ei Ej (F & _) (F' & _) r E. destruct i as [|[|i]], j as [|[|j]]; cbn in Ei, Ej; try congruence; try (destruct i; discriminate); try (destruct j; discriminate);
      injection Ei as <-; injection Ej as <-; inversion F as [|? ? ? ? X _]; subst; inversion F' as [|? ? ? ? X' _]; subst; cbn in X, X'; subst; discriminate.
  - intros path I0. pose proof (C21_visit nested [path]) as V. destruct I0 as [<-|[<-|[]]]; cbv [visit_paths] in V; match type of V with context [visit_path ?a ?b] => let w := eval vm_compute in (visit_path a b) in change (visit_path a b) with w in V end; cbv iota beta in V; apply V; try (now left); apply nested_proper.
Qed.
(** The path reported for an element can be wrong if a path has two stars: after each inner list one segment too many is left behind. *)
Theorem C21_report_refuted : ~ (forall (d : data nat nat) path v, proper d -> visit_path d path = Some v -> Forall (fun x => snd x = fst x) v).
Proof.
  intros H. specialize (H (Items [Items [leaf 1]; Items [leaf 2]]) [Index wildcard; Index wildcard] [([Index 0; Index 0], [Index 0; Index 0]); ([Index 1; Index 0], [Index 0; Index 1; Index 0])]%N
    ltac:(repeat constructor) ltac:(vm_compute; reflexivity)). apply Forall_cons_iff in H as (_ & H). apply Forall_cons_iff in H as (H & _). discriminate.
Qed.
Print Assumptions C21_report_refuted.
(** An element that two paths lead to is mapped twice. *)
Theorem C21_twice_refuted : ~ (forall (f : data nat nat -> option (data nat nat)) g ps (d : data nat nat) (S : list segment -> bool), proper d -> (forall path, In path ps -> all_there d path) ->
  (forall p, S p = true <-> exists path, In path ps /\ addressed d path p) -> (forall e, f e = Some (g e)) -> map_element f (Some ps) (fun b => b) d = Done (changed_at g S d)).
Proof.
  intros H. pose (d := Dict [(s_ "a", leaf 1)] : data nat nat). pose (g := fun x : data nat nat => match x with Atom n => Atom (S n) | y => y end).
  assert (P : proper d) by (constructor; [constructor; [tauto|constructor]|repeat constructor]).
  assert (V := C21_visit d [[Key (s_ "a")]; [Key (s_ "a")]] P). match type of V with context [visit_paths ?a ?b] => let w := eval vm_compute in (visit_paths a b) in change (visit_paths a b) with w in V end. cbv iota in V. destruct V as (Th & Q & _).
  specialize (H (fun x => Some (g x)) g [[Key (s_ "a")]; [Key (s_ "a")]] d (one_of [[Key (s_ "a")]]) P Th).
  assert (X : map_element (fun x => Some (g x)) (Some [[Key (s_ "a")]; [Key (s_ "a")]]) (fun b => b) d = Done (changed_at g (one_of [[Key (s_ "a")]]) d)); [|vm_compute in X; discriminate]. apply H; [|reflexivity].
  intros p. rewrite <- Q. cbn [map fst]. unfold one_of. destruct (in_dec _ p _) as [[<-|[]]|N0]; cbn; [tauto|]. cbn in N0. split; [discriminate|tauto].
Qed.
Print Assumptions C21_twice_refuted.
(** If one path leads to an element and another one into it, the second element is looked up in the example before the first one is replaced, and
    written to afterwards: the address it is written to is no longer valid. *)
Theorem C21_dangling_refuted : exists ps (d : data nat nat), selector (s_ "a, a[0]") = Some ps /\ proper d /\ map_element (fun x => Some x) (Some ps) (fun b => b) d = Dangling.
Proof.
  eexists _, (Dict [(s_ "a", Items [leaf 1])]). split; [vm_compute; reflexivity|]. split; [|vm_compute; reflexivity]. constructor; [constructor; [tauto|constructor]|repeat constructor].
Qed.
Print Assumptions C21_dangling_refuted.
Example C61_ex : exists ps, selector (s_ "x, y[*]") = Some ps /\
  data_length (fun t : nat => Some t) (fun a : nat => Some a) (Some ps) (Dict [(s_ "x", Tensor 3); (s_ "y", Items [Items [leaf 0; leaf 0]; leaf 7])]) = Some 7.
Proof. eexists. split; vm_compute; reflexivity. Qed.
Example C21_ex_matches : matches [[Key (s_ "x"); Index wildcard]] [Key (s_ "x"); Index 4] = true /\ matches [[Key (s_ "x"); Index wildcard]] [Key (s_ "x")] = false.
Proof. split; vm_compute; reflexivity. Qed.
