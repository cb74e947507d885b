(** Lemmas about the parser of selectors *)
From Coq Require Import List Bool Arith NArith Ascii Lia ZifyN ZifyNat ZifyBool.
From Verif Require Import File_Model File_Spec File_Props Sel_Model Sel_Spec.
Import ListNotations.

(** ** Indices *)
(** What the parser makes of the text between the brackets *)
Definition ix_char (acc : option N) (c : ascii) : option N :=
  match acc with
  | None => None
  | Some idx => match digit c with
      | Some d => if (wrap (10 * idx + d) <? idx)%N then None else Some (wrap (10 * idx + d))
      | None => if ascii_dec c "*"%char then Some wildcard else None
      end
  end.
Definition ix_text (b : str) : option N := fold_left ix_char b (Some 0%N).
Definition lenient (b : str) (n : N) : Prop := b <> [] /\ Forall (fun c => is_digit c \/ c = "*"%char) b /\ ix_text b = Some n.

Lemma digit_some c d : digit c = Some d -> is_digit c /\ d = N.of_nat (nat_of_ascii c - 48).
Proof. unfold digit, is_digit. destruct ((48 <=? nat_of_ascii c) && (nat_of_ascii c <=? 57)) eqn:E; [|discriminate]. intros [= <-]. split; [lia|reflexivity]. Qed.
Lemma digit_is c : is_digit c -> digit c = Some (N.of_nat (nat_of_ascii c - 48)).
Proof. unfold digit, is_digit. intros H. replace ((48 <=? nat_of_ascii c) && (nat_of_ascii c <=? 57)) with true by lia. reflexivity. Qed.
Lemma decimal_mono b : forall acc, (acc <= fold_left (fun n c => n * 10 + N.of_nat (nat_of_ascii c - 48))%N b acc)%N.
Proof. induction b as [|c b IH]; intros acc; cbn [fold_left]; [lia|]. etransitivity; [|apply IH]. lia. Qed.
Lemma ix_number b : forall acc, Forall is_digit b -> (fold_left (fun n c => n * 10 + N.of_nat (nat_of_ascii c - 48))%N b acc < 2 ^ 64)%N ->
  fold_left ix_char b (Some acc) = Some (fold_left (fun n c => n * 10 + N.of_nat (nat_of_ascii c - 48))%N b acc).
Proof.
  induction b as [|c b IH]; intros acc F L; [reflexivity|]. apply Forall_cons_iff in F as (D & F). cbn [fold_left] in *. unfold ix_char at 2. rewrite (digit_is _ D).
  pose proof (decimal_mono b (acc * 10 + N.of_nat (nat_of_ascii c - 48))%N) as M. set (k := N.of_nat (nat_of_ascii c - 48)) in *.
  assert (W : wrap (10 * acc + k) = (acc * 10 + k)%N) by (unfold wrap; rewrite N.mod_small by lia; lia). rewrite W. replace (acc * 10 + k <? acc)%N with false by lia. apply IH; assumption.
Qed.
Lemma index_text_ix b n : index_text b n -> ix_text b = Some n.
Proof.
  intros [(N0 & F & E & L)|(-> & ->)]; [|reflexivity]. unfold ix_text, decimal in *. rewrite ix_number; [now rewrite E|exact F|lia].
Qed.
Lemma index_text_lenient b n : index_text b n -> lenient b n.
Proof.
  intros H. split; [|split; [|now apply index_text_ix]].
  - destruct H as [(N0 & _)|(-> & _)]; [exact N0|discriminate].
  - destruct H as [(_ & F & _)|(-> & _)]; [|constructor; [now right|constructor]]. eapply Forall_impl; [|exact F]. intros; now left.
Qed.

(** ** Shape of the text of one path *)
Definition texts (ix : str -> N -> Prop) (p : list segment) (s : str) : Prop := exists ts, Forall2 (segment_text ix) p ts /\ s = concat ts.
Lemma texts_nil ix : texts ix [] []. Proof. exists []. split; [constructor|reflexivity]. Qed.
Lemma texts_cons ix x p t s : segment_text ix x t -> texts ix p s -> texts ix (x :: p) (t ++ s).
Proof. intros H (ts & F & ->). exists (t :: ts). split; [now constructor|reflexivity]. Qed.
Lemma texts_inv ix x p s : texts ix (x :: p) s -> exists t s', segment_text ix x t /\ texts ix p s' /\ s = t ++ s'.
Proof. intros (ts & F & ->). inversion F as [|? t ? ts' H F']; subst. exists t, (concat ts'). split; [exact H|]. split; [now exists ts'|reflexivity]. Qed.
Lemma texts_head ix x p s : texts ix (x :: p) s -> exists c s', s = c :: s' /\ match x with Key _ => c = "."%char | Index _ => c = "["%char end.
Proof. intros H. apply texts_inv in H as (t & s' & T & _ & ->). destruct x; cbn in T; [destruct T as (_ & ->)|destruct T as (b & _ & ->)]; eexists _, _; now split. Qed.
Lemma path_text_texts ix p t : path_text ix p t <-> p <> [] /\ match p with Key _ :: _ => texts ix p ("."%char :: t) | _ => texts ix p t end.
Proof.
  unfold path_text, texts. split.
  - intros (ts & N0 & F & E). split; [exact N0|]. destruct p as [|[k|n] p]; exists ts; now split.
  - intros (N0 & H). destruct p as [|[k|n] p]; destruct H as (ts & F & E); exists ts; repeat split; assumption.
Qed.

Definition key_chars (k : str) : Prop := Forall (fun c => c <> "."%char /\ c <> "["%char /\ is_space c = false) k.
Lemma parse_key_run k : forall fi i part out s, key_chars k -> k <> [] \/ fi = false -> parse fi ParsingKey i part out (k ++ s) = parse false ParsingKey i (rev k ++ part) out s.
Proof.
  induction k as [|c k IH]; intros fi i part out s F G; [destruct G as [G| ->]; [contradiction|reflexivity]|]. apply Forall_cons_iff in F as ((D & B & S0) & F). cbn [app parse].
  destruct (ascii_dec c "."); [contradiction|]. destruct (ascii_dec c "["); [contradiction|]. rewrite S0, IH by (auto). cbn [rev]. now rewrite <- app_assoc.
Qed.
Lemma parse_index_run b : forall idx n part out s, Forall (fun c => is_digit c \/ c = "*"%char) b -> fold_left ix_char b (Some idx) = Some n ->
  parse false ParsingIndex idx part out (b ++ s) = parse false ParsingIndex n (rev b ++ part) out s.
Proof.
  induction b as [|c b IH]; intros idx n part out s F E; [cbn in E; now injection E as ->|]. apply Forall_cons_iff in F as (D & F). cbn [app parse]. cbn [fold_left] in E.
  assert (None_ : fold_left ix_char b None = None) by (clear; induction b as [|c b IH]; [reflexivity|exact IH]).
  destruct (ascii_dec c "]") as [->|]; [exfalso; destruct D as [D|D]; [unfold is_digit in D; cbn in D; lia|discriminate]|]. unfold ix_char at 2 in E. destruct (digit c) as [d|].
  - cbv zeta. destruct (wrap (10 * idx + d) <? idx)%N; [congruence|]. rewrite (IH _ n) by assumption. cbn [rev]. now rewrite <- app_assoc.
  - destruct (ascii_dec c "*"); [|congruence]. rewrite (IH _ n) by assumption. cbn [rev]. now rewrite <- app_assoc.
Qed.
(** ** Texts are accepted *)
Lemma parse_tail p : forall s out, texts lenient p s ->
  parse false ParsedIndex 0 [] out s = Some (out ++ p) /\
  (forall i part, part <> [] -> parse false ParsingKey i part out s = Some (out ++ Key (rev part) :: p) \/ i <> 0%N).
Proof.
  induction p as [|x p IH]; intros s out H.
  - destruct H as (ts & F & ->). inversion F; subst. cbn. split; [now rewrite app_nil_r|]. intros i part N0. left. destruct part; [contradiction|reflexivity].
  - apply texts_inv in H as (t & s' & T & H & ->). destruct x as [k|n]; cbn in T.
    + destruct T as ((K & F) & ->). cbn [app]. split.
      * cbn [parse]. destruct (ascii_dec "." "["); [discriminate|]. destruct (ascii_dec "." "."); [|contradiction]. rewrite parse_key_run by (auto). rewrite app_nil_r.
        destruct (proj2 (IH _ out H) 0%N (rev k)) as [E|E]; [|rewrite E|contradiction]; [|now rewrite rev_involutive]. intros X. apply K. rewrite <- (rev_involutive k), X. reflexivity.
      * intros i part N0. destruct (N.eq_dec i 0) as [->|]; [left|now right]. cbn [parse]. destruct (ascii_dec "." "."); [|contradiction]. destruct part as [|c0 part0] eqn:Ep; [contradiction|]. rewrite <- Ep in *.
        rewrite parse_key_run by (auto). rewrite app_nil_r. destruct (proj2 (IH _ (out ++ [Key (rev part)]) H) 0%N (rev k)) as [E|E]; [|rewrite E|contradiction]; [|now rewrite rev_involutive, <- app_assoc].
        intros X. apply K. rewrite <- (rev_involutive k), X. reflexivity.
    + destruct T as (b & (B & F & E) & ->). cbn [app].
      assert (Y : forall out, parse false ParsingIndex 0 [] out (b ++ "]"%char :: s') = Some (out ++ Index n :: p)).
      { intros o. rewrite (parse_index_run _ _ n) by assumption. rewrite app_nil_r. cbn [parse]. destruct (ascii_dec "]" "]"); [|contradiction].
        destruct (rev b) eqn:X; [exfalso; apply B; rewrite <- (rev_involutive b), X; reflexivity|]. rewrite (proj1 (IH _ _ H)). now rewrite <- app_assoc. }
      rewrite <- app_assoc. cbn [app]. split.
      * cbn [parse]. destruct (ascii_dec "[" "["); [|contradiction]. apply Y.
      * intros i part N0. destruct (N.eq_dec i 0) as [->|]; [left|now right]. cbn [parse]. destruct (ascii_dec "[" "."); [discriminate|]. destruct (ascii_dec "[" "["); [|contradiction].
        destruct part as [|c0 part0] eqn:Ep; [contradiction|]. rewrite <- Ep in *. rewrite Y. now rewrite <- app_assoc.
Qed.
Lemma parse_complete p t : path_text lenient p t -> parse true ParsingKey 0 [] [] t = Some p.
Proof.
  rewrite path_text_texts. intros (N0 & H). destruct p as [|x p]; [contradiction|]. destruct x as [k|n]; apply texts_inv in H as (u & s' & T & H & E); cbn in T.
  - destruct T as ((K & F) & ->). cbn in E. injection E as ->. rewrite parse_key_run by auto. rewrite app_nil_r.
    destruct (proj2 (parse_tail _ _ [] H) 0%N (rev k)) as [E|E]; [|rewrite E|contradiction]; [|now rewrite rev_involutive]. intros X. apply K. rewrite <- (rev_involutive k), X. reflexivity.
  - destruct T as (b & (B & F & E0) & ->). rewrite E. cbn [app parse]. destruct (ascii_dec "[" "."); [discriminate|]. destruct (ascii_dec "[" "["); [|contradiction].
    rewrite <- app_assoc. rewrite (parse_index_run _ _ n) by assumption. rewrite app_nil_r. cbn [app parse]. destruct (ascii_dec "]" "]"); [|contradiction].
    destruct (rev b) eqn:X; [exfalso; apply B; rewrite <- (rev_involutive b), X; reflexivity|]. now rewrite (proj1 (parse_tail _ _ _ H)).
Qed.

Lemma rev_ne {X} (l : list X) : l <> [] -> rev l <> [].
Proof. intros N0 E. apply N0. rewrite <- (rev_involutive l), E. reflexivity. Qed.
(** ** What is accepted is a text *)
Lemma parse_sound s : forall st i part out res, parse false st i part out s = Some res ->
  match st with
  | ParsingKey => key_chars (rev part) -> i = 0%N -> exists q, res = out ++ q /\ match q with Key _ :: _ => True | _ => False end /\ texts lenient q ("."%char :: rev part ++ s)
  | ParsingIndex => Forall (fun c => is_digit c \/ c = "*"%char) (rev part) -> ix_text (rev part) = Some i -> exists q, res = out ++ q /\ match q with Index _ :: _ => True | _ => False end /\ texts lenient q ("["%char :: rev part ++ s)
  | ParsedIndex => part = [] -> i = 0%N -> exists q, res = out ++ q /\ texts lenient q s
  end.
Proof.
  induction s as [|c s IH]; intros st i part out res E; destruct st.
  - intros K _. cbn in E. destruct part as [|c0 part0]; [discriminate|]. cbv iota in E. assert (PN : c0 :: part0 <> []) by discriminate. set (part := c0 :: part0) in *. clearbody part. injection E as <-. exists [Key (rev part)]. split; [reflexivity|]. split; [exact I|].
    rewrite app_nil_r. replace ("."%char :: rev part) with (("."%char :: rev part) ++ []) by apply app_nil_r. apply texts_cons; [|apply texts_nil]. cbn. split; [split; [|exact K]|reflexivity]. now apply rev_ne.
  - discriminate.
  - intros -> ->. injection E as <-. exists []. split; [now rewrite app_nil_r|apply texts_nil].
  - intros K ->. cbn [parse] in E. destruct (ascii_dec c "."%char) as [->|ND]; [|destruct (ascii_dec c "["%char) as [->|NB]; [|destruct (is_space c) eqn:SP; [discriminate|]]].
    + destruct part as [|c0 part0]; [discriminate|]. cbv iota in E. assert (PN : c0 :: part0 <> []) by discriminate. set (part := c0 :: part0) in *. clearbody part. apply IH in E; destruct (E ltac:(constructor) eq_refl) as (q & -> & Q & H). exists (Key (rev part) :: q). split; [now rewrite <- app_assoc|]. split; [exact I|].
      change ("."%char :: rev part ++ "."%char :: s) with (("."%char :: rev part) ++ "."%char :: s). apply texts_cons; [|exact H]. cbn. split; [split; [|exact K]|reflexivity]. now apply rev_ne.
    + destruct part as [|c0 part0]; [discriminate|]. cbv iota in E. assert (PN : c0 :: part0 <> []) by discriminate. set (part := c0 :: part0) in *. clearbody part. apply IH in E; destruct (E ltac:(constructor) eq_refl) as (q & -> & Q & H). exists (Key (rev part) :: q). split; [now rewrite <- app_assoc|]. split; [exact I|].
      change ("."%char :: rev part ++ "["%char :: s) with (("."%char :: rev part) ++ "["%char :: s). apply texts_cons; [|exact H]. cbn. split; [split; [|exact K]|reflexivity]. now apply rev_ne.
    + apply IH in E; destruct E as (q & -> & Q & H); [cbn [rev]; apply Forall_app; split; [exact K|repeat constructor; assumption]|reflexivity|]. exists q. split; [reflexivity|]. split; [exact Q|]. cbn [rev] in H. now rewrite <- app_assoc in H.
  - intros F X. cbn [parse] in E. destruct (ascii_dec c "]"%char) as [->|NB].
    + destruct part as [|c0 part0]; [discriminate|]. cbv iota in E. assert (PN : c0 :: part0 <> []) by discriminate. set (part := c0 :: part0) in *. clearbody part. apply IH in E; destruct (E eq_refl eq_refl) as (q & -> & H). exists (Index i :: q). split; [now rewrite <- app_assoc|]. split; [exact I|].
      replace ("["%char :: rev part ++ "]"%char :: s) with (("["%char :: rev part ++ ["]"%char]) ++ s) by (cbn; now rewrite <- app_assoc). apply texts_cons; [|exact H]. cbn. exists (rev part). split; [|reflexivity].
      split; [now apply rev_ne|]. now split.
    + destruct (digit c) as [d|] eqn:D.
      * cbv zeta in E. destruct (wrap (10 * i + d) <? i)%N eqn:W; [discriminate|]. apply IH in E. destruct E as (q & -> & Q & H); cycle -1.
        -- exists q. split; [reflexivity|]. split; [exact Q|]. cbn [rev] in H. now rewrite <- app_assoc in H.
        -- cbn [rev]. apply Forall_app. split; [exact F|]. constructor; [|constructor]. left. now apply digit_some in D.
        -- cbn [rev]. unfold ix_text in *. rewrite fold_left_app, X. cbn [fold_left]. unfold ix_char. now rewrite D, W.
      * destruct (ascii_dec c "*"%char) as [->|]; [|discriminate]. apply IH in E. destruct E as (q & -> & Q & H); cycle -1.
        -- exists q. split; [reflexivity|]. split; [exact Q|]. cbn [rev] in H. now rewrite <- app_assoc in H.
        -- cbn [rev]. apply Forall_app. split; [exact F|]. constructor; [now right|constructor].
        -- cbn [rev]. unfold ix_text in *. rewrite fold_left_app, X. reflexivity.
  - intros -> ->. cbn [parse] in E. destruct (ascii_dec c "["%char) as [->|]; [|destruct (ascii_dec c "."%char) as [->|]; [|discriminate]]; apply IH in E; destruct (E ltac:(constructor) eq_refl) as (q & -> & Q & H); exists q; (split; [reflexivity|exact H]).
Qed.
Lemma parse_path_sound t p : parse true ParsingKey 0 [] [] t = Some p -> path_text lenient p t.
Proof.
  rewrite path_text_texts. destruct t as [|c t]; [discriminate|]. cbn [parse]. destruct (ascii_dec c "."%char); [discriminate|]. destruct (ascii_dec c "["%char) as [->|NB].
  - intros E. destruct (parse_sound _ ParsingIndex _ [] _ _ E (Forall_nil _) eq_refl) as (q & -> & Q & H). destruct q as [|[k|m] q]; try contradiction. cbn [app]. split; [discriminate|exact H].
  - destruct (is_space c) eqn:SP; [discriminate|]. intros E. destruct (parse_sound _ ParsingKey _ [c] _ _ E ltac:(repeat constructor; assumption) eq_refl) as (q & -> & Q & H).
    destruct q as [|[k|m] q]; try contradiction. cbn [app rev] in *. split; [discriminate|exact H].
Qed.

(** ** Trimming and commas *)
Lemma path_text_ends ix p t : path_text ix p t -> t <> [] /\ is_space (hd ":"%char t) = false /\ is_space (last t ":"%char) = false.
Proof.
  rewrite path_text_texts. intros (N0 & H).
  assert (L : forall p s, texts ix p s -> p <> [] -> is_space (last s ":"%char) = false /\ (1 < length s)).
  { clear. induction p as [|x p IH]; intros s H N0; [contradiction|]. apply texts_inv in H as (u & s' & T & H & ->).
    assert (U : is_space (last u ":"%char) = false /\ 1 < length u).
    { destruct x; cbn in T.
      - destruct T as ((K & F) & ->). destruct (exists_last K) as (k' & c & ->). apply Forall_app in F as (_ & F). inversion F as [|? ? (_ & _ & S0)]; subst.
        rewrite app_comm_cons, last_last. split; [exact S0|]. cbn. rewrite app_length. cbn. lia.
      - destruct T as (b & _ & ->). rewrite app_comm_cons, last_last. split; [reflexivity|]. cbn. rewrite app_length. cbn. lia. }
    destruct p as [|y p].
    - destruct H as (ts & F & ->). inversion F; subst. cbn. now rewrite app_nil_r.
    - destruct (IH s' H ltac:(discriminate)) as (E & L). destruct s' as [|c s']; [cbn in L; lia|]. destruct (exists_last (l := c :: s') ltac:(discriminate)) as (z & e & Z). rewrite Z in *.
      rewrite app_assoc, last_last. rewrite last_last in E. split; [exact E|]. rewrite !app_length in *. lia. }
  destruct p as [|[k|n] p]; [contradiction| |].
  - destruct (L _ _ H ltac:(discriminate)) as (E & L'). apply texts_inv in H as (u & s' & T & H & E'). cbn in T. destruct T as ((K & F) & ->). injection E' as ->.
    destruct k as [|c k]; [contradiction|]. inversion F as [|? ? (_ & _ & S0)]; subst. split; [discriminate|]. split; [exact S0|]. exact E.
  - destruct (L _ _ H ltac:(discriminate)) as (E & L'). apply texts_inv in H as (u & s' & T & H & ->). cbn in T. destruct T as (b & _ & ->). split; [discriminate|]. split; [reflexivity|exact E].
Qed.
Lemma path_text_impl (ix ix' : str -> N -> Prop) p t : (forall b n, ix b n -> ix' b n) -> path_text ix p t -> path_text ix' p t.
Proof.
  intros I (ts & N0 & F & E). exists ts. split; [exact N0|]. split; [|exact E]. clear N0 E. induction F as [|x u p ts H F IH]; constructor; [|exact IH]. destruct x; cbn in *; [exact H|]. destruct H as (b & B & ->). exists b. auto.
Qed.
Lemma surrounded_padded t u : surrounded t u <-> padded t u.
Proof. unfold surrounded, padded, blank. split; intros (a & z & H); exists a, z; exact H. Qed.
Lemma maybe_parse_path_iff u p : maybe_parse_path u = Some p <-> exists t, path_text lenient p t /\ surrounded t u.
Proof.
  unfold maybe_parse_path. split.
  - intros E. exists (trim u). split; [|apply surrounded_padded, trim_spec]. destruct (trim u) as [|c t] eqn:T; [discriminate|]. now apply parse_path_sound.
  - intros (t & P & S0). apply surrounded_padded in S0. destruct (path_text_ends _ _ _ P) as (N0 & H & L). rewrite (trim_padded _ _ S0 N0 H L). destruct t as [|c t]; [contradiction|]. now apply parse_complete.
Qed.
Lemma parse_paths_iff us ps : parse_paths us = Some ps <-> exists ts, Forall2 (path_text lenient) ps ts /\ Forall2 surrounded ts us.
Proof.
  revert ps. induction us as [|u us IH]; intros ps; cbn [parse_paths].
  - split; [intros [= <-]; exists []; split; constructor|]. intros (ts & F & G). inversion G; subst. inversion F; subst. reflexivity.
  - split.
    + destruct (maybe_parse_path u) as [p|] eqn:E; [|discriminate]. destruct (parse_paths us) as [ps'|]; [|discriminate]. intros [= <-]. apply maybe_parse_path_iff in E as (t & P & S0). destruct (proj1 (IH ps') eq_refl) as (ts & F & G).
      exists (t :: ts). split; constructor; assumption.
    + intros (ts & F & G). inversion G as [|t ? ts' ? S0 G']; subst. inversion F as [|p ? ps' ? P F']; subst. rewrite (proj2 (maybe_parse_path_iff u p)) by (exists t; auto). now rewrite (proj2 (IH ps')) by (exists ts'; auto).
Qed.
Lemma split_join c us : us <> [] -> Forall (fun u => ~ In c u) us -> split c (join c us) = us.
Proof.
  intros N0 F. induction F as [|u us H F IH]; [contradiction|]. destruct us as [|v us]; cbn [join]; [now apply split_one|]. rewrite split_cons by exact H. f_equal. now apply IH.
Qed.
Lemma join_split c s : s = join c (split c s) /\ Forall (fun u => ~ In c u) (split c s) /\ split c s <> [].
Proof.
  assert (G : forall n s, length s <= n -> s = join c (split c s) /\ Forall (fun u => ~ In c u) (split c s)).
  { induction n as [|n IH]; intros s' L.
    - destruct s'; [|cbn in L; lia]. cbn. split; [reflexivity|repeat constructor; tauto].
    - destruct (split_cases c s') as [N0|(a & r & -> & N0)]; [rewrite split_one by exact N0; split; [reflexivity|now repeat constructor]|]. rewrite split_cons by exact N0.
      rewrite app_length in L. cbn in L. destruct (IH r ltac:(lia)) as (E & F). split; [|now constructor]. cbn [join]. pose proof (split_nonempty c r). destruct (split c r) eqn:X; [contradiction|]. now rewrite <- E. }
  destruct (G _ s (le_n _)) as (E & F). split; [exact E|]. split; [exact F|apply split_nonempty].
Qed.
Lemma selector_iff s ps : selector s = Some ps <-> selector_text lenient ps s.
Proof.
  unfold selector, selector_text. rewrite parse_paths_iff. split.
  - intros (ts & F & G). destruct (join_split "," s) as (E & N0 & N1). exists ts, (split ","%char s). split; [|auto]. intros ->. inversion F; subst. inversion G; congruence.
  - intros (ts & us & N0 & F & G & -> & C). exists ts. rewrite split_join; [auto| |exact C]. intros ->. inversion G; subst. inversion F; subst. contradiction.
Qed.
