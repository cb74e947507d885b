(** Translating and completing texts (C85). *)

Require Import List Arith Bool Lia.
From Verif Require Import Txg_Model Txg_Spec.
From Verif Require Wer_Model Wer_Props.
Import ListNotations.

Section First.
  Context {text : Type}.
  Variable decode : list nat -> text.

  (** The texts of the first hypotheses. *)
  Lemma first_texts_ok : forall o idx ts,
    first_texts decode idx o = Ok ts <->
    Forall2 (fun hs t => exists h rest, hs = h :: rest /\ t = decode h) o ts.
  Proof.
    induction o as [|hs o IH]; intros idx ts; simpl.
    - split; [intro E; injection E as <-; constructor|intro F; inversion F; reflexivity].
    - destruct hs as [|h rest].
      + split; [discriminate|]. intro F. inversion F as [|? ? ? ? (h & r & E & _)]; discriminate.
      + destruct (first_texts decode (S idx) o) as [ts'|e] eqn:E.
        * split.
          -- intro X. injection X as <-. constructor; [eauto|]. apply (IH (S idx)). exact E.
          -- intro F. inversion F as [|? t ? ts0 (h' & r' & X & ->) F']; subst. injection X as <- <-.
             apply (IH (S idx)) in F'. rewrite E in F'. injection F' as ->. reflexivity.
        * split; [discriminate|]. intro F. inversion F as [|? t ? ts0 _ F']; subst.
          apply (IH (S idx)) in F'. congruence.
  Qed.

  Lemma first_texts_total : forall o idx, Forall (fun hs => hs <> []) o -> exists ts, first_texts decode idx o = Ok ts.
  Proof.
    induction o as [|hs o IH]; intros idx F; simpl; [eauto|]. inversion F; subst.
    destruct hs; [congruence|]. destruct (IH (S idx)) as [ts ->]; eauto.
  Qed.
End First.

Lemma combine_nils : forall (A B : Type) (l : list (list A)) (m : list B),
  map (fun p => fst p ++ snd p) (combine l (map (fun _ => []) l)) = l.
Proof.
  intros A B l _. induction l as [|x l IH]; [reflexivity|]. simpl. rewrite IH, app_nil_r. reflexivity.
Qed.

Lemma padded_ok : forall pad seqs, seqs <> [] ->
  (Forall (fun s => s <> []) seqs /\
   exists w, padded pad seqs =
     Ok (map (fun p => fst p ++ snd p) (combine seqs (map (fun s => repeat pad (w - length s)) seqs)), map (@length nat) seqs))
  \/ (~ Forall (fun s => s <> []) seqs /\ padded pad seqs = Err Bad_layout).
Proof.
  intros pad seqs N. unfold padded, Wer_Model.pad_seqs.
  set (lens := map (@length nat) seqs).
  assert (X : existsb (fun n => n <? 1) lens = false <-> Forall (fun s : list nat => s <> []) seqs).
  { unfold lens. clear. induction seqs as [|s l IH]; simpl; [split; constructor|].
    rewrite orb_false_iff, IH, Forall_cons_iff, Nat.ltb_ge.
    destruct s; simpl; split; intros [A B]; split; auto; try lia; try congruence; discriminate. }
  assert (L : lens <> []) by (unfold lens; destruct seqs; [congruence|discriminate]).
  destruct (existsb (fun n => n <? 1) lens) eqn:E.
  - right. split; [intro F; apply X in F; discriminate|]. destruct (list_max lens <? 1); reflexivity.
  - left. split; [apply X; reflexivity|].
    pose proof (Wer_Props.list_max_pos lens L E) as P.
    destruct (Nat.ltb_spec (list_max lens) 1); [lia|]. exists (list_max lens).
    f_equal. f_equal. clear. generalize (list_max lens). intro w.
    induction seqs as [|s l IH]; [reflexivity|]. simpl. rewrite IH. reflexivity.
Qed.

Section Translate.
  Context {text : Type}.
  Variable decode : list nat -> text.
  Variable generator : list (list nat) -> list nat -> list (list nat) -> list nat -> list (list (list nat)).
  Variable hypotheses_of : list nat -> list nat -> list (list nat).
  Hypothesis rows : row_by_row generator hypotheses_of.

  Lemma full_layout_ok : forall (x : list nat) (seqs : list (list nat)), x <> [] ->
    full_layout (map (fun _ => x) seqs) = Ok (map (@length nat) (map (fun _ : list nat => x) seqs)).
  Proof.
    intros x [|s seqs] N; [reflexivity|]. unfold full_layout. cbn [map].
    destruct x as [|y x]; [congruence|]. destruct (Nat.ltb_spec (length (y :: x)) 1); [simpl in *; lia|].
    f_equal. f_equal. rewrite !map_map. reflexivity.
  Qed.

  Lemma do_convert_rows : forall c seqs pads,
    target_prefix_seq c <> [] -> length pads = length seqs ->
    do_convert decode generator c (map (fun p => fst p ++ snd p) (combine seqs pads)) (map (@length nat) seqs)
    = let o := map (fun s => hypotheses_of s (target_prefix_seq c)) seqs in
      match first_texts decode 0 o with Err e => Err e | Ok ts => Ok (ts, o) end.
  Proof.
    intros c seqs pads P L. unfold do_convert.
    assert (E : map (fun _ : list nat => target_prefix_seq c) (map (fun p => fst p ++ snd p) (combine seqs pads))
                = map (fun _ => target_prefix_seq c) seqs).
    { clear P. revert pads L. induction seqs as [|s seqs IH]; intros [|p pads] L; try discriminate; [reflexivity|].
      simpl. f_equal. apply IH. simpl in L. lia. }
    rewrite E, full_layout_ok by exact P.
    assert (G : generator (map (fun p => fst p ++ snd p) (combine seqs pads)) (map (@length nat) seqs)
                  (map (fun _ => target_prefix_seq c) seqs)
                  (map (@length nat) (map (fun _ : list nat => target_prefix_seq c) seqs))
                = map (fun s => hypotheses_of s (target_prefix_seq c)) seqs).
    { rewrite <- (combine_nils nat nat (map (fun _ => target_prefix_seq c) seqs) []) at 1.
      rewrite (rows seqs (map (fun _ => target_prefix_seq c) seqs) pads); rewrite ?map_length; auto.
      clear. induction seqs as [|s seqs IH]; [reflexivity|]. simpl. rewrite IH. reflexivity. }
    cbv zeta. rewrite G. reflexivity.
  Qed.

  Lemma convert_rows : forall c s r,
    target_prefix_seq c <> [] ->
    (convert decode generator c s = Ok r <->
     s <> [] /\ exists h rest, hypotheses_of s (target_prefix_seq c) = h :: rest
       /\ r = (Some (decode h), [h :: rest])).
  Proof.
    intros c s r P. unfold convert, full_layout. cbn [map].
    destruct s as [|x s].
    - simpl. split; [discriminate|intros [N _]; congruence].
    - destruct (Nat.ltb_spec (length (x :: s)) 1); [simpl in *; lia|].
      pose proof (do_convert_rows c [x :: s] [[]] P eq_refl) as D. cbn [map combine fst snd] in D.
      rewrite app_nil_r in D. rewrite D. cbv zeta. cbn [first_texts map].
      destruct (hypotheses_of (x :: s) (target_prefix_seq c)) as [|h rest].
      + split; [discriminate|intros (_ & h & rest & E & _); discriminate].
      + split.
        * intro E. injection E as <-. split; [discriminate|]. eauto.
        * intros (_ & h' & rest' & E & ->). injection E as <- <-. reflexivity.
  Qed.
End Translate.

(** ** C85: one translation

    The translation of a text is the text of the generator's first hypothesis
    for the tokens of the text -- at most as many as allowed -- and the prefix
    of the target language, and the generator's output comes with it; there is
    none only if there are no tokens or no hypotheses. *)
Theorem C85_translate : forall (text : Type) (decode : list nat -> text) generator hypotheses_of
    one_device prefix pad encode max_len t,
  row_by_row generator hypotheses_of ->
  new_translator one_device (Some prefix) pad encode max_len = Ok t ->
  prefix <> [] ->
  forall source (answer : option text * list (list (list nat))),
  translate decode generator t source = Ok answer <->
  let tokens := at_most max_len (encode source) in
  tokens <> [] /\ exists best others,
    hypotheses_of tokens prefix = best :: others /\ answer = (Some (decode best), [best :: others]).
Proof.
  intros text decode generator hyps one_device prefix pad encode max_len t R N P source answer.
  unfold new_translator, new_converter in N. destruct one_device; [|discriminate].
  destruct pad as [p|]; [|discriminate].
  assert (T : t = {| the_converter := {| target_prefix_seq := prefix |}; pad_idx := p; source_encode := encode; max_source_len := max_len |})
    by (destruct max_len as [[|n]|]; simpl in N; congruence).
  subst t. unfold translate. rewrite (convert_rows decode generator hyps R) by exact P.
  cbn [target_prefix_seq the_converter source_encode]. unfold truncate, at_most. cbn [max_source_len]. reflexivity.
Qed.

(** ** C85: many translations

    A batch of texts is translated to exactly the translations of its texts, in
    their order, and with no error unless one of them has one. *)
Theorem C85_batch_translate : forall (text : Type) (decode : list nat -> text) generator hypotheses_of
    one_device prefix pad encode max_len t,
  row_by_row generator hypotheses_of ->
  new_translator one_device (Some prefix) pad encode max_len = Ok t ->
  prefix <> [] ->
  forall sources, sources <> [] ->
  forall (translations : list text) (outputs : list (list (list nat))),
  batch_translate decode generator t sources = Ok (translations, outputs) <->
  Forall2 (fun source answer => translate decode generator t source = Ok (Some (fst answer), [snd answer]))
    sources (combine translations outputs) /\ length translations = length outputs.
Proof.
  intros text decode generator hyps one_device prefix pad encode max_len t R N P sources NE ts os.
  pose proof (C85_translate text decode generator hyps one_device prefix pad encode max_len t R N P) as One.
  unfold new_translator, new_converter in N. destruct one_device; [|discriminate].
  destruct pad as [p|]; [|discriminate].
  assert (T : t = {| the_converter := {| target_prefix_seq := prefix |}; pad_idx := p; source_encode := encode; max_source_len := max_len |})
    by (destruct max_len as [[|n]|]; simpl in N; congruence).
  set (seqs := map (truncate t) (map (source_encode t) sources)).
  assert (Tk : forall s, truncate t (source_encode t s) = at_most max_len (encode s)) by (subst t; reflexivity).
  assert (C : target_prefix_seq (the_converter t) = prefix) by (subst t; reflexivity).
  clear T N.
  assert (SN : seqs <> []) by (unfold seqs; destruct sources; [congruence|discriminate]).
  assert (B : batch_translate decode generator t sources =
    match padded (pad_idx t) seqs with Err e => Err e | Ok (rows, lens) => batch_convert decode generator (the_converter t) rows lens end)
    by (unfold batch_translate; destruct sources; [congruence|reflexivity]).
  rewrite B. clear B.
  assert (Q : forall pads, length pads = length seqs ->
    batch_convert decode generator (the_converter t) (map (fun p => fst p ++ snd p) (combine seqs pads)) (map (@length nat) seqs)
    = let o := map (fun s => hyps s prefix) seqs in
      match first_texts decode 0 o with Err e => Err e | Ok ts => Ok (ts, o) end).
  { intros pads L. rewrite <- C, <- (do_convert_rows decode generator hyps R (the_converter t) seqs pads) by (rewrite ?C; auto).
    unfold batch_convert. destruct seqs as [|s0 seqs']; [congruence|]. destruct pads; [discriminate|]. reflexivity. }
  destruct (padded_ok (pad_idx t) seqs SN) as [[A [w ->]]|[A ->]].
  - rewrite Q by (rewrite map_length; reflexivity). cbv zeta.
    transitivity (os = map (fun s => hyps s prefix) seqs /\ first_texts decode 0 (map (fun s => hyps s prefix) seqs) = Ok ts).
    { destruct (first_texts decode 0 (map (fun s => hyps s prefix) seqs)); split; intro X; try discriminate.
      - injection X as <- <-. auto.
      - destruct X as [-> X]. injection X as ->. reflexivity.
      - destruct X; discriminate. }
    rewrite first_texts_ok. unfold seqs in *. rewrite !map_map. clear SN Q NE C.
    revert ts os A. induction sources as [|s sources IH]; intros ts os A.
    + split.
      * intros [-> F]. inversion F; subst. split; constructor.
      * intros [F L]. destruct ts, os; try discriminate; [|inversion F]. split; constructor.
    + cbn [map] in A. inversion A as [|? ? A1 A2]; subst x l. split.
      * intros [-> F]. cbn [map] in F. inversion F as [|? t0 ? ts0 (h & rest & E & ->) F']; subst.
        destruct (IH ts0 (map (fun x => hyps (truncate t (source_encode t x)) prefix) sources) A2) as [I _].
        destruct (I (conj eq_refl F')) as [I1 I2]. cbn [map combine length]. split; [|rewrite I2; reflexivity].
        constructor; [|exact I1]. cbn [fst snd]. rewrite E. apply One. cbv zeta. rewrite <- Tk. split; [exact A1|eauto].
      * intros [F L]. destruct ts as [|t0 ts]; [inversion F|]. destruct os as [|o0 os]; [discriminate|].
        cbn [combine] in F. inversion F as [|? ? ? ? H F']; subst. cbn [fst snd] in H.
        apply One in H. cbv zeta in H. destruct H as (_ & h & rest & E & X). injection X as -> ->.
        injection L as L. destruct (IH ts os A2) as [_ I]. destruct (I (conj F' L)) as [-> I2].
        cbn [map]. rewrite Tk, E. split; [reflexivity|]. constructor; [eauto|exact I2].
  - split; [discriminate|]. intros [F _]. exfalso. apply A. unfold seqs.
    remember (combine ts os) as l eqn:El. clear -F One Tk. induction F as [|s a ss l H F IH]; [constructor|].
    cbn [map]. constructor; [|exact IH]. apply One in H. cbv zeta in H. rewrite Tk. apply H.
Qed.

(** A generator that returns, for every row, the tokens in reverse order with
    the prompt in front, and the tokens as they are. *)
Definition mirror (rows : list (list nat)) (lens : list nat) (prompts : list (list nat)) (plens : list nat) : list (list (list nat)) :=
  map (fun x => [firstn (snd (snd x)) (fst (snd x)) ++ rev (firstn (snd (fst x)) (fst (fst x))); firstn (snd (fst x)) (fst (fst x))])
    (combine (combine rows lens) (combine prompts plens)).

Lemma mirror_rows : row_by_row mirror (fun s p => [p ++ rev s; s]).
Proof.
  unfold row_by_row, mirror. induction sources as [|s ss IH]; intros [|p ps] [|a pads] [|b ppads] L1 L2 L3; try discriminate; [reflexivity|].
  simpl in L1, L2, L3. cbn [combine map fst snd]. f_equal; [|apply IH; lia].
  rewrite !firstn_app, !Nat.sub_diag, !firstn_all, !firstn_O, !app_nil_r. reflexivity.
Qed.

Definition mirror_translator : @translator (list nat) :=
  {| the_converter := {| target_prefix_seq := [8; 9] |}; pad_idx := 0; source_encode := fun s => s ++ [3]; max_source_len := Some 3 |}.

Example C85_translate_case :
  row_by_row mirror (fun s p => [p ++ rev s; s])
  /\ new_translator true (Some [8; 9]) (Some 0) (fun s => s ++ [3]) (Some 3) = Ok mirror_translator
  /\ batch_translate (fun s => s) mirror mirror_translator [[5]; [6; 7; 6; 7]; [4; 5]]
     = Ok ([[8; 9; 3; 5]; [8; 9; 6; 7; 6]; [8; 9; 3; 5; 4]],
           [[[8; 9; 3; 5]; [5; 3]]; [[8; 9; 6; 7; 6]; [6; 7; 6]]; [[8; 9; 3; 5; 4]; [4; 5; 3]]]).
Proof. split; [exact mirror_rows|]. split; reflexivity. Qed.

(** ** C85: a translator that cannot work is not created *)
Theorem C85_created : forall (text : Type) one_device prefix pad (encode : text -> list nat) max_len,
  (exists t, new_translator one_device prefix pad encode max_len = Ok t) <->
  one_device = true /\ prefix <> None /\ pad <> None /\ max_len <> Some 0.
Proof.
  intros text one_device prefix pad encode max_len. unfold new_translator, new_converter.
  destruct one_device; simpl; [|split; [intros [t E]; discriminate|intros [E _]; discriminate]].
  destruct prefix as [p|]; [|split; [intros [t E]; discriminate|intros (_ & E & _); congruence]].
  destruct pad as [q|]; [|split; [intros [t E]; discriminate|intros (_ & _ & E & _); congruence]].
  destruct max_len as [[|n]|].
  - split; [intros [t E]; discriminate|intros (_ & _ & _ & E); congruence].
  - split; [intros _; repeat split; congruence|eauto].
  - split; [intros _; repeat split; congruence|eauto].
Qed.

(** ** C85 is refuted for long texts

    That the model translates what the tokenizer makes of a text, with the mark
    of the end of the source, is false for a text that is too long: the end
    mark is what is cut first, so the model is given a source without one. *)
Theorem C85_end_mark_refuted : forall (text : Type) (decode : list nat -> text) generator hypotheses_of
    prefix pad (encode : text -> list nat) n t source body eos,
  row_by_row generator hypotheses_of ->
  new_translator true (Some prefix) pad encode (Some n) = Ok t ->
  prefix <> [] ->
  encode source = body ++ [eos] -> ~ In eos body -> n <= length body ->
  exists tokens, ~ In eos tokens /\
    forall answer o, translate decode generator t source = Ok (answer, o) -> o = [hypotheses_of tokens prefix].
Proof.
  intros text decode generator hyps prefix pad encode n t source body eos R N P E I L.
  exists (firstn n body). split.
  - intro J. apply I. rewrite <- (firstn_skipn n body). apply in_or_app. auto.
  - intros answer o T. apply (C85_translate text decode generator hyps true prefix pad encode (Some n) t R N P) in T.
    cbv zeta in T. destruct T as (_ & h & rest & H & X). injection X as _ ->.
    cbn [at_most] in H. rewrite E, firstn_app in H. replace (n - length body) with 0 in H by lia.
    rewrite firstn_O, app_nil_r in H. rewrite H. reflexivity.
Qed.

Example C85_end_mark_refuted_case :
  translate (fun s => s) mirror mirror_translator [6; 7; 6; 7] = Ok (Some [8; 9; 6; 7; 6], [[[8; 9; 6; 7; 6]; [6; 7; 6]]])
  /\ source_encode mirror_translator [6; 7; 6; 7] = [6; 7; 6; 7] ++ [3] /\ ~ In 3 [6; 7; 6; 7] /\ 3 <= length [6; 7; 6; 7].
Proof. repeat split; simpl; [intuition discriminate|lia]. Qed.

(** ** C85: completions *)
Lemma do_complete_rows : forall (text : Type) (decode : list nat -> text) generator hyps seqs pads,
  lm_row_by_row generator hyps -> length pads = length seqs ->
  do_complete decode generator (map (fun p => fst p ++ snd p) (combine seqs pads)) (map (@length nat) seqs)
  = match first_texts decode 0 (map hyps seqs) with Err e => Err e | Ok ts => Ok (ts, map hyps seqs) end.
Proof. intros text decode generator hyps seqs pads R L. unfold do_complete. rewrite !R by exact L. reflexivity. Qed.

Theorem C85_complete : forall (text : Type) (decode : list nat -> text) generator hypotheses_of one_device encode c,
  lm_row_by_row generator hypotheses_of ->
  new_completer one_device encode = Ok c ->
  forall prompt (answer : option text * list (list (list nat))),
  complete decode generator c prompt = Ok answer <->
  encode prompt <> [] /\ exists best others,
    hypotheses_of (encode prompt) = best :: others /\ answer = (Some (decode best), [best :: others]).
Proof.
  intros text decode generator hyps one_device encode c R N prompt answer.
  unfold new_completer in N. destruct one_device; [|discriminate]. injection N as <-.
  unfold complete, full_layout. cbn [prompt_encode map].
  destruct (encode prompt) as [|x s].
  - simpl. split; [discriminate|intros [X _]; congruence].
  - destruct (Nat.ltb_spec (length (x :: s)) 1); [simpl in *; lia|].
    pose proof (do_complete_rows text decode generator hyps [x :: s] [[]] R eq_refl) as D. cbn [map combine fst snd] in D.
    rewrite app_nil_r in D. rewrite D. cbn [first_texts].
    destruct (hyps (x :: s)) as [|h rest].
    + split; [discriminate|intros (_ & h & rest & E & _); discriminate].
    + split.
      * intro E. injection E as <-. split; [discriminate|]. eauto.
      * intros (_ & h' & rest' & E & ->). injection E as <- <-. reflexivity.
Qed.

(** A batch of prompts is completed as its prompts are, though it is padded with
    a token of the vocabulary. *)
Theorem C85_batch_complete : forall (text : Type) (decode : list nat -> text) generator hypotheses_of one_device encode c,
  lm_row_by_row generator hypotheses_of ->
  new_completer one_device encode = Ok c ->
  forall prompts, prompts <> [] ->
  forall (completions : list text) (outputs : list (list (list nat))),
  batch_complete decode generator c prompts = Ok (completions, outputs) <->
  Forall2 (fun prompt answer => complete decode generator c prompt = Ok (Some (fst answer), [snd answer]))
    prompts (combine completions outputs) /\ length completions = length outputs.
Proof.
  intros text decode generator hyps one_device encode c R N prompts NE ts os.
  pose proof (C85_complete text decode generator hyps one_device encode c R N) as One.
  unfold new_completer in N. destruct one_device; [|discriminate]. injection N as <-.
  set (seqs := map encode prompts).
  assert (SN : seqs <> []) by (unfold seqs; destruct prompts; [congruence|discriminate]).
  assert (B : batch_complete decode generator {| prompt_encode := encode |} prompts =
    match padded 0 seqs with Err e => Err e | Ok (rows, lens) => do_complete decode generator rows lens end)
    by (unfold batch_complete; destruct prompts; [congruence|reflexivity]).
  rewrite B. clear B.
  destruct (padded_ok 0 seqs SN) as [[A [w ->]]|[A ->]].
  - rewrite (do_complete_rows text decode generator hyps) by (rewrite ?map_length; auto).
    transitivity (os = map hyps seqs /\ first_texts decode 0 (map hyps seqs) = Ok ts).
    { destruct (first_texts decode 0 (map hyps seqs)); split; intro X; try discriminate.
      - injection X as <- <-. auto.
      - destruct X as [-> X]. injection X as ->. reflexivity.
      - destruct X; discriminate. }
    rewrite first_texts_ok. unfold seqs in *. rewrite !map_map. clear SN NE.
    revert ts os A. induction prompts as [|s prompts IH]; intros ts os A.
    + split.
      * intros [-> F]. inversion F; subst. split; constructor.
      * intros [F L]. destruct ts, os; try discriminate; [|inversion F]. split; constructor.
    + cbn [map] in A. inversion A as [|? ? A1 A2]; subst x l. split.
      * intros [-> F]. cbn [map] in F. inversion F as [|? t0 ? ts0 (h & rest & E & ->) F']; subst.
        destruct (IH ts0 (map (fun x => hyps (encode x)) prompts) A2) as [I _].
        destruct (I (conj eq_refl F')) as [I1 I2]. cbn [map combine length]. split; [|rewrite I2; reflexivity].
        constructor; [|exact I1]. cbn [fst snd]. rewrite E. apply One. split; [exact A1|eauto].
      * intros [F L]. destruct ts as [|t0 ts]; [inversion F|]. destruct os as [|o0 os]; [discriminate|].
        cbn [combine] in F. inversion F as [|? ? ? ? H F']; subst. cbn [fst snd] in H.
        apply One in H. destruct H as (_ & h & rest & E & X). injection X as -> ->.
        injection L as L. destruct (IH ts os A2) as [_ I]. destruct (I (conj F' L)) as [-> I2].
        cbn [map]. rewrite E. split; [reflexivity|]. constructor; [eauto|exact I2].
  - split; [discriminate|]. intros [F _]. exfalso. apply A. unfold seqs.
    remember (combine ts os) as l eqn:El. clear -F One. induction F as [|s a ss l H F IH]; [constructor|].
    cbn [map]. constructor; [|exact IH]. apply One in H. apply H.
Qed.

Definition echo (rows : list (list nat)) (lens : list nat) : list (list (list nat)) :=
  map (fun x => [firstn (snd x) (fst x) ++ [2]]) (combine rows lens).

Example C85_complete_case :
  lm_row_by_row echo (fun s => [s ++ [2]])
  /\ batch_complete (fun s => s) echo {| prompt_encode := fun s => 1 :: s |} [[5; 0]; []; [7]]
     = Ok ([[1; 5; 0; 2]; [1; 2]; [1; 7; 2]], [[[1; 5; 0; 2]]; [[1; 2]]; [[1; 7; 2]]]).
Proof.
  split; [|reflexivity]. unfold lm_row_by_row, echo.
  induction prompts as [|s ss IH]; intros [|a pads] L; try discriminate; [reflexivity|].
  simpl in L. cbn [combine map fst snd]. f_equal; [|apply IH; lia].
  rewrite firstn_app, Nat.sub_diag, firstn_all, firstn_O, app_nil_r. reflexivity.
Qed.

(** ** C85: no texts *)
Theorem C85_no_texts : forall (text : Type) (decode : list nat -> text) generator lm_generator t c,
  batch_translate decode generator t [] = Err Empty_batch
  /\ batch_complete decode lm_generator c [] = Err Empty_batch.
Proof. intros. split; reflexivity. Qed.

Print Assumptions C85_translate.
Print Assumptions C85_batch_translate.
Print Assumptions C85_created.
Print Assumptions C85_end_mark_refuted.
Print Assumptions C85_complete.
Print Assumptions C85_batch_complete.
Print Assumptions C85_no_texts.
