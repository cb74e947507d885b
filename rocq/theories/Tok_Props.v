(** C81: tokenizers. *)
From Coq Require Import String ZArith List Bool Lia.
From Verif Require Import Spm_Model Spm_Proofs Tok_Model Tok_Spec.
Import ListNotations.
Local Open Scope Z_scope.

Lemma special_from_none : forall l n t, ~ In t l -> special_from n l t = None.
Proof.
  induction l as [|a l IH]; intros n t H; [reflexivity|]. cbn. rewrite IH by (intros I; apply H; now right).
  destruct (String.eqb_spec a t) as [->|]; [exfalso; apply H; now left|reflexivity].
Qed.
Lemma special_from_at : forall l n k t, NoDup l -> nth_error l k = Some t -> special_from n l t = Some (n + Z.of_nat k).
Proof.
  induction l as [|a l IH]; intros n k t D H; destruct k as [|k]; try discriminate.
  - injection H as ->. cbn. inversion D as [|? ? N _]; subst. rewrite special_from_none by exact N.
    rewrite String.eqb_refl. f_equal. lia.
  - cbn. inversion D as [|? ? _ D']; subst. rewrite (IH (n + 1) k t D' H). f_equal. lia.
Qed.
Lemma special_from_bounds : forall l n t i, special_from n l t = Some i -> n <= i < n + Z.of_nat (length l).
Proof.
  induction l as [|a l IH]; intros n t i H; [discriminate|]. cbn [special_from length] in *.
  destruct (special_from (n + 1) l t) as [j|] eqn:E.
  - injection H as <-. apply IH in E. lia.
  - destruct (String.eqb a t); [|discriminate]. injection H as <-. lia.
Qed.

(* ------------------------------------------------------------------ *)
(** C81 (special tokens).  The special tokens follow the tokens of the file in the
    order they are given; every index of a token and of an encoded text is less
    than the size of the vocabulary. *)
Theorem C81_special : forall e, encoding_laws e -> special_ok e ->
  (forall k t, nth_error (special_tokens e) k = Some t -> single_token e t = Some (num_tokens e + Z.of_nat k)) /\
  (forall t i, single_token e t = Some i -> 0 <= i < n_vocab e) /\
  (forall parts i, In i (encode_text e parts) -> 0 <= i < n_vocab e).
Proof.
  intros e L [D Sp]. unfold n_vocab. split; [|split].
  - intros k t H. unfold single_token. rewrite Sp by (eapply nth_error_In; eauto). now apply special_from_at.
  - intros t i H. unfold single_token in H. destruct (rank e t) as [j|] eqn:R.
    + injection H as <-. apply (el_rank e L) in R. lia.
    + apply special_from_bounds in H. pose proof (el_num e L). lia.
  - intros parts i H. unfold encode_text in H. apply in_flat_map in H. destruct H as (p & _ & H).
    destruct p as [s|t]; cbn in H; [apply (el_bpe e L) in H; lia|].
    destruct (special_index e t) as [j|] eqn:E; [|contradiction]. destruct H as [<-|[]].
    apply special_from_bounds in E. pose proof (el_num e L). lia.
Qed.
Print Assumptions C81_special.

(** A tokenizer of single characters. *)
Definition chars : list string := ["a"; "b"; "c"]%string.
Definition toy : encoding :=
  Encoding 3 (fun t => position t chars 0)
    (fun i => nth (Z.to_nat i) chars ""%string)
    (fun s => if String.eqb s "ab" then [0; 1] else if String.eqb s "c" then [2] else [])
    ["<|begin_of_text|>"; "<|eot_id|>"]%string.
Example C81_special_case :
  encode_text toy [Plain "ab"; Special "<|eot_id|>"; Plain "c"] = [0; 1; 4; 2] /\ n_vocab toy = 5.
Proof. split; vm_compute; reflexivity. Qed.

(* ------------------------------------------------------------------ *)
(** C81 (LLaMA).  Whatever the number of tokens in the file, the special tokens of
    LLaMA 3 and 4 are all different and there are 256 and 2048 of them, so that
    the size of the vocabulary and the indices of the special tokens are known,
    and the beginning, the end and the padding can be told apart. *)
Lemma llama_distinct : distinct llama_special = true. Proof. vm_compute. reflexivity. Qed.
Lemma llama4_distinct : distinct llama4_special = true. Proof. vm_compute. reflexivity. Qed.

Lemma maybe_at : forall e k t, special_ok e -> nth_error (special_tokens e) k = Some t -> t <> ""%string ->
  maybe_index e (Some t) = Some (Some (num_tokens e + Z.of_nat k)).
Proof.
  intros e k t [D Sp] H N. unfold maybe_index. rewrite (proj2 (String.eqb_neq t "") N).
  unfold single_token. rewrite Sp by (eapply nth_error_In; eauto).
  unfold special_index. rewrite (special_from_at _ _ _ _ D H). reflexivity.
Qed.

Theorem C81_llama : forall e use_eot,
  (forall t, In t (special_tokens e) -> rank e t = None) ->
  let n := num_tokens e in
  (special_tokens e = llama_special ->
     llama_vocab e use_eot = Some (VocabInfo (n + 256) None (Some n) (Some (n + if use_eot then 9 else 1)) (Some (n + 4)))) /\
  (special_tokens e = llama4_special ->
     llama4_vocab e use_eot = Some (VocabInfo (n + 2048) None (Some n) (Some (n + if use_eot then 8 else 1)) (Some (n + 18)))).
Proof.
  intros e use_eot Sp n. split; intros E.
  - assert (Ok : special_ok e) by (split; [rewrite E; apply distinct_NoDup, llama_distinct|exact Sp]).
    unfold llama_vocab, tt_vocab.
    change (maybe_index e None) with (@Some (option Z) None).
    rewrite (maybe_at e 0 _ Ok), (maybe_at e 4 "<|finetune_right_pad_id|>" Ok); try (rewrite E; reflexivity); try discriminate.
    replace (maybe_index e (Some (llama_eos use_eot))) with (Some (Some (n + if use_eot then 9 else 1))).
    + unfold n_vocab. rewrite E. change (Z.of_nat (length llama_special)) with 256. fold n.
      replace (n + Z.of_nat 0) with n by lia. reflexivity.
    + symmetry. destruct use_eot; [apply (maybe_at e 9 _ Ok)|apply (maybe_at e 1 _ Ok)]; try (rewrite E; reflexivity); discriminate.
  - assert (Ok : special_ok e) by (split; [rewrite E; apply distinct_NoDup, llama4_distinct|exact Sp]).
    assert (Ln : Z.of_nat (length llama4_special) = 2048) by (vm_compute; reflexivity).
    assert (N0 : nth_error llama4_special 0 = Some "<|begin_of_text|>"%string) by (vm_compute; reflexivity).
    assert (N1 : nth_error llama4_special 1 = Some "<|end_of_text|>"%string) by (vm_compute; reflexivity).
    assert (N8 : nth_error llama4_special 8 = Some "<|eot|>"%string) by (vm_compute; reflexivity).
    assert (N18 : nth_error llama4_special 18 = Some "<|finetune_right_pad|>"%string) by (vm_compute; reflexivity).
    unfold llama4_vocab, tt_vocab. change (maybe_index e None) with (@Some (option Z) None).
    rewrite (maybe_at e 0 _ Ok), (maybe_at e 18 "<|finetune_right_pad|>" Ok); try (rewrite E; assumption); try discriminate.
    replace (maybe_index e (Some (llama4_eos use_eot))) with (Some (Some (n + if use_eot then 8 else 1))).
    + unfold n_vocab. rewrite E, Ln. fold n. replace (n + Z.of_nat 0) with n by lia. reflexivity.
    + symmetry. destruct use_eot; [apply (maybe_at e 8 _ Ok)|apply (maybe_at e 1 _ Ok)]; try (rewrite E; assumption); discriminate.
Qed.
Print Assumptions C81_llama.

Example C81_llama_case :
  llama_vocab (Encoding 3 (fun t => position t chars 0) (fun _ => ""%string) (fun _ => []) llama_special) true
  = Some (VocabInfo 259 None (Some 3) (Some 12) (Some 7)).
Proof. vm_compute. reflexivity. Qed.

(* ------------------------------------------------------------------ *)
(** C81 (encoding and decoding).  An encoded text is the prefix, the text and the
    suffix.  When it is decoded without special tokens, the text comes back
    without the special tokens that are written out in it; the text comes back
    as it was if there are none.  What is missing: see [C81_roundtrip_refuted]. *)
Lemma join_app : forall a b, join (a ++ b) = (join a ++ join b)%string.
Proof.
  induction a as [|s a IH]; intros b; [reflexivity|]. cbn. rewrite IH.
  assert (A : forall x y z : string, (x ++ (y ++ z) = (x ++ y) ++ z)%string)
    by (induction x; intros; cbn; [reflexivity|now rewrite IHx]).
  apply A.
Qed.
Lemma append_empty_r : forall s, (s ++ "")%string = s.
Proof. induction s; cbn; [reflexivity|now rewrite IHs]. Qed.
Lemma tt_encode_eq : forall t parts, tt_encode t parts = prefix_indices t ++ encode_text (enc t) parts ++ suffix_indices t.
Proof.
  intros t parts. unfold tt_encode. destruct (prefix_indices t), (suffix_indices t);
    cbn [app]; rewrite ?app_nil_r; try reflexivity. now rewrite <- app_assoc.
Qed.
Lemma filter_none : forall (f : Z -> bool) l, (forall i, In i l -> f i = false) -> filter f l = [].
Proof. induction l as [|a l IH]; intros H; [reflexivity|]. cbn. rewrite (H a) by (now left). apply IH. intros. apply H. now right. Qed.
Lemma filter_all : forall (f : Z -> bool) l, (forall i, In i l -> f i = true) -> filter f l = l.
Proof. induction l as [|a l IH]; intros H; [reflexivity|]. cbn. rewrite (H a) by (now left). f_equal. apply IH. intros. apply H. now right. Qed.

Lemma skip_parts : forall e parts, encoding_laws e ->
  decode_all e (filter (fun i => i <? num_tokens e) (encode_text e parts)) = plain_of parts.
Proof.
  intros e parts L. unfold decode_all, plain_of, encode_text. induction parts as [|p parts IH]; [reflexivity|].
  cbn [flat_map map]. rewrite filter_app, map_app, join_app, IH. cbn [join]. f_equal.
  destruct p as [s|t]; cbn [encode_part plain_of_part].
  - rewrite filter_all by (intros i I; apply Z.ltb_lt; apply (el_bpe e L) in I; lia).
    rewrite <- (el_text e L s) at 2. f_equal. apply map_ext_in. intros i I. unfold text_of_index.
    apply (el_bpe e L) in I. now rewrite (proj2 (Z.ltb_lt i (num_tokens e))) by lia.
  - destruct (special_index e t) as [i|] eqn:E; [|reflexivity].
    apply special_from_bounds in E. rewrite filter_none; [reflexivity|].
    intros j [<-|[]]. apply Z.ltb_ge. lia.
Qed.

Lemma all_parts : forall e parts, encoding_laws e -> special_ok e -> parts_ok e parts ->
  decode_all e (encode_text e parts) = text_of parts.
Proof.
  intros e parts L [D Sp] P. unfold decode_all, text_of, encode_text. induction parts as [|p parts IH]; [reflexivity|].
  cbn [flat_map map]. rewrite map_app, join_app, IH by (intros t I; apply P; now right). cbn [join]. f_equal.
  destruct p as [s|t]; cbn [encode_part text_of_part].
  - rewrite <- (el_text e L s) at 2. f_equal. apply map_ext_in. intros i I. unfold text_of_index.
    apply (el_bpe e L) in I. now rewrite (proj2 (Z.ltb_lt i (num_tokens e))) by lia.
  - assert (I : In t (special_tokens e)) by (apply P; now left). apply In_nth_error in I. destruct I as (k & I).
    unfold special_index. rewrite (special_from_at _ _ _ _ D I). cbn [map join]. unfold text_of_index.
    rewrite (proj2 (Z.ltb_ge _ _)) by lia. replace (num_tokens e + Z.of_nat k - num_tokens e) with (Z.of_nat k) by lia.
    rewrite Nat2Z.id. rewrite (nth_error_nth _ _ _ I). apply append_empty_r.
Qed.

Lemma indices_of_special : forall e l is, special_ok e -> (forall t, In t l -> In t (special_tokens e)) ->
  indices_of e l = Some is ->
  Forall2 (fun t i => exists k, nth_error (special_tokens e) k = Some t /\ i = num_tokens e + Z.of_nat k) l is.
Proof.
  intros e l. induction l as [|t l IH]; intros is Ok H E; cbn in E; [injection E as <-; constructor|].
  destruct (single_token e t) as [i|] eqn:S; [|discriminate]. destruct (indices_of e l) as [is'|]; [|discriminate].
  injection E as <-. constructor; [|apply IH; auto; intros; apply H; now right].
  assert (I : In t (special_tokens e)) by (apply H; now left). apply In_nth_error in I. destruct I as (k & I).
  exists k. split; [exact I|]. destruct Ok as [D Sp]. unfold single_token in S.
  rewrite Sp in S by (eapply nth_error_In; eauto). unfold special_index in S. rewrite (special_from_at _ _ _ _ D I) in S. congruence.
Qed.

Theorem C81_roundtrip_partial : forall e prefix suffix t parts,
  encoding_laws e -> special_ok e ->
  (forall s, In s prefix \/ In s suffix -> In s (special_tokens e)) ->
  make_tt e prefix suffix = Some t ->
  tt_encode t parts = prefix_indices t ++ encode_text e parts ++ suffix_indices t /\
  tt_decode e true (tt_encode t parts) = plain_of parts /\
  (parts_ok e parts -> tt_decode e false (tt_encode t parts) = (join prefix ++ text_of parts ++ join suffix)%string) /\
  ((forall s, ~ In (Special s) parts) -> tt_decode e true (tt_encode t parts) = text_of parts).
Proof.
  intros e prefix suffix t parts L Ok Sp Mk. unfold make_tt in Mk.
  destruct (indices_of e prefix) as [p|] eqn:Ep; [|discriminate].
  destruct (indices_of e suffix) as [s|] eqn:Es; [|discriminate]. injection Mk as <-.
  pose proof (indices_of_special e prefix p Ok (fun x I => Sp x (or_introl I)) Ep) as Fp.
  pose proof (indices_of_special e suffix s Ok (fun x I => Sp x (or_intror I)) Es) as Fs.
  assert (No : forall l is, Forall2 (fun t i => exists k, nth_error (special_tokens e) k = Some t /\ i = num_tokens e + Z.of_nat k) l is ->
      filter (fun i => i <? num_tokens e) is = [] /\ decode_all e is = join l).
  { intros l is F. induction F as [|x i l is (k & Hk & ->) F [IH1 IH2]]; [split; reflexivity|]. cbn [filter].
    rewrite (proj2 (Z.ltb_ge _ _)) by lia. split; [exact IH1|]. unfold decode_all in *. cbn [map join]. rewrite IH2. f_equal.
    unfold text_of_index. rewrite (proj2 (Z.ltb_ge _ _)) by lia.
    replace (num_tokens e + Z.of_nat k - num_tokens e) with (Z.of_nat k) by lia.
    rewrite Nat2Z.id. exact (nth_error_nth _ _ _ Hk). }
  destruct (No _ _ Fp) as [P1 P2]. destruct (No _ _ Fs) as [S1 S2].
  assert (Q : tt_decode e true (tt_encode (TtEncoder e p s) parts) = plain_of parts).
  { rewrite tt_encode_eq. cbn [prefix_indices suffix_indices enc]. unfold tt_decode.
    rewrite !filter_app, P1, S1, app_nil_r. cbn [app]. apply skip_parts, L. }
  split; [apply tt_encode_eq|]. split; [exact Q|]. split.
  - intros Pk. rewrite tt_encode_eq. cbn [prefix_indices suffix_indices enc]. unfold tt_decode, decode_all in *.
    rewrite !map_app, !join_app, P2, S2. f_equal. f_equal. exact (all_parts e parts L Ok Pk).
  - intros N. rewrite Q. unfold plain_of, text_of. f_equal. apply map_ext_in. intros [x|x] I; [reflexivity|].
    exfalso. exact (N x I).
Qed.
Print Assumptions C81_roundtrip_partial.

Example C81_roundtrip_case :
  match make_tt toy ["<|begin_of_text|>"]%string ["<|eot_id|>"]%string with
  | Some t => tt_encode t [Plain "ab"] = [3; 0; 1; 4] /\ tt_decode toy true (tt_encode t [Plain "ab"]) = "ab"%string
  | None => False
  end.
Proof. vm_compute. split; reflexivity. Qed.

(** The text does not come back in general, and the user's text can hold tokens
    that end the sequence: special tokens that are written out in a text are
    encoded as such, in every mode (tiktoken.py 171). *)
Theorem C81_roundtrip_refuted :
  exists e t parts,
    special_ok e /\ make_tt e ["<|begin_of_text|>"]%string ["<|eot_id|>"]%string = Some t /\
    text_of parts = "ab<|eot_id|>c"%string /\
    tt_decode e true (tt_encode t parts) = "abc"%string /\
    exists before after, tt_encode t parts = before ++ [4] ++ after ++ [4] /\ single_token e "<|eot_id|>" = Some 4.
Proof.
  exists toy. eexists. exists [Plain "ab"; Special "<|eot_id|>"; Plain "c"].
  split; [split; [apply distinct_NoDup; vm_compute; reflexivity|]|].
  - intros t [<-|[<-|[]]]; vm_compute; reflexivity.
  - split; [vm_compute; reflexivity|]. split; [reflexivity|]. split; [vm_compute; reflexivity|].
    exists [3; 0; 1], [2]. split; vm_compute; reflexivity.
Qed.
Print Assumptions C81_roundtrip_refuted.

(* ------------------------------------------------------------------ *)
(** C81 (modes).  A prompt and its response that are encoded separately make up a
    sequence that is opened once, by what the default mode opens it with, and
    closed once, by EOS; unknown modes, tasks and languages are refused. *)
Theorem C81_modes : forall create eos,
  (create = basic_encoder /\ eos = "</s>"%string) \/ create = llama_encoder eos \/ create = qwen_encoder eos ->
  exists bos,
    create None None None = Tokens bos [eos] /\
    create None None (Some "default"%string) = Tokens bos [eos] /\
    create None None (Some "prompt"%string) = Tokens bos [] /\
    create None None (Some "prompt_response"%string) = Tokens [] [eos] /\
    (forall task lang mode, task <> None \/ lang <> None -> create task lang mode = ValueError) /\
    (forall mode, ~ In mode ["default"; "prompt"; "prompt_response"; "as_is"]%string ->
       create None None (Some mode) = NotSupported) /\
    (forall e d p r question answer, 
       make_tt e bos [eos] = Some d -> make_tt e bos [] = Some p -> make_tt e [] [eos] = Some r ->
       tt_encode p question ++ tt_encode r answer
       = prefix_indices d ++ (encode_text e question ++ encode_text e answer) ++ suffix_indices d).
Proof.
  assert (G : forall a bos eos, 
    let create := fun task lang mode => if given task then ValueError else if given lang then ValueError else by_mode a bos eos mode in
    create None None None = Tokens bos [eos] /\
    create None None (Some "default"%string) = Tokens bos [eos] /\
    create None None (Some "prompt"%string) = Tokens bos [] /\
    create None None (Some "prompt_response"%string) = Tokens [] [eos] /\
    (forall task lang mode, task <> None \/ lang <> None -> create task lang mode = ValueError) /\
    (forall mode, ~ In mode ["default"; "prompt"; "prompt_response"; "as_is"]%string ->
       create None None (Some mode) = NotSupported) /\
    (forall e d p r question answer, 
       make_tt e bos [eos] = Some d -> make_tt e bos [] = Some p -> make_tt e [] [eos] = Some r ->
       tt_encode p question ++ tt_encode r answer
       = prefix_indices d ++ (encode_text e question ++ encode_text e answer) ++ suffix_indices d)).
  { intros a bos eos create. do 4 (split; [reflexivity|]). split; [|split].
    - intros [t|] [l|] m [H|H]; try congruence; reflexivity.
    - intros mode H. unfold create. cbn [given]. unfold by_mode.
      destruct (String.eqb_spec mode "default"); [exfalso; apply H; left; congruence|].
      destruct (String.eqb_spec mode "prompt"); [exfalso; apply H; right; left; congruence|].
      destruct (String.eqb_spec mode "prompt_response"); [exfalso; apply H; right; right; left; congruence|].
      destruct (String.eqb_spec mode "as_is"); [exfalso; apply H; right; right; right; left; congruence|].
      rewrite andb_false_r. reflexivity.
    - intros e d p r q w Hd Hp Hr. unfold make_tt in *. change (indices_of e []) with (Some (@nil Z)) in *.
      destruct (indices_of e bos) as [b|]; [|discriminate]. destruct (indices_of e [eos]) as [s|]; [|discriminate].
      injection Hd as <-. injection Hp as <-. injection Hr as <-. rewrite !tt_encode_eq. cbn [prefix_indices suffix_indices enc].
      rewrite app_nil_r. cbn [app]. now rewrite <- !app_assoc. }
  intros create eos [[-> ->]|[-> | ->]].
  - exists ["<s>"%string]. exact (G false _ _).
  - exists ["<|begin_of_text|>"%string]. exact (G true _ _).
  - exists []. exact (G true _ _).
Qed.
Print Assumptions C81_modes.

Example C81_modes_case :
  match make_tt toy ["<|begin_of_text|>"]%string [], make_tt toy [] ["<|eot_id|>"]%string with
  | Some p, Some r => tt_encode p [Plain "ab"] ++ tt_encode r [Plain "c"] = [3; 0; 1; 2; 4]
  | _, _ => False
  end.
Proof. vm_compute. reflexivity. Qed.

(** In the mode "as_is" nothing is put around a text. *)
Theorem C81_as_is : forall create eos,
  create = llama_encoder eos \/ create = qwen_encoder eos \/ create = gemma_encoder ->
  create None None (Some "as_is"%string) = Tokens [] [] /\
  forall e t parts, make_tt e [] [] = Some t -> tt_encode t parts = encode_text e parts.
Proof.
  intros create eos H. split; [now destruct H as [-> | [-> | ->]]|].
  intros e t parts E. unfold make_tt in E. cbn in E. injection E as <-. now rewrite tt_encode_eq, app_nil_r.
Qed.
Print Assumptions C81_as_is.
Example C81_as_is_case : llama_encoder "<|eot_id|>" None None (Some "as_is"%string) = Tokens [] [].
Proof. reflexivity. Qed.

(** The statement is false of Gemma3n: there is no mode for responses, and in no
    mode a text is closed by EOS (gemma3n/tokenizer.py 73-87). *)
Theorem C81_modes_refuted :
  gemma_encoder None None (Some "prompt_response"%string) = ValueError /\
  gemma_encoder None None None <> ValueError /\
  forall mode bos suffix, gemma_encoder None None mode = Tokens bos suffix -> suffix = [].
Proof.
  split; [reflexivity|]. split; [discriminate|]. intros mode bos suffix H. unfold gemma_encoder in H. cbn in H.
  destruct mode as [m|]; [|injection H as _ <-; reflexivity].
  destruct (_ || _); [injection H as _ <-; reflexivity|]. destruct (String.eqb m "as_is"); [injection H as _ <-; reflexivity|discriminate].
Qed.
Print Assumptions C81_modes_refuted.

(* ------------------------------------------------------------------ *)
(** C81 (size).  The indices of the special tokens are less than the size of the
    vocabulary.  Proved of Hugging Face tokenizers for special tokens in the base
    vocabulary; of tiktoken see [C81_special]. *)
Lemma position_bounds : forall t l i j, position t l i = Some j -> i <= j < i + Z.of_nat (length l).
Proof.
  induction l as [|a l IH]; intros i j H; [discriminate|]. cbn [position length] in *.
  destruct (String.eqb a t); [injection H as <-; lia|]. apply IH in H. lia.
Qed.
Lemma position_app : forall t l r i, In t l -> position t (l ++ r) i = position t l i.
Proof.
  induction l as [|a l IH]; intros r i H; [contradiction|]. cbn.
  destruct (String.eqb_spec a t) as [|N]; [reflexivity|]. apply IH. destruct H; [contradiction|assumption].
Qed.
Lemma position_in : forall t l i, In t l -> exists j, position t l i = Some j.
Proof.
  induction l as [|a l IH]; intros i H; [contradiction|]. cbn.
  destruct (String.eqb_spec a t) as [|N]; [eauto|]. apply IH. destruct H; [contradiction|assumption].
Qed.

Theorem C81_hf_size_partial : forall h unk bos eos pad i,
  (forall o t, In o [unk; bos; eos; pad; own_unk h; own_bos h; own_eos h; own_pad h] -> o = Some t -> In t (base h)) ->
  let v := hf_vocab h unk bos eos pad in
  In (Some i) [unk_idx v; bos_idx v; eos_idx v; pad_idx v] -> 0 <= i < size v.
Proof.
  intros h unk bos eos pad i B v.
  assert (T : forall t j, In t (base h) -> to_id h t = Some j -> 0 <= j < Z.of_nat (length (base h))).
  { intros t j I E. unfold to_id in E. rewrite position_app in E by exact I.
    destruct (position_in t (base h) 0 I) as (k & K). rewrite K in E. injection E as <-. apply position_bounds in K. lia. }
  assert (Ix : forall o own, (forall t, o = Some t -> In t (base h)) -> (forall t, own = Some t -> In t (base h)) ->
     hf_idx h o own = Some i -> 0 <= i < Z.of_nat (length (base h))).
  { intros o own Ho Hw E. unfold hf_idx in E. destruct o as [t|].
    - destruct (String.eqb t ""); [destruct own as [w|]; [|discriminate]; exact (T w i (Hw w eq_refl) E)|exact (T t i (Ho t eq_refl) E)].
    - destruct own as [w|]; [|discriminate]. exact (T w i (Hw w eq_refl) E). }
  cbn [v hf_vocab size unk_idx bos_idx eos_idx pad_idx]. intros H.
  destruct H as [H|[H|[H|[H|[]]]]]; (eapply Ix; [| |exact H]); intros t E; (eapply B; [|exact E]); cbn; tauto.
Qed.
Print Assumptions C81_hf_size_partial.

Definition toy_hf : hf := Hf ["a"; "b"; "<unk>"]%string ["<|endoftext|>"; "<|im_end|>"]%string (Some "<unk>"%string) None None None.
Example C81_hf_size_case : hf_vocab toy_hf None None (Some "a"%string) None = VocabInfo 3 (Some 2) None (Some 0) None.
Proof. vm_compute. reflexivity. Qed.

(** The statement is false of special tokens that are added to the base
    vocabulary, as the ones of Qwen and LLaMA 3 are: the size that is told does
    not count them (hg.py 70, 82). *)
Theorem C81_hf_size_refuted :
  exists h i, eos_idx (qwen_vocab h true) = Some i /\ i >= size (qwen_vocab h true).
Proof. exists toy_hf, 4. split; vm_compute; [reflexivity|discriminate]. Qed.
Print Assumptions C81_hf_size_refuted.

(** C81 (telling EOS and PAD apart).  It is false of Qwen base models, whose
    padding is EOS; OLMo base models have one token for the beginning, the end and
    the unknown.  Generators never generate the padding, so that with such a
    vocabulary no sequence ends before the greatest length
    ([C34_pad_is_eos], [C37_pad_is_eos]; qwen/tokenizer.py 167-175,
    olmo/tokenizer.py 127-135). *)
Theorem C81_distinct_refuted :
  (forall h, eos_idx (qwen_vocab h false) = pad_idx (qwen_vocab h false)) /\
  (exists h, eos_idx (qwen_vocab h false) <> None /\ eos_idx (qwen_vocab h true) <> pad_idx (qwen_vocab h true)) /\
  (forall h, eos_idx (olmo_vocab h false) = bos_idx (olmo_vocab h false) /\ eos_idx (olmo_vocab h false) = unk_idx (olmo_vocab h false)).
Proof.
  split; [reflexivity|]. split; [exists toy_hf; split; vm_compute; discriminate|]. intros h. split; reflexivity.
Qed.
Print Assumptions C81_distinct_refuted.

(* ------------------------------------------------------------------ *)
(** C81 (history).  What a call of the tokenizer that wraps Hugging Face tokenizers
    gives does not depend on the earlier calls.  Proved for users that always
    ask for the same device and for the same treatment of special tokens. *)
Theorem C81_history_partial : forall encode_ids decode_ids device skip calls,
  Forall (fun c => match c with Encode _ d => d = device | Decode _ s => s = skip end) calls ->
  hg_run encode_ids decode_ids hg_init calls = map (alone encode_ids decode_ids) calls.
Proof.
  intros E D device skip calls F.
  assert (G : forall h, (the_encoder h = None \/ the_encoder h = Some device) -> (the_decoder h = None \/ the_decoder h = Some skip) ->
    hg_run E D h calls = map (alone E D) calls).
  { induction F as [|c calls Hc F IH]; intros h He Hd; [reflexivity|]. cbn [hg_run map].
    destruct c as [t d|ids s]; subst; cbn [hg_call alone].
    - unfold hg_encoder. destruct He as [He|He]; rewrite He; cbn; f_equal; apply IH; cbn; auto.
    - unfold hg_decoder. destruct Hd as [Hd|Hd]; rewrite Hd; cbn; f_equal; apply IH; cbn; auto. }
  apply G; now left.
Qed.
Print Assumptions C81_history_partial.

(** The statement is false of users that ask for different things: the encoder and
    the decoder that were made first are given to everyone, so that special
    tokens are not skipped, and tensors are on another device than the one that
    is asked for (hg/tokenizer.py 98-112). *)
Definition toy_decode (skip : bool) (ids : list Z) : string := if skip then "ab" else "ab</s>".
Theorem C81_history_refuted :
  exists calls,
    hg_run (fun _ => [0]) toy_decode hg_init calls
    = [Text "ab</s>"; Text "ab</s>"; Ids [0] "cpu"; Ids [0] "cpu"]%string /\
    map (alone (fun _ => [0]) toy_decode) calls
    = [Text "ab</s>"; Text "ab"; Ids [0] "cpu"; Ids [0] "cuda"]%string.
Proof.
  exists [Decode [0; 1] false; Decode [0; 1] true; Encode "a" "cpu"; Encode "a" "cuda"]. split; reflexivity.
Qed.
Print Assumptions C81_history_refuted.
