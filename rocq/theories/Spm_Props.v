(** C80: SentencePiece encoders and decoders. *)
From Coq Require Import String ZArith List Bool Lia.
From Verif Require Import Spm_Model Spm_Spec Spm_Proofs.
Import ListNotations.
Local Open Scope Z_scope.

(* ------------------------------------------------------------------ *)
(** C80 (encoding).  Encoding never writes outside of its tensor, and gives the
    indices of the prefix, of the text and of the suffix in this order, the
    other way around for a reversing encoder; the tokens an encoder gives are
    the ones of the indices; and the prefix and suffix an encoder tells are the
    ones it adds. *)
Theorem C80_encode : forall e cut,
  exists ids,
    encode e cut = Some ids /\
    ids = map (token_to_index (model e)) (encode_as_tokens e cut) /\
    encode_as_tokens e cut = (if reverse e then rev (all_tokens e cut) else all_tokens e cut) /\
    (if reverse e then rev ids else ids)
      = match prefix_indices e with Some l => l | None => [] end
        ++ map (token_to_index (model e)) cut
        ++ match suffix_indices e with Some l => l | None => [] end /\
    (prefix_indices e = None <-> prefix e = []) /\
    (suffix_indices e = None <-> suffix e = []).
Proof.
  intros e cut. eexists. split; [apply encode_eq|]. split; [reflexivity|]. split; [reflexivity|].
  assert (T : forall l, match tensor_of l with Some l => l | None => [] end = l) by (destruct l; reflexivity).
  unfold prefix_indices, suffix_indices. rewrite !T. unfold encode_as_tokens.
  split; [|split].
  - destruct (reverse e).
    + rewrite map_rev, rev_involutive, !map_app. reflexivity.
    + rewrite !map_app. reflexivity.
  - unfold prefix_token_indices. destruct (prefix e); cbn; split; congruence.
  - unfold suffix_token_indices. destruct (suffix e); cbn; split; congruence.
Qed.
Print Assumptions C80_encode.

Definition toy : proto :=
  Proto [Piece "<unk>" Unknown; Piece "<s>" Control; Piece "</s>" Control; Piece "a" Normal; Piece "b" Normal]
    "<s>" "</s>" "<pad>".
Example C80_encode_case :
  encode (Encoder toy ["<s>"] ["</s>"] false)%string ["a"; "z"; "b"]%string = Some [1; 3; 0; 4; 2] /\
  encode (Encoder toy ["<s>"] ["</s>"] true)%string ["a"; "z"; "b"]%string = Some [2; 4; 0; 3; 1] /\
  encode_as_tokens (Encoder toy ["<s>"] ["</s>"] true)%string ["a"; "z"; "b"]%string = ["</s>"; "b"; "z"; "a"; "<s>"]%string.
Proof. repeat split; vm_compute; reflexivity. Qed.

(* ------------------------------------------------------------------ *)
(** C80 (bounds).  Every index that an encoder of a loaded model gives is an
    index of its vocabulary. *)
Theorem C80_bounds : forall p symbols m e cut ids,
  load_model p symbols = Some m -> model e = m -> encode e cut = Some ids ->
  Forall (fun i => 0 <= i < vocabulary_size m) ids.
Proof.
  intros p symbols m e cut ids L <- E. rewrite encode_eq in E. injection E as <-.
  apply Forall_forall. intros i I. apply in_map_iff in I. destruct I as (t & <- & _).
  eapply index_bounds. exact L.
Qed.
Print Assumptions C80_bounds.

Example C80_bounds_case : load_model toy ["<pad>"%string] <> None.
Proof. vm_compute. discriminate. Qed.

(* ------------------------------------------------------------------ *)
(** C80 (decoding).  A decoder that reads in the direction of the encoder joins
    the tokens of the prefix, of the text and of the suffix in their order, a
    token that is not in the vocabulary being replaced by the unknown piece; it
    is the same text as the one of the tokens when all of them are in the
    vocabulary. *)
Theorem C80_decode : forall (text : Type) (join : list string -> text) p symbols m e cut ids,
  load_model p symbols = Some m -> model e = m -> vocabulary_size m <= 2 ^ 31 -> encode e cut = Some ids ->
  (exists tokens,
     decode join m (reverse e) ids = Some (join tokens) /\ Forall2 (given_back m) (all_tokens e cut) tokens) /\
  ((forall t, In t (all_tokens e cut) -> In t (names m)) ->
     decode join m (reverse e) ids = Some (join (all_tokens e cut)) /\
     decode_from_tokens join (reverse e) (encode_as_tokens e cut) = join (all_tokens e cut)).
Proof.
  intros text join p symbols m e cut ids L M Sz E. rewrite encode_eq, M in E. injection E as <-.
  unfold decode. rewrite in_order_eq.
  assert (Q : (if reverse e then rev (map (token_to_index m) (encode_as_tokens e cut))
               else map (token_to_index m) (encode_as_tokens e cut)) = map (token_to_index m) (all_tokens e cut)).
  { unfold encode_as_tokens. destruct (reverse e); [now rewrite map_rev, rev_involutive|reflexivity]. }
  rewrite Q. destruct (tokens_of_ids _ m (all_tokens e cut) L Sz) as (l & H & F). rewrite H.
  split; [exists l; split; [reflexivity|exact F]|]. intros K.
  assert (l = all_tokens e cut) as ->.
  { clear - F K. revert K. induction F as [|t t' a b G F IH]; intros K; [reflexivity|].
    f_equal; [apply (proj1 G), K; now left|apply IH; intros; apply K; now right]. }
  split; [reflexivity|]. unfold decode_from_tokens, encode_as_tokens, all_tokens.
  destruct (reverse e); [now rewrite rev_involutive|reflexivity].
Qed.
Print Assumptions C80_decode.

Example C80_decode_case :
  decode (fun l => l) toy true [2; 4; 0; 3; 1] = Some ["<s>"; "a"; "<unk>"; "b"; "</s>"]%string.
Proof. vm_compute. reflexivity. Qed.

(* ------------------------------------------------------------------ *)
(** C80 (indices outside of the vocabulary).  A decoder refuses a sequence if and
    only if one of its indices is not in the vocabulary.  Proved for indices of
    32 bits; see [C80_outside_refuted] for the other ones. *)
Theorem C80_outside_partial : forall (text : Type) (join : list string -> text) m rv ids,
  vocabulary_size m <= 2 ^ 31 -> Forall (fun i => - 2 ^ 31 <= i < 2 ^ 31) ids ->
  (decode join m rv ids = None <-> exists i, In i ids /\ ~ (0 <= i < vocabulary_size m)).
Proof.
  intros text join m rv ids Sz R. unfold decode. rewrite in_order_eq.
  set (l := if rv then rev ids else ids).
  assert (P : forall i, In i l <-> In i ids) by (intros i; unfold l; destruct rv; [symmetry; apply in_rev|tauto]).
  assert (Rl : Forall (fun i => - 2 ^ 31 <= i < 2 ^ 31) l).
  { apply Forall_forall. intros i I. rewrite Forall_forall in R. now apply R, P. }
  pose proof (tokens_of_spec m l Sz Rl) as T.
  destruct (tokens_of m l) as [t|]; cbn.
  - split; [discriminate|]. intros (i & I & N). exfalso. apply N.
    assert (F : Forall (fun i => 0 <= i < vocabulary_size m) l) by (apply T; discriminate).
    rewrite Forall_forall in F. now apply F, P.
  - split; [|reflexivity]. intros _.
    assert (Ex : Exists (fun i => ~ (0 <= i < vocabulary_size m)) l).
    { apply neg_Forall_Exists_neg; [intros i; destruct (Z_le_dec 0 i); [destruct (Z_lt_dec i (vocabulary_size m)); [left; lia|right; lia]|right; lia]|].
      intros F. now apply (proj2 T F). }
    apply Exists_exists in Ex. destruct Ex as (i & I & N). exists i. split; [now apply P|exact N].
Qed.
Print Assumptions C80_outside_partial.

Example C80_outside_case : decode (fun l => l) toy false [1; 5] = None /\ decode (fun l => l) toy false [1; -1] = None.
Proof. split; vm_compute; reflexivity. Qed.

(** The statement is false of 64-bit indices: they are cut to 32 bits before they
    are compared to the size of the vocabulary, so that 2^32 + 3 is decoded like
    3 (sp_decoder.cc 97-101, sp_model.cc 43-47). *)
Theorem C80_outside_refuted :
  exists m i, load_model toy [] = Some m /\ vocabulary_size m < i < 2 ^ 63 /\
    index_to_token m i = Some "a"%string /\
    decode (fun l => l) m false [i] = decode (fun l => l) m false [3].
Proof. exists toy, (2 ^ 32 + 3). repeat split; vm_compute; reflexivity. Qed.
Print Assumptions C80_outside_refuted.

(* ------------------------------------------------------------------ *)
(** C80 (control symbols).  A model that loads with additional control symbols
    keeps the indices of all its tokens, moved by one if the symbol "<pad>@0" is
    given, and this symbol gets the index zero and is the padding; the other
    symbols follow the tokens of the model in the order they are given; empty
    symbols are ignored; and all symbols are control symbols. *)
Theorem C80_control : forall p symbols m,
  load_model p symbols = Some m ->
  let given := filter (fun s => negb (String.eqb s "")) symbols in
  let at_end := filter (fun s => negb (String.eqb s "<pad>@0")) given in
  let shift := if existsb (String.eqb "<pad>@0") symbols then 1 else 0 in
  vocabulary_size m = vocabulary_size p + Z.of_nat (length given) /\
  (forall n a, nth_error (pieces p) n = Some a -> token_to_index m (text_of a) = Z.of_nat n + shift) /\
  (forall n s, nth_error at_end n = Some s ->
     token_to_index m s = vocabulary_size p + shift + Z.of_nat n /\ is_control m s) /\
  (shift = 1 -> token_to_index m "<pad>" = 0 /\ pad_idx m = Some 0).
Proof.
  intros p symbols m L given at_end shift.
  pose proof (pads_one _ _ _ L) as One.
  assert (Ex : existsb is_pad0 symbols = existsb (String.eqb "<pad>@0") symbols).
  { clear. induction symbols as [|s l IH]; [reflexivity|]. cbn [existsb]. rewrite IH. unfold is_pad0. now rewrite String.eqb_sym. }
  rewrite Ex in One.
  assert (At : at_end = appended symbols).
  { unfold at_end, given, appended. clear. induction symbols as [|s l IH]; [reflexivity|]. cbn [filter].
    unfold is_pad0 in *. destruct (String.eqb s ""); cbn [negb andb]; [exact IH|]. cbn [filter].
    destruct (String.eqb s "<pad>@0"); cbn [negb]; [exact IH|now rewrite IH]. }
  unfold load_model in L. destruct (load_names _ _ L) as [-> D].
  set (m := add_control_symbols symbols p) in *.
  pose proof (pieces_add symbols p) as P. fold m in P. rewrite One in P. rewrite <- At in P.
  set (k := if existsb (String.eqb "<pad>@0") symbols then 1%nat else 0%nat) in *.
  assert (Sk : shift = Z.of_nat k) by (unfold shift, k; destruct (existsb _ symbols); reflexivity).
  split; [|split; [|split]].
  - assert (Ln : length given = (k + length at_end)%nat).
    { rewrite <- One. unfold at_end, given. clear. induction symbols as [|s l IH]; [reflexivity|]. cbn [filter].
      unfold is_pad0 in *. destruct (String.eqb s "") eqn:E0; cbn [negb].
      - apply String.eqb_eq in E0. subst. exact IH.
      - cbn [filter length]. destruct (String.eqb s "<pad>@0"); cbn [negb length]; lia. }
    unfold vocabulary_size. rewrite P, Ln, !app_length, repeat_length, map_length. lia.
  - intros n a H. rewrite (index_at m (k + n) a); [lia|exact D|]. rewrite P.
    rewrite nth_error_app2 by (rewrite repeat_length; lia). rewrite repeat_length.
    replace (k + n - k)%nat with n by lia. rewrite nth_error_app1; [exact H|]. apply nth_error_Some. congruence.
  - intros n s H.
    assert (N : nth_error (pieces m) (k + (length (pieces p) + n)) = Some (control s)).
    { rewrite P. rewrite nth_error_app2 by (rewrite repeat_length; lia). rewrite repeat_length.
      replace (k + (length (pieces p) + n) - k)%nat with (length (pieces p) + n)%nat by lia.
      rewrite nth_error_app2 by lia. replace (length (pieces p) + n - length (pieces p))%nat with n by lia.
      apply map_nth_error, H. }
    split.
    + change s with (text_of (control s)). rewrite (index_at m _ _ D N). unfold vocabulary_size. lia.
    + apply nth_error_In in N. exact N.
  - intros S1. assert (k = 1%nat) as K by lia. rewrite K in P. cbn [repeat app] in P.
    assert (N : nth_error (pieces m) 0 = Some (control "<pad>")) by (rewrite P; reflexivity).
    split; [exact (index_at m 0 _ D N)|].
    assert (Pn : pad_piece m = "<pad>"%string).
    { apply pad_name. left. rewrite Ex. unfold k in K. destruct (existsb _ symbols); [reflexivity|discriminate]. }
    unfold pad_idx, special_idx. rewrite Pn. change "<pad>"%string with (text_of (control "<pad>")).
    rewrite (token_at m 0 _ D N). reflexivity.
Qed.
Print Assumptions C80_control.

Example C80_control_case :
  option_map (fun m => map text_of (pieces m)) (load_model toy ["__en__"; ""; "<pad>@0"; "__de__"]%string)
  = Some ["<pad>"; "<unk>"; "<s>"; "</s>"; "a"; "b"; "__en__"; "__de__"]%string /\
  load_model toy ["__en__"; "__en__"]%string = None.
Proof. split; vm_compute; reflexivity. Qed.

(* ------------------------------------------------------------------ *)
(** C80 (languages).  In a tokenizer that was loaded for a list of languages,
    every language has a token of its own, which is a control symbol, is not the
    unknown token and is not in the file of the model; no two languages
    share one; and padding has the index zero. *)
Theorem C80_nllb_languages : forall p langs m,
  load_nllb p langs = Some m ->
  pad_idx m = Some 0 /\
  (forall a b, In a langs -> In b langs ->
     token_to_index m (lang_token a) = token_to_index m (lang_token b) -> a = b) /\
  (forall a, In a langs ->
     is_control m (lang_token a) /\
     token_to_index m (lang_token a) <> unk_idx m /\
     vocabulary_size p < token_to_index m (lang_token a) < vocabulary_size m).
Proof.
  intros p langs m L. unfold load_nllb in L.
  assert (B : exists q, load q = Some m) by (eexists; exact L). destruct B as (q & B).
  pose proof (load_unk _ _ B) as U.
  destruct (load_names _ _ B) as [-> D].
  set (m := q) in *.
  pose proof (index_bounds _ _ "<pad>@0"%string B) as _.
  assert (Bd := fun t => index_bounds _ _ t B).
  pose proof (C80_control _ _ _ L) as C. cbn zeta in C.
  assert (Ex : existsb (String.eqb "<pad>@0") (nllb_symbols langs) = true).
  { apply existsb_exists. exists "<pad>@0"%string. split; [|reflexivity]. unfold nllb_symbols.
    apply in_or_app. right. apply in_or_app. right. now left. }
  rewrite Ex in C. destruct C as (_ & _ & C & Pd).
  assert (Ends : forall l r, filter (fun s => negb (String.eqb s "<pad>@0"))
      (filter (fun s => negb (String.eqb s "")) (map lang_token l ++ r))
      = map lang_token l ++ filter (fun s => negb (String.eqb s "<pad>@0")) (filter (fun s => negb (String.eqb s "")) r)).
  { induction l as [|a l IH]; intros r; [reflexivity|]. cbn [map app filter].
    change (String.eqb (lang_token a) "") with false. cbn [negb filter].
    change (String.eqb (lang_token a) "<pad>@0") with false. cbn [negb]. now rewrite IH. }
  unfold nllb_symbols in C. rewrite Ends in C.
  assert (Nth : forall a, In a langs -> exists n, nth_error langs n = Some a /\
      token_to_index m (lang_token a) = vocabulary_size p + 1 + Z.of_nat n /\ is_control m (lang_token a)).
  { intros a I. apply In_nth_error in I. destruct I as (n & I). exists n. split; [exact I|].
    apply C. rewrite nth_error_app1 by (rewrite map_length; apply nth_error_Some; congruence).
    apply map_nth_error, I. }
  split; [apply Pd; reflexivity|]. split.
  - intros a b Ia Ib E. destruct (Nth a Ia) as (x & Hx & Ex1 & _). destruct (Nth b Ib) as (y & Hy & Ey & _).
    assert (x = y) by lia. congruence.
  - intros a I. destruct (Nth a I) as (n & Hn & E & K). split; [exact K|]. split.
    + destruct U as (u & c & Hu & Ku & Eu). rewrite Eu. intros X.
      unfold is_control in K. apply In_nth_error in K. destruct K as (j & K).
      pose proof (index_at m j _ D K) as Ij. cbn [text_of] in Ij.
      assert (j = u) by lia. subst j. rewrite Hu in K. injection K as ->. discriminate.
    + pose proof (Bd (lang_token a)). lia.
Qed.
Print Assumptions C80_nllb_languages.

Example C80_nllb_case :
  option_map (fun m => map (fun l => token_to_index m (lang_token l)) ["en"; "de"]%string) (load_nllb toy ["en"; "de"]%string)
  = Some [6; 7].
Proof. vm_compute. reflexivity. Qed.

(** C80 (modes of translation).  An encoder is made if and only if the task is
    translation or not given, the language is one of the tokenizer and the mode
    is known; a source starts with the token of its language, followed by the
    mark of its origin in the modes for mined and back-translated data, and ends
    with the end of sequence; a target starts with the end of sequence and then the
    token of its language, and ends with the end of sequence. *)
Theorem C80_nllb_encoder : forall m langs default task lang mode,
  let l := match lang with Some l => l | None => default end in
  match nllb_encoder m langs default task lang mode with
  | Made e =>
      (task = None \/ task = Some "translation"%string) /\ In l langs /\
      (forall cut, exists ids, encode e cut = Some ids /\
         let L := token_to_index m (lang_token l) in
         let eos := token_to_index m "</s>" in
         let body := map (token_to_index m) cut in
         match mode with
         | None => ids = [L] ++ body ++ [eos]
         | Some s =>
             (s = "source"%string -> ids = [L] ++ body ++ [eos]) /\
             (s = "target"%string -> ids = [eos; L] ++ body ++ [eos]) /\
             (s = "source_mining"%string -> ids = [L; token_to_index m "<MINED_DATA>"] ++ body ++ [eos]) /\
             (s = "source_mmt_bt"%string -> ids = [L; token_to_index m "<MMT_BT_DATA>"] ++ body ++ [eos]) /\
             (s = "source_smt_bt"%string -> ids = [L; token_to_index m "<SMT_BT_DATA>"] ++ body ++ [eos])
         end)
  | NotSupported => ~ In l langs
  | ValueError =>
      (exists t, task = Some t /\ t <> "translation"%string) \/
      (exists s, mode = Some s /\
         ~ In s ["source"; "source_mining"; "source_mmt_bt"; "source_smt_bt"; "target"]%string)
  end.
Proof.
  intros m langs default task lang mode l. unfold nllb_encoder. fold l.
  destruct (match task with Some t => negb (String.eqb t "translation") | None => false end) eqn:T.
  - left. destruct task as [t|]; [|discriminate]. exists t. split; [reflexivity|].
    apply negb_true_iff, String.eqb_neq in T. exact T.
  - assert (T' : task = None \/ task = Some "translation"%string).
    { destruct task as [t|]; [right|left; reflexivity]. apply negb_false_iff, String.eqb_eq in T. now subst. }
    destruct (existsb (String.eqb l) langs) eqn:I; cbn [negb].
    + assert (Il : In l langs).
      { apply existsb_exists in I. destruct I as (x & Ix & E). apply String.eqb_eq in E. now subst. }
      assert (Enc : forall pre cut, encode (Encoder m pre ["</s>"%string] false) cut
        = Some (map (token_to_index m) pre ++ map (token_to_index m) cut ++ [token_to_index m "</s>"])).
      { intros. rewrite encode_eq. cbn. rewrite !map_app. reflexivity. }
      destruct mode as [s|].
      * destruct (String.eqb s "source") eqn:E1; [|destruct (String.eqb s "source_mining") eqn:E2;
          [|destruct (String.eqb s "source_mmt_bt") eqn:E3; [|destruct (String.eqb s "source_smt_bt") eqn:E4;
          [|destruct (String.eqb s "target") eqn:E5]]]];
        repeat match goal with H : String.eqb s _ = true |- _ => apply String.eqb_eq in H; subst s end;
        try (split; [exact T'|split; [exact Il|intros cut; eexists; split; [apply Enc|]]]; cbn zeta;
             repeat split; intros E; try discriminate E; try reflexivity; try congruence).
        right. exists s. split; [reflexivity|]. cbn. intros [<-|[<-|[<-|[<-|[<-|[]]]]]]; discriminate.
      * split; [exact T'|split; [exact Il|intros cut; eexists; split; [apply Enc|reflexivity]]].
    + intros Il. assert (existsb (String.eqb l) langs = true) by (apply existsb_exists; exists l; split; [exact Il|apply String.eqb_refl]). congruence.
Qed.
Print Assumptions C80_nllb_encoder.

Example C80_nllb_encoder_case :
  match load_nllb toy ["en"; "de"]%string with
  | Some m =>
      match nllb_encoder m ["en"; "de"]%string "en"%string None (Some "de"%string) (Some "target"%string) with
      | Made e => encode e ["a"]%string = Some [3; 7; 4; 3]
      | _ => False
      end
  | None => False
  end.
Proof. vm_compute. reflexivity. Qed.

(** The statement about languages is false of the tokenizer of speech-to-text
    models: it takes its languages from the configuration and the tokens from the
    file of the model without adding or checking them, so that languages without
    a token are all encoded as the unknown token
    (models/s2t_transformer/tokenizer.py 105-116, 143-150). *)
Theorem C80_s2t_languages_refuted :
  exists m langs a b ea eb,
    load_model toy [] = Some m /\ In a langs /\ In b langs /\ a <> b /\
    s2t_encoder m "translation" langs a None (Some a) None = Made ea /\
    s2t_encoder m "translation" langs a None (Some b) None = Made eb /\
    (forall cut, encode ea cut = encode eb cut) /\
    prefix_indices ea = Some [token_to_index m "</s>"; unk_idx m].
Proof.
  exists toy, ["en"; "de"]%string, "en"%string, "de"%string. do 2 eexists.
  split; [vm_compute; reflexivity|]. split; [now left|]. split; [right; now left|]. split; [discriminate|].
  split; [vm_compute; reflexivity|]. split; [vm_compute; reflexivity|]. split; [|vm_compute; reflexivity].
  intros cut. rewrite !encode_eq. reflexivity.
Qed.
Print Assumptions C80_s2t_languages_refuted.
