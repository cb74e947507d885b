(** C66: the exchange of weights with other libraries loses nothing *)
From Coq Require Import Reals String Ascii List Bool Arith Lia.
From Verif Require Import Hub_Model Hub_Spec Hub_Proofs Hub_Trip.
From Verif Require Pos_Model Pos_Props.
Import ListNotations.

(** ** Names *)
Lemma llama_fwd : renames_all (of_table llama_hg_key_map) llama_names = true. Proof. vm_compute. reflexivity. Qed.
Lemma llama_bwd : renames_all (create_reverse_key_map (of_table llama_hg_key_map)) (map (fun e => (snd e, fst e)) llama_names) = true. Proof. vm_compute. reflexivity. Qed.
Lemma qwen_fwd : renames_all (of_table qwen_hg_key_map) qwen_names = true. Proof. vm_compute. reflexivity. Qed.
Lemma qwen_bwd : renames_all (create_reverse_key_map (of_table qwen_hg_key_map)) (map (fun e => (snd e, fst e)) qwen_names) = true. Proof. vm_compute. reflexivity. Qed.
Lemma olmo_fwd : renames_all (of_table olmo_hg_key_map) olmo_names = true. Proof. vm_compute. reflexivity. Qed.
Lemma olmo_bwd : renames_all (create_reverse_key_map (of_table olmo_hg_key_map)) (map (fun e => (snd e, fst e)) olmo_names) = true. Proof. vm_compute. reflexivity. Qed.
Lemma gemma_fwd : renames_all (of_table gemma3n_hg_key_map) gemma3n_names = true. Proof. vm_compute. reflexivity. Qed.
Lemma gemma_bwd : renames_all (create_reverse_key_map (of_table gemma3n_hg_key_map)) (map (fun e => (snd e, fst e)) gemma3n_names) = true. Proof. vm_compute. reflexivity. Qed.
Lemma ref_fwd : renames_all (of_table llama_ref_key_map) reference_names = true. Proof. vm_compute. reflexivity. Qed.
Lemma ref_bwd : renames_all (of_table llama_to_ref_key_map) (map (fun e => (snd e, fst e)) reference_names) = true. Proof. vm_compute. reflexivity. Qed.
Lemma mistral_fwd : renames_all (of_table mistral_ref_key_map) reference_names = true. Proof. vm_compute. reflexivity. Qed.

(** Both maps of a model, and the names they exchange *)
Definition exchanges : list (key_map * key_map * list (string * string)) :=
  [(of_table llama_hg_key_map, create_reverse_key_map (of_table llama_hg_key_map), llama_names);
   (of_table qwen_hg_key_map, create_reverse_key_map (of_table qwen_hg_key_map), qwen_names);
   (of_table olmo_hg_key_map, create_reverse_key_map (of_table olmo_hg_key_map), olmo_names);
   (of_table gemma3n_hg_key_map, create_reverse_key_map (of_table gemma3n_hg_key_map), gemma3n_names);
   (of_table llama_ref_key_map, of_table llama_to_ref_key_map, reference_names);
   (of_table mistral_ref_key_map, of_table llama_to_ref_key_map, reference_names)].
(** The maps translate every name, with any number of the layer and anything that follows, in both directions. *)
Theorem C66_names : forall fwd bwd names, In (fwd, bwd, names) exchanges -> forall other own number suffix, In (other, own) names -> a_number number ->
  get_converted_key fwd (name other number suffix) = name own number suffix /\ get_converted_key bwd (name own number suffix) = name other number suffix.
Proof.
  assert (X : forall fwd bwd names, renames_all fwd names = true -> renames_all bwd (map (fun e => (snd e, fst e)) names) = true -> forall other own number suffix, In (other, own) names -> a_number number ->
    get_converted_key fwd (name other number suffix) = name own number suffix /\ get_converted_key bwd (name own number suffix) = name other number suffix).
  { intros f b n Hf Hb other own d s I N. split; [eapply renames_all_ok; eauto|]. eapply renames_all_ok; [exact Hb| |auto]. apply in_map_iff. exists (other, own). auto. }
  intros fwd bwd names [E|[E|[E|[E|[E|[E|[]]]]]]]; apply pair_equal_spec in E as [E <-]; apply pair_equal_spec in E as [<- <-]; apply X.
  - exact llama_fwd. - exact llama_bwd. - exact qwen_fwd. - exact qwen_bwd. - exact olmo_fwd. - exact olmo_bwd. - exact gemma_fwd. - exact gemma_bwd. - exact ref_fwd. - exact ref_bwd. - exact mistral_fwd. - exact ref_bwd.
Qed.
Print Assumptions C66_names.

Definition own_key (names : list (string * string)) (k : str) : Prop := exists other own number suffix, In (other, own) names /\ a_number number /\ k = name own number suffix.
Definition other_key (names : list (string * string)) (k : str) : Prop := exists other own number suffix, In (other, own) names /\ a_number number /\ k = name other number suffix.
Lemma own_other : forall fwd bwd names, In (fwd, bwd, names) exchanges -> forall k, own_key names k -> other_key names (get_converted_key bwd k) /\ get_converted_key fwd (get_converted_key bwd k) = k.
Proof. intros f b n I k (o & w & d & s & In' & N & ->). destruct (C66_names f b n I o w d s In' N) as [E1 E2]. rewrite E2. split; [exists o, w, d, s; auto|auto]. Qed.
Lemma other_own : forall fwd bwd names, In (fwd, bwd, names) exchanges -> forall k, other_key names k -> own_key names (get_converted_key fwd k) /\ get_converted_key bwd (get_converted_key fwd k) = k.
Proof. intros f b n I k (o & w & d & s & In' & N & ->). destruct (C66_names f b n I o w d s In' N) as [E1 E2]. rewrite E1. split; [exists o, w, d, s; auto|auto]. Qed.

(** ** Whole dictionaries *)
Definition weight (template : string) (i : nat) : str := name template (decimal i) (of_string "weight").
Definition q_own := "decoder.layers.#.self_attn.q_proj."%string.
Definition k_own := "decoder.layers.#.self_attn.k_proj."%string.
Definition q_other := "model.layers.#.self_attn.q_proj."%string.
Definition k_other := "model.layers.#.self_attn.k_proj."%string.
Lemma q_own_ok : forall i, q_key "decoder.layers." i = weight q_own i.
Proof. intros. unfold weight, q_key, name. generalize (decimal i). intros d. cbn. rewrite <- app_assoc. reflexivity. Qed.
Lemma k_own_ok : forall i, k_key "decoder.layers." i = weight k_own i.
Proof. intros. unfold weight, k_key, name. generalize (decimal i). intros d. cbn. rewrite <- app_assoc. reflexivity. Qed.
Lemma q_other_ok : forall i, q_key "model.layers." i = weight q_other i.
Proof. intros. unfold weight, q_key, name. generalize (decimal i). intros d. cbn. rewrite <- app_assoc. reflexivity. Qed.
Lemma k_other_ok : forall i, k_key "model.layers." i = weight k_other i.
Proof. intros. unfold weight, k_key, name. generalize (decimal i). intros d. cbn. rewrite <- app_assoc. reflexivity. Qed.
Definition embed_own := of_string "decoder_frontend.embed.weight".
Definition final_own := of_string "final_proj.weight".
Definition embed_other := of_string "model.embed_tokens.weight".
Definition final_other := of_string "lm_head.weight".

(** The weights of a LLaMA of fairseq2, or of Hugging Face: distinct known names; the embedding; for every layer the projections of queries and keys with
    heads of an even size. [rows]: number of rows of the projection. Shared embeddings are stored twice here, once there. *)
Definition projections {A} (c : config) (q k : nat -> str) (d : dict (list A)) : Prop :=
  exists half, model_dim c / num_attn_heads c = 2 * half /\
  forall i, i < num_layers c -> exists wq wk, get (q i) d = Some wq /\ get (k i) d = Some wk /\ length wq = num_attn_heads c * (2 * half) /\ length wk = num_key_value_heads c * (2 * half).
Definition own_weights {A} (names : list (string * string)) (c : config) (d : dict (list A)) : Prop :=
  NoDup (map fst d) /\ (forall k, In k (map fst d) -> own_key names k) /\ get embed_own d <> None /\ (tied_embeddings c = true -> get final_own d = get embed_own d).
Definition other_weights {A} (names : list (string * string)) (c : config) (d : dict (list A)) : Prop :=
  NoDup (map fst d) /\ (forall k, In k (map fst d) -> other_key names k) /\ get embed_other d <> None /\ (tied_embeddings c = true -> get final_other d = None).

Lemma keys_del : forall {V} k (d : dict V), map fst (del k d) = filter (fun x => negb (str_eqb k x)) (map fst d).
Proof. intros V k d. unfold del. induction d as [|[a v] d IH]; cbn; auto. destruct (negb (str_eqb k a)); cbn; rewrite IH; auto. Qed.

Section Both.
  Context {A : Type}.
  Variables (fwd bwd : key_map) (names : list (string * string)).
  Hypothesis Hex : In (fwd, bwd, names) exchanges.
  Hypotheses (Hembed : In ("model.embed_tokens."%string, "decoder_frontend.embed."%string) names) (Hfinal : In ("lm_head."%string, "final_proj."%string) names)
    (Hq : In (q_other, q_own) names) (Hk : In (k_other, k_own) names).
  Variable c : config.
  Variables permf permt : nat -> list A -> option (list A).
  Hypotheses (Pft : forall n w w', permf n w = Some w' -> permt n w' = Some w) (Ptf : forall n w w', permt n w = Some w' -> permf n w' = Some w).
  Let one : a_number (decimal 0) := decimal_number 0.
  Lemma n_embed : embed_own = name "decoder_frontend.embed." (decimal 0) (of_string "weight") /\ embed_other = name "model.embed_tokens." (decimal 0) (of_string "weight").
  Proof. split; reflexivity. Qed.
  Lemma n_final : final_own = name "final_proj." (decimal 0) (of_string "weight") /\ final_other = name "lm_head." (decimal 0) (of_string "weight").
  Proof. split; reflexivity. Qed.
  Lemma c_embed : get_converted_key fwd embed_other = embed_own /\ get_converted_key bwd embed_own = embed_other.
  Proof. destruct n_embed as [-> ->]. eapply C66_names; eauto. Qed.
  Lemma c_final : get_converted_key fwd final_other = final_own /\ get_converted_key bwd final_own = final_other.
  Proof. destruct n_final as [-> ->]. eapply C66_names; eauto. Qed.
  Lemma o_embed : own_key names embed_own /\ other_key names embed_other.
  Proof. destruct n_embed as [-> ->]. split; eexists _, _, _, _; (split; [exact Hembed|split; [exact one|reflexivity]]). Qed.
  Lemma o_final : own_key names final_own /\ other_key names final_other.
  Proof. destruct n_final as [-> ->]. split; eexists _, _, _, _; (split; [exact Hfinal|split; [exact one|reflexivity]]). Qed.
  Lemma cq : forall i, (own_key names (q_key "decoder.layers." i) /\ get_converted_key bwd (q_key "decoder.layers." i) = q_key "model.layers." i) /\
    (other_key names (q_key "model.layers." i) /\ get_converted_key fwd (q_key "model.layers." i) = q_key "decoder.layers." i).
  Proof. intros i. rewrite q_own_ok, q_other_ok. pose proof (decimal_number i) as N. destruct (C66_names _ _ _ Hex _ _ _ (of_string "weight") Hq N) as [X1 X2]. split; (split; [exists q_other, q_own, (decimal i), (of_string "weight"); auto|assumption]). Qed.
  Lemma ck : forall i, (own_key names (k_key "decoder.layers." i) /\ get_converted_key bwd (k_key "decoder.layers." i) = k_key "model.layers." i) /\
    (other_key names (k_key "model.layers." i) /\ get_converted_key fwd (k_key "model.layers." i) = k_key "decoder.layers." i).
  Proof. intros i. rewrite k_own_ok, k_other_ok. pose proof (decimal_number i) as N. destruct (C66_names _ _ _ Hex _ _ _ (of_string "weight") Hk N) as [X1 X2]. split; (split; [exists k_other, k_own, (decimal i), (of_string "weight"); auto|assumption]). Qed.
  Lemma sep : forall i, q_key "model.layers." i <> final_other /\ k_key "model.layers." i <> final_other /\ q_key "decoder.layers." i <> final_own /\ k_key "decoder.layers." i <> final_own /\
    q_key "model.layers." i <> embed_other /\ k_key "model.layers." i <> embed_other /\ q_key "decoder.layers." i <> embed_own /\ k_key "decoder.layers." i <> embed_own.
  Proof. intros i. unfold q_key, k_key, final_other, final_own, embed_other, embed_own. repeat split; cbn; discriminate. Qed.
  Lemma role_final : forall n p k, p = "model.layers."%string \/ p = "decoder.layers."%string -> In k [final_own; final_other; embed_own; embed_other] -> role c p n k = None.
  Proof.
    intros n p k [-> | ->] I; apply role_not; intros i _; cbn in I; destruct I as [<-|[<-|[<-|[<-|[]]]]]; unfold q_key, k_key, final_other, final_own, embed_other, embed_own; split; cbn; discriminate.
  Qed.

  Lemma export_import : forall d : dict (list A), own_weights names c d -> (forall i, i < num_layers c -> ready c permt "decoder.layers." d i) ->
    exists d1 h, permute_layers permt "decoder.layers." c d = Some d1 /\ untie c (convert_state_dict bwd d1) = Some h /\
      (forall k, In k (map fst h) -> other_key names k) /\ has "model.embed_tokens.weight" h = true /\
      (forall k, own_key names k -> get (get_converted_key bwd k) h = if tied_embeddings c && str_eqb k final_own then None else upd c permt "decoder.layers." (num_layers c) k (get k d)) /\
      exists h1 d', permute_layers permf "model.layers." c h = Some h1 /\ tie c (convert_state_dict fwd h1) = Some d' /\ same_entries get d' d.
  Proof.
    intros d (Nd & Kd & Em & Ti) R.
    destruct (trip c permt permf "decoder.layers." "model.layers." bwd fwd (own_key names) (other_key names) (own_other _ _ _ Hex) (other_own _ _ _ Hex) Ptf (fun i => proj1 (cq i)) (fun i => proj1 (ck i)) d Nd Kd R)
      as (d1 & E1 & Nr & Kr & Gr & Back). exists d1. set (r := convert_state_dict bwd d1) in *.
    assert (Gf : get final_other r = get final_own d). { rewrite <- (proj2 c_final). rewrite Gr by apply o_final. unfold upd. rewrite role_final by (cbn; auto 8). auto. }
    assert (Ge : get embed_other r = get embed_own d). { rewrite <- (proj2 c_embed). rewrite Gr by apply o_embed. unfold upd. rewrite role_final by (cbn; auto 8). auto. }
    set (h := if tied_embeddings c then del final_other r else r). exists h. split; auto.
    assert (U : untie c r = Some h). { unfold untie, h. fold final_other. destruct (tied_embeddings c) eqn:T; auto. rewrite Gf, Ti by auto. destruct (get embed_own d); [auto|easy]. }
    split; auto.
    assert (Gh : forall k, get k h = if tied_embeddings c && str_eqb k final_other then None else get k r). { intros k. unfold h. destruct (tied_embeddings c); auto. rewrite get_del. cbn [andb]. destruct (str_eqb k final_other); auto. }
    assert (Kh : forall k, In k (map fst h) -> In k (map fst r)). { intros k I. unfold h in I. destruct (tied_embeddings c); auto. rewrite keys_del in I. apply filter_In in I. tauto. }
    assert (Nh : NoDup (map fst h)). { unfold h. destruct (tied_embeddings c); auto. rewrite keys_del. apply NoDup_filter. auto. }
    split; [intros k I; apply Kr, Kh; auto|]. split.
    { unfold has. fold embed_other. rewrite Gh. assert (X : str_eqb embed_other final_other = false) by reflexivity. rewrite X, andb_false_r, Ge. destruct (get embed_own d); [auto|easy]. }
    split.
    { intros k Kk. rewrite Gh, Gr by auto. destruct (tied_embeddings c); [|reflexivity]. cbn [andb]. destruct (str_eqb k final_own) eqn:X.
      - apply str_eqb_eq in X. subst k. rewrite (proj2 c_final), str_eqb_refl. auto.
      - destruct (str_eqb (get_converted_key bwd k) final_other) eqn:Y; auto. apply str_eqb_eq in Y. rewrite <- (proj2 c_final) in Y. apply (f_equal (get_converted_key fwd)) in Y.
        rewrite (proj2 (own_other _ _ _ Hex k Kk)), (proj2 (own_other _ _ _ Hex _ (proj1 o_final))) in Y. subst k. rewrite str_eqb_refl in X. discriminate. }
    destruct (Back h Nh) as (h1 & E2 & K2 & G2).
    { intros k I. apply Kr, Kh; auto. }
    { intros i Hi. rewrite !Gh. destruct (sep i) as (S1 & S2 & _). apply str_eqb_neq in S1, S2. rewrite S1, S2, andb_false_r. auto. }
    exists h1. set (e := convert_state_dict fwd h1) in *.
    assert (Ge2 : get embed_own e = get embed_own d). { rewrite G2 by apply o_embed. rewrite role_final by (cbn; auto 8). rewrite (proj2 c_embed), Gh. assert (X : str_eqb embed_other final_other = false) by reflexivity. rewrite X, andb_false_r. auto. }
    exists (if tied_embeddings c then match get embed_own e with Some w => set final_own w e | None => e end else e). split; auto. split.
    { unfold tie. fold embed_own final_own. destruct (tied_embeddings c); auto. rewrite Ge2. destruct (get embed_own d); [auto|easy]. }
    assert (Gen : forall k, ~ (tied_embeddings c = true /\ k = final_own) -> get k e = get k d).
    { intros k Nf. destruct (in_dec (list_eq_dec ascii_dec) k (map fst d)) as [I|I].
      - pose proof (Kd k I) as Kk. rewrite G2 by auto. destruct (role c "decoder.layers." (num_layers c) k) eqn:Er; auto. rewrite Gh, Gr by auto. unfold upd. rewrite Er.
        destruct (tied_embeddings c) eqn:T; auto. cbn [andb]. destruct (str_eqb (get_converted_key bwd k) final_other) eqn:Y; auto. exfalso. apply Nf. split; auto.
        apply str_eqb_eq in Y. rewrite <- (proj2 c_final) in Y. apply (f_equal (get_converted_key fwd)) in Y. rewrite (proj2 (own_other _ _ _ Hex k Kk)), (proj2 (own_other _ _ _ Hex _ (proj1 o_final))) in Y. auto.
      - assert (Dn : get k d = None). { destruct (get k d) eqn:X; auto. exfalso. apply I, get_in. congruence. } rewrite Dn.
        destruct (get k e) eqn:X; auto. exfalso. assert (Ik : In k (map fst e)) by (apply get_in; congruence). pose proof (K2 k Ik) as Kk. rewrite G2 in X by auto.
        destruct (role c "decoder.layers." (num_layers c) k) eqn:Er; [congruence|]. rewrite Gh, Gr in X by auto. unfold upd in X. rewrite Er, Dn in X. destruct (tied_embeddings c && _); discriminate. }
    intros k. destruct (tied_embeddings c) eqn:T; [|apply Gen; intros [X _]; discriminate].
    rewrite Ge2. destruct (get embed_own d) as [w|] eqn:Ew; [|easy]. rewrite get_set. destruct (str_eqb k final_own) eqn:X; [apply str_eqb_eq in X; subst k; rewrite Ti by auto; auto|].
    apply Gen. intros [_ ->]. rewrite str_eqb_refl in X. discriminate.
  Qed.

  Lemma import_export : forall h : dict (list A), other_weights names c h -> (forall i, i < num_layers c -> ready c permf "model.layers." h i) ->
    exists h1 d, permute_layers permf "model.layers." c h = Some h1 /\ tie c (convert_state_dict fwd h1) = Some d /\
      (forall k, In k (map fst d) -> own_key names k) /\
      (forall k, other_key names k -> get (get_converted_key fwd k) d = if tied_embeddings c && str_eqb k final_other then get embed_other h else upd c permf "model.layers." (num_layers c) k (get k h)) /\
      exists d1 h', permute_layers permt "decoder.layers." c d = Some d1 /\ untie c (convert_state_dict bwd d1) = Some h' /\ same_entries get h' h.
  Proof.
    intros h (Nh & Kh & Em & Ti) R.
    destruct (trip c permf permt "model.layers." "decoder.layers." fwd bwd (other_key names) (own_key names) (other_own _ _ _ Hex) (own_other _ _ _ Hex) Pft (fun i => proj2 (cq i)) (fun i => proj2 (ck i)) h Nh Kh R)
      as (h1 & E1 & Nr & Kr & Gr & Back). exists h1. set (r := convert_state_dict fwd h1) in *.
    assert (Ge : get embed_own r = get embed_other h). { rewrite <- (proj1 c_embed). rewrite Gr by apply o_embed. unfold upd. rewrite role_final by (cbn; auto 8). auto. }
    destruct (get embed_other h) as [w|] eqn:Ew; [|easy].
    set (d := if tied_embeddings c then set final_own w r else r). exists d. split; auto.
    assert (U : tie c r = Some d). { unfold tie, d. fold embed_own final_own. rewrite Ge. destruct (tied_embeddings c); auto. }
    split; auto.
    assert (Kd : forall k, In k (map fst d) -> own_key names k).
    { intros k I. unfold d in I. destruct (tied_embeddings c); auto. rewrite keys_set in I. destruct (in_dec _ _ _); auto. apply in_app_iff in I as [I|[<-|[]]]; auto. apply o_final. }
    assert (Nd : NoDup (map fst d)). { unfold d. destruct (tied_embeddings c); auto. rewrite keys_set. destruct (in_dec _ final_own (map fst r)) as [|n]; auto. apply NoDup_rev in Nr. rewrite <- (rev_involutive (map fst r ++ [final_own])), rev_app_distr. apply NoDup_rev. cbn. constructor; auto. rewrite <- in_rev. auto. }
    assert (Gd : forall k, get k d = if tied_embeddings c && str_eqb k final_own then Some w else get k r). { intros k. unfold d. destruct (tied_embeddings c); auto. rewrite get_set. auto. }
    split; auto. split.
    { intros k Kk. rewrite Gd, Gr by auto. destruct (tied_embeddings c); [|reflexivity]. cbn [andb]. destruct (str_eqb k final_other) eqn:X.
      - apply str_eqb_eq in X. subst k. rewrite (proj1 c_final), str_eqb_refl. auto.
      - destruct (str_eqb (get_converted_key fwd k) final_own) eqn:Y; auto. apply str_eqb_eq in Y. rewrite <- (proj1 c_final) in Y. apply (f_equal (get_converted_key bwd)) in Y.
        rewrite (proj2 (other_own _ _ _ Hex k Kk)), (proj2 (other_own _ _ _ Hex _ (proj2 o_final))) in Y. subst k. rewrite str_eqb_refl in X. discriminate. }
    destruct (Back d Nd Kd) as (d1 & E2 & K2 & G2).
    { intros i Hi. rewrite !Gd. destruct (sep i) as (_ & _ & S1 & S2 & _). apply str_eqb_neq in S1, S2. rewrite S1, S2, andb_false_r. auto. }
    exists d1. set (e := convert_state_dict bwd d1) in *.
    assert (Gfe : tied_embeddings c = true -> get final_other e = Some w). { intros T. rewrite G2 by apply o_final. rewrite role_final by (cbn; auto 8). rewrite (proj1 c_final), Gd, T, str_eqb_refl. auto. }
    exists (if tied_embeddings c then del final_other e else e). split; auto. split.
    { unfold untie. fold final_other. destruct (tied_embeddings c); auto. rewrite Gfe; auto. }
    assert (Gen : forall k, ~ (tied_embeddings c = true /\ k = final_other) -> get k e = get k h).
    { intros k Nf. assert (Nf' : other_key names k -> tied_embeddings c && str_eqb (get_converted_key fwd k) final_own = false).
      { intros Kk. destruct (tied_embeddings c) eqn:T; auto. cbn [andb]. apply str_eqb_neq. intros Y. apply Nf. split; auto. rewrite <- (proj1 c_final) in Y. apply (f_equal (get_converted_key bwd)) in Y.
        rewrite (proj2 (other_own _ _ _ Hex k Kk)), (proj2 (other_own _ _ _ Hex _ (proj2 o_final))) in Y. auto. }
      destruct (in_dec (list_eq_dec ascii_dec) k (map fst h)) as [I|I].
      - pose proof (Kh k I) as Kk. rewrite G2 by auto. destruct (role c "model.layers." (num_layers c) k) eqn:Er; auto. rewrite Gd, Nf', Gr by auto. unfold upd. rewrite Er. auto.
      - assert (Dn : get k h = None). { destruct (get k h) eqn:X; auto. exfalso. apply I, get_in. congruence. } rewrite Dn.
        destruct (get k e) eqn:X; auto. exfalso. assert (Ik : In k (map fst e)) by (apply get_in; congruence). pose proof (K2 k Ik) as Kk. rewrite G2 in X by auto.
        destruct (role c "model.layers." (num_layers c) k) eqn:Er; [congruence|]. rewrite Gd, Nf', Gr in X by auto. unfold upd in X. rewrite Er, Dn in X. discriminate. }
    intros k. destruct (tied_embeddings c) eqn:T; [|apply Gen; intros [X _]; discriminate].
    rewrite get_del. destruct (str_eqb k final_other) eqn:X; [apply str_eqb_eq in X; subst k; rewrite Ti by auto; auto|].
    apply Gen. intros [_ ->]. rewrite str_eqb_refl in X. discriminate.
  Qed.
End Both.

(** Everything but the projections of queries and keys is the same in both; the output projection only if it is not shared with the embedding. *)
Definition same_weights {A} (names : list (string * string)) (but : list string) (c : config) (d h : dict (list A)) : Prop :=
  forall other own number suffix, In (other, own) names -> a_number number -> ~ In own but -> ~ (tied_embeddings c = true /\ name own number suffix = final_own) ->
  get (name other number suffix) h = get (name own number suffix) d.
(** The projections differ by the order of their rows: see C66_rows and C66_attention. *)
Definition same_projections {A} (c : config) (d h : dict (list A)) : Prop :=
  forall i, i < num_layers c -> exists wq wk wq' wk', get (weight q_other i) h = Some wq /\ get (weight q_own i) d = Some wq' /\ permute_rotary_from (model_dim c / num_attn_heads c) (num_attn_heads c) wq = Some wq' /\
    get (weight k_other i) h = Some wk /\ get (weight k_own i) d = Some wk' /\ permute_rotary_from (model_dim c / num_attn_heads c) (num_key_value_heads c) wk = Some wk'.
Lemma role_none : forall c other own n s, In (other, own) llama_names -> a_number n -> ~ In own [q_own; k_own] -> role c "decoder.layers." (num_layers c) (name own n s) = None.
Proof.
  assert (Hex : In (of_table llama_hg_key_map, create_reverse_key_map (of_table llama_hg_key_map), llama_names) exchanges) by (left; auto).
  assert (I3 : In (q_other, q_own) llama_names) by (cbn; tauto). assert (I4 : In (k_other, k_own) llama_names) by (cbn; tauto).
  intros c other own n s I N Nqk. apply role_not. intros i Hi. rewrite q_own_ok, k_own_ok. unfold weight.
    assert (Q : forall t t', In t (map snd llama_names) -> In t' [q_own; k_own] -> t <> t' -> name t n s <> name t' (decimal i) (of_string "weight")).
    { intros t t' It It' Ne Y. apply (f_equal (get_converted_key (create_reverse_key_map (of_table llama_hg_key_map)))) in Y. apply in_map_iff in It as ((o, t0) & Et & It). cbn in Et. subst t0.
      rewrite (proj2 (C66_names _ _ _ Hex o t n s It N)) in Y. assert (Hsep : exists o', In (o', t') llama_names) by (destruct It' as [<-|[<-|[]]]; [exists q_other|exists k_other]; auto). destruct Hsep as [o' Io'].
      rewrite (proj2 (C66_names _ _ _ Hex o' t' (decimal i) (of_string "weight") Io' (decimal_number i))) in Y.
      apply a_number_ok in N. destruct N as [N1 N2]. destruct (a_number_ok _ (decimal_number i)) as [N3 N4]. revert Y N1 N2 N3 N4 Ne. generalize (decimal i). intros m Y N1 N2 N3 N4 Ne.
      cbn in It, Io', It'. repeat match goal with H : _ \/ _ |- _ => destruct H as [H|H] end; try contradiction;
        repeat match goal with H : (_, _) = (_, _) |- _ => apply pair_equal_spec in H as [<- <-] end; subst; try discriminate; try (exfalso; apply Ne; reflexivity);
        try (unfold name in Y; cbn in Y; discriminate Y);
        unfold name in Y; cbn in Y; repeat (injection Y as Y); apply (f_equal digits) in Y; rewrite <- ?app_assoc in Y; cbn [app] in Y; rewrite !digits_number in Y by auto; try discriminate Y. }
  split; apply Q; try (apply in_map_iff; exists (other, own); auto); try (cbn; auto; fail); intros ->; apply Nqk; cbn; auto.
Qed.
(** LLaMA: what is exported to Hugging Face has its names, and importing it gives the weights back *)
Theorem C66_llama_export : forall (A : Type) c (d : dict (list A)), own_weights llama_names c d -> projections c (weight q_own) (weight k_own) d ->
  exists h d', llama_to_hg_state_dict c d = Some (h, d') /\ (forall k, In k (map fst h) -> other_key llama_names k) /\
    same_weights llama_names [q_own; k_own] c d h /\ same_projections c d h /\
    exists d'', convert_llama_state_dict c h = Some d'' /\ same_entries get d'' d.
Proof.
  intros A c d W (half & Hh & P). set (hd := model_dim c / num_attn_heads c) in *.
  assert (Hd2 : hd / 2 = half) by (rewrite Hh, Nat.mul_comm; apply Nat.div_mul; auto).
  assert (Hex : In (of_table llama_hg_key_map, create_reverse_key_map (of_table llama_hg_key_map), llama_names) exchanges) by (left; auto).
  assert (R : forall i, i < num_layers c -> ready c (permute_rotary_to hd) "decoder.layers." d i).
  { intros i Hi. destruct (P i Hi) as (wq & wk & Gq & Gk & Lq & Lk). destruct (proj1 (to_def hd (num_attn_heads c) wq)) as [q' Eq]; [rewrite Hd2; auto|]. destruct (proj1 (to_def hd (num_key_value_heads c) wk)) as [k' Ek]; [rewrite Hd2; auto|].
    exists wq, wk, q', k'. rewrite q_own_ok, k_own_ok. auto. }
  assert (I1 : In ("model.embed_tokens."%string, "decoder_frontend.embed."%string) llama_names) by (cbn; tauto). assert (I2 : In ("lm_head."%string, "final_proj."%string) llama_names) by (cbn; tauto).
  assert (I3 : In (q_other, q_own) llama_names) by (cbn; tauto). assert (I4 : In (k_other, k_own) llama_names) by (cbn; tauto).
  destruct (export_import _ _ _ Hex I1 I2 I3 I4 c (permute_rotary_from hd) (permute_rotary_to hd) (to_from hd) d W R) as (d1 & h & E1 & E2 & Kh & Hh' & Gh & h1 & d2 & E3 & E4 & S).
  exists h, d1. unfold llama_to_hg_state_dict. fold hd. rewrite E1, E2. split; auto. split; auto. split; [|split].
  - intros other own n s I N Nqk Nt. destruct (C66_names _ _ _ Hex other own n s I N) as [C1 C2]. rewrite <- C2. rewrite Gh by (exists other, own, n, s; auto).
    assert (X : tied_embeddings c && str_eqb (name own n s) final_own = false). { destruct (tied_embeddings c); auto. cbn [andb]. apply str_eqb_neq. intros Y. apply Nt. auto. } rewrite X. unfold upd.
    rewrite (role_none c other own n s); auto.
  - intros i Hi. destruct (R i Hi) as (wq & wk & wq' & wk' & Gq & Gk & Pq & Pk). exists wq', wk', wq, wk. destruct (cq _ _ _ Hex I3 i) as [[Oq Cq] _]. destruct (ck _ _ _ Hex I4 i) as [[Ok Ck] _].
    rewrite <- q_own_ok, <- k_own_ok, <- q_other_ok, <- k_other_ok. rewrite <- Cq at 1. rewrite <- Ck at 1. rewrite !Gh by auto.
    destruct (sep i) as (_ & _ & S1 & S2 & _). apply str_eqb_neq in S1, S2. rewrite S1, S2, andb_false_r. unfold upd. rewrite role_q, role_k, Gq, Gk by auto. repeat (split; auto); eapply to_from; eauto.
  - exists d2. split; auto. unfold convert_llama_state_dict. fold hd. rewrite Hh', E3. auto.
Qed.
Print Assumptions C66_llama_export.

(** ... and the other way round *)
Theorem C66_llama_import : forall (A : Type) c (h : dict (list A)), other_weights llama_names c h -> projections c (weight q_other) (weight k_other) h ->
  exists d, convert_llama_state_dict c h = Some d /\ (forall k, In k (map fst d) -> own_key llama_names k) /\
    same_weights llama_names [q_own; k_own] c d h /\ same_projections c d h /\ (tied_embeddings c = true -> get final_own d = get embed_own d) /\
    exists h' d', llama_to_hg_state_dict c d = Some (h', d') /\ same_entries get h' h.
Proof.
  intros A c h W (half & Hh & P). set (hd := model_dim c / num_attn_heads c) in *.
  assert (Hd2 : hd / 2 = half) by (rewrite Hh, Nat.mul_comm; apply Nat.div_mul; auto).
  assert (Hex : In (of_table llama_hg_key_map, create_reverse_key_map (of_table llama_hg_key_map), llama_names) exchanges) by (left; auto).
  assert (R : forall i, i < num_layers c -> ready c (permute_rotary_from hd) "model.layers." h i).
  { intros i Hi. destruct (P i Hi) as (wq & wk & Gq & Gk & Lq & Lk). destruct (proj1 (from_def hd (num_attn_heads c) wq)) as [q' Eq]; [rewrite Hd2; auto|]. destruct (proj1 (from_def hd (num_key_value_heads c) wk)) as [k' Ek]; [rewrite Hd2; auto|].
    exists wq, wk, q', k'. rewrite q_other_ok, k_other_ok. auto. }
  assert (I1 : In ("model.embed_tokens."%string, "decoder_frontend.embed."%string) llama_names) by (cbn; tauto). assert (I2 : In ("lm_head."%string, "final_proj."%string) llama_names) by (cbn; tauto).
  assert (I3 : In (q_other, q_own) llama_names) by (cbn; tauto). assert (I4 : In (k_other, k_own) llama_names) by (cbn; tauto).
  destruct (import_export _ _ _ Hex I1 I2 I3 I4 c (permute_rotary_from hd) (permute_rotary_to hd) (from_to hd) h W R) as (h1 & d & E1 & E2 & Kd & Gd & d1 & h' & E3 & E4 & S).
  exists d. split; [|split; [auto|split; [|split; [|split]]]].
  - unfold convert_llama_state_dict, has. fold hd embed_other. destruct W as (_ & _ & Em & _). destruct (get embed_other h); [|easy]. rewrite E1. auto.
  - intros other own n s I N Nqk Nt. destruct (C66_names _ _ _ Hex other own n s I N) as [C1 C2]. rewrite <- C1. rewrite Gd by (exists other, own, n, s; auto).
    assert (X : tied_embeddings c && str_eqb (name other n s) final_other = false).
    { destruct (tied_embeddings c); auto. cbn [andb]. apply str_eqb_neq. intros Y. apply Nt. split; auto. rewrite <- C1, Y. apply (c_final _ _ _ Hex I2). }
    rewrite X. unfold upd. rewrite <- C2. rewrite (role12 c "decoder.layers." "model.layers." _ _ (own_key llama_names) (other_key llama_names) (own_other _ _ _ Hex) (fun i => proj1 (cq _ _ _ Hex I3 i)) (fun i => proj1 (ck _ _ _ Hex I4 i))) by (exists other, own, n, s; auto).
    rewrite (role_none c other own n s); auto.
  - intros i Hi. destruct (R i Hi) as (wq & wk & wq' & wk' & Gq & Gk & Pq & Pk). exists wq, wk, wq', wk'. destruct (cq _ _ _ Hex I3 i) as [_ [Oq Cq]]. destruct (ck _ _ _ Hex I4 i) as [_ [Ok Ck]].
    rewrite <- q_own_ok, <- k_own_ok, <- q_other_ok, <- k_other_ok. rewrite <- Cq, <- Ck. rewrite !Gd by auto.
    destruct (sep i) as (S1 & S2 & _). apply str_eqb_neq in S1, S2. rewrite S1, S2, andb_false_r. unfold upd. rewrite role_q, role_k, Gq, Gk by auto. repeat (split; auto).
  - intros T. rewrite <- (proj1 (c_final _ _ _ Hex I2)), <- (proj1 (c_embed _ _ _ Hex I1)). rewrite !Gd by (apply o_final || apply o_embed; auto). rewrite T, str_eqb_refl.
    replace (str_eqb embed_other final_other) with false by reflexivity. cbn [andb]. unfold upd. rewrite role_final by (cbn; auto 8). auto.
  - exists h', d1. unfold llama_to_hg_state_dict. fold hd. rewrite E3, E4. auto.
Qed.
Print Assumptions C66_llama_import.

(** Qwen and OLMo *)
Theorem C66_hg_export : forall (A : Type) t names, In (t, names) [(qwen_hg_key_map, qwen_names); (olmo_hg_key_map, olmo_names)] ->
  forall c (d : dict (list A)), own_weights names c d -> exists h, to_hg_state_dict t c d = Some h /\ (forall k, In k (map fst h) -> other_key names k) /\ same_weights names [] c d h /\
    exists d', convert_hg_state_dict t c h = Some d' /\ same_entries get d' d.
Proof.
  intros A t names I c d W. set (c0 := Config (model_dim c) 0 (num_attn_heads c) (num_key_value_heads c) (tied_embeddings c)).
  assert (Hex : In (of_table t, create_reverse_key_map (of_table t), names) exchanges) by (destruct I as [E|[E|[]]]; apply pair_equal_spec in E as [<- <-]; unfold exchanges; [right; left; reflexivity|right; right; left; reflexivity]).
  assert (I1 : In ("model.embed_tokens."%string, "decoder_frontend.embed."%string) names /\ In ("lm_head."%string, "final_proj."%string) names /\ In (q_other, q_own) names /\ In (k_other, k_own) names)
    by (destruct I as [E|[E|[]]]; apply pair_equal_spec in E as [<- <-]; cbn; tauto).
  destruct I1 as (I1 & I2 & I3 & I4).
  destruct (export_import _ _ _ Hex I1 I2 I3 I4 c0 (fun _ w => Some w) (fun _ w => Some w) ltac:(congruence) d W ltac:(cbn; lia)) as (d1 & h & E1 & E2 & Kh & Hh' & Gh & h1 & d2 & E3 & E4 & S).
  cbn in E1, E3. injection E1 as <-. injection E3 as <-. exists h. split; [exact E2|]. split; auto. split.
  { intros other own n s I0 N _ Nt. destruct (C66_names _ _ _ Hex other own n s I0 N) as [C1 C2]. rewrite <- C2. rewrite Gh by (exists other, own, n, s; auto).
    assert (X : tied_embeddings c0 && str_eqb (name own n s) final_own = false). { cbn [c0 tied_embeddings]. destruct (tied_embeddings c); auto. cbn [andb]. apply str_eqb_neq. intros Y. apply Nt. auto. } rewrite X. reflexivity. }
  exists d2. split; auto. unfold convert_hg_state_dict. rewrite Hh'. exact E4.
Qed.
Print Assumptions C66_hg_export.
Theorem C66_hg_import : forall (A : Type) t names, In (t, names) [(qwen_hg_key_map, qwen_names); (olmo_hg_key_map, olmo_names)] ->
  forall c (h : dict (list A)), other_weights names c h -> exists d, convert_hg_state_dict t c h = Some d /\ (forall k, In k (map fst d) -> own_key names k) /\ same_weights names [] c d h /\ (tied_embeddings c = true -> get final_own d = get embed_own d) /\
    exists h', to_hg_state_dict t c d = Some h' /\ same_entries get h' h.
Proof.
  intros A t names I c h W. set (c0 := Config (model_dim c) 0 (num_attn_heads c) (num_key_value_heads c) (tied_embeddings c)).
  assert (Hex : In (of_table t, create_reverse_key_map (of_table t), names) exchanges) by (destruct I as [E|[E|[]]]; apply pair_equal_spec in E as [<- <-]; unfold exchanges; [right; left; reflexivity|right; right; left; reflexivity]).
  assert (I1 : In ("model.embed_tokens."%string, "decoder_frontend.embed."%string) names /\ In ("lm_head."%string, "final_proj."%string) names /\ In (q_other, q_own) names /\ In (k_other, k_own) names)
    by (destruct I as [E|[E|[]]]; apply pair_equal_spec in E as [<- <-]; cbn; tauto).
  destruct I1 as (I1 & I2 & I3 & I4).
  destruct (import_export _ _ _ Hex I1 I2 I3 I4 c0 (fun _ w => Some w) (fun _ w => Some w) ltac:(congruence) h W ltac:(cbn; lia)) as (h1 & d & E1 & E2 & Kd & Gd & d1 & h' & E3 & E4 & S).
  cbn in E1, E3. injection E1 as <-. injection E3 as <-. exists d. split; [|split; [auto|split; [|split]]].
  - unfold convert_hg_state_dict, has. fold embed_other. destruct W as (_ & _ & Em & _). destruct (get embed_other h); [|easy]. exact E2.
  - intros other own n s I0 N _ Nt. destruct (C66_names _ _ _ Hex other own n s I0 N) as [C1 C2]. rewrite <- C1. rewrite Gd by (exists other, own, n, s; auto).
    assert (X : tied_embeddings c0 && str_eqb (name other n s) final_other = false).
    { cbn [c0 tied_embeddings]. destruct (tied_embeddings c); auto. cbn [andb]. apply str_eqb_neq. intros Y. apply Nt. split; auto. rewrite <- C1, Y. apply (c_final _ _ _ Hex I2). } rewrite X. reflexivity.
  - intros T. rewrite <- (proj1 (c_final _ _ _ Hex I2)), <- (proj1 (c_embed _ _ _ Hex I1)). rewrite !Gd by (apply o_final || apply o_embed; auto). cbn [c0 tied_embeddings]. rewrite T, str_eqb_refl.
    replace (str_eqb embed_other final_other) with false by reflexivity. reflexivity.
  - exists h'. split; auto.
Qed.
Print Assumptions C66_hg_import.

(** LLaMA in the layout of the reference implementation: exporting and importing gives the weights back *)
Definition weight_key (names : list (string * string)) (k : str) : Prop := exists other own number, In (other, own) names /\ a_number number /\ k = name own number (of_string "weight").
Definition has_char (c : ascii) (l : str) : bool := existsb (Ascii.eqb c) l.
Lemma has_in : forall c l, has_char c l = true <-> In c l.
Proof. intros c l. unfold has_char. rewrite existsb_exists. split; [intros (x & I & E); apply Ascii.eqb_eq in E; subst; auto|intros I; exists c; split; auto; apply Ascii.eqb_refl]. Qed.
Lemma name_chars : forall c t n s, In c (name t n s) -> has_char c (of_string t) = true \/ In c n \/ In c s.
Proof.
  intros c t n s I. unfold name in I. apply in_app_iff in I as [I|I]; auto. apply in_flat_map in I as (x & Ix & I). destruct (Ascii.eqb x "#"); auto. destruct I as [<-|[]]. left. apply has_in. auto.
Qed.
Lemma starts_with_app : forall p s r, starts_with p s = Some r -> s = p ++ r.
Proof. induction p as [|a p IH]; intros [|b s] r H; cbn in *; try congruence. destruct (Ascii.eqb a b) eqn:E; [|discriminate]. apply Ascii.eqb_eq in E. subst. f_equal. auto. Qed.
Lemma contains_in : forall p s c, contains p s = true -> In c p -> In c s.
Proof.
  intros p. induction s as [|b s IH]; intros c H I; cbn [contains] in H.
  - destruct (starts_with p []) eqn:E; [|discriminate]. apply starts_with_app in E. rewrite E. apply in_app_iff. auto.
  - destruct (starts_with p (b :: s)) eqn:E; [apply starts_with_app in E; rewrite E; apply in_app_iff; auto|]. right. auto.
Qed.
Lemma no_rope : forall other own number, In (other, own) reference_names -> a_number number -> contains (of_string "rope.freqs") (name other number (of_string "weight")) = false.
Proof.
  intros other own n I N. destruct (contains _ _) eqn:E; auto. exfalso.
  assert (P : has_char "p" (of_string other) = true /\ has_char "q" (of_string other) = true).
  { split; [destruct (name_chars "p" other n (of_string "weight")) as [X|[X|X]]|destruct (name_chars "q" other n (of_string "weight")) as [X|[X|X]]]; auto;
      try (apply (contains_in _ _ _ E); cbn; tauto); try (apply N in X; cbn in X; lia); cbn in X; repeat (destruct X as [X|X]; [discriminate|]); destruct X. }
  destruct P as [P Q]. cbn in I. repeat (destruct I as [I|I]; [apply pair_equal_spec in I as [<- <-]; vm_compute in P, Q; discriminate|]). destruct I.
Qed.
Theorem C66_reference : forall (A : Type) c (d : dict (list A)), NoDup (map fst d) -> (forall k, In k (map fst d) -> weight_key reference_names k) ->
  get embed_own d <> None -> (tied_embeddings c = true -> get final_own d = get embed_own d) ->
  (forall other own number, In (other, own) reference_names -> a_number number ->
     get (name other number (of_string "weight")) (convert_to_ref_llama_state_dict d) = get (name own number (of_string "weight")) d) /\
  exists d', convert_llama_state_dict c (convert_to_ref_llama_state_dict d) = Some d' /\ same_entries get d' d.
Proof.
  intros A c d Nd Kd Em Ti. set (bwd := of_table llama_to_ref_key_map). set (fwd := of_table llama_ref_key_map).
  assert (Hex : In (fwd, bwd, reference_names) exchanges) by (unfold exchanges; do 4 right; left; reflexivity).
  set (c0 := Config 0 0 0 0 false). pose proof (fun (d : dict (list A)) => eq_refl : permute_layers (fun _ w => Some w) "" c0 d = Some d) as P0.
  assert (Kd' : forall k, In k (map fst d) -> own_key reference_names k). { intros k I. destruct (Kd k I) as (o & w & n & I1 & N & ->). exists o, w, n, (of_string "weight"). auto. }
  assert (J1 : forall k k', own_key reference_names k -> own_key reference_names k' -> get_converted_key bwd k = get_converted_key bwd k' -> k = k').
  { intros k k' H H' E. rewrite <- (proj2 (own_other _ _ _ Hex k H)), <- (proj2 (own_other _ _ _ Hex k' H')), E. auto. }
  assert (J2 : forall k k', other_key reference_names k -> other_key reference_names k' -> get_converted_key fwd k = get_converted_key fwd k' -> k = k').
  { intros k k' H H' E. rewrite <- (proj2 (other_own _ _ _ Hex k H)), <- (proj2 (other_own _ _ _ Hex k' H')), E. auto. }
  destruct (body_ok c0 (fun _ w => Some w) "" bwd (own_key reference_names) d J1 Nd Kd' ltac:(cbn; lia)) as (d1 & E & Kr & Nr & Gr). rewrite P0 in E. injection E as <-.
  unfold convert_to_ref_llama_state_dict. fold bwd. set (r := convert_state_dict bwd d) in *.
  assert (Gr' : forall k, own_key reference_names k -> get (get_converted_key bwd k) r = get k d). { intros k H. rewrite Gr by auto. reflexivity. }
  assert (Gn : forall other own number, In (other, own) reference_names -> a_number number -> get (name other number (of_string "weight")) r = get (name own number (of_string "weight")) d).
  { intros o w n I N. rewrite <- (Gr' (name w n (of_string "weight"))) by (exists o, w, n, (of_string "weight"); auto). rewrite (proj2 (C66_names _ _ _ Hex o w n _ I N)). auto. }
  split; auto.
  assert (Kr1 : forall k, In k (map fst r) -> exists o w n, In (o, w) reference_names /\ a_number n /\ k = name o n (of_string "weight")).
  { intros k I. rewrite Kr in I. apply in_map_iff in I as (x & <- & I). destruct (Kd x I) as (o & w & n & I1 & N & ->). exists o, w, n. rewrite (proj2 (C66_names _ _ _ Hex o w n _ I1 N)). auto. }
  assert (Ko : forall k, In k (map fst r) -> other_key reference_names k). { intros k I. destruct (Kr1 k I) as (o & w & n & I1 & N & ->). exists o, w, n, (of_string "weight"). auto. }
  assert (Fr : filter (fun e => negb (contains (of_string "rope.freqs") (fst e))) r = r).
  { assert (X : forall e, In e r -> negb (contains (of_string "rope.freqs") (fst e)) = true). { intros e I. destruct (Kr1 (fst e) (in_map fst _ _ I)) as (o & w & n & I1 & N & ->). rewrite (no_rope o w n) by auto. auto. }
    clear - X. revert X. generalize r. intros l. induction l as [|e l IH]; intros X; auto. cbn [filter]. rewrite (X e) by (left; auto). f_equal. apply IH. intros; apply X; right; auto. }
  assert (In1 : In ("tok_embeddings."%string, "decoder_frontend.embed."%string) reference_names) by (cbn; tauto). assert (In2 : In ("output."%string, "final_proj."%string) reference_names) by (cbn; tauto).
  assert (Ge : get (of_string "tok_embeddings.weight") r = get embed_own d). { apply (Gn _ _ _ In1 (decimal_number 0)). }
  assert (Nh : get (of_string "model.embed_tokens.weight") r = None).
  { destruct (get (of_string "model.embed_tokens.weight") r) eqn:X; auto. exfalso. assert (I : In (of_string "model.embed_tokens.weight") (map fst r)) by (apply get_in; rewrite X; discriminate). destruct (Kr1 _ I) as (o & w & n & I1 & N & Y).
    cbn in I1. repeat (destruct I1 as [I1|I1]; [apply pair_equal_spec in I1 as [<- <-]; unfold name in Y; cbn in Y; discriminate Y|]). destruct I1. }
  destruct (body_ok c0 (fun _ w => Some w) "" fwd (other_key reference_names) r J2 Nr Ko ltac:(cbn; lia)) as (r1 & E & Kr2 & Nr2 & Gr2). rewrite P0 in E. injection E as <-. set (e := convert_state_dict fwd r) in *.
  assert (Gen : forall k, get k e = get k d).
  { intros k. assert (Y : own_key reference_names k -> get k e = get k d).
    { intros H. rewrite <- (Gr' k H). rewrite <- (proj2 (own_other _ _ _ Hex k H)) at 1. rewrite Gr2 by apply (own_other _ _ _ Hex k H). reflexivity. }
    destruct (in_dec (list_eq_dec ascii_dec) k (map fst d)) as [I|I]; [auto|].
    destruct (in_dec (list_eq_dec ascii_dec) k (map fst e)) as [I'|I'].
    - apply Y. rewrite Kr2 in I'. apply in_map_iff in I' as (x & <- & I'). apply (other_own _ _ _ Hex). auto.
    - destruct (get k e) eqn:X; [exfalso; apply I', get_in; congruence|]. destruct (get k d) eqn:X'; auto. exfalso; apply I, get_in; congruence. }
  unfold convert_llama_state_dict, has. rewrite Nh, Ge, Fr. destruct (get embed_own d) as [w|] eqn:Ew; [|easy]. fold fwd. fold e. unfold tie. fold embed_own final_own.
  destruct (tied_embeddings c); [|exists e; split; auto]. rewrite Gen, Ew. eexists. split; [reflexivity|]. intros k. rewrite get_set. destruct (str_eqb k final_own) eqn:X; auto.
  apply str_eqb_eq in X. subst k. rewrite Ti; auto.
Qed.
Print Assumptions C66_reference.

(** ** The permuted projections give the same attention scores *)
Fixpoint pairs (l : list R) : list (R * R) := match l with a :: b :: l' => (a, b) :: pairs l' | _ => [] end.
Definition head {X} (width j : nat) (l : list X) : list X := firstn width (skipn (j * width) l).
Definition dot (a b : list R) : R := fold_right Rplus 0%R (Pos_Model.map2 Rmult a b).
(** Of two elements made of pairs: all numbers multiplied with one another *)
Definition pair_dot (a b : list (R * R)) : R := fold_right Rplus 0%R (Pos_Model.map2 (fun x y => fst x * fst y + snd x * snd y)%R a b).
Lemma head_concat : forall {X} w (hs : list (list X)) j h, (forall x, In x hs -> length x = w) -> nth_error hs j = Some h -> head w j (concat hs) = h.
Proof.
  intros X w. induction hs as [|a hs IH]; intros j h L N; [destruct j; discriminate|]. assert (La : length a = w) by (apply L; left; auto). unfold head in *. destruct j; cbn in N.
  - injection N as ->. cbn. rewrite firstn_app, La, Nat.sub_diag, firstn_O, app_nil_r. apply firstn_all2. lia.
  - cbn [concat]. rewrite skipn_app, skipn_all2 by lia. cbn [app]. replace (S j * w - length a) with (j * w) by (cbn; lia). apply IH; auto. intros; apply L; right; auto.
Qed.
Lemma pairs_interleave : forall a b, length a = length b -> map fst (pairs (interleave a b)) ++ map snd (pairs (interleave a b)) = a ++ b.
Proof.
  assert (Y : forall a b, length a = length b -> map fst (pairs (interleave a b)) = a /\ map snd (pairs (interleave a b)) = b).
  { induction a as [|x a IH]; intros [|y b] L; try discriminate L; auto. cbn. destruct (IH b ltac:(cbn in L; lia)) as [E1 E2]. unfold interleave in *. rewrite E1, E2. auto. }
  intros a b L. destruct (Y a b L) as [-> ->]. auto.
Qed.
(** Row by row: what Hugging Face keeps as two halves of a head, fairseq2 keeps as pairs of neighbours. *)
Theorem C66_rows : forall (A : Type) (f : A -> R) head_dim half heads (w w' : list A) j, head_dim = 2 * half -> permute_rotary_from head_dim heads w = Some w' -> j < heads ->
  head head_dim j (map f w) = Pos_Props.halves (pairs (head head_dim j (map f w'))).
Proof.
  intros A f hd half n w w' j Hh E Hj. assert (H2 : hd / 2 = half) by (rewrite Hh, Nat.mul_comm; apply Nat.div_mul; auto).
  unfold permute_rotary_from in E. rewrite H2 in E. destruct (length w =? n * (2 * half)) eqn:L; [|discriminate]. apply Nat.eqb_eq in L.
  apply (f_equal (fun o => match o with Some x => x | None => [] end)) in E. cbv beta iota in E.
  destruct (view_split n (2 * half) w L) as (hs & Ln & Lh & ->). rewrite <- Ln, (view_concat hs) in E by auto. rewrite <- E, <- Hh in *. clear E L.
  destruct (nth_error hs j) as [h|] eqn:Nj; [|apply nth_error_None in Nj; lia].
  rewrite !concat_map. rewrite (head_concat hd (map (map f) hs) j (map f h)); [|intros x I; apply in_map_iff in I as (y & <- & I); rewrite map_length; auto|rewrite nth_error_map, Nj; auto].
  assert (Lx : forall x, length x = hd -> exists a b : list A, length a = half /\ length b = half /\ x = a ++ b /\ concat (transpose half (view 2 half x)) = interleave a b).
  { intros x Lx. destruct (split_halves half x) as (a & b & La & Lb & ->); [lia|]. exists a, b. repeat split; auto. rewrite <- La. apply from_head. lia. }
  rewrite (head_concat hd _ j (map f (concat (transpose half (view 2 half h))))).
  - destruct (Lx h) as (a & b & La & Lb & -> & ->); [apply Lh; eapply nth_error_In; eauto|]. rewrite map_app. unfold Pos_Props.halves.
    assert (Ei : map f (interleave a b) = interleave (map f a) (map f b)). { clear. revert b. induction a as [|x a IH]; intros [|y b]; auto. unfold interleave in *. cbn. rewrite IH. auto. }
    rewrite Ei, pairs_interleave; auto. rewrite !map_length. lia.
  - intros x I. apply in_map_iff in I as (y & <- & I). apply in_map_iff in I as (z & <- & I). rewrite map_length. destruct (Lx z) as (a & b & La & Lb & -> & ->); [auto|]. rewrite length_interleave; lia.
  - rewrite !nth_error_map, Nj. auto.
Qed.
Print Assumptions C66_rows.
Lemma dot_halves : forall x y, length x = length y -> dot (Pos_Props.halves x) (Pos_Props.halves y) = pair_dot x y.
Proof.
  assert (Fa : forall a b, fold_right Rplus 0%R (a ++ b) = (fold_right Rplus 0 a + fold_right Rplus 0 b)%R). { induction a as [|r a IH]; intros b; cbn; [ring|]. rewrite IH. ring. }
  intros x y L. unfold dot, pair_dot, Pos_Props.halves. rewrite Pos_Props.map2_app by (rewrite !map_length; auto). rewrite Fa. revert y L.
  induction x as [|[a b] x IH]; intros [|[c d] y] L; try discriminate L; [cbn; ring|]. unfold Pos_Model.map2 in *. cbn [map combine fold_right fst snd]. rewrite <- (IH y) by (cbn in L; lia). ring.
Qed.
Lemma pairs_length : forall l n, length l = 2 * n -> length (pairs l) = n.
Proof. intros l n. revert l. induction n; intros l L. { destruct l; [auto|cbn in L; lia]. } destruct l as [|a [|b l]]; try (cbn in L; lia). cbn. f_equal. apply IHn. cbn in L. lia. Qed.
(** [fq] and [fk]: the products of a row of weights with the input at the two positions. The score of Hugging Face, which rotates halves, with the weights of Hugging
    Face is the score of fairseq2, which rotates pairs, with the imported weights. *)
Theorem C66_attention : forall (A : Type) (fq fk : A -> R) freqs head_dim heads kv_heads (wq wk wq' wk' : list A) j j' p p',
  head_dim = 2 * length freqs -> permute_rotary_from head_dim heads wq = Some wq' -> permute_rotary_from head_dim kv_heads wk = Some wk' -> j < heads -> j' < kv_heads ->
  dot (Pos_Model.ref_comb (length freqs) (head head_dim j (map fq wq)) (Pos_Model.ref_row freqs p)) (Pos_Model.ref_comb (length freqs) (head head_dim j' (map fk wk)) (Pos_Model.ref_row freqs p')) =
  pair_dot (Pos_Model.rot_comb (pairs (head head_dim j (map fq wq'))) (Pos_Model.rot_row freqs p)) (Pos_Model.rot_comb (pairs (head head_dim j' (map fk wk'))) (Pos_Model.rot_row freqs p')).
Proof.
  intros A fq fk freqs hd n m wq wk wq' wk' j j' p p' Hh Eq Ek Hj Hj'.
  assert (Lp : forall n (w w' : list A) (f : A -> R) j, permute_rotary_from hd n w = Some w' -> j < n -> length (pairs (head hd j (map f w'))) = length freqs).
  { intros n0 w w' f j0 E H0. apply pairs_length. pose proof (from_to hd n0 w w' E) as B. unfold permute_rotary_to in B. destruct (length w' =? _) eqn:L; [|discriminate]. apply Nat.eqb_eq in L.
    assert (H2 : hd / 2 = length freqs) by (rewrite Hh, Nat.mul_comm; apply Nat.div_mul; auto). rewrite H2, <- Hh in L. unfold head. rewrite firstn_length, skipn_length, map_length, L. rewrite <- Hh. nia. }
  rewrite (C66_rows A fq hd (length freqs) n wq wq' j Hh Eq Hj), (C66_rows A fk hd (length freqs) m wk wk' j' Hh Ek Hj').
  rewrite !Pos_Props.C51_reference by (eapply Lp; eauto). apply dot_halves. unfold Pos_Model.rot_comb, Pos_Model.rot_row, Pos_Model.map2. rewrite !map_length, !combine_length, !map_length.
  rewrite (Lp n wq wq' fq j), (Lp m wk wk' fk j'); auto.
Qed.
Print Assumptions C66_attention.

(** The export changes the caller's dictionary: exporting the same dictionary twice gives different weights. *)
Theorem C66_twice_refuted : exists c (d : dict (list nat)) h d1 h2 d2, llama_to_hg_state_dict c d = Some (h, d1) /\ llama_to_hg_state_dict c d1 = Some (h2, d2) /\
  get (weight q_other 0) h <> get (weight q_other 0) h2.
Proof.
  exists (Config 4 1 1 1 false), [(weight q_own 0, [0; 1; 2; 3]); (weight k_own 0, [0; 1; 2; 3])]. do 4 eexists. split; [vm_compute; reflexivity|]. split; [vm_compute; reflexivity|]. vm_compute. discriminate.
Qed.
Print Assumptions C66_twice_refuted.

(** The hypotheses are met *)
Fixpoint distinct (l : list str) : bool := match l with [] => true | a :: l' => negb (existsb (str_eqb a) l') && distinct l' end.
Example C66_nonvacuous : exists c (d h : dict (list nat)), own_weights llama_names c d /\ projections c (weight q_own) (weight k_own) d /\
  other_weights llama_names c h /\ projections c (weight q_other) (weight k_other) h /\ num_layers c = 2 /\
  own_weights qwen_names c d /\ own_weights olmo_names c d /\ other_weights qwen_names c h /\ other_weights olmo_names c h.
Proof.
  set (c := Config 4 2 1 1 true). exists c.
  exists [(weight q_own 0, [0; 1; 2; 3]); (weight k_own 0, [0; 1; 2; 3]); (weight q_own 1, [4; 5; 6; 7]); (weight k_own 1, [4; 5; 6; 7]); (embed_own, [8]); (final_own, [8])].
  exists [(weight q_other 0, [0; 1; 2; 3]); (weight k_other 0, [0; 1; 2; 3]); (weight q_other 1, [4; 5; 6; 7]); (weight k_other 1, [4; 5; 6; 7]); (embed_other, [8])].
  assert (N : forall l, distinct l = true -> NoDup l).
  { induction l as [|a l IH]; intros H; constructor; cbn in H; apply andb_true_iff in H as [H1 H2]; auto. intros I. rewrite (proj2 (existsb_exists (str_eqb a) l)) in H1; [discriminate|]. exists a. split; auto. apply str_eqb_refl. }
  assert (O : forall names k, In (q_other, q_own) names -> In (k_other, k_own) names -> In ("model.embed_tokens."%string, "decoder_frontend.embed."%string) names -> In ("lm_head."%string, "final_proj."%string) names ->
    In k [weight q_own 0; weight k_own 0; weight q_own 1; weight k_own 1; embed_own; final_own] -> own_key names k).
  { intros names k I1 I2 I3 I4 I. cbn [In] in I. destruct I as [<-|[<-|[<-|[<-|[<-|[<-|[]]]]]]];
      [exists q_other, q_own, (decimal 0)|exists k_other, k_own, (decimal 0)|exists q_other, q_own, (decimal 1)|exists k_other, k_own, (decimal 1)|exists "model.embed_tokens."%string, "decoder_frontend.embed."%string, (decimal 0)|exists "lm_head."%string, "final_proj."%string, (decimal 0)];
      exists (of_string "weight"); (split; [assumption|split; [apply decimal_number|reflexivity]]). }
  assert (O' : forall names k, In (q_other, q_own) names -> In (k_other, k_own) names -> In ("model.embed_tokens."%string, "decoder_frontend.embed."%string) names ->
    In k [weight q_other 0; weight k_other 0; weight q_other 1; weight k_other 1; embed_other] -> other_key names k).
  { intros names k I1 I2 I3 I. cbn [In] in I. destruct I as [<-|[<-|[<-|[<-|[<-|[]]]]]];
      [exists q_other, q_own, (decimal 0)|exists k_other, k_own, (decimal 0)|exists q_other, q_own, (decimal 1)|exists k_other, k_own, (decimal 1)|exists "model.embed_tokens."%string, "decoder_frontend.embed."%string, (decimal 0)];
      exists (of_string "weight"); (split; [assumption|split; [apply decimal_number|reflexivity]]). }
  assert (W : forall names, In (q_other, q_own) names -> In (k_other, k_own) names -> In ("model.embed_tokens."%string, "decoder_frontend.embed."%string) names -> In ("lm_head."%string, "final_proj."%string) names ->
    own_weights names c [(weight q_own 0, [0; 1; 2; 3]); (weight k_own 0, [0; 1; 2; 3]); (weight q_own 1, [4; 5; 6; 7]); (weight k_own 1, [4; 5; 6; 7]); (embed_own, [8]); (final_own, [8])] /\
    other_weights names c [(weight q_other 0, [0; 1; 2; 3]); (weight k_other 0, [0; 1; 2; 3]); (weight q_other 1, [4; 5; 6; 7]); (weight k_other 1, [4; 5; 6; 7]); (embed_other, [8])]).
  { intros names I1 I2 I3 I4. split; (split; [apply N; vm_compute; reflexivity|]); (split; [cbn [map fst]; intros k I; auto|]); (split; [vm_compute; discriminate|intros _; vm_compute; reflexivity]). }
  assert (Wl := W llama_names ltac:(cbn; tauto) ltac:(cbn; tauto) ltac:(cbn; tauto) ltac:(cbn; tauto)).
  assert (Wq := W qwen_names ltac:(cbn; tauto) ltac:(cbn; tauto) ltac:(cbn; tauto) ltac:(cbn; tauto)).
  assert (Wo := W olmo_names ltac:(cbn; tauto) ltac:(cbn; tauto) ltac:(cbn; tauto) ltac:(cbn; tauto)).
  split; [apply Wl|]. split; [|split; [apply Wl|split; [|split; [reflexivity|split; [apply Wq|split; [apply Wo|split; [apply Wq|apply Wo]]]]]]];
    exists 2; (split; [reflexivity|]); intros i Hi; cbn in Hi; assert (i = 0 \/ i = 1) as [-> | ->] by lia; eexists _, _; (split; [vm_compute; reflexivity|]); (split; [vm_compute; reflexivity|]); split; reflexivity.
Qed.
Example C66_reference_nonvacuous : exists (d : dict (list nat)), NoDup (map fst d) /\ (forall k, In k (map fst d) -> weight_key reference_names k) /\ get embed_own d <> None /\ length d = 2.
Proof.
  exists [(weight q_own 7, [0; 1]); (embed_own, [8])]. split; [|split; [|split; [vm_compute; discriminate|reflexivity]]].
  - constructor; [|constructor; [intros []|constructor]]. intros [H|[]]. vm_compute in H. discriminate.
  - intros k [<-|[<-|[]]]; [exists "layers.#.attention.wq."%string, q_own, (decimal 7)|exists "tok_embeddings."%string, "decoder_frontend.embed."%string, (decimal 0)]; (split; [cbn; tauto|split; [apply decimal_number|reflexivity]]).
Qed.
Example C66_attention_nonvacuous : permute_rotary_from 4 2 [0; 1; 2; 3; 4; 5; 6; 7] = Some [0; 2; 1; 3; 4; 6; 5; 7]. Proof. reflexivity. Qed.
