(** Incremental decoding gives what decoding at once gives. *)
From Coq Require Import List Bool Arith ZArith Lia.
From Verif Require Import Attn_Model Attn_Spec Attn_Proofs Attn_Props Dec_Model Dec_Spec Dec_Proofs.
Import ListNotations.

Section D.
Context {Tk X Q K V Y : Type}.
Notation layer := (layer X Q K V).
Variable M : model Tk X Q K V Y.
Variables (mx : nat) (inc' : option nat).
Notation decoding := (decoding M mx inc').

Definition front (x : list Tk) : list X := enc (pos_x M) (map (embed M) x).
Definition back (x : list X) : list Y := map (final_proj M) (match final_norm M with Some f => map f x | None => x end).
Definition all_fit (n : nat) : bool := long (pos_x M) n && forallb (fun L => fits_layer L n) (layers M).
Definition model_row (x : list Tk) : list Y := back (layers_row (layers M) (front x)).
Lemma front_length x : length (front x) = length x.
Proof. unfold front. now rewrite enc_length, map_length. Qed.
Lemma front_firstn n x : firstn n (front x) = front (firstn n x).
Proof. unfold front. now rewrite enc_firstn, firstn_map. Qed.
Lemma front_rows n P : (forall p, In p P -> length p = n) -> forall x, In x (map front P) -> length x = n.
Proof. intros H x Hx. apply in_map_iff in Hx as (p & <- & Hp). rewrite front_length. auto. Qed.
Lemma back_tail s n R : each (final_proj M) (match final_norm M with Some f => each f (tail s n R) | None => tail s n R end) = tail s n (map back R).
Proof. unfold back. destruct (final_norm M); rewrite ?each_tail, ?map_map; reflexivity. Qed.
Lemma forward_none n P : (forall p, In p P -> length p = n) -> forward M (tail 0 n P) None = if all_fit n then Some (tail 0 n (map model_row P), None) else None.
Proof.
  intros Hl. unfold forward, forward_hooked, all_fit. rewrite each_tail, (pos_encode_tail _ None 0) by reflexivity. cbn [Nat.add]. destruct (long (pos_x M) n); [|reflexivity]. cbn [andb].
  rewrite map_map. change (fun x => enc (pos_x M) (map (embed M) x)) with front.
  pose proof (layers_none [] (length (layers M)) n (layers M) 0 (map front P) (front_rows n P Hl)) as E.
  destruct (forward_layers [] (length (layers M)) 0 (layers M) (tail 0 n (map front P)) None) as [[[y b] c]|]; cbn in *; destruct (forallb _ (layers M)); try discriminate; [|reflexivity].
  injection E as -> ->. rewrite back_tail, !map_map. reflexivity.
Qed.
Definition inv (b : bag K V) (P : list (list Tk)) (H : nat -> list (event K V)) : Prop :=
  session keep mx inc' b H /\ (forall p, In p P -> length p = step_nr b) /\ fit (layers M) 0 H (step_nr b) (map front P) /\ forall m, length (layers M) <= m -> H m = [].
Lemma forward_bag n P b H : session keep mx inc' b H -> fit (layers M) 0 H (step_nr b) (map front P) -> (forall p, In p P -> length p = step_nr b + n) ->
  inc' <> None \/ step_nr b + n <= mx ->
  (all_fit (step_nr b + n) = false /\ forward M (tail (step_nr b) n P) (Some b) = None) \/
  (all_fit (step_nr b + n) = true /\ exists b' H', forward M (tail (step_nr b) n P) (Some b) = Some (tail (step_nr b) n (map model_row P), Some b') /\
    session keep mx inc' b' H' /\ step_nr b' = step_nr b /\ fit (layers M) 0 H' (step_nr b + n) (map front P) /\
    (forall m, m < length (layers M) -> H' m <> []) /\ forall m, length (layers M) <= m -> H' m = H m).
Proof.
  intros Se F Hl Rm. unfold forward, forward_hooked, all_fit. rewrite each_tail, (pos_encode_tail _ (Some b) (step_nr b)) by reflexivity.
  destruct (long (pos_x M) (step_nr b + n)); [|left; split; reflexivity]. cbn [andb].
  rewrite map_map. change (fun x => enc (pos_x M) (map (embed M) x)) with front.
  destruct (layers_bag mx inc' [] (length (layers M)) (step_nr b) n (layers M) 0 (map front P) b H Se eq_refl F (front_rows _ P Hl) Rm) as [(A & B)|(A & b' & H' & E & S1 & T1 & I1 & I2 & I3)].
  - left. rewrite A, B. split; reflexivity.
  - right. split; [exact A|]. exists b', H'. split.
    + destruct (forward_layers [] (length (layers M)) 0 (layers M) (tail (step_nr b) n (map front P)) (Some b)) as [[[y c] d]|]; cbn in *; [|discriminate].
      injection E as -> ->. rewrite back_tail, !map_map. reflexivity.
    + cbn in I2. repeat split; auto. intros m Hm. apply I2. lia.
Qed.
(** Only the first elements matter *)
Lemma fit_firstn Ls : forall m H s XS YS, map (firstn s) XS = map (firstn s) YS -> fit Ls m H s XS -> @fit X Q K V Ls m H s YS.
Proof.
  induction Ls as [|L Ls IH]; intros m H s XS YS E; cbn; [auto|]. intros ((F1 & F2 & F3 & F4) & F).
  assert (LE : length XS = length YS) by (rewrite <- (map_length (firstn s) XS), E, map_length; reflexivity).
  assert (N : forall i, i < length YS -> firstn s (nth i XS []) = firstn s (nth i YS [])).
  { intros i Hi. rewrite <- (nth_map_in (firstn s) [] [] XS i) by lia. rewrite E. now apply nth_map_in. }
  split.
  - split; [rewrite <- LE; exact F1|]. split; [exact F2|]. rewrite LE in F3, F4. split; intros i Hi; [rewrite F3 by exact Hi|rewrite F4 by exact Hi].
    + rewrite !ks_firstn, N by exact Hi. reflexivity.
    + rewrite !vs_firstn, N by exact Hi. reflexivity.
  - apply (IH _ _ _ (map (layer_row L) XS)); [|exact F].
    assert (G : forall Z, map (firstn s) (map (layer_row L) Z) = map (layer_row L) (map (firstn s) Z)).
    { intros Z. rewrite !map_map. apply map_ext. intros x. apply layer_row_firstn. }
    rewrite !G, E. reflexivity.
Qed.
Lemma fit_empty Ls : forall m H (XS : list (list X)), (forall m', H m' = []) -> @fit X Q K V Ls m H 0 XS.
Proof. induction Ls as [|L Ls IH]; intros m H XS E; cbn; [auto|]. split; [|apply IH; auto]. unfold fit1. rewrite E. split; [left; reflexivity|]. split; [reflexivity|]. split; intros i Hi; reflexivity. Qed.
Lemma fit_reorder Ls o : forall m H s XS, (forall m', m <= m' < m + length Ls -> H m' <> []) -> (forall i, In i o -> i < length XS) -> fit Ls m H s XS ->
  @fit X Q K V Ls m (fun m => match H m with [] => [] | h => Reordered o :: h end) s (map (fun i => nth i XS []) o).
Proof.
  induction Ls as [|L Ls IH]; intros m H s XS Ne O; cbn [fit]; [auto|]. intros ((F1 & F2 & F3 & F4) & F). split.
  - specialize (Ne m ltac:(cbn; lia)). destruct (H m) as [|e h] eqn:E; [congruence|]. split; [right; cbn; now rewrite map_length|]. split; [exact F2|].
    rewrite map_length. split; intros i Hi; [change (keys (Reordered o :: e :: h) i) with (keys (e :: h) (nth i o 0))|change (values (Reordered o :: e :: h) i) with (values (e :: h) (nth i o 0))].
    + rewrite F3 by (apply O, nth_In, Hi). rewrite (nth_map_in _ 0) by exact Hi. reflexivity.
    + rewrite F4 by (apply O, nth_In, Hi). rewrite (nth_map_in _ 0) by exact Hi. reflexivity.
  - rewrite map_map. assert (E : map (fun i => layer_row L (nth i XS [])) o = map (fun i => nth i (map (layer_row L) XS) []) o).
    { apply map_ext_in. intros i Hi. symmetry. apply nth_map_in. auto. }
    rewrite E. apply IH; [intros m' Hm; apply Ne; cbn; lia| |exact F]. intros i Hi. rewrite map_length. auto.
Qed.

Lemma fit_size Ls : forall m0 H s (XS : list (list X)) m, @fit X Q K V Ls m0 H s XS -> m0 <= m < m0 + length Ls -> H m <> [] -> length XS = size (H m).
Proof.
  induction Ls as [|L Ls IH]; intros m0 H s XS m F Hm N; cbn in Hm; [lia|]. destruct F as (F1 & F). destruct (Nat.eq_dec m m0) as [->|D].
  - destruct F1 as ([F1|F1] & _); [congruence|auto].
  - rewrite <- (IH (S m0) H s (map (layer_row L) XS) m F ltac:(lia) N), map_length. reflexivity.
Qed.
(** A step changes neither the number of the step nor the limits *)
Lemma layers_keep hs N Ls : forall m x b y b' c, @forward_layers X Q K V hs N m Ls x (Some b) = Some (y, b', c) ->
  exists b1, b' = Some b1 /\ max_steps b1 = max_steps b /\ step_nr b1 = step_nr b /\ inc b1 = inc b.
Proof.
  induction Ls as [|L Ls IH]; intros m x b y b' c; cbn [forward_layers]; [intros [= <- <- <-]; eauto|].
  destruct (forward_layer m L x (Some b)) as [[x1 b1]|] eqn:E; [|discriminate].
  assert (X1 : exists b2, b1 = Some b2 /\ max_steps b2 = max_steps b /\ step_nr b2 = step_nr b /\ inc b2 = inc b).
  { unfold forward_layer, self_attn in E. destruct (pos_encode (pos_q L) (Some b) _) as [q|]; [|discriminate]. destruct (pos_encode (pos_k L) (Some b) _) as [k|]; [|discriminate].
    destruct (self_attend _ _ _ _ b) as [[[k1 v1] b2]|] eqn:A; [|discriminate]. injection E as _ <-. exists b2. split; auto.
    unfold self_attend in A. destruct (lookup m (states b)).
    - destruct (append _ _ s); cbn [bind] in A; [|discriminate]. injection A as _ _ <-. auto.
    - destruct (self_factory _ _ _ _ _); cbn [bind] in A; [|discriminate]. injection A as _ _ <-. auto. }
  destruct X1 as (b2 & -> & A & B & C). destruct (forward_layers hs N (S m) Ls x1 (Some b2)) as [[[y2 b3] c2]|] eqn:E2; [|discriminate].
  intros [= <- <- <-]. destruct (IH _ _ _ _ _ _ E2) as (b4 & -> & A' & B' & C'). exists b4. repeat split; congruence.
Qed.
Lemma forward_keeps t b y b' : forward M t (Some b) = Some (y, Some b') -> max_steps b' = max_steps b /\ step_nr b' = step_nr b /\ inc b' = inc b.
Proof.
  unfold forward, forward_hooked. destruct (pos_encode _ _ _); [|discriminate]. destruct (forward_layers _ _ _ _ _ _) as [[[x b1] c]|] eqn:E; [|discriminate]. cbn. intros [= _ ->].
  destruct (layers_keep _ _ _ _ _ _ _ _ _ E) as (b2 & [= <-] & R). exact R.
Qed.
(** The state of decoding *)
Definition good (b : bag K V) (P : option (list (list Tk))) : Prop :=
  exists H, session keep mx inc' b H /\ fed P (step_nr b) /\ (forall m, length (layers M) <= m -> H m = []) /\
    match P with
    | None => forall m, H m = []
    | Some P => fit (layers M) 0 H (step_nr b) (map front P) /\ forall m, m < length (layers M) -> H m <> []
    end.
(** The rows of a chunk are the last elements of the new prefixes *)
Lemma chunk_tail (P : option (list (list Tk))) (b : bag K V) t : fed P (step_nr b) -> next_chunk P t ->
  t = tail (step_nr b) (width t) (extend P t) /\ (forall p, In p (extend P t) -> length p = step_nr b + width t) /\
  match P with None => True | Some P => map (firstn (step_nr b)) (extend (Some P) t) = P end.
Proof.
  intros F (R & W & L). destruct t as [w r]. cbn [width rows] in *. unfold extend, tail. cbn [rows]. destruct P as [P|]; cbn [fed] in F.
  - assert (G : forall P r, (forall p, In p P -> length p = step_nr b) -> (forall x, In x r -> length x = w) -> length r = length P ->
      map (skipn (step_nr b)) (map2 (@app Tk) P r) = r /\ (forall p, In p (map2 (@app Tk) P r) -> length p = step_nr b + w) /\ map (firstn (step_nr b)) (map2 (@app Tk) P r) = P).
    { clear. induction P as [|p P IH]; intros [|x r] HP Hr L; cbn in L; try discriminate; [repeat split; intros p []|].
      destruct (IH r) as (A & B & C); auto; [intros; apply HP; now right|intros; apply Hr; now right|].
      assert (Lp : length p = step_nr b) by (apply HP; now left). unfold map2 in *. cbn [combine map fst snd]. rewrite A, C. split; [|split].
      - f_equal. rewrite skipn_app, Lp, Nat.sub_diag, skipn_all2 by lia. reflexivity.
      - intros q [<-|Hq]; [rewrite app_length, Lp, (Hr x (or_introl eq_refl)); reflexivity|auto].
      - f_equal. rewrite firstn_app, Lp, Nat.sub_diag, firstn_all2 by lia. apply app_nil_r. }
    destruct (G P r F R L) as (A & B & C). rewrite A. repeat split; auto.
  - rewrite F. cbn. change (skipn (A:=Tk) 0) with (fun x : list Tk => x). rewrite map_id. split; [reflexivity|]. split; [exact R|exact I].
Qed.
Lemma chunk_fit (P : option (list (list Tk))) (b : bag K V) H t : fed P (step_nr b) -> next_chunk P t ->
  match P with None => forall m, H m = [] | Some P => fit (layers M) 0 H (step_nr b) (map front P) /\ forall m, m < length (layers M) -> H m <> [] end ->
  fit (layers M) 0 H (step_nr b) (map front (extend P t)).
Proof.
  intros F N G. destruct (chunk_tail P b t F N) as (_ & _ & E). destruct P as [P|].
  - apply (fit_firstn _ _ _ _ (map front P)); [|apply G].
    assert (C : forall Z, map (firstn (step_nr b)) (map front Z) = map front (map (firstn (step_nr b)) Z)).
    { intros Z. rewrite !map_map. apply map_ext. intros x. apply front_firstn. }
    rewrite !C, E. f_equal. rewrite <- (map_id P) at 2. apply map_ext_in. intros p Hp. now rewrite firstn_all2 by (rewrite (F p Hp); lia).
  - cbn in F. rewrite F. apply fit_empty. exact G.
Qed.

Lemma decoding_good b P : decoding b P -> good b P.
Proof.
  induction 1 as [b E|b P t y b' b'' D IH N E E2|b P o b' D IH O E].
  - exists (fun _ => []). split; [now apply Attn_Spec.Started|]. split; [|split; auto]. unfold new_bag in E. destruct inc' as [[|i]|]; try discriminate E; injection E as <-; reflexivity.
  - destruct IH as (H & Se & F & Z & G). destruct (chunk_tail P b t F N) as (Et & Hl & _). pose proof (chunk_fit P b H t F N G) as Ft.
    assert (Rm : step_nr b + width t <= mx \/ mx < step_nr b + width t) by lia. destruct Rm as [Rm|Rm].
    + rewrite Et in E. cbn [width tail] in E. destruct (forward_bag (width t) (extend P t) b H Se Ft Hl (or_intror Rm)) as [(A & B)|(A & b1 & H1 & E1 & S1 & T1 & I1 & I2 & I3)]; [congruence|].
      rewrite E1 in E. injection E as _ <-. exists H1. pose proof (Stepped _ _ _ b1 H1 (width t) b'' S1 E2) as S2.
      assert (T2 : step_nr b'' = step_nr b + width t). { unfold increment in E2. destruct (_ <=? _); [discriminate|]. injection E2 as <-. cbn. lia. }
      split; [exact S2|]. cbn [fed]. rewrite T2. repeat split; auto. intros m Hm. rewrite I3 by exact Hm. auto.
    + exfalso. destruct (session_agrees _ _ _ _ _ Se) as (Ei & Em & _).
      assert (X1 : exists b1, b' = b1 /\ max_steps b1 = mx /\ step_nr b1 = step_nr b).
      { exists b'. split; auto. apply forward_keeps in E as (A & B & _). rewrite A, B. auto. }
      destruct X1 as (b1 & -> & M1 & M2). unfold increment in E2. rewrite M1, M2 in E2. destruct (Nat.leb_spec mx (step_nr b + width t)); [discriminate|lia].
  - destruct IH as (H & Se & F & Z & G1 & G2). cbn [fed] in F.
    assert (T : step_nr b' = step_nr b). { unfold bag_reorder in E. destruct (reorder_all o (states b)); cbn [bind] in E; [|discriminate]. injection E as <-. reflexivity. }
    exists (fun m => match H m with [] => [] | h => Reordered o :: h end). split; [|split; [|split; [|split]]].
    + apply (Attn_Spec.Rearranged _ _ _ b); auto. intros m Hm. split; auto. destruct (Nat.lt_ge_cases m (length (layers M))) as [L|L]; [|rewrite Z in Hm by exact L; congruence].
      intros i Hi. rewrite <- (fit_size _ 0 H (step_nr b) (map front P) m G1 ltac:(lia) Hm), map_length. auto.
    + cbn [fed]. rewrite T. intros p Hp. apply in_map_iff in Hp as (i & <- & Hi). apply F. apply nth_In. auto.
    + intros m Hm. now rewrite Z by exact Hm.
    + rewrite T, map_map. assert (E1 : map (fun i => front (nth i P [])) o = map (fun i => nth i (map front P) []) o).
      { apply map_ext_in. intros i Hi. symmetry. apply nth_map_in. auto. }
      rewrite E1. apply fit_reorder; auto; [intros m Hm; apply G2; lia|]. intros i Hi. rewrite map_length. auto.
    + intros m Hm. specialize (G2 m Hm). destruct (H m); congruence.
Qed.

Lemma tail0 {A} n (P : list (list A)) : tail 0 n P = Mat n P.
Proof. unfold tail. change (skipn (A:=A) 0) with (fun x : list A => x). now rewrite map_id. Qed.
Lemma model_row_length p : length (model_row p) = length p.
Proof. unfold model_row, back. destruct (final_norm M); rewrite !map_length, layers_row_length, front_length; reflexivity. Qed.
Lemma model_row_firstn n p : firstn n (model_row p) = model_row (firstn n p).
Proof.
  assert (G : forall (Ls : list layer) x, firstn n (layers_row Ls x) = layers_row Ls (firstn n x)).
  { induction Ls as [|L Ls IH]; intros x; cbn; [reflexivity|]. unfold layers_row in IH. rewrite IH, layer_row_firstn. reflexivity. }
  unfold model_row, back. destruct (final_norm M); rewrite !firstn_map, G, front_firstn; reflexivity.
Qed.

(** Whatever has been fed before, in whatever chunks, and however the rows have been rearranged: feeding the next chunk gives for each row what the model gives without a bag for the
    last positions of the whole sequence of that row. It fails if and only if the latter does, which is when the sequence is too long for a position encoder. Memory grows on demand, or
    the bag was made for as many steps. *)
Theorem C76_incremental : forall b P t, decoding b P -> next_chunk P t -> inc' <> None \/ step_nr b + width t <= mx ->
  match forward M (Mat (step_nr b + width t) (extend P t)) None with
  | None => forward M t (Some b) = None
  | Some (y, _) => exists b', forward M t (Some b) = Some (Mat (width t) (map (lastn (width t)) (rows y)), Some b')
  end.
Proof.
  intros b P t D N Rm. destruct (decoding_good b P D) as (H & Se & F & Z & G). destruct (chunk_tail P b t F N) as (Et & Hl & _). pose proof (chunk_fit P b H t F N G) as Ft.
  rewrite <- tail0, (forward_none _ _ Hl). destruct (forward_bag (width t) (extend P t) b H Se Ft Hl Rm) as [(A & B)|(A & b1 & H1 & E1 & _)]; rewrite A.
  - rewrite Et at 1. exact B.
  - exists b1. rewrite Et at 1. rewrite E1. unfold tail. cbn [rows]. do 3 f_equal. rewrite !map_map. apply map_ext_in. intros p Hp. unfold lastn.
    change (skipn 0 (model_row p)) with (model_row p). rewrite model_row_length, (Hl p Hp). f_equal. lia.
Qed.
(** There is always room for one step. The number of the step is the number of tokens fed to every row. *)
Theorem C76_steps : forall b P, decoding b P -> fed P (step_nr b) /\ (step_nr b = 0 \/ step_nr b + 1 <= mx).
Proof.
  intros b P D. destruct (decoding_good b P D) as (H & Se & F & _). split; auto. destruct (session_agrees _ _ _ _ _ Se) as (_ & _ & _ & St & _). lia.
Qed.
(** Rearranging the rows never fails if the rows exist. *)
Theorem C76_rearrange : forall b P o, decoding b (Some P) -> (forall i, In i o -> i < length P) -> exists b', bag_reorder o b = Ok b'.
Proof.
  intros b P o D O. destruct (decoding_good b _ D) as (H & Se & F & Z & G1 & G2). apply (C50_reorder mx inc' b H o Se).
  - intros m _. destruct (session_agrees _ _ _ _ _ Se) as (_ & _ & _ & St & _).
    destruct (Nat.lt_ge_cases m (length (layers M))) as [L|L]; [|rewrite Z by exact L; cbn; lia].
    assert (T : forall Ls m0 s (XS : list (list X)), @fit X Q K V Ls m0 H s XS -> m0 <= m < m0 + length Ls -> total (H m) = s).
    { clear. induction Ls as [|L Ls IH]; intros m0 s XS F Hm; cbn in Hm; [lia|]. destruct F as (F1 & F). destruct (Nat.eq_dec m m0) as [->|D]; [apply F1|]. apply (IH (S m0) s (map (layer_row L) XS)); auto. lia. }
    rewrite (T _ _ _ _ G1 ltac:(lia)). lia.
  - intros m Hm. split; auto. destruct (Nat.lt_ge_cases m (length (layers M))) as [L|L]; [|rewrite Z in Hm by exact L; congruence].
    intros i Hi. rewrite <- (fit_size _ 0 H (step_nr b) (map front P) m G1 ltac:(lia) Hm), map_length. auto.
Qed.
(** Without a bag: a position does not depend on later ones, and a row does not depend on the others. *)
Theorem C76_causal : forall n P y b k, rect (Mat n P) -> k <= n -> forward M (Mat n P) None = Some (y, b) ->
  forward M (Mat k (map (firstn k) P)) None = Some (Mat k (map (firstn k) (rows y)), None).
Proof.
  intros n P y b k R Hk E. rewrite <- tail0, (forward_none n P R) in E. rewrite <- tail0, forward_none.
  2: { intros p Hp. apply in_map_iff in Hp as (q & <- & Hq). rewrite firstn_length, (R q Hq). cbn. lia. }
  assert (Mo : forall A (e : option (encoder A)), long e n = true -> long e k = true).
  { intros A [e|]; cbn [long]; auto. rewrite !negb_true_iff, !Nat.ltb_ge. lia. }
  destruct (all_fit n) eqn:Fn; [|discriminate]. injection E as <- <-.
  assert (Fk : all_fit k = true).
  { unfold all_fit in *. apply andb_true_iff in Fn as (F1 & F2). rewrite (Mo _ _ F1). cbn [andb]. apply forallb_forall. intros L HL. rewrite forallb_forall in F2. specialize (F2 L HL).
    unfold fits_layer in *. apply andb_true_iff in F2 as (F3 & F4). now rewrite (Mo _ _ F3), (Mo _ _ F4). }
  rewrite Fk, !tail0. do 3 f_equal. cbn [rows]. rewrite !map_map. apply map_ext. intros p. symmetry. apply model_row_firstn.
Qed.
Theorem C76_alone : forall n P y b i p, rect (Mat n P) -> forward M (Mat n P) None = Some (y, b) -> nth_error P i = Some p ->
  exists r, nth_error (rows y) i = Some r /\ forward M (Mat n [p]) None = Some (Mat n [r], None).
Proof.
  intros n P y b i p R E Hp. rewrite <- tail0, (forward_none n P R) in E. destruct (all_fit n) eqn:Fn; [|discriminate]. injection E as <- <-. exists (model_row p).
  split; [rewrite tail0; cbn [rows]; now rewrite nth_error_map, Hp|]. rewrite <- tail0, forward_none, Fn, tail0; [reflexivity|].
  intros q [<-|[]]. apply (R p). apply nth_error_In in Hp. exact Hp.
Qed.
(** Hooks change nothing: they are called after each layer, up to the first that gives False. *)
Theorem C76_hooks : forall hs t b, option_map fst (forward_hooked M hs t b) = forward M t b /\
  forall y b' c, forward_hooked M hs t b = Some (y, b', c) -> length c = length (layers M).
Proof.
  intros hs t b.
  assert (G : forall N Ls m x c, option_map fst (@forward_layers X Q K V hs N m Ls x c) = option_map fst (forward_layers [] N m Ls x c) /\
    forall y b' a, forward_layers hs N m Ls x c = Some (y, b', a) -> length a = length Ls).
  { induction Ls as [|L Ls IH]; intros m x c; cbn [forward_layers]; [split; [reflexivity|now intros y b' a [= _ _ <-]]|].
    destruct (forward_layer m L x c) as [[x1 c1]|]; [|split; [reflexivity|discriminate]]. destruct (IH (S m) x1 c1) as (A & B).
    destruct (forward_layers hs N (S m) Ls x1 c1) as [[[y1 b1] a1]|]; destruct (forward_layers [] N (S m) Ls x1 c1) as [[[y2 b2] a2]|]; cbn in *; try discriminate.
    - injection A as -> ->. split; [reflexivity|]. intros y b' a [= _ _ <-]. cbn. f_equal. eapply B. reflexivity.
    - split; [reflexivity|discriminate]. }
  unfold forward, forward_hooked. destruct (pos_encode (pos_x M) b _) as [x|]; [|split; [reflexivity|discriminate]].
  destruct (G (length (layers M)) (layers M) 0 x b) as (A & B).
  destruct (forward_layers hs _ 0 (layers M) x b) as [[[y1 b1] a1]|]; destruct (forward_layers [] _ 0 (layers M) x b) as [[[y2 b2] a2]|]; cbn in *; try discriminate.
  - injection A as -> ->. split; [reflexivity|]. intros y b' a [= _ _ <-]. eapply B. reflexivity.
  - split; [reflexivity|discriminate].
Qed.
End D.
Print Assumptions C76_incremental.
Print Assumptions C76_steps.
Print Assumptions C76_rearrange.
Print Assumptions C76_causal.
Print Assumptions C76_alone.
Print Assumptions C76_hooks.

(** ** A small decoder: numbers; attention adds up the values it sees, and positions count *)
Definition tiny (n : nat) : model nat nat nat nat nat nat :=
  Model (fun t => t) (Some (Encoder 5 (fun i x => x + 10 * i)))
    (repeat (Layer true (fun x => x) (fun x => x) (fun x => x) (fun x => x + 1) (Some (Encoder 6 (fun i q => q + i))) None
      (fun q kvs => fold_right (fun kv a => match kv with (Some k, Some v) => (k + 3 * v) mod 11 + a | _ => 99 end) q kvs) plus (fun x => x) (fun x => x mod 7) plus) n) None (fun x => 2 * x).
(** A prompt of two tokens for two rows, one step, then three rows of which two continue the second one, and another step *)
Definition run : option (bag nat nat * list (list (list nat))) :=
  match new_bag 9 (Some 2) with
  | Ok b => match forward (tiny 2) (Mat 2 [[1; 2]; [3; 4]]) (Some b) with
    | Some (y1, Some b) => match increment 2 b with Ok b =>
      match forward (tiny 2) (Mat 1 [[5]; [6]]) (Some b) with
      | Some (y2, Some b) => match increment 1 b with Ok b =>
        match bag_reorder [1; 0; 1] b with Ok b =>
          match forward (tiny 2) (Mat 1 [[0]; [1]; [2]]) (Some b) with
          | Some (y3, Some b) => Some (b, [rows y1; rows y2; rows y3]) | _ => None end | _ => None end | _ => None end | _ => None end | _ => None end | _ => None end
  | _ => None
  end.
Example C76_incremental_example : exists b y1 y2 y3, run = Some (b, [y1; y2; y3]) /\
  option_map (fun x => rows (fst x)) (forward (tiny 2) (Mat 4 [[3; 4; 6; 0]; [1; 2; 5; 1]; [3; 4; 6; 2]]) None) =
  Some (map (fun p => fst p ++ snd p) (combine (map (fun i => nth i y1 [] ++ nth i y2 []) [1; 0; 1]) y3)).
Proof. eexists _, _, _, _. split; [vm_compute; reflexivity|vm_compute; reflexivity]. Qed.

(** The documentation says that a hook that gives False makes the decoder treat the layer as the final one. It does not: only the other hooks are not called. The loops of
    models/transformer/decoder.py 187-188 and encoder.py 162-163 are the same. *)
Theorem C76_hook_refuted : ~ (forall (M : model nat nat nat nat nat nat) h t k, (forall m x n, h m x n = negb (m =? k)) -> k < length (layers M) ->
  option_map fst (forward_hooked M [h] t None) = forward (Model (embed M) (pos_x M) (firstn (S k) (layers M)) (final_norm M) (final_proj M)) t None).
Proof.
  intros H. specialize (H (tiny 2) (fun m _ _ => negb (m =? 0)) (Mat 1 [[3]]) 0 ltac:(reflexivity) ltac:(cbn; lia)). vm_compute in H. discriminate H.
Qed.
Print Assumptions C76_hook_refuted.
