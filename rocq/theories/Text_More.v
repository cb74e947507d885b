From Coq Require Import List Bool Arith Ascii Lia.
From Verif Require Import File_Model Text_Spec Text_Model Text_Proofs Text_Lines.
Import ListNotations.

(** ** Inferring the line ending *)
Lemma set_ending_id r : set_ending (line_ending r) r = r.
Proof. now destruct r. Qed.
Section Infer.
  Variable m : ending.
  Hypothesis Hm : m <> Infer.
  Definition guess (r : reader) : Prop := line_ending r = m \/ (line_ending r = Infer /\ (infer false (rest r) = m \/ infer false (rest r) = Infer)).
  Lemma load_infer fuel : forall len r, well m (set_ending m r) -> guess r ->
    match load fuel len (set_ending m r) with
    | Some (res, r2) => exists r1, load fuel len r = Some (res, r1) /\ match res with inl (Some _, _) => r1 = r2 | _ => True end
    | None => True
    end.
  Proof.
    induction fuel as [|fuel IH]; intros len r W [HL|[HL HI]].
    1, 3: rewrite <- HL, set_ending_id; destruct (load _ len r) as [[res r2]|]; [|exact I]; exists r2; split; [reflexivity|]; destruct res as [[[?|] ?]|?]; auto.
    - cbn [load set_ending line_ending current source previous stream_offset chunk_offset]. rewrite (find_end_fixed m _ Hm). rewrite HL. unfold find_end.
      cbn [current].
      destruct (infer false (current r)) eqn:E.
      1, 2: assert (m = infer false (current r)) as EM by (unfold rest in HI; rewrite infer_app, E in HI; rewrite E; destruct HI; congruence);
            rewrite E in EM; rewrite EM; cbn [find]; match goal with |- context [find_lf] => destruct (find_lf (current r)) | _ => destruct (find_crlf false (current r)) end; [|exact I]; eexists; split; reflexivity.
      destruct (infer_none _ _ E) as [F1 F2]. assert (F : find m (current r) = None) by (destruct m; auto). now rewrite F.
    - cbn [load set_ending line_ending current source previous stream_offset chunk_offset]. rewrite (find_end_fixed m _ Hm). rewrite HL. unfold find_end.
      cbn [current]. destruct W as (_ & HG & HA & HS). cbn [source set_ending] in HG, HS.
      destruct (infer false (current r)) eqn:E.
      1, 2: assert (m = infer false (current r)) as EM by (unfold rest in HI; rewrite infer_app, E in HI; rewrite E; destruct HI; congruence);
            rewrite E in EM; rewrite EM; cbn [find];
            match goal with |- context [find_lf] => destruct (find_lf (current r)) | _ => destruct (find_crlf false (current r)) end; [eexists; split; reflexivity|];
            destruct (read_chunk (source r)) as [c s'];
            destruct c; [destruct (current r); eexists; (split; [reflexivity|exact I])|];
            match goal with |- match ?l with _ => _ end => destruct l as [[res r2]|] end; [|exact I]; exists r2; split; [reflexivity|]; destruct res as [[[?|] ?]|?]; auto.
      destruct (infer_none _ _ E) as [F1 F2]. assert (F : find m (current r) = None) by (destruct m; auto). rewrite F.
      destruct (read_chunk (source r)) as [c s'] eqn:RC. pose proof (read_chunk_spec _ _ _ HG RC) as (HG' & HB & HC & HU & HPos & HN).
      destruct c as [|c0 c].
      + destruct (current r); eexists; (split; [reflexivity|exact I]).
      + pose (r1 := Reader s' (c0 :: c) (previous r ++ [current r]) (pos (source r)) 0 Infer).
        specialize (IH (len + length (current r)) r1). unfold set_ending, r1 in IH. cbn in IH. apply IH.
        * split; [reflexivity|]. split; [exact HG'|]. split.
          -- destruct HA as (x & HX & HY). exists (x ++ current r). unfold rest in *. cbn [source current set_ending] in *. rewrite HU, HB, HPos, app_length.
             split; [|cbn [length]; lia]. rewrite HX. now rewrite app_assoc.
          -- unfold sound in *. cbn. now rewrite HB, HC.
        * right. split; [reflexivity|]. unfold rest. cbn [source current]. rewrite HU.
          unfold rest in HI. rewrite infer_app, E in HI. destruct (carry false (current r)) eqn:Ca; [|exact HI].
          destruct (carry_last _ _ Ca F2) as [[_ X]|[a' A']]; [discriminate X|].
          rewrite <- (infer_start true); [exact HI|]. intros b' HB'. rewrite HB' in HI. change (infer true (lf :: b')) with Crlf in HI.
          assert (MC : m = Crlf) by (destruct HI; congruence).
          assert (JJ : joint m (current (set_ending m r)) (unread (source (set_ending m r)))) by (apply aligned_joint; assumption).
          destruct JJ as [JJ|JJ]; [congruence|]. apply JJ. exists a', b'. split; assumption.
  Qed.
  Lemma next_record_infer r : well m (set_ending m r) -> placed r -> previous r = [] -> guess r ->
    match next_record (set_ending m r) with
    | Some (out, r2) => exists r1, next_record r = Some (out, r1) /\ match out with Record_ _ => r1 = r2 | _ => True end
    | None => True
    end.
  Proof.
    intros W P PR G. unfold next_record. pose proof (load_infer (S (length (bytes (source r)))) 0 r W G) as H. cbn [set_ending source] in *.
    destruct (load _ 0 (set_ending m r)) as [[res r2]|]; [|exact I]. destruct H as (r1 & -> & H). destruct res as [[[o|] len]|?].
    - subst r1. eexists. split; [reflexivity|]. destruct (previous r2); [reflexivity|]. destruct (_ =? _); auto.
    - eexists. split; [reflexivity|exact I].
    - eexists. split; [reflexivity|exact I].
  Qed.
  Lemma next_infer o r : well m (set_ending m r) -> placed r -> previous r = [] -> guess r ->
    match next o (set_ending m r) with
    | Some (x, r2) => exists r1, next o r = Some (x, r1) /\ match x with Line _ => r1 = r2 | _ => True end
    | None => True
    end.
  Proof.
    intros W P PR G. unfold next. cbn [set_ending source]. cbn [read_next_line]. pose proof (next_record_infer r W P PR G) as H.
    destruct (next_record (set_ending m r)) as [[out r2]|]; [|exact I]. destruct H as (r1 & -> & H).
    destruct out as [l| | |]; [|eexists; (split; [reflexivity|exact I])..]. subst r1.
    destruct (_ && _); [|eexists; split; reflexivity]. destruct (read_next_line _ o r2) as [[[l'| | |] r3]|]; [..|exact I]; eexists; (split; [reflexivity|auto]).
  Qed.
  Lemma read_all_infer o fuel r : well m (set_ending m r) -> placed r -> previous r = [] -> guess r ->
    read_all fuel o (set_ending m r) <> None -> option_map fst (read_all fuel o r) = option_map fst (read_all fuel o (set_ending m r)).
  Proof.
    intros W P PR G. destruct fuel as [|fuel]; [reflexivity|]. cbn [read_all]. pose proof (next_infer o r W P PR G) as H.
    destruct (next o (set_ending m r)) as [[x r2]|]; [|congruence]. destruct H as (r1 & -> & H). destruct x; [now subst|reflexivity..].
  Qed.
End Infer.
Lemma infer_lf b : first_is_lf b -> infer false b = Lf.
Proof.
  intros (t & u & -> & N & L).
  assert (H : forall h t, ~ In lf t -> (t = [] -> h = false) -> (forall t', t <> t' ++ [cr]) -> infer h (t ++ lf :: u) = Lf).
  { clear. intros h t. revert h. induction t as [|c t IH]; intros h N H L; [now rewrite (H eq_refl)|]. cbn [app infer].
    destruct (is_lf c) eqn:E; [apply is_lf_spec in E; subst; now elim N; left|]. apply IH.
    - intros I. apply N. now right.
    - intros ->. apply is_cr_false. intros ->. now apply (L []).
    - intros t' ->. now apply (L (c :: t')). }
  now apply H.
Qed.
Lemma infer_crlf b : first_is_crlf b -> infer false b = Crlf.
Proof.
  intros (t & u & -> & N). generalize false. induction t as [|c t IH]; intros h; [reflexivity|]. cbn [app infer].
  destruct (is_lf c) eqn:E; [apply is_lf_spec in E; subst; now elim N; left|]. apply IH. intros I. apply N. now right.
Qed.
Lemma infer_nothing b : forall h, ~ In lf b -> infer h b = Infer.
Proof.
  induction b as [|c b IH]; intros h N; [reflexivity|]. cbn. destruct (is_lf c) eqn:E; [apply is_lf_spec in E; subst; now elim N; left|].
  apply IH. intros I. apply N. now right.
Qed.

(** ** Positions *)
Lemma position r e : ready e r -> rest r = skipn (stream_offset r + chunk_offset r) (bytes (source r)) /\ stream_offset r + chunk_offset r + length (rest r) = length (bytes (source r)).
Proof.
  intros ((_ & (HK & HP & HE & HA) & (x & X & Y) & _) & P & _).
  assert (Q : stream_offset r + chunk_offset r = length x).
  { destruct P as [(P1 & P2 & P3)|(c & P1 & P2 & P3 & P4 & P5)].
    - rewrite P2 in Y. cbn in Y. lia.
    - pose proof (read_chunk_spec _ _ _ P5 P1) as (_ & _ & _ & _ & Z & _). cbn in Z. rewrite P3, skipn_length in Y. lia. }
  rewrite Q. split.
  - rewrite X. rewrite skipn_app, skipn_all, Nat.sub_diag. reflexivity.
  - rewrite X, app_length. reflexivity.
Qed.
Definition chunk_end (k : option nat) (b : list ascii) (p : nat) : Prop := p = length b \/ match k with Some c => p mod c = 0 | None => False end.
Lemma reload_spec e r k b : e <> Infer -> ready e r -> bytes (source r) = b -> chunk (source r) = k ->
  (chunk_offset r = 0 \/ ~ chunk_end k b (stream_offset r + chunk_offset r) ->
     exists r', reload (record r) (make (open b k) e) = Some r' /\ ready e r' /\ rest r' = rest r) /\
  (0 < chunk_offset r -> chunk_end k b (stream_offset r + chunk_offset r) -> reload (record r) (make (open b k) e) = None).
Proof.
  intros He R HB HC. destruct (position r e R) as [Q1 Q2]. destruct R as ((HL & HG & HAl & HS) & P & PR).
  assert (SP : stream_offset r <= length b) by (rewrite <- HB; lia).
  assert (SG : good (Stream b k (stream_offset r) false)).
  { destruct P as [(P1 & P2 & P3)|(c & P1 & P2 & P3 & P4 & P5)]; [|now rewrite <- HB, <- HC].
    destruct HG as (G1 & G2 & G3 & G4). rewrite P3, HB, HC in *. split; [exact G1|]. split; [exact G2|]. split; [destruct k; [discriminate|reflexivity]|exact G4]. }
  assert (SK : seek (stream_offset r) (open b k) = Stream b k (stream_offset r) false).
  { unfold seek, open. cbn. destruct k as [c|]; [reflexivity|]. f_equal. rewrite Nat.sub_0_r. destruct (length b <=? stream_offset r) eqn:L; [apply Nat.leb_le in L; lia|reflexivity]. }
  unfold reload, record. cbn [source make previous line_ending]. rewrite SK.
  destruct (Nat.eq_dec (chunk_offset r) 0) as [Z|Z].
  - rewrite Z. cbn [Nat.ltb Nat.leb]. split; [|lia]. intros _. eexists. split; [reflexivity|]. rewrite Z, Nat.add_0_r, HB in Q1.
    split; [|now rewrite Q1].
    split; [|split; [left; cbn; auto|reflexivity]]. split; [reflexivity|]. split; [exact SG|]. split.
    + exists (firstn (stream_offset r) b). unfold rest, unread. cbn. rewrite firstn_skipn, firstn_length. split; [reflexivity|lia].
    + unfold sound in *. cbn. now rewrite HB, HC in HS.
  - assert (LT : (0 <? chunk_offset r) = true) by (apply Nat.ltb_lt; lia). rewrite LT.
    destruct P as [(P1 & P2 & P3)|(c & P1 & P2 & P3 & P4 & P5)]; [lia|]. rewrite HB, HC in P1, P5. rewrite P1.
    assert (CE : length c <= chunk_offset r <-> chunk_end k b (stream_offset r + chunk_offset r)).
    { unfold chunk_end. destruct SG as (G1 & G2 & G3 & G4). cbn in G1, G2, G4. unfold read_chunk in P1. cbn in P1.
      destruct k as [k|].
      - assert (k <> 0) by congruence. injection P1 as P1 _.
        assert (LC : length c = min k (length b - stream_offset r)) by (rewrite <- P1, firstn_length, skipn_length; reflexivity).
        destruct G4 as [G4|[i G4]]; [lia|]. split.
        + intros L. destruct (le_lt_dec k (length b - stream_offset r)); [|left; lia]. right. replace (stream_offset r + chunk_offset r) with ((i + 1) * k) by lia.
          apply Nat.mod_mul. lia.
        + intros [L|L]; [lia|]. apply Nat.mod_divide in L; [|lia]. destruct L as [j L]. assert (i < j) by nia. assert (chunk_offset r <= k) by lia. nia.
      - injection P1 as P1 _. assert (LC : length c = length b - stream_offset r) by (rewrite <- P1; apply skipn_length). destruct G4 as [G4|G4]; lia. }
    split.
    + intros [N|N]; [lia|]. destruct (length c <=? chunk_offset r) eqn:L; [apply Nat.leb_le in L; tauto|]. exists r.
      split; [|split; [|reflexivity]].
      * rewrite <- P3. f_equal. destruct r. cbn in *. now subst.
      * split; [now split|]. split; [|exact PR]. right. exists c. rewrite HB, HC. auto.
    + intros _ N. apply CE, Nat.leb_le in N. now rewrite N.
Qed.
(** Calls of next that do not raise *)
Fixpoint calls (n : nat) (o : options) (r : reader) : option (list line * reader) :=
  match n with
  | 0 => Some ([], r)
  | S n' => match next o r with
            | Some (Line l, r) => option_map (fun xr => (Line l :: fst xr, snd xr)) (calls n' o r)
            | Some (NoMore, r) => option_map (fun xr => (NoMore :: fst xr, snd xr)) (calls n' o r)
            | _ => None
            end
  end.
Lemma calls_spec e o n : e <> Infer -> forall r ls u xs r', ready e r -> cut e (rest r) ls u -> calls n o r = Some (xs, r') ->
  bytes (source r') = bytes (source r) /\ chunk (source r') = chunk (source r) /\
  exists ls1 ls2 j, ls = ls1 ++ ls2 /\ xs = map (fun l => Line (trim_line o l)) (filter (kept e o) ls1) ++ repeat NoMore j /\ ready e r' /\ cut e (rest r') ls2 u /\
    (0 < j -> u = [] /\ filter (kept e o) ls2 = [] /\ chunk_offset r' = 0) /\ (j = 0 -> 0 < n -> 0 < chunk_offset r') /\ (n = 0 -> ls1 = []).
Proof.
  intros He. induction n as [|n IH]; intros r ls u xs r' R C H; cbn in H.
  - injection H as <- <-. split; [reflexivity|]. split; [reflexivity|]. exists [], ls, 0. cbn. repeat split; auto; try lia; apply R.
  - destruct (next_spec e He o r ls u R C) as (x & r1 & E & B & K & M). rewrite E in H. destruct (filter (kept e o) ls) as [|l ls'] eqn:F.
    + destruct M as [-> M]. destruct u as [|c u]; [|discriminate H]. cbn in H. destruct (M eq_refl) as (R1 & Z1 & CO). clear M.
      destruct (calls n o r1) as [[xs1 r2]|] eqn:E2; [|discriminate H]. injection H as <- <-.
      assert (C1 : cut e (rest r1) [] []). { rewrite Z1. constructor. destruct e; reflexivity. }
      destruct (IH _ _ _ _ _ R1 C1 E2) as (B2 & K2 & ls1 & ls2 & j & L & X & R2 & C2 & J & J0 & N0). symmetry in L. apply app_eq_nil in L as [-> ->].
      split; [congruence|]. split; [congruence|]. exists ls, [], (S j). rewrite app_nil_r. split; [reflexivity|]. rewrite F. cbn in X |- *. split; [now rewrite X|].
      split; [exact R2|]. split; [exact C2|]. split; [|split; [discriminate|discriminate]]. intros _. split; [reflexivity|]. split; [reflexivity|].
      destruct (Nat.eq_dec j 0) as [->|]; [|apply J; lia]. destruct n; [cbn in E2; now injection E2 as <- <-|].
      exfalso. clear - E2 X He R1 C1. cbn in X. subst xs1. cbn in E2. destruct (next o r1) as [[[| | |] ?]|]; try discriminate E2; destruct (calls n o _); discriminate E2.
    + destruct M as (-> & R1 & CO & l1 & l2 & -> & C1 & F1 & F2 & N1). destruct (calls n o r1) as [[xs1 r2]|] eqn:E2; [|discriminate H]. injection H as <- <-.
      destruct (IH _ _ _ _ _ R1 C1 E2) as (B2 & K2 & ls1 & ls2 & j & -> & X & R2 & C2 & J & J0 & N0). cbn [fst snd]. rewrite X.
      split; [congruence|]. split; [congruence|]. exists (l1 ++ ls1), ls2, j. split; [now rewrite app_assoc|]. rewrite filter_app, F1. split; [reflexivity|].
      split; [exact R2|]. split; [exact C2|]. split; [exact J|]. split; [|discriminate]. intros J1 _.
      destruct n; [cbn in E2; now injection E2 as <- <-|]. apply J0; lia.
Qed.
Lemma reset_ready e r b k : ready e r -> bytes (source r) = b -> chunk (source r) = k -> ready e (reset r) /\ rest (reset r) = b.
Proof.
  intros ((HL & (G1 & G2 & G3 & G4) & HA & HS) & P & PR) HB HC. unfold reset, rewind, rest, unread. cbn. rewrite HB. split; [|reflexivity].
  split; [|split; [left; cbn; auto|exact PR]]. split; [exact HL|]. split; [|split].
  - split; [exact G1|]. cbn. split; [lia|]. rewrite HC in *. split; [destruct k; [discriminate|exact G3]|]. destruct k; [right; now exists 0|now left].
  - exists []. split; reflexivity.
  - unfold sound in *. cbn. now rewrite HB in *.
Qed.
