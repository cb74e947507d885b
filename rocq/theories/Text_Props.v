(** C22: reading a text file gives its lines. *)
From Coq Require Import String.
From Coq Require Import List Bool Arith Ascii Lia.
From Verif Require Import File_Model Text_Spec Text_Model Text_Proofs Text_Lines Text_More.
Import ListNotations.
Local Open Scope string_scope.
Local Open Scope list_scope.

Definition is (a b : list ascii) : bool := if list_eq_dec ascii_dec a b then true else false.
(** What read_text raises or gives after the last line *)
Definition fin (rest : list ascii) : line := match rest with [] => NoMore | _ => ReadError end.
Lemma map_trim o ls : Forall2 (trimmed (do_ltrim o) (do_rtrim o)) ls (map (trim_line o) ls).
Proof. induction ls; constructor; auto. apply trim_line_spec. Qed.
Lemma read_text_cut o e k b : e <> Infer -> valid k -> e = Lf \/ unsplit k b -> exists ls u r, cut e b ls u /\ read_text o e k b = Some (map (trim_line o) (filter (kept e o) ls), fin u, r).
Proof.
  intros He V U. destruct (cut_exists e b) as (ls & u & C). exists ls, u.
  destruct (read_all_spec e He o (S (length b)) (make (open b k) e) ls u (ready_open e b k V U) C ltac:(pose proof (cut_length _ _ _ _ C); lia)) as (r & H).
  exists r. split; [exact C|exact H].
Qed.
Lemma filter_kept_lf o ls : Forall lf_line ls -> filter (kept Lf o) ls = filter (fun l => negb (skip_empty o && is l [lf])) ls.
Proof.
  intros F. apply filter_ext_in. intros l I. rewrite Forall_forall in F. destruct (F l I) as (t & -> & _). unfold kept, is, is_empty_line.
  destruct (list_eq_dec ascii_dec (t ++ [lf]) [lf]) as [E|E].
  - now rewrite E.
  - rewrite app_length. cbn. destruct t as [|c t]; [now elim E|]. cbn. now rewrite Nat.add_1_r.
Qed.
Lemma filter_kept_crlf o ls : Forall crlf_line ls -> filter (kept Crlf o) ls = filter (fun l => negb (skip_empty o && is l [cr; lf])) ls.
Proof.
  intros F. apply filter_ext_in. intros l I. rewrite Forall_forall in F. destruct (F l I) as (t & -> & _). unfold kept, is, is_empty_line.
  destruct (list_eq_dec ascii_dec (t ++ [cr; lf]) [cr; lf]) as [E|E].
  - now rewrite E.
  - rewrite app_length. cbn. destruct t as [|c t]; [now elim E|]. cbn. now replace (length t + 2) with (S (S (length t))) by lia.
Qed.

(** Lines ending with a line feed: whatever the size of the pieces the file is read in, the lines come in order, without the empty ones and
    trimmed if so asked. What follows the last line feed, if anything, raises an error. *)
Theorem C22_lf o k b : valid k -> exists ls rest out r, lf_lines b ls rest /\
  read_text o Lf k b = Some (out, fin rest, r) /\ Forall2 (trimmed (do_ltrim o) (do_rtrim o)) (filter (fun l => negb (skip_empty o && is l [lf])) ls) out.
Proof.
  intros V. destruct (read_text_cut o Lf k b ltac:(discriminate) V (or_introl eq_refl)) as (ls & u & r & C & H). apply cut_lf in C.
  exists ls, u. eexists _, r. split; [exact C|]. split; [exact H|]. rewrite (filter_kept_lf o ls) by apply C. apply map_trim.
Qed.
Print Assumptions C22_lf.
Lemma filter_all {A} (l : list A) : filter (fun _ => true) l = l.
Proof. induction l; cbn; congruence. Qed.
Lemma trimmed_off ls out : Forall2 (trimmed false false) ls out -> out = ls.
Proof.
  induction 1 as [|l m ls out (a & z & E & _ & _ & A & Z & _) _ ->]; [reflexivity|]. rewrite (A eq_refl), (Z eq_refl), app_nil_r in E. cbn in E. congruence.
Qed.
(** In particular, joining the lines gives back the contents of a file whose last line is complete. *)
Theorem C22_join k b : valid k -> b = [] \/ (exists b', b = b' ++ [lf]) ->
  exists out r, read_text (Options false false false) Lf k b = Some (out, NoMore, r) /\ concat out = b /\ Forall lf_line out.
Proof.
  intros V E. destruct (C22_lf (Options false false false) k b V) as (ls & u & out & r & (L1 & L2 & L3) & H & T).
  cbn in T. rewrite filter_all in T. apply trimmed_off in T. subst out.
  assert (U : u = []).
  { destruct u as [|c u]; [reflexivity|]. exfalso.
    destruct (exists_last (l := c :: u) ltac:(discriminate)) as (u' & c' & X). rewrite X in L1, L3. destruct E as [->|(b' & ->)].
    - symmetry in L1. apply app_eq_nil in L1 as [_ L1]. destruct u'; discriminate L1.
    - rewrite app_assoc in L1. apply app_inj_tail in L1 as [_ <-]. apply L3, in_or_app. right. now left. }
  subst u. exists ls, r. split; [exact H|]. split; [|exact L2]. now rewrite app_nil_r in L1.
Qed.
Print Assumptions C22_join.
(** Lines ending with a carriage return and a line feed, when no piece ends between the two *)
Theorem C22_crlf o k b : valid k -> unsplit k b -> exists ls rest out r, crlf_lines b ls rest /\
  read_text o Crlf k b = Some (out, fin rest, r) /\ Forall2 (trimmed (do_ltrim o) (do_rtrim o)) (filter (fun l => negb (skip_empty o && is l [cr; lf])) ls) out.
Proof.
  intros V U. destruct (read_text_cut o Crlf k b ltac:(discriminate) V (or_intror U)) as (ls & u & r & C & H). apply cut_crlf in C.
  exists ls, u. eexists _, r. split; [exact C|]. split; [exact H|]. rewrite (filter_kept_crlf o ls) by apply C. apply map_trim.
Qed.
Print Assumptions C22_crlf.
(** An inferred line ending is that of the first line. *)
Lemma infer_reads m o k b : m <> Infer -> valid k -> m = Lf \/ unsplit k b -> infer false b = m \/ infer false b = Infer ->
  option_map fst (read_text o Infer k b) = option_map fst (read_text o m k b).
Proof.
  intros Hm V U G. pose proof (ready_open m b k V U) as (W & P & PR). unfold read_text.
  change (make (open b k) m) with (set_ending m (make (open b k) Infer)) in *. apply (read_all_infer m Hm); auto.
  - right. split; [reflexivity|exact G].
  - change (set_ending m (make (open b k) Infer)) with (make (open b k) m). destruct (read_text_cut o m k b Hm V U) as (ls & u & r & _ & H).
    unfold read_text in H. rewrite H. discriminate.
Qed.
Theorem C22_infer o k b : valid k ->
  (first_is_lf b -> option_map fst (read_text o Infer k b) = option_map fst (read_text o Lf k b)) /\
  (first_is_crlf b -> unsplit k b -> option_map fst (read_text o Infer k b) = option_map fst (read_text o Crlf k b)) /\
  (~ In lf b -> option_map fst (read_text o Infer k b) = Some ([], fin b)).
Proof.
  intros V. split; [|split].
  - intros F. apply infer_reads; auto; try discriminate. left. now apply infer_lf.
  - intros F U. apply infer_reads; auto; try discriminate. left. now apply infer_crlf.
  - intros N. rewrite (infer_reads Lf); auto; try discriminate; [|right; now apply infer_nothing].
    destruct (read_text_cut o Lf k b ltac:(discriminate) V (or_introl eq_refl)) as (ls & u & r & C & H). rewrite H. cbn.
    inversion C as [b' F E1 E2 E3|b' n ls' u' F C' E1 E2 E3]; subst; [reflexivity|]. exfalso. cbn in F. apply find_lf_some in F as (t & T & _).
    apply N. rewrite <- (firstn_skipn n b), T. apply in_or_app. left. apply in_or_app. right. now left.
Qed.
Print Assumptions C22_infer.

Definition lines_in (e : ending) (b : list ascii) (ls : list (list ascii)) (rest : list ascii) : Prop :=
  match e with Lf => lf_lines b ls rest | Crlf => crlf_lines b ls rest | Infer => False end.
(** A position saved at any point and loaded into a new reader goes on with the lines that follow, unless the last line given ends where a piece
    ends (the whole file counts as a piece that ends): then loading it raises. *)
Theorem C22_resume o e k b n xs r : e <> Infer -> valid k -> e = Lf \/ unsplit k b -> calls n o (make (open b k) e) = Some (xs, r) ->
  exists ls1 ls2 rest given later r0 ends, lines_in e b (ls1 ++ ls2) rest /\
    xs = map Line given ++ repeat NoMore ends /\ read_text o e k b = Some (given ++ later, fin rest, r0) /\
    (n = 0 \/ 0 < ends \/ ~ chunk_end k b (length (concat ls1)) ->
       exists r' r'', reload (record r) (make (open b k) e) = Some r' /\ read_all (S (length b)) o r' = Some (later, fin rest, r'')) /\
    (0 < n -> ends = 0 -> chunk_end k b (length (concat ls1)) -> reload (record r) (make (open b k) e) = None).
Proof.
  intros He V U H. destruct (cut_exists e b) as (ls & u & C). pose proof (ready_open e b k V U) as R0.
  destruct (calls_spec e o n He _ ls u xs r R0 C H) as (B & K & ls1 & ls2 & j & -> & X & R & C2 & J & J0 & N0). cbn in B, K.
  destruct (read_all_spec e He o (S (length b)) (make (open b k) e) _ u R0 C ltac:(pose proof (cut_length _ _ _ _ C); lia)) as (r0 & A).
  destruct (reload_spec e r k b He R B K) as [S1 S2]. destruct (position r e R) as [Q1 Q2].
  assert (PP : stream_offset r + chunk_offset r = length (concat ls1)).
  { pose proof (cut_concat _ _ _ _ C) as E1. pose proof (cut_concat _ _ _ _ C2) as E2. rewrite B in Q2. rewrite concat_app, <- app_assoc, <- E2 in E1.
    rewrite E1, app_length in Q2. lia. }
  exists ls1, ls2, u, (map (trim_line o) (filter (kept e o) ls1)), (map (trim_line o) (filter (kept e o) ls2)), r0, j.
  split; [destruct e; [now apply cut_lf|now apply cut_crlf|congruence]|]. rewrite map_map. split; [exact X|].
  split; [unfold read_text; rewrite A, filter_app, map_app; reflexivity|]. rewrite PP in S1, S2. split.
  - intros D. destruct S1 as (r' & S1 & R' & E').
    + destruct D as [D|[D|D]]; [|left; now apply J|now right]. subst n. cbn in H. injection H as <- <-. now left.
    + exists r'. rewrite <- E' in C2. destruct (read_all_spec e He o (S (length b)) r' ls2 u R' C2) as (r'' & A').
      { pose proof (cut_length _ _ _ _ C) as L. rewrite app_length in L. cbn in L. lia. }
      exists r''. split; [exact S1|exact A'].
  - intros Pn Pj CE. apply S2; auto.
Qed.
Print Assumptions C22_resume.
(** Resetting a reader that has not failed starts again from the first line. *)
Theorem C22_reset o e k b n xs r : e <> Infer -> valid k -> e = Lf \/ unsplit k b -> calls n o (make (open b k) e) = Some (xs, r) ->
  option_map fst (read_all (S (length b)) o (reset r)) = option_map fst (read_text o e k b).
Proof.
  intros He V U H. destruct (cut_exists e b) as (ls & u & C). pose proof (ready_open e b k V U) as R0.
  destruct (calls_spec e o n He _ ls u xs r R0 C H) as (B & K & ls1 & ls2 & j & _ & _ & R & _). cbn in B, K.
  destruct (reset_ready e r b k R B K) as [R1 E1]. assert (L : length ls < S (length b)) by (pose proof (cut_length _ _ _ _ C); lia).
  pose proof C as C1. rewrite <- E1 in C1.
  destruct (read_all_spec e He o (S (length b)) _ _ u R1 C1 L) as (r1 & ->). unfold read_text.
  destruct (read_all_spec e He o (S (length b)) _ _ u R0 C L) as (r0 & ->). reflexivity.
Qed.
Print Assumptions C22_reset.

(** ** Where the property fails *)
Definition text (s : String.string) : list ascii := list_ascii_of_string s.
Definition nl : list ascii := [LF].
Definition crnl : list ascii := [CR; LF].
Definition raw : options := Options false false false.
(** A last line without a line feed is not given: reading raises an error instead. *)
Theorem C22_last_line_refuted : exists b, b <> [] /\ (forall k, valid k -> exists r, read_text raw Lf k b = Some ([], ReadError, r)).
Proof.
  exists (text "a"). split; [discriminate|]. intros k V. destruct (read_text_cut raw Lf k (text "a") ltac:(discriminate) V (or_introl eq_refl)) as (ls & u & r & C & H).
  exists r. inversion C as [b' F E1 E2 E3|b' n ls' u' F C' E1 E2 E3]; subst; [exact H|discriminate F].
Qed.
Print Assumptions C22_last_line_refuted.
(** With pieces of 1024 bytes, the smallest size, and a piece that ends between a carriage return and a line feed, two lines are given as one. *)
Definition split_file (tail : list ascii) : list ascii := repeat "a"%char 1023 ++ crnl ++ tail.
Theorem C22_crlf_refuted : exists b l1 l2, crlf_lines b [l1; l2] [] /\ exists r, read_text raw Crlf (Some 1024) b = Some ([l1 ++ l2], NoMore, r).
Proof.
  assert (NoLf : forall n, ~ In lf (repeat "a"%char n ++ [cr])).
  { intros n I. apply in_app_or in I as [I|[I|[]]]; [apply repeat_spec in I; discriminate I|discriminate I]. }
  exists (split_file (text "b" ++ crnl)), (repeat "a"%char 1023 ++ crnl), (text "b" ++ crnl). split.
  - split; [|split].
    + unfold split_file. cbn [concat]. now rewrite !app_nil_r, <- app_assoc.
    + repeat constructor; [exists (repeat "a"%char 1023)|exists (text "b")]; (split; [reflexivity|]); intros (x & y & E).
      * apply (NoLf 1023). rewrite E. apply in_or_app. right. right. now left.
      * destruct x as [|? [|? x]]; try discriminate E. now destruct x.
    + intros ([|? x] & y & E); discriminate E.
  - match goal with |- exists r, ?t = _ => let v := eval vm_compute in (option_map fst t) in assert (E : option_map fst t = v) by (vm_compute; reflexivity) end.
    destruct (read_text raw Crlf (Some 1024) (split_file (text "b" ++ crnl))) as [[res r]|]; [|discriminate E]. cbn in E. injection E as ->. exists r. vm_compute. reflexivity.
Qed.
Print Assumptions C22_crlf_refuted.
(** In the same way the inferred line ending is wrong, and an empty line is given although empty lines are to be skipped. *)
Theorem C22_infer_refuted : exists b out r, first_is_crlf b /\ read_text (Options true false false) Infer (Some 1024) b = Some (out, NoMore, r) /\ In [cr; lf] out.
Proof.
  exists (split_file crnl). destruct (read_text (Options true false false) Infer (Some 1024) (split_file crnl)) as [[[out e] r]|] eqn:E.
  - apply (f_equal (option_map fst)) in E. cbn [option_map fst] in E.
    match type of E with ?l = _ => let v := eval vm_compute in l in assert (E' : l = v) by (vm_compute; reflexivity); rewrite E' in E end.
    injection E as <- <-. eexists _, r. split; [|split; [reflexivity|right; now left]].
    exists (repeat "a"%char 1023), crnl. split; [reflexivity|]. intros I. apply repeat_spec in I. discriminate I.
  - exfalso. assert (X : option_map (fun _ => tt) (read_text (Options true false false) Infer (Some 1024) (split_file crnl)) = Some tt) by (vm_compute; reflexivity).
    rewrite E in X. discriminate X.
Qed.
Print Assumptions C22_infer_refuted.
(** A position saved after the last line, before the end is seen, cannot be loaded. *)
Theorem C22_resume_refuted : exists b xs r, calls 2 raw (make (open b None) Lf) = Some (xs, r) /\ xs = [Line (text "a" ++ nl); Line (text "b" ++ nl)] /\
  reload (record r) (make (open b None) Lf) = None.
Proof.
  exists (text "a" ++ nl ++ text "b" ++ nl). eexists _, _. split; [vm_compute; reflexivity|]. split; reflexivity.
Qed.
Print Assumptions C22_resume_refuted.
(** A position loaded into a reader in use: for a mapped file it raises; for a file read to its end a position at the start gives no lines at all. *)
Theorem C22_reload_used_refuted :
  (exists b xs r, calls 1 raw (make (open b None) Lf) = Some (xs, r) /\ (exists r', reload (record r) (make (open b None) Lf) = Some r') /\ reload (record r) r = None) /\
  (exists b xs r r' r'', let start := make (open b (Some 1024)) Lf in calls 2 raw start = Some (xs, r) /\ xs = [Line b; NoMore] /\
     reload (record start) r = Some r' /\ read_all (S (length b)) raw r' = Some ([], NoMore, r'')).
Proof.
  split.
  - exists (text "a" ++ nl ++ text "b" ++ nl). eexists _, _. split; [vm_compute; reflexivity|]. split; [eexists; vm_compute; reflexivity|reflexivity].
  - exists (text "a" ++ nl). eexists _, _, _, _. cbv zeta. split; [vm_compute; reflexivity|]. split; [reflexivity|]. split; [vm_compute; reflexivity|]. vm_compute. reflexivity.
Qed.
Print Assumptions C22_reload_used_refuted.
(** The inferred line ending is not saved: the lines after loading a position can be others than those without saving. *)
Theorem C22_resume_infer_refuted : exists b l1 l2 l3 xs r r' r1 r2,
  calls 1 raw (make (open b None) Infer) = Some (xs, r) /\ xs = [Line l1] /\ reload (record r) (make (open b None) Infer) = Some r' /\
  read_all 5 raw r = Some ([l2 ++ l3], NoMore, r1) /\ read_all 5 raw r' = Some ([l2; l3], NoMore, r2).
Proof.
  exists (text "a" ++ crnl ++ text "b" ++ nl ++ text "c" ++ crnl), (text "a" ++ crnl), (text "b" ++ nl), (text "c" ++ crnl). eexists _, _, _, _, _.
  split; [vm_compute; reflexivity|]. split; [reflexivity|]. split; [vm_compute; reflexivity|]. split; vm_compute; reflexivity.
Qed.
Print Assumptions C22_resume_infer_refuted.
(** After a read that raised for an incomplete line in more than one piece, a reset leaves those pieces behind: the next line is copied past the end of its
    block. (A data pipeline does not let its source be reset after such an error.) *)
Theorem C22_reset_refuted : exists b r r', next raw (make (open b (Some 2)) Lf) = Some (ReadError, r) /\ next raw (reset (Reader (open (text "a" ++ nl) (Some 2)) (current r) (previous r) (stream_offset r) (chunk_offset r) (line_ending r))) = Some (Corrupted, r').
Proof. exists (text "abc"). eexists _, _. split; vm_compute; reflexivity. Qed.
Print Assumptions C22_reset_refuted.

(** ** Examples *)
Example C22_lf_example : option_map fst (read_text raw Lf (Some 2) (text "ab" ++ nl ++ nl ++ text "c" ++ nl)) = Some ([text "ab" ++ nl; nl; text "c" ++ nl], NoMore) /\ valid (Some 2).
Proof. split; [vm_compute; reflexivity|discriminate]. Qed.
Example C22_trim_example : option_map fst (read_text (Options true true true) Lf (Some 3) (text " ab " ++ nl ++ nl ++ text "c" ++ nl)) = Some ([text "ab"; text "c"], NoMore).
Proof. vm_compute. reflexivity. Qed.
Example C22_crlf_example : let b := text "ab" ++ crnl ++ text "cc" ++ nl ++ text "d" ++ crnl in
  unsplit (Some 2) b /\ option_map fst (read_text raw Crlf (Some 2) b) = Some ([text "ab" ++ crnl; text "cc" ++ nl ++ text "d" ++ crnl], NoMore) /\ first_is_crlf b.
Proof.
  cbv zeta. split; [|split; [vm_compute; reflexivity|]].
  - intros i Hi. destruct i as [|[|[|[|[|[|i]]]]]]; cbn; try lia; try discriminate.
  - exists (text "ab"), (text "cc" ++ nl ++ text "d" ++ crnl). split; [reflexivity|]. intros [X|[X|[]]]; discriminate X.
Qed.
Example C22_resume_example : let b := text "ab" ++ nl ++ text "c" ++ nl in
  exists xs r, calls 1 raw (make (open b (Some 2)) Lf) = Some (xs, r) /\ ~ chunk_end (Some 2) b 3 /\ xs = [Line (text "ab" ++ nl)].
Proof. cbv zeta. eexists _, _. split; [vm_compute; reflexivity|]. split; [|reflexivity]. intros [X|X]; vm_compute in X; discriminate X. Qed.
