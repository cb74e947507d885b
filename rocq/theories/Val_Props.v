(** C70: validation *)
From Coq Require Import List Bool ZArith Lia.
From Verif Require Import Val_Model Val_Spec.
Import ListNotations.

Section P.
  Context {batch bag rng : Type}.
  Variables (root tp0 : bool) (synced : nat -> bag -> bag) (noop higher_better : bool) (seeded : rng) (load_scores : list (Z * nat)).
  Notation unit_ := (@unit_ batch bag rng).
  Notation run_units := (run_units root tp0 synced noop higher_better).
  Notation run_unit := (run_unit root tp0 synced noop higher_better).
  Notation expected := (expected root tp0 synced noop higher_better).
  Notation run := (run root tp0 synced noop higher_better seeded load_scores).
  Notation restore := (@restore batch bag root noop load_scores).
  Notation conclude := (conclude root noop).
  Lemma fold_app : forall (u : unit_) a b m g, fold_batches u (a ++ b) m g = match fold_batches u a m g with Some (m', g') => fold_batches u b m' g' | None => None end.
  Proof. induction a as [|x a IH]; intros b m g; auto. cbn. destruct (process u x m g) as [[m' g']|]; auto. Qed.
  Lemma step_ok : forall i (u : unit_) bs m g, snd (run_step i u bs m g) = fold_batches u bs m g /\ (fold_batches u bs m g <> None -> fst (run_step i u bs m g) = map (Process i) bs).
  Proof.
    induction bs as [|b bs IH]; intros m g; [cbn; auto|]. cbn [run_step fold_batches map]. destruct (process u b m g) as [[m' g']|]; [|split; auto; easy].
    specialize (IH m' g'). destruct (run_step i u bs m' g') as [ev o]. cbn [fst snd] in *. destruct IH as [A B]. split; auto. intros N. rewrite B; auto.
  Qed.
  Lemma steps_ok : forall i (u : unit_) left m g n, match run_steps i u left m g n with (ev, o, _, _) => o = fold_batches u (concat left) m g /\ (o <> None -> ev = map (Process i) (concat left)) end.
  Proof.
    induction left as [|bs left IH]; intros m g n; [cbn; auto|]. cbn [run_steps concat]. rewrite fold_app. destruct (step_ok i u bs m g) as [A B]. destruct (run_step i u bs m g) as [ev o]. cbn [fst snd] in *.
    destruct o as [[m' g']|]; [|rewrite <- A; split; auto; easy]. rewrite <- A. specialize (IH m' g' (S n)). destruct (run_steps i u left m' g' (S n)) as [[[ev' o'] l] n']. destruct IH as [C D]. split; auto. intros N. rewrite map_app, B, D; auto. rewrite <- A. discriminate.
  Qed.
  Lemma unit_ok : forall i (u : unit_) r step n g, match run_unit i u r step n g with
    | (ev, Some (sc, g'), r', _) => exists m, unit_result u (concat (r_left r)) g = Some (m, g') /\ ev = unit_events root tp0 synced i step (concat (r_left r)) m /\ r' = r_reset r /\
        (match sc with Some x => [x] | None => [] end) = unit_score root synced noop higher_better i u m
    | (_, None, r', _) => unit_result u (concat (r_left r)) g = None /\ r_data r' = r_data r
    end.
  Proof.
    intros i u r step n g. unfold Val_Model.run_unit, unit_result. pose proof (steps_ok i u (r_left r) (prepare u) g n) as P. destruct (run_steps i u (r_left r) (prepare u) g n) as [[[ev o] l] n']. destruct P as [A B]. rewrite <- A.
    destruct o as [[m g1]|]; [|auto]. destruct (finalize u m g1) as [[m' g2]|]; [|auto]. exists m'. split; auto. split; [unfold unit_events; rewrite B; [auto|discriminate]|]. split; auto.
    unfold unit_score. destruct noop, root; cbn [negb andb]; auto. destruct (metric u (synced i m')); auto.
  Qed.
  Lemma units_ok : forall (us : list unit_) i rs step n g, length us = length rs -> match run_units i us rs step n g with
    | (ev, o, rs', _) => match expected i step us (map (fun r => concat (r_left r)) rs) g with
                         | Some (ev', sc) => ev = ev' /\ o = Some sc /\ rs' = map r_reset rs
                         | None => o = None
                         end
    end.
  Proof.
    induction us as [|u us IH]; intros i [|r rs] step n g L; try discriminate; [cbn; auto|]. cbn [Val_Model.run_units map Val_Spec.expected]. pose proof (unit_ok i u r step n g) as U. destruct (run_unit i u r step n g) as [[[ev o] r'] n'].
    destruct o as [[sc g']|]; [|destruct U as [-> _]; auto]. destruct U as (m & -> & -> & -> & Hs). specialize (IH (S i) rs step n' g' ltac:(cbn in L; lia)). destruct (run_units (S i) us rs step n' g') as [[[ev' o'] rs''] n''].
    destruct (expected (S i) step us (map (fun r => concat (r_left r)) rs) g') as [[ev2 sc2]|]; [|subst; auto]. destruct IH as (-> & -> & ->). rewrite Hs. auto.
  Qed.
  Lemma restore_readers : forall v, readers (fst (restore v)) = readers v /\ has_run (fst (restore v)) = has_run v /\ (noop = false -> (0 <= best_step_nr (fst (restore v)))%Z).
  Proof.
    intros v. unfold Val_Model.restore. destruct noop; [cbn; split; auto; split; auto; discriminate|]. destruct (0 <=? best_step_nr v)%Z eqn:B; [cbn; split; auto; split; auto; intros _; apply Z.leb_le; auto|].
    destruct (if root then load_scores else []) as [|[s k] l]; cbn; split; auto; split; auto; lia.
  Qed.
End P.

(** Without an error in a unit, a run processes every batch that the readers of the units have left, once, in order, unit by unit into a bag of its own, records the
    metrics of each unit once, on the first rank; its score is the sum of the scores of the units, negated if lower is better; and the readers are then at the start
    of an epoch. With an error, or without a score, it raises. The first run also has a barrier at its start. *)
Theorem C70_run : forall (batch bag rng : Type) root tp0 synced noop higher_better (seeded : rng) load_scores (us : list (@unit_ batch bag rng)) step v g,
  has_run v = false -> length us = length (readers v) ->
  exists ev o v', run root tp0 synced noop higher_better seeded load_scores us step v g = (ev, o, v', g) /\ has_run v' = true /\
  match expected root tp0 synced noop higher_better 0 step us (map (fun r => concat (r_left r)) (readers v)) seeded with
  | Some (ev', scores) => ev = (if noop || (0 <=? best_step_nr v)%Z then [] else [Barrier]) ++ ev' /\ readers v' = map r_reset (readers v) /\
      o = (if noop then Score None else if negb root then Score (Some 0%Z) else match scores with [] => NoScore | _ => Score (Some (fold_right Z.add 0%Z scores)) end)
  | None => o = UnitRaised
  end.
Proof.
  intros batch bag rng root tp0 synced noop hb seeded ls us step v g H L. unfold run. rewrite H. set (v1 := V _ _ _ _ _). pose proof (restore_readers (bag := bag) root noop ls v1) as (R1 & R2 & _).
  assert (Re : snd (@restore batch bag root noop ls v1) = if noop || (0 <=? best_step_nr v)%Z then [] else [Barrier]).
  { unfold restore. destruct noop; auto. cbn [orb]. change (best_step_nr v1) with (best_step_nr v). destruct (0 <=? best_step_nr v)%Z; auto. }
  destruct (@restore batch bag root noop ls v1) as [v2 evr]. cbn [fst snd] in *. change (readers v1) with (readers v) in R1. change (has_run v1) with true in R2.
  pose proof (units_ok root tp0 synced noop hb us 0 (readers v2) step (step_nr v2) seeded ltac:(rewrite R1; auto)) as U. destruct (run_units root tp0 synced noop hb 0 us (readers v2) step (step_nr v2) seeded) as [[[ev o] rs'] n].
  rewrite R1 in U. destruct (expected root tp0 synced noop hb 0 step us (map (fun r => concat (r_left r)) (readers v)) seeded) as [[ev' sc]|].
  - destruct U as (-> & -> & ->). unfold conclude. assert (Fs : forall l, fold_left Z.add l 0%Z = fold_right Z.add 0%Z l) by (intros l; apply fold_symmetric; intros; lia).
    destruct noop; [do 3 eexists; split; [reflexivity|]; cbn; subst evr; auto|]. destruct root; cbn [negb]; [|do 3 eexists; split; [reflexivity|]; cbn; subst evr; auto].
    destruct sc as [|x sc]; [do 3 eexists; split; [reflexivity|]; cbn; subst evr; auto|]. do 3 eexists. split; [reflexivity|]. subst evr. destruct (better _ _); cbn [has_run readers]; rewrite ?Fs; auto.
  - subst o. do 3 eexists. split; [reflexivity|]. auto.
Qed.
Print Assumptions C70_run.

(** A second run without a reset raises and does nothing; a reset always makes a run possible, from the start of an epoch of every reader, also after an error. *)
Definition at_start {batch} (r : @reader batch) : Prop := r_left r = r_data r (r_epoch r).
Theorem C70_again : forall (batch bag rng : Type) root tp0 synced noop higher_better (seeded : rng) load_scores (us : list (@unit_ batch bag rng)) step v g,
  (has_run v = true -> run root tp0 synced noop higher_better seeded load_scores us step v g = ([], AlreadyRun, v, g)) /\
  has_run (reset v) = false /\ Forall at_start (readers (reset v)) /\ map r_data (readers (reset v)) = map r_data (readers v) /\ best_score (reset v) = best_score v /\ best_step_nr (reset v) = best_step_nr v.
Proof.
  intros. split; [intros H; unfold run; rewrite H; auto|]. split; auto. split; [|split; auto; cbn; rewrite map_map; auto]. cbn. apply Forall_forall. intros r I. apply in_map_iff in I. destruct I as (r0 & <- & _). reflexivity.
Qed.
Print Assumptions C70_again.

(** Training is not disturbed: whatever a run does, the generators are afterwards as before, and nothing of what it does depends on them. *)
Theorem C70_rng : forall (batch bag rng : Type) root tp0 synced noop higher_better (seeded : rng) load_scores (us : list (@unit_ batch bag rng)) step v,
  exists ev o v', forall g, run root tp0 synced noop higher_better seeded load_scores us step v g = (ev, o, v', g).
Proof.
  intros. unfold run. destruct (has_run v); [eauto|]. destruct (restore _ _ _ _) as [v2 ev]. destruct (run_units _ _ _ _ _ _ _ _ _ _ _) as [[[ev' o] rs] n]. destruct o; [|eauto]. destruct (conclude _ _ _ _ _). eauto.
Qed.
Print Assumptions C70_rng.

(** All ranks of one tensor parallel rank take part in the same collective operations in the same order, whatever batches they have, if no unit raises. *)
Definition unit_collectives (tp0 : bool) (i : nat) : list collective := (if tp0 then [CSync i] else []) ++ [CBarrier].
Lemma expected_collectives : forall (batch bag rng : Type) root tp0 synced noop hb step (us : list (@unit_ batch bag rng)) data i g ev sc, length us = length data -> expected root tp0 synced noop hb i step us data g = Some (ev, sc) ->
  collectives ev = flat_map (unit_collectives tp0) (seq i (length us)).
Proof.
  intros batch bag rng root tp0 synced noop hb step us. induction us as [|u us IH]; intros [|bs data] i g ev sc L E; try discriminate; cbn in E; [injection E as <- <-; auto|].
  destruct (unit_result u bs g) as [[m g']|]; [|discriminate]. destruct (expected root tp0 synced noop hb (S i) step us data g') as [[ev2 sc2]|] eqn:E2; [|discriminate]. assert (ev = unit_events root tp0 synced i step bs m ++ ev2) by congruence. subst ev.
  unfold collectives. rewrite flat_map_app. fold (collectives ev2). rewrite (IH data (S i) g' ev2 sc2) by (auto; cbn in L; lia). cbn [length seq flat_map]. f_equal. unfold unit_events. rewrite flat_map_app.
  replace (flat_map _ (map (Process i) bs)) with (@nil collective) by (clear; induction bs; cbn; auto). destruct tp0, root; auto.
Qed.
Theorem C70_collectives : forall (batch bag rng : Type) root tp0 synced noop higher_better (seeded : rng) load_scores (us : list (@unit_ batch bag rng)) step v g ev o v' g',
  has_run v = false -> length us = length (readers v) -> run root tp0 synced noop higher_better seeded load_scores us step v g = (ev, o, v', g') -> o <> UnitRaised ->
  collectives ev = (if noop || (0 <=? best_step_nr v)%Z then [] else [CBarrier]) ++ flat_map (unit_collectives tp0) (seq 0 (length us)) /\ (noop = false -> (0 <= best_step_nr v')%Z) /\ (noop = true -> best_step_nr v' = best_step_nr v).
Proof.
  intros batch bag rng root tp0 synced noop hb seeded ls us step v g ev o v' g' H L E N. split.
  - destruct (C70_run _ _ _ root tp0 synced noop hb seeded ls us step v g H L) as (ev0 & o0 & v0 & E0 & _ & X). rewrite E in E0. assert (ev0 = ev) by congruence. assert (o0 = o) by congruence. subst ev0 o0.
    destruct (expected root tp0 synced noop hb 0 step us _ seeded) as [[ev1 sc]|] eqn:Ex; [|easy]. destruct X as (-> & _). unfold collectives. rewrite flat_map_app. fold (collectives ev1).
    erewrite (expected_collectives _ _ _ _ _ _ _ _ _ us _ _ _ ev1 sc); [|rewrite map_length; exact L|exact Ex]. f_equal. destruct (noop || _); auto.
  - unfold run in E. rewrite H in E. set (v1 := V _ _ _ _ _) in E. pose proof (restore_readers (bag := bag) root noop ls v1) as (_ & _ & R3).
    assert (R4 : noop = true -> best_step_nr (fst (@restore batch bag root noop ls v1)) = best_step_nr v) by (intros ->; auto).
    destruct (@restore batch bag root noop ls v1) as [v2 evr]. cbn [fst] in *. destruct (run_units root tp0 synced noop hb 0 us (readers v2) step (step_nr v2) seeded) as [[[ev1 o1] rs1] n1].
    destruct o1 as [sc|]; [|injection E as _ _ <- _; auto]. unfold conclude in E. destruct noop; [injection E as _ _ <- _; auto|]. destruct root; cbn [negb] in E; [|injection E as _ _ <- _; split; auto; discriminate].
    destruct sc as [|x sc]; [injection E as _ _ <- _; split; auto; discriminate|]. injection E as _ _ <- _. destruct (better _ _); cbn [best_step_nr]; split; auto; try discriminate. lia.
Qed.
Print Assumptions C70_collectives.

(** ** The best score *)
Section Best.
  Context {batch bag rng : Type}.
  Variables (tp0 : bool) (synced : nat -> bag -> bag) (higher_better : bool) (seeded : rng) (load_scores : list (Z * nat)).
  (** A history of runs, with the units as they are then, and resets; the scores that were returned *)
  Inductive op := Run (us : list (@unit_ batch bag rng)) (step : nat) | Reset.
  Fixpoint exec (h : list op) (v : @validator batch) (g : rng) : @validator batch * list (Z * nat) :=
    match h with
    | [] => (v, [])
    | Reset :: h' => exec h' (reset v) g
    | Run us step :: h' => match run true tp0 synced false higher_better seeded load_scores us step v g with
                           | (_, o, v', g') => let (w, l) := exec h' v' g' in (w, (match o with Score (Some s) => [(s, step)] | _ => [] end) ++ l)
                           end
    end.
  Definition known (v : @validator batch) (l : list (Z * nat)) : Prop :=
    (0 <= best_step_nr v)%Z /\ match l with [] => best_score v = None | _ => exists s n, is_best l s n /\ best_score v = Some s /\ best_step_nr v = Z.of_nat n end.
  Lemma known_more : forall v l s n, known v l -> known (if better s (best_score v) then V (has_run v) (Some s) (Z.of_nat n) (readers v) (step_nr v) else v) (l ++ [(s, n)]).
  Proof.
    intros v l s n [P K]. destruct l as [|x l].
    - rewrite K. cbn [better]. split; cbn; [lia|]. exists s, n. split; auto. exists [], []. split; auto. split; intros y [].
    - destruct K as (s0 & n0 & (b & a & E & Hb & Ha) & K1 & K2). rewrite K1. cbn [better]. assert (In_l : forall y, In y (x :: l) -> (fst y <= s0)%Z). { intros y I. rewrite E in I. apply in_app_or in I. destruct I as [I|[<-|I]]; [specialize (Hb y I); lia|cbn; lia|auto]. }
      destruct (s0 <? s)%Z eqn:B.
      + apply Z.ltb_lt in B. split; [cbn; lia|]. cbn [app best_score best_step_nr]. exists s, n. split; auto. exists (x :: l), []. split; auto. split; [intros y I; specialize (In_l y I); lia|intros y []].
      + apply Z.ltb_ge in B. split; auto. cbn [app]. exists s0, n0. split; auto. exists b, (a ++ [(s, n)]). split; [change (x :: l ++ [(s, n)]) with ((x :: l) ++ [(s, n)]); rewrite E, <- app_assoc; auto|]. split; auto. intros y I. apply in_app_or in I. destruct I as [I|[<-|[]]]; auto.
  Qed.
  Lemma run_known : forall us step v g ev o v' g' l, known v l -> run true tp0 synced false higher_better seeded load_scores us step v g = (ev, o, v', g') ->
    known v' (l ++ match o with Score (Some s) => [(s, step)] | _ => [] end).
  Proof.
    intros us step v g ev o v' g' l K E. unfold run in E. destruct (has_run v). { injection E as _ <- <- _. rewrite app_nil_r. auto. }
    unfold restore in E. cbn [best_step_nr] in E. rewrite (proj2 (Z.leb_le _ _) (proj1 K)) in E. cbn [readers step_nr has_run best_score best_step_nr] in E.
    destruct (run_units true tp0 synced false higher_better 0 us (readers v) step (step_nr v) seeded) as [[[ev1 o1] rs1] n1]. destruct o1 as [sc|]; [|injection E as _ <- <- _; rewrite app_nil_r; exact K].
    unfold conclude in E. cbn [negb] in E. destruct sc as [|x sc]; [injection E as _ <- <- _; rewrite app_nil_r; exact K|]. injection E as _ <- <- _. apply (known_more (V true (best_score v) (best_step_nr v) rs1 n1) l (fold_left Z.add (x :: sc) 0%Z) step K).
  Qed.
  Lemma exec_known : forall h v g l, known v l -> match exec h v g with (w, l') => known w (l ++ l') end.
  Proof.
    induction h as [|[us step|] h IH]; intros v g l K; cbn [exec]. { rewrite app_nil_r. auto. }
    - destruct (run true tp0 synced false higher_better seeded load_scores us step v g) as [[[ev o] v'] g'] eqn:E. pose proof (run_known _ _ _ _ _ _ _ _ _ K E) as K'. specialize (IH v' g' _ K'). destruct (exec h v' g') as [w l']. rewrite app_assoc. exact IH.
    - apply IH. exact K.
  Qed.
End Best.
(** The best score and its step, on the first rank, after any history of runs, with errors or not, and resets: the first of the greatest among the best score of the
    kept checkpoints and all scores returned *)
Theorem C70_best : forall (batch bag rng : Type) tp0 synced higher_better (seeded : rng) load_scores (h : list (@op batch bag rng)) rs us step g v scores,
  exec tp0 synced higher_better seeded load_scores (Run us step :: h) (init rs) g = (v, scores) ->
  let all := firstn 1 load_scores ++ scores in
  match all with [] => best_score v = None | _ => exists s n, is_best all s n /\ best_score v = Some s /\ best_step_nr v = Z.of_nat n end.
Proof.
  intros batch bag rng tp0 synced hb seeded ls h rs us step g v scores E all. cbn [exec] in E.
  set (w := V false (match ls with (s, _) :: _ => Some s | [] => None end) (match ls with (_, n) :: _ => Z.of_nat n | [] => 0%Z end) rs 0).
  assert (K : known w (firstn 1 ls)). { unfold w. destruct ls as [|[s n] ls']; split; cbn; auto; try lia. exists s, n. split; auto. exists [], []. split; auto. split; intros y []. }
  assert (R : match run true tp0 synced false hb seeded ls us step (init rs) g, run true tp0 synced false hb seeded ls us step w g with (_, o, v', g'), (_, o2, v2, g2) => o = o2 /\ v' = v2 /\ g' = g2 end).
  { unfold run, init, w. cbn [has_run]. unfold restore. cbn [best_step_nr readers step_nr has_run best_score]. change (0 <=? -1)%Z with false. cbn match. destruct ls as [|[s n] ls']; cbn [Z.leb Z.compare has_run best_score best_step_nr readers step_nr].
    - destruct (run_units _ _ _ _ _ _ _ _ _ _ _) as [[[ev o] rs'] n']. destruct o; auto. destruct (conclude _ _ _ _ _). auto.
    - rewrite (proj2 (Z.leb_le 0 (Z.of_nat n)) ltac:(lia)). cbn [has_run best_score best_step_nr readers step_nr]. destruct (run_units _ _ _ _ _ _ _ _ _ _ _) as [[[ev o] rs'] n']. destruct o; auto. destruct (conclude _ _ _ _ _). auto. }
  pose proof (exec_known tp0 synced hb seeded ls (Run us step :: h) w g _ K) as X. cbn [exec] in X.
  destruct (run true tp0 synced false hb seeded ls us step (init rs) g) as [[[ev1 o1] v1] g1]. destruct (run true tp0 synced false hb seeded ls us step w g) as [[[ev2 o2] v2] g2]. destruct R as (<- & <- & <-).
  destruct (exec tp0 synced hb seeded ls h v1 g1) as [w' l']. assert (w' = v) by congruence. subst w'. assert (Es : (match o1 with Score (Some s) => [(s, step)] | _ => [] end) ++ l' = scores) by congruence. rewrite Es in X. exact (proj2 X).
Qed.
Print Assumptions C70_best.

(** Without a metric for the score the first rank raises while the others return and go on. *)
Theorem C70_no_score_refuted : exists (us : list (@unit_ nat nat nat)) rs,
  snd (fst (fst (run true true (fun _ b => b) false true 0 [] us 1 (init rs) 0))) = NoScore /\ snd (fst (fst (run false true (fun _ b => b) false true 0 [] us 1 (init rs) 0))) = Score (Some 0%Z).
Proof. exists [Unit 0 (fun b m g => Some (m, g)) (fun m g => Some (m, g)) (fun _ => None)], [Reader (fun _ => [[1]]) 0 [[1]]]. split; reflexivity. Qed.
Print Assumptions C70_no_score_refuted.

(** A case: two units, three steps, lower is better; a run, a run that raises, a reset and a better run *)
Definition ex_unit (f : nat) (k : Z) : @unit_ nat nat nat := Unit 0 (fun b m g => if b =? f then None else Some (m + b, S g)) (fun m g => Some (m, g)) (fun m => Some (k + Z.of_nat m)%Z).
Definition ex_readers : list (@reader nat) := [Reader (fun _ => [[1; 2]; [3]]) 0 [[1; 2]; [3]]; Reader (fun e => [[4 + e]]) 0 [[4]]].
Example C70_case : 
  (let '(ev, o, _, g) := run true true (fun _ b => b) false false 0 [((-20)%Z, 3)] [ex_unit 9 0; ex_unit 9 1] 7 (init ex_readers) 42 in
     ev = [Barrier; Process 0 1; Process 0 2; Process 0 3; Finalize 0; Sync 0 6; Record_ 0 7 6; Barrier; Process 1 4; Finalize 1; Sync 1 4; Record_ 1 7 4; Barrier] /\ o = Score (Some (-11)%Z) /\ g = 42) /\
  (let (v, l) := exec true (fun _ b => b) false 0 [((-20)%Z, 3)] [Run [ex_unit 9 0; ex_unit 9 1] 7; Reset; Run [ex_unit 3 0; ex_unit 9 1] 8; Reset; Run [ex_unit 9 0; ex_unit 9 (-9)] 9] (init ex_readers) 42 in
     l = [((-11)%Z, 7); ((-4)%Z, 9)] /\ best_score v = Some (-4)%Z /\ best_step_nr v = 9%Z).
Proof. vm_compute. auto 10. Qed.
