(** Concrete executions of the checkpoint manager, and the grids it runs on. *)

From Coq Require Import Lia QArith.
From Verif Require Import Ckpt_Spec Ckpt_Proofs.
Local Open Scope nat_scope.

Lemma standard_grid_ok rd sd t : 0 < rd -> 0 < sd -> 0 < t -> grid_ok (standard_grid rd sd t).
Proof.
  intros A B C.
  assert (E : forall a b c, a < rd -> b < sd -> c < t -> let r := (a * sd + b) * t + c in
            r < rd * sd * t /\ r / t = a * sd + b /\ r mod t = c /\ r / t / sd = a /\ (r / t) mod sd = b).
  { intros a b c La Lb Lc r.
    assert (D : r / t = a * sd + b) by (symmetry; apply (Nat.div_unique _ t _ c); unfold r; lia).
    assert (M : r mod t = c) by (symmetry; apply (Nat.mod_unique _ t (a * sd + b) c); unfold r; lia).
    assert (D' : r / t / sd = a) by (rewrite D; symmetry; apply (Nat.div_unique _ sd _ b); lia).
    assert (M' : (r / t) mod sd = b) by (rewrite D; symmetry; apply (Nat.mod_unique _ sd a b); lia).
    repeat split; auto. assert (S a * sd <= rd * sd) by (apply Nat.mul_le_mono_r; lia).
    assert (S (a * sd + b) * t <= rd * sd * t) by (apply Nat.mul_le_mono_r; lia). unfold r; lia. }
  assert (F : forall r, r < rd * sd * t -> exists a b c, a < rd /\ b < sd /\ c < t /\ r = (a * sd + b) * t + c).
  { intros r R. exists (r / t / sd), ((r / t) mod sd), (r mod t).
    assert (r / t < rd * sd) by (apply Nat.div_lt_upper_bound; lia).
    split; [apply Nat.div_lt_upper_bound; lia|]. split; [apply Nat.mod_upper_bound; lia|]. split; [apply Nat.mod_upper_bound; lia|].
    pose proof (Nat.div_mod r t ltac:(lia)). pose proof (Nat.div_mod (r / t) sd ltac:(lia)). nia. }
  constructor; cbn [size dp tp pp rdp sdp standard_grid].
  - nia.
  - intros r r' R R' H H'. rewrite (Nat.div_mod r t), (Nat.div_mod r' t) by lia. congruence.
  - intros r r' R R' H H'. rewrite (Nat.div_mod (r / t) sd), (Nat.div_mod (r' / t) sd) by lia. congruence.
  - intros r R. destruct (F r R) as (a & b & c & La & Lb & Lc & ->).
    destruct (E a b c La Lb Lc) as (_ & E2 & E3 & E4 & E5). destruct (E 0 b c A Lb Lc) as (X1 & X2 & X3 & X4 & X5).
    exists ((0 * sd + b) * t + c). rewrite X3, X4, X5, E3, E5; auto.
  - intros r R _. destruct (F r R) as (a & b & c & La & Lb & Lc & ->).
    destruct (E a b c La Lb Lc) as (_ & E2 & E3 & E4 & E5). destruct (E 0 0 c A B Lc) as (X1 & X2 & X3 & X4 & X5).
    exists ((0 * sd + 0) * t + c). rewrite X3, X4, X5, E3; auto.
  - intros r R. destruct (F r R) as (a & b & c & La & Lb & Lc & ->).
    destruct (E a b c La Lb Lc) as (_ & E2 & E3 & E4 & E5). destruct (E a b 0 La Lb C) as (X1 & X2 & X3 & X4 & X5).
    exists ((a * sd + b) * t + 0). rewrite X2, X3, E2; auto.
  - intros r R _. destruct (E 0 0 0 A B C) as (X1 & X2 & X3 & X4 & X5). exists ((0 * sd + 0) * t + 0). rewrite X2, X3; auto.
Qed.

(** A deterministic way to run a list of operations; [IRmtree] and [IKeep] only when there is nothing to remove. *)
Definition exec1 (f : fs) (l : list instr) : option (fs * list instr) :=
  match l with
  | IMkdir (t, q) :: k =>
      match f (t, q) with
      | None => if match q with [] => true | _ => match f (t, removelast q) with Some Dir => true | _ => false end end
                then Some (upd f (t, q) (Some Dir), k) else None
      | Some Dir => Some (f, k)
      | _ => None
      end
  | IOpen (t, q) :: k =>
      match q, f (t, removelast q), f (t, q) with
      | _ :: _, Some Dir, Some Dir => None
      | _ :: _, Some Dir, _ => Some (upd f (t, q) (Some (File Partial)), k)
      | _, _, _ => None
      end
  | IWrite p v :: k => match f p with Some (File _) => Some (upd f p (Some (File (Whole v))), k) | _ => None end
  | IRmtree t :: k => match f (t, []) with None => Some (f, k) | _ => None end
  | IUnlink p :: k => match f p with None => Some (f, k) | Some (File _) => Some (upd f p None, k) | _ => None end
  | IRename n :: k => match f (Tmp n, []), f (Step n, []) with Some Dir, None => Some (rename f n, k) | _, _ => None end
  | _ => None
  end.

Lemma exec1_exec f l f' l' : exec1 f l = Some (f', l') -> exec (f, l) (f', l').
Proof.
  destruct l as [|[[t q]|[t q]|p v|t|t|p|n] k]; cbn [exec1]; try discriminate; intros H.
  - destruct (f (t, q)) as [[|c]|] eqn:E; [inversion H; subst; apply ex_mkdir_old; exact E|discriminate|].
    destruct q as [|x q].
    + inversion H; subst. apply ex_mkdir_new; auto.
    + destruct (f (t, removelast (x :: q))) as [[|c]|] eqn:E2; try discriminate. inversion H; subst. apply ex_mkdir_new; auto.
  - destruct q as [|x q]; [discriminate|].
    destruct (f (t, removelast (x :: q))) as [[|c]|] eqn:E2; try discriminate.
    destruct (f (t, x :: q)) as [[|c]|] eqn:E; inversion H; subst; apply ex_open; congruence.
  - destruct (f p) as [[|c]|] eqn:E; inversion H; subst. eapply ex_write; exact E.
  - destruct (f (t, [])) eqn:E; inversion H; subst. apply ex_rm_done; exact E.
  - destruct (f p) as [[|c]|] eqn:E; inversion H; subst; [eapply ex_unlink; exact E|apply ex_unlink_none; exact E].
  - destruct (f (Tmp n, [])) as [[|c]|] eqn:E; try discriminate. destruct (f (Step n, [])) eqn:E2; inversion H; subst.
    apply ex_rename; assumption.
Qed.

Fixpoint execs (n : nat) (f : fs) (l : list instr) : option fs :=
  match l, n with
  | [], _ => Some f
  | _, 0 => None
  | _, S n => match exec1 f l with Some (f', l') => execs n f' l' | None => None end
  end.

Section Run.
  Variable g : grid.

  Lemma setr_setr w r a b q : setr (setr w r a) r b q = setr w r b q.
  Proof. unfold setr; destruct (q =? r); reflexivity. Qed.

  (** Equal operation lists, pointwise. *)
  Lemma run_rank n : forall f h cur bg todo pd r f', r < size g -> execs n f (cur r) = Some f' ->
    reach g (Config f h cur bg todo pd) -> exists cur', reach g (Config f' h cur' bg todo pd) /\ cur' r = [] /\ forall q, q <> r -> cur' q = cur q.
  Proof.
    induction n as [|n IH]; intros f h cur bg todo pd r f' R X H; destruct (cur r) as [|i l] eqn:E; cbn [execs] in X; try discriminate.
    - inversion X; subst; exists cur; auto.
    - inversion X; subst; exists cur; auto.
    - destruct (exec1 f (i :: l)) as [[f1 l1]|] eqn:E1; [|discriminate].
      apply exec1_exec in E1. rewrite <- E in E1.
      pose proof (reach_step g _ _ H (st_work g _ _ (wk_main g f h cur bg todo pd r f1 l1 R E1))) as H1.
      rewrite <- (setr_same cur r l1) in X.
      destruct (IH f1 h (setr cur r l1) bg todo pd r f' R X H1) as (cur' & A & B & C).
      exists cur'; split; [exact A|]. split; [exact B|]. intros q Q; rewrite C by exact Q. apply setr_other; exact Q.
  Qed.

  Fixpoint run_ranks (n : nat) (f : fs) (cur : nat -> list instr) (rs : list nat) : option fs :=
    match rs with [] => Some f | r :: rs => match execs n f (cur r) with Some f' => run_ranks n f' cur rs | None => None end end.

  Lemma run_phase_aux n rs : forall f h cur cur0 bg todo pd f', (forall r, In r rs -> r < size g) -> NoDup rs ->
    (forall r, In r rs -> cur0 r = cur r) ->
    run_ranks n f cur rs = Some f' -> reach g (Config f h cur0 bg todo pd) ->
    exists cur', reach g (Config f' h cur' bg todo pd) /\ (forall r, In r rs -> cur' r = []) /\ (forall q, ~ In q rs -> cur' q = cur0 q).
  Proof.
    induction rs as [|r rs IH]; simpl; intros f h cur cur0 bg todo pd f' L N EQ X H.
    - inversion X; subst; exists cur0; split; [exact H|]. split; [intros ? []|reflexivity].
    - destruct (execs n f (cur r)) as [f1|] eqn:E; [|discriminate].
      rewrite <- EQ in E by (left; reflexivity).
      destruct (run_rank n f h cur0 bg todo pd r f1 (L r (or_introl eq_refl)) E H) as (c1 & A & B & C).
      inversion N; subst.
      destruct (IH f1 h cur c1 bg todo pd f') as (c2 & A2 & B2 & C2); auto.
      { intros q Q. rewrite C by (intros ->; contradiction). apply EQ; right; exact Q. }
      exists c2; split; [exact A2|]. split.
      + intros q [<-|Q]; [|auto]. rewrite C2 by assumption; exact B.
      + intros q Q. rewrite C2 by tauto. apply C. intros ->; apply Q; left; reflexivity.
  Qed.

  Lemma run_phase n f h p bg todo pd f' cur : idle g cur ->
    reach g (Config f h cur bg (PRun p :: todo) pd) -> run_ranks n f p (seq 0 (size g)) = Some f' ->
    exists cur', idle g cur' /\ reach g (Config f' h cur' bg todo pd).
  Proof.
    intros I H X. pose proof (reach_step g _ _ H (st_work g _ _ (wk_run g f h cur bg p todo pd I))) as H1.
    destruct (run_phase_aux n (seq 0 (size g)) f h p p bg todo pd f') as (c' & A & B & _); auto.
    - intros r R; apply in_seq in R; lia.
    - apply seq_NoDup.
    - exists c'; split; [|exact A]. intros r R; apply B, in_seq; lia.
  Qed.

  Fixpoint run_phases (n : nat) (f : fs) (ps : list phase) : option fs :=
    match ps with
    | [] => Some f
    | PRun p :: ps => match run_ranks n f p (seq 0 (size g)) with Some f' => run_phases n f' ps | None => None end
    | _ => None
    end.

  Lemma run_phases_reach n ps : forall f h bg pd f' cur, idle g cur ->
    reach g (Config f h cur bg ps pd) -> run_phases n f ps = Some f' ->
    exists cur', idle g cur' /\ reach g (Config f' h cur' bg [] pd).
  Proof.
    induction ps as [|[p|s|] ps IH]; simpl; intros f h bg pd f' cur I H X; try discriminate.
    - inversion X; subst; eauto.
    - destruct (run_ranks n f p (seq 0 (size g))) as [f1|] eqn:E; [|discriminate].
      destruct (run_phase n f h p bg ps pd f1 cur I H E) as (c1 & I1 & H1). eapply IH; eauto.
  Qed.

  (** Blocking calls, one after the other. *)
  Fixpoint run_calls (n : nat) (f : fs) (cs : list call) : option fs :=
    match cs with
    | [] => Some f
    | c :: cs => match run_phases n f (phases g None c) with Some f' => run_calls n f' cs | None => None end
    end.

  Definition sync (c : call) : Prop := match c with CSave _ b => b = true | _ => True end.

  Lemma run_calls_reach n cs : forall f h cur f', Forall sync cs -> idle g cur ->
    reach g (Config f h cur none [] None) -> run_calls n f cs = Some f' ->
    exists cur', idle g cur' /\ reach g (Config f' (rev (map Called cs) ++ h) cur' none [] None).
  Proof.
    induction cs as [|c cs IH]; simpl; intros f h cur f' S I H X.
    - inversion X; subst; eauto.
    - inversion S as [|? ? S1 S2]; subst. destruct (run_phases n f (phases g None c)) as [f1|] eqn:E; [|discriminate].
      assert (Z : call_ok None c) by (destruct c; exact Logic.I).
      pose proof (reach_step g _ _ H (st_call g f h cur none None c I Z)) as H1.
      destruct (run_phases_reach n _ f (Called c :: h) none (pending_after None c) f1 none (idle_none g) H1 E) as (c1 & I1 & H2).
      replace (pending_after None c) with (@None save) in H2 by (destruct c; reflexivity).
      destruct (IH f1 (Called c :: h) c1 f' S2 I1 H2 X) as (c2 & I2 & H5). exists c2; split; [exact I2|].
      rewrite <- app_assoc; exact H5.
  Qed.
End Run.

(** Eight processes: two replicas of two shards of two tensor parallel processes. *)
Definition eg_grid : grid := standard_grid 2 2 2.
Definition eg_state (x : Z) (r : nat) (k : kind) : Z :=
  (x + 10 * Z.of_nat r + match k with K_trainer => 1 | K_model => 2 | K_optimizer => 3 | K_data_reader => 4 end)%Z.
Definition eg_save (n : nat) : save := Save n true (eg_state (1000 * Z.of_nat n)).
Definition eg_model_only (n : nat) : save := Save n false (eg_state (1000 * Z.of_nat n)).
Definition eg_calls : list call :=
  [CSave (eg_save 1) true; CScore 1 7%Z; CSave (eg_save 2) true; CSave (eg_model_only 3) true; CDelete 7 false].

Lemma eg_grid_ok : grid_ok eg_grid.
Proof. apply standard_grid_ok; lia. Qed.

Definition one : grid := standard_grid 1 1 1.
Lemma one_ok : grid_ok one.
Proof. apply standard_grid_ok; lia. Qed.

Definition get {A} (d : A) (o : option A) : A := match o with Some x => x | None => d end.

Lemma get_some {A} (d : A) o : (match o with Some _ => true | None => false end) = true -> o = Some (get d o).
Proof. destruct o; [reflexivity|discriminate]. Qed.

(** The state after a list of blocking calls that all succeed. *)
Lemma calls_reach g cs n : Forall sync cs ->
  (match run_calls g n empty_fs cs with Some _ => true | None => false end) = true ->
  exists cur, idle g cur /\ reach g (Config (get empty_fs (run_calls g n empty_fs cs)) (rev (map Called cs)) cur none [] None).
Proof.
  intros S X. apply (get_some empty_fs) in X.
  destruct (run_calls_reach g n cs empty_fs [] none _ S (idle_none g) (reach_start g) X) as (c & I & R).
  rewrite app_nil_r in R. eauto.
Qed.

Definition eg_fs : fs := get empty_fs (run_calls eg_grid 100 empty_fs eg_calls).
Lemma eg_reach : exists cur, idle eg_grid cur /\ reach eg_grid (Config eg_fs (rev (map Called eg_calls)) cur none [] None).
Proof. apply calls_reach; [repeat constructor|vm_compute; reflexivity]. Qed.

(** A process is killed after it has removed one file of a committed step. *)
Lemma torn_delete : exists c, reach one c /\ quiet one c /\ reported (c_fs c) 3 /\ load one (c_fs c) 3 K_model 0 = None.
Proof.
  set (cs := [CSave (eg_model_only 3) true]).
  destruct (calls_reach one cs 100) as (cur & I & R); [repeat constructor|vm_compute; reflexivity|].
  set (f := get empty_fs (run_calls one 100 empty_fs cs)) in *.
  pose proof (inv_reach one one_ok _ R) as (m & (T & _) & _); change (tree f) in T.
  pose proof (reach_step _ _ _ R (st_call one _ _ _ none None (CDelete 3 false) I Logic.I)) as R1. cbn [phases pending_after] in R1.
  pose proof (reach_step _ _ _ R1 (st_work one _ _ (wk_run one _ _ _ _ _ _ _ (idle_none one)))) as R2.
  assert (L1 : 0 < size one) by (vm_compute; lia).
  assert (F0 : f (Tmp 3, []) = None) by (vm_compute; reflexivity).
  pose proof (reach_step _ _ _ R2 (st_work one _ _ (wk_main one _ _ _ _ _ _ 0 _ _ L1 (ex_rm_done f (Tmp 3) _ F0)))) as R3.
  cbn [del_step] in R3. set (c3 := setr (delete_prog 3 false) 0 _) in R3.
  assert (E3 : c3 0 = IRmtree (Step 3) :: [IUnlink (Scores, [N_score 3])]) by reflexivity.
  assert (LF : leaf f (Step 3) (model_file one 0)).
  { split; [vm_compute; discriminate|]. intros x.
    assert (X : f (Step 3, model_file one 0) <> Some Dir) by (vm_compute; discriminate).
    pose proof (T (Step 3) (model_file one 0) x) as Y. destruct (f (Step 3, model_file one 0 ++ [x])); [|reflexivity].
    exfalso; apply X, Y; discriminate. }
  assert (X3 : exec (f, c3 0) (upd f (Step 3, model_file one 0) None, c3 0)) by (rewrite E3; apply ex_rm_one; exact LF).
  pose proof (reach_step _ _ _ R3 (st_work one _ _ (wk_main one _ _ _ _ _ _ 0 _ _ L1 X3))) as R4.
  pose proof (reach_step _ _ _ R4 (st_crash one _ _ _ _ _ _)) as R5.
  eexists; split; [exact R5|]. split; [split; [apply idle_none|reflexivity]|]. split; vm_compute; reflexivity.
Qed.

(** A process is killed after it has opened the score file. *)
Lemma torn_score : exists c, reach one c /\ quiet one c /\ reported (c_fs c) 3 /\ score_of (c_fs c) 3 = Some None.
Proof.
  set (cs := [CSave (eg_model_only 3) true]).
  destruct (calls_reach one cs 100) as (cur & I & R); [repeat constructor|vm_compute; reflexivity|].
  set (f := get empty_fs (run_calls one 100 empty_fs cs)) in *.
  pose proof (reach_step _ _ _ R (st_call one _ _ _ none None (CScore 3 7%Z) I Logic.I)) as R1. cbn [phases pending_after] in R1.
  pose proof (reach_step _ _ _ R1 (st_work one _ _ (wk_run one _ _ _ _ _ _ _ (idle_none one)))) as R2.
  assert (L1 : 0 < size one) by (vm_compute; lia).
  assert (F0 : f (Scores, []) = None) by (vm_compute; reflexivity).
  pose proof (reach_step _ _ _ R2 (st_work one _ _ (wk_main one _ _ _ _ _ _ 0 _ _ L1 (ex_mkdir_new f Scores [] _ F0 (or_introl eq_refl))))) as R3.
  set (c3 := setr (score_prog 3 7%Z) 0 _) in R3. set (f3 := upd f (Scores, []) (Some Dir)) in R3.
  assert (E3 : c3 0 = [IOpen (Scores, [N_score 3]); IWrite (Scores, [N_score 3]) 7%Z]) by reflexivity.
  assert (X3 : exec (f3, c3 0) (upd f3 (Scores, [N_score 3]) (Some (File Partial)), [IWrite (Scores, [N_score 3]) 7%Z])).
  { rewrite E3; apply ex_open; [discriminate|reflexivity|vm_compute; discriminate]. }
  pose proof (reach_step _ _ _ R3 (st_work one _ _ (wk_main one _ _ _ _ _ _ 0 _ _ L1 X3))) as R4.
  pose proof (reach_step _ _ _ R4 (st_crash one _ _ _ _ _ _)) as R5.
  eexists; split; [exact R5|]. split; [split; [apply idle_none|reflexivity]|]. split; vm_compute; reflexivity.
Qed.
