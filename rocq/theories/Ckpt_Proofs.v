(** Invariants of the checkpoint manager. *)

From Coq Require Import Lia.
From Verif Require Import Ckpt_Spec.

Lemma upd_same f p v : upd f p v p = v.
Proof. unfold upd; destruct (path_eq_dec p p); congruence. Qed.
Lemma upd_other f p v q : q <> p -> upd f p v q = f q.
Proof. unfold upd; intros; destruct (path_eq_dec q p); congruence. Qed.

Definition tree (f : fs) : Prop := forall t l x, f (t, l ++ [x]) <> None -> f (t, l) = Some Dir.
Definition fin (f : fs) : Prop := exists L, forall p, f p <> None -> In p L.
Definition scok (f : fs) : Prop :=
  (f (Scores, []) = None \/ f (Scores, []) = Some Dir) /\ forall n, f (Scores, [N_score n]) <> Some Dir.
Definition absent (f : fs) (t : top) : Prop := forall l, f (t, l) = None.

Lemma tree_absent f t : tree f -> f (t, []) = None -> absent f t.
Proof.
  intros T H l; induction l as [|x l IH] using rev_ind; [exact H|].
  destruct (f (t, l ++ [x])) eqn:E; [|reflexivity].
  assert (f (t, l) = Some Dir) by (apply (T t l x); congruence); congruence.
Qed.

Lemma tree_up f t l l' : tree f -> f (t, l ++ l') <> None -> f (t, l) <> None.
Proof.
  intros T; induction l' as [|x l' IH] using rev_ind; rewrite ?app_nil_r; [auto|].
  rewrite app_assoc; intros H; apply T in H; apply IH; congruence.
Qed.

Definition on (i : instr) (t : top) : Prop :=
  match i with
  | IMkdir p | IOpen p | IWrite p _ | IUnlink p => t = fst p
  | IRmtree t' | IKeep t' => t = t'
  | IRename n => t = Tmp n \/ t = Step n
  end.

Lemma exec_frame f f' i k l t q : exec (f, i :: k) (f', l) -> ~ on i t -> f' (t, q) = f (t, q).
Proof.
  intros H N; inversion H; subst; cbn [on] in N; try reflexivity;
    try (apply upd_other; intros E; apply N; first [inversion E; reflexivity | subst; reflexivity]).
  - unfold rename; cbn [fst snd].
    destruct (top_eq_dec t (Step n)); [exfalso; auto|]. destruct (top_eq_dec t (Tmp n)); [exfalso; auto|]; reflexivity.
Qed.

Lemma exec_nil f f' l : exec (f, []) (f', l) -> False.
Proof. intros H; inversion H. Qed.

Lemma exec_tree f f' k l : tree f -> exec (f, k) (f', l) -> tree f'.
Proof.
  intros T H t l' x; inversion H; subst; try exact (T t l' x).
  - (* mkdir *)
    intros N. destruct (path_eq_dec (t, l') (t0, l0)) as [E|E].
    + inversion E; subst; rewrite upd_same; reflexivity.
    + rewrite upd_other by exact E.
      destruct (path_eq_dec (t, l' ++ [x]) (t0, l0)) as [E'|E'].
      * inversion E'; subst. destruct H5 as [H5|H5]; [destruct l'; discriminate|].
        rewrite removelast_last in H5; exact H5.
      * rewrite upd_other in N by exact E'; apply (T t l' x N).
  - (* open *)
    intros N. destruct (path_eq_dec (t, l' ++ [x]) (t0, l0)) as [E'|E'].
    + inversion E'; subst. rewrite removelast_last in H5.
      rewrite upd_other; [exact H5|]. intros E; inversion E as [E2]. apply (f_equal (@length name)) in E2.
      rewrite app_length in E2; simpl in E2; lia.
    + rewrite upd_other in N by exact E'. apply T in N.
      rewrite upd_other; [exact N|]. intros E; inversion E; subst; congruence.
  - (* write *)
    intros N. destruct (path_eq_dec (t, l' ++ [x]) p) as [E'|E'].
    + subst p. rewrite upd_other.
      * apply (T t l' x); congruence.
      * intros E; inversion E as [E2]. apply (f_equal (@length name)) in E2. rewrite app_length in E2; simpl in E2; lia.
    + rewrite upd_other in N by exact E'. apply T in N.
      rewrite upd_other; [exact N|]. intros E; subst; congruence.
  - (* rm *)
    intros N. destruct (path_eq_dec (t, l' ++ [x]) (t0, l0)) as [E'|E']; [rewrite E', upd_same in N; congruence|].
    rewrite upd_other in N by exact E'.
    rewrite upd_other; [exact (T _ _ _ N)|]. intros E; inversion E; subst. destruct H1 as [_ H1]; auto.
  - intros N. destruct (path_eq_dec (t, l' ++ [x]) (t0, x0 :: l0)) as [E'|E']; [rewrite E', upd_same in N; congruence|].
    rewrite upd_other in N by exact E'.
    rewrite upd_other; [exact (T _ _ _ N)|]. intros E; inversion E; subst. destruct H5 as [_ H5]; auto.
  - intros N. destruct (path_eq_dec (t, l' ++ [x]) p) as [E'|E']; [rewrite E', upd_same in N; congruence|].
    rewrite upd_other in N by exact E'. apply T in N.
    rewrite upd_other; [exact N|]. intros E; subst; congruence.
  - unfold rename; cbn [fst snd]. destruct (top_eq_dec t (Step n)); [apply T|]. destruct (top_eq_dec t (Tmp n)); [congruence|apply T].
Qed.

Lemma fin_upd f p v : fin f -> fin (upd f p v).
Proof.
  intros [L H]; exists (p :: L); intros q; destruct (path_eq_dec q p) as [->|E]; [left; reflexivity|].
  rewrite upd_other by exact E; right; auto.
Qed.

Lemma exec_fin f f' k l : fin f -> exec (f, k) (f', l) -> fin f'.
Proof.
  intros F H; inversion H; subst; try (apply fin_upd; assumption); try assumption.
  destruct F as [L F]. exists (L ++ map (fun p => (Step n, snd p)) L); intros [t q]; unfold rename; cbn [fst snd].
  destruct (top_eq_dec t (Step n)) as [->|].
  - intros N; apply in_or_app; right. apply in_map_iff; exists (Tmp n, q); split; [reflexivity|auto].
  - destruct (top_eq_dec t (Tmp n)); [congruence|]. intros N; apply in_or_app; left; auto.
Qed.

(** Removing always has something to remove, or is done. *)
Lemma child_dec (f : fs) t l (L : list path) :
  (exists x, f (t, l ++ [x]) <> None) \/ (forall x, In (t, l ++ [x]) L -> f (t, l ++ [x]) = None).
Proof.
  induction L as [|[t' l'] L IH]; [right; intros x []|].
  destruct IH as [IH|IH]; [left; exact IH|].
  destruct (top_eq_dec t' t) as [->|Nt].
  - destruct (list_eq_dec name_eq_dec l' (l ++ [last l' N_trainer])) as [E|E].
    + destruct (f (t, l ++ [last l' N_trainer])) eqn:F.
      * left; exists (last l' N_trainer); congruence.
      * right; intros x [X|X]; [|auto]. inversion X as [X2]. rewrite E in X2.
        apply app_inj_tail in X2 as [_ X2]. rewrite <- X2; exact F.
    + right; intros x [X|X]; [|auto]. inversion X as [X2]; subst. exfalso; apply E.
      rewrite last_last; reflexivity.
  - right; intros x [X|X]; [|auto]. inversion X; congruence.
Qed.

Lemma leaf_exists (f : fs) t l : fin f -> f (t, l) <> None -> exists l', leaf f t (l ++ l').
Proof.
  intros [L F].
  set (b := list_max (map (fun p : path => length (snd p)) L)).
  assert (B : forall q, f (t, q) <> None -> length q <= b).
  { intros q N; apply F in N. unfold b. pose proof (proj1 (list_max_le (map (fun p : path => length (snd p)) L) _) (le_n _)) as A.
    rewrite Forall_forall in A. apply A. apply in_map_iff; exists (t, q); auto. }
  remember (b - length l) as d eqn:D. revert l D; induction d as [|d IH]; intros l D N.
  - exists []; rewrite app_nil_r; split; [exact N|]. intros x. destruct (f (t, l ++ [x])) eqn:E; [|reflexivity].
    assert (length (l ++ [x]) <= b) by (apply B; congruence). rewrite app_length in H; simpl in H; lia.
  - destruct (child_dec f t l L) as [[x X]|A].
    + destruct (IH (l ++ [x])) as [l' H]; [rewrite app_length; simpl; lia|exact X|].
      exists (x :: l'). rewrite <- app_assoc in H; exact H.
    + exists []; rewrite app_nil_r; split; [exact N|]. intros x. destruct (f (t, l ++ [x])) eqn:E; [|reflexivity].
      rewrite <- E; apply A, F; congruence.
Qed.

Lemma unprotected_dec (f : fs) t : fin f ->
  (exists x l, protected x = false /\ f (t, x :: l) <> None) \/ (forall x l, protected x = false -> f (t, x :: l) = None).
Proof.
  intros [L F].
  assert (D : (exists x l, protected x = false /\ f (t, x :: l) <> None) \/
              (forall x l, In (t, x :: l) L -> protected x = false -> f (t, x :: l) = None)).
  { clear F. induction L as [|[t' l'] L IH]; [right; intros x l []|].
    destruct IH as [IH|IH]; [left; exact IH|].
    destruct (top_eq_dec t' t) as [->|Nt]; [|right; intros x l [X|X]; [inversion X; congruence|auto]].
    destruct l' as [|x' l']; [right; intros x l [X|X]; [inversion X|auto]|].
    destruct (protected x') eqn:P; [right; intros x l [X|X]; [inversion X; congruence|auto]|].
    destruct (f (t, x' :: l')) eqn:E; [left; exists x', l'; split; congruence|].
    right; intros x l [X|X]; [inversion X; congruence|auto]. }
  destruct D as [D|D]; [left; exact D|right]. intros x l P.
  destruct (f (t, x :: l)) eqn:E; [|reflexivity]. rewrite <- E; apply D; [apply F; congruence|exact P].
Qed.

Lemma can_rmtree f t k : fin f -> exists s, exec (f, IRmtree t :: k) s.
Proof.
  intros F. destruct (f (t, [])) eqn:E.
  - destruct (leaf_exists f t [] F) as [l H]; [congruence|]. eexists; apply ex_rm_one; exact H.
  - eexists; apply ex_rm_done; exact E.
Qed.

Lemma can_keep f t k : fin f -> exists s, exec (f, IKeep t :: k) s.
Proof.
  intros F. destruct (unprotected_dec f t F) as [(x & l & P & N)|A].
  - destruct (leaf_exists f t (x :: l) F N) as [l' H]. eexists; apply (ex_keep_one f t x (l ++ l')); [exact P|exact H].
  - eexists; apply ex_keep_done; exact A.
Qed.

Section Manager.
  Variable g : grid.
  Hypothesis G : grid_ok g.

  Definition whole_at (f : fs) (t : top) (s : save) (r : nat) (kp : kind * list name) : Prop :=
    f (t, snd kp) = Some (File (Whole (sv_state s r (fst kp)))).
  Definition recs (s : save) (r : nat) : list (kind * list name) := records g (sv_full s) r.

  Lemma rec_inv full r k p : In (k, p) (records g full r) ->
    match k with
    | K_trainer => full = true /\ p = trainer_file r
    | K_model => rdp g r = 0 /\ p = model_file g r
    | K_optimizer => full = true /\ rdp g r = 0 /\ p = optimizer_file g r
    | K_data_reader => full = true /\ tp g r = 0 /\ p = data_reader_file g r
    end.
  Proof.
    unfold records; intros H.
    repeat (apply in_app_or in H; destruct H as [H|H]);
      repeat match type of H with
             | In _ (if ?b then _ else _) => destruct b eqn:?; simpl in H
             end; try contradiction; destruct H as [H|[]]; inversion H; subst;
      repeat match goal with
             | E : (_ && _)%bool = true |- _ => apply andb_true_iff in E; destruct E
             | E : (_ =? _) = true |- _ => apply Nat.eqb_eq in E
             end; auto.
  Qed.

  Lemma rec_inj full r r' k k' p : r < size g -> r' < size g ->
    In (k, p) (records g full r) -> In (k', p) (records g full r') -> r = r' /\ k = k'.
  Proof.
    intros R R' H H'; apply rec_inv in H; apply rec_inv in H'.
    destruct k, k'; repeat match goal with H : _ /\ _ |- _ => destruct H end; subst;
      match goal with E : _ = _ |- _ => try (inversion E; fail) end;
      unfold trainer_file, model_file, optimizer_file, data_reader_file in *;
      match goal with E : _ :: _ = _ :: _ |- _ => inversion E end; split; auto.
    - apply (g_inj g G); auto. apply (g_dp g G); congruence.
    - apply (g_inj g G); auto. apply (g_dp g G); congruence.
    - apply (g_inj g G); congruence.
  Qed.

  Lemma rec_nodup_split s r ds kp rs : recs s r = ds ++ kp :: rs -> forall kp', In kp' ds -> snd kp' <> snd kp.
  Proof.
    intros E kp' I H.
    assert (N : NoDup (map snd (recs s r))).
    { unfold recs, records; destruct (sv_full s), (rdp g r =? 0), (tp g r =? 0); simpl;
        repeat (constructor; [simpl; intuition discriminate|]); constructor. }
    rewrite E, map_app in N. simpl in N. apply NoDup_remove_2 in N. apply N, in_or_app; left.
    rewrite <- H; apply in_map; exact I.
  Qed.

  Definition wr (s : save) (r : nat) (kp : kind * list name) : list instr :=
    [IOpen (Tmp (sv_step s), snd kp); IWrite (Tmp (sv_step s), snd kp) (sv_state s r (fst kp))].

  Lemma write_prog_wr s r : write_prog g s r = flat_map (wr s r) (recs s r).
  Proof. reflexivity. Qed.

  (** What process [r] still has to write when the list of its operations is [l]. *)
  Definition wsuf (f : fs) (s : save) (r : nat) (l : list instr) : Prop :=
    exists ds rs, recs s r = ds ++ rs /\ (forall kp, In kp ds -> whole_at f (Tmp (sv_step s)) s r kp) /\
      (l = flat_map (wr s r) rs \/
       exists kp rs' c, rs = kp :: rs' /\
         l = IWrite (Tmp (sv_step s), snd kp) (sv_state s r (fst kp)) :: flat_map (wr s r) rs' /\
         f (Tmp (sv_step s), snd kp) = Some (File c)).

  Definition parents (f : fs) (s : save) : Prop :=
    forall r kp, r < size g -> In kp (recs s r) ->
      snd kp <> [] /\ f (Tmp (sv_step s), removelast (snd kp)) = Some Dir /\ f (Tmp (sv_step s), snd kp) <> Some Dir.

  Definition writing (f : fs) (s : save) (w : nat -> list instr) : Prop :=
    f (Step (sv_step s), []) = None /\ f (Tmp (sv_step s), []) = Some Dir /\ parents f s /\
    forall r, r < size g -> wsuf f s r (w r).

  Definition written (f : fs) (s : save) : Prop :=
    f (Step (sv_step s), []) = None /\ f (Tmp (sv_step s), []) = Some Dir /\
    forall r kp, r < size g -> In kp (recs s r) -> whole_at f (Tmp (sv_step s)) s r kp.

  Lemma writing_start f s : f (Step (sv_step s), []) = None -> f (Tmp (sv_step s), []) = Some Dir -> parents f s ->
    writing f s (write_prog g s).
  Proof.
    intros A B C; split; [exact A|]; split; [exact B|]; split; [exact C|]. intros r R.
    exists [], (recs s r); split; [reflexivity|]; split; [intros kp []|]. left; apply write_prog_wr.
  Qed.

  Lemma writing_frame f f' s w : writing f s w ->
    (forall q, f' (Tmp (sv_step s), q) = f (Tmp (sv_step s), q)) -> f' (Step (sv_step s), []) = f (Step (sv_step s), []) -> writing f' s w.
  Proof.
    intros (A & B & C & D) E F; split; [congruence|]; split; [congruence|]; split.
    - intros r kp R I. destruct (C r kp R I) as (C1 & C2 & C3). rewrite !E; auto.
    - intros r R. destruct (D r R) as (ds & rs & D1 & D2 & D3). exists ds, rs; split; [exact D1|]; split.
      + intros kp I; unfold whole_at; rewrite E; apply D2; exact I.
      + destruct D3 as [D3|(kp & rs' & c & H1 & H2 & H3)]; [left; exact D3|right].
        exists kp, rs', c; rewrite E; auto.
  Qed.

  Lemma setr_same w r l : setr w r l r = l.
  Proof. unfold setr; rewrite Nat.eqb_refl; reflexivity. Qed.
  Lemma setr_other w r l q : q <> r -> setr w r l q = w q.
  Proof. unfold setr; intros; destruct (Nat.eqb_spec q r); congruence. Qed.

  (** One more file operation of one process. *)
  Lemma parents_upd f s r kp v : parents f s -> r < size g -> In kp (recs s r) ->
    parents (upd f (Tmp (sv_step s), snd kp) (Some (File v))) s.
  Proof.
    intros P R I r' kp' R' I'. destruct (P r' kp' R' I') as (P1 & P2 & P3). split; [exact P1|]. split.
    - rewrite upd_other; [exact P2|]. intros E. destruct (P r kp R I) as (_ & _ & Q). congruence.
    - destruct (path_eq_dec (Tmp (sv_step s), snd kp') (Tmp (sv_step s), snd kp)) as [E|E];
        [rewrite E, upd_same; discriminate|rewrite upd_other by exact E; exact P3].
  Qed.

  Lemma wsuf_other f s r kp v q l : r < size g -> q < size g -> q <> r -> In kp (recs s r) -> wsuf f s q l ->
    wsuf (upd f (Tmp (sv_step s), snd kp) v) s q l.
  Proof.
    intros R Q N I (ds & rs & D1 & D2 & D3).
    assert (X : forall kp', In kp' (recs s q) -> (Tmp (sv_step s), snd kp') <> (Tmp (sv_step s), snd kp)).
    { intros kp' I' E; inversion E as [E2]. destruct kp as [k p], kp' as [k' p']; simpl in E2; subst p'.
      destruct (rec_inj _ _ _ _ _ _ Q R I' I); auto. }
    exists ds, rs; split; [exact D1|]; split.
    - intros kp' I'. unfold whole_at; rewrite upd_other; [apply D2; exact I'|]. apply X; rewrite D1; apply in_or_app; auto.
    - destruct D3 as [D3|(kp' & rs' & c & H1 & H2 & H3)]; [left; exact D3|right].
      exists kp', rs', c; split; [exact H1|]; split; [exact H2|]. rewrite upd_other; [exact H3|].
      apply X; rewrite D1, H1; apply in_or_app; right; left; reflexivity.
  Qed.

  Lemma writing_step f f' s w r l : writing f s w -> r < size g -> exec (f, w r) (f', l) -> writing f' s (setr w r l).
  Proof.
    intros (A & B & C & D) R X. destruct (D r R) as (ds & rs & D1 & D2 & D3).
    destruct D3 as [D3|(kp & rs' & c & H1 & H2 & H3)].
    - destruct rs as [|kp rs']; [rewrite D3 in X; inversion X|].
      assert (I : In kp (recs s r)) by (rewrite D1; apply in_or_app; right; left; reflexivity).
      rewrite D3 in X; simpl in X. inversion X; subst.
      split; [|split; [|split]].
      + rewrite upd_other; [exact A|intros E; inversion E].
      + rewrite upd_other; [exact B|]. intros E. destruct (C r kp R I) as (_ & _ & Q). congruence.
      + apply (parents_upd f s r kp _ C R I).
      + intros q Q. destruct (Nat.eq_dec q r) as [->|N].
        * rewrite setr_same. exists ds, (kp :: rs'); split; [exact D1|]; split.
          -- intros kp' I'. unfold whole_at. rewrite upd_other; [apply D2; exact I'|].
             intros E; inversion E. eapply rec_nodup_split; eauto.
          -- right. exists kp, rs', Partial; split; [reflexivity|]; split; [reflexivity|apply upd_same].
        * rewrite setr_other by exact N. apply (wsuf_other f s r kp); auto.
    - subst rs. assert (I : In kp (recs s r)) by (rewrite D1; apply in_or_app; right; left; reflexivity).
      rewrite H2 in X; inversion X; subst.
      split; [|split; [|split]].
      + rewrite upd_other; [exact A|intros E; inversion E].
      + rewrite upd_other; [exact B|]. intros E. rewrite E in B; congruence.
      + apply (parents_upd f s r kp _ C R I).
      + intros q Q. destruct (Nat.eq_dec q r) as [->|N].
        * rewrite setr_same. exists (ds ++ [kp]), rs'; split; [rewrite <- app_assoc; exact D1|]; split; [|left; reflexivity].
          intros kp' I'. apply in_app_or in I'; destruct I' as [I'|[<-|[]]].
          -- unfold whole_at. rewrite upd_other; [apply D2; exact I'|].
             intros E; inversion E. eapply rec_nodup_split; eauto.
          -- unfold whole_at; rewrite upd_same; reflexivity.
        * rewrite setr_other by exact N. apply (wsuf_other f s r kp); auto.
  Qed.

  Lemma writing_done f s w : writing f s w -> idle g w -> written f s.
  Proof.
    intros (A & B & C & D) I; split; [exact A|]; split; [exact B|]. intros r kp R J.
    destruct (D r R) as (ds & rs & D1 & D2 & D3). rewrite (I r R) in D3.
    destruct D3 as [D3|(kp' & rs' & c & _ & H2 & _)]; [|discriminate].
    destruct rs as [|kp' rs]; [|discriminate]. apply D2. rewrite app_nil_r in D1. rewrite <- D1; exact J.
  Qed.

  Lemma writing_can f s w r : writing f s w -> r < size g -> w r = [] \/ exists x, exec (f, w r) x.
  Proof.
    intros (A & B & C & D) R. destruct (D r R) as (ds & rs & D1 & D2 & D3).
    destruct D3 as [D3|(kp & rs' & c & H1 & H2 & H3)].
    - rewrite D3. destruct rs as [|kp rs']; [left; reflexivity|right]. simpl.
      destruct (C r kp R) as (C1 & C2 & C3); [rewrite D1; apply in_or_app; right; left; reflexivity|].
      eexists; apply ex_open; auto.
    - rewrite H2. right. eexists; eapply ex_write; exact H3.
  Qed.

  Lemma writing_not_step f s w r i k : writing f s w -> r < size g -> w r = i :: k -> on i (Tmp (sv_step s)) /\ forall t, on i t -> t = Tmp (sv_step s).
  Proof.
    intros (A & B & C & D) R E. destruct (D r R) as (ds & rs & D1 & D2 & D3).
    destruct D3 as [D3|(kp & rs' & c & H1 & H2 & H3)].
    - rewrite D3 in E. destruct rs as [|kp rs']; [discriminate|]. simpl in E; inversion E; subst; simpl; auto.
    - rewrite H2 in E; inversion E; subst; simpl; auto.
  Qed.

  (** Making the directories. *)
  Definition ordered (k : list instr) : Prop :=
    forall d i k', k = d ++ i :: k' -> exists t q, i = IMkdir (t, q) /\ (q = [] \/ In (IMkdir (t, removelast q)) d).

  Lemma ordered_app a b : ordered a -> ordered b -> ordered (a ++ b).
  Proof.
    intros A B d i k' E.
    assert (X : (exists c, a = d ++ i :: c) \/ (exists c, d = a ++ c /\ b = c ++ i :: k')).
    { clear A B. revert a E; induction d as [|y d IH]; intros a E; simpl in E.
      - destruct a as [|z a]; [right; exists []; auto|]. simpl in E; inversion E; subst. left; exists a; reflexivity.
      - destruct a as [|z a]; [right; exists (y :: d); auto|]. simpl in E; inversion E; subst.
        destruct (IH a H1) as [[c ->]|(c & -> & ->)]; [left; exists c; reflexivity|right; exists c; auto]. }
    destruct X as [[c ->]|(c & -> & ->)]; [eapply A; reflexivity|].
    destruct (B c i k' eq_refl) as (t & q & -> & [->|H]); exists t; eexists; (split; [reflexivity|]); [left; reflexivity|right].
    apply in_or_app; right; exact H.
  Qed.

  Lemma ordered_nil : ordered [].
  Proof. intros d i k' E; destruct d; discriminate. Qed.

  Lemma ordered_if (b : bool) a : ordered a -> ordered (if b then a else []).
  Proof. destruct b; auto using ordered_nil. Qed.

  Lemma firstn_removelast {A} (l : list A) k : k <= length l -> removelast (firstn k l) = firstn (k - 1) l.
  Proof.
    intros K; destruct k as [|k]; [reflexivity|]. rewrite removelast_firstn by lia. f_equal; lia.
  Qed.

  Lemma ordered_mkdirs t l : ordered (mkdirs t l).
  Proof.
    intros d i k' E. unfold mkdirs, prefixes in E. rewrite map_map in E.
    assert (L : length d <= length l).
    { apply (f_equal (@length instr)) in E. rewrite map_length, seq_length, app_length in E. simpl in E; lia. }
    assert (N : nth_error (d ++ i :: k') (length d) = Some i) by (rewrite nth_error_app2, Nat.sub_diag by lia; reflexivity).
    rewrite <- E in N. rewrite nth_error_map in N.
    assert (S1 : nth_error (seq 0 (S (length l))) (length d) = Some (length d)).
    { rewrite (nth_error_nth' _ 0) by (rewrite seq_length; lia). rewrite seq_nth by lia. reflexivity. }
    rewrite S1 in N; simpl in N; inversion N as [N']. exists t, (firstn (length d) l); split; [reflexivity|].
    destruct (length d) as [|n] eqn:D; [left; reflexivity|right].
    rewrite firstn_removelast by lia. replace (S n - 1) with n by lia.
    apply (nth_error_In d n).
    assert (M : nth_error (d ++ i :: k') n = Some (IMkdir (t, firstn n l))).
    { rewrite <- E, nth_error_map. rewrite (nth_error_nth' _ 0) by (rewrite seq_length; lia). rewrite seq_nth by lia. reflexivity. }
    rewrite nth_error_app1 in M by lia. exact M.
  Qed.

  Lemma ordered_mkdir_prog s r : ordered (mkdir_prog g s r).
  Proof. unfold mkdir_prog; repeat apply ordered_app; apply ordered_if, ordered_mkdirs. Qed.

  Lemma in_mkdirs t l i : In i (mkdirs t l) -> exists k, k <= length l /\ i = IMkdir (t, firstn k l).
  Proof.
    unfold mkdirs, prefixes; rewrite map_map. intros H; apply in_map_iff in H as (k & <- & H).
    apply in_seq in H. exists k; split; [lia|reflexivity].
  Qed.

  Lemma mkdirs_all t l : In (IMkdir (t, l)) (mkdirs t l) /\ In (IMkdir (t, [])) (mkdirs t l).
  Proof.
    unfold mkdirs, prefixes; rewrite map_map; split; apply in_map_iff.
    - exists (length l); rewrite firstn_all; split; [reflexivity|apply in_seq; lia].
    - exists 0; split; [reflexivity|apply in_seq; lia].
  Qed.

  Lemma in_if {A} (b : bool) (l : list A) x : In x (if b then l else []) -> b = true /\ In x l.
  Proof. destruct b; simpl; tauto. Qed.

  Lemma in_mkdir_prog s r i : In i (mkdir_prog g s r) -> exists q, i = IMkdir (Tmp (sv_step s), q).
  Proof.
    unfold mkdir_prog; intros H.
    repeat (apply in_app_or in H; destruct H as [H|H]); apply in_if in H as [_ H]; apply in_mkdirs in H as (k & _ & ->); eauto.
  Qed.

  Lemma mkdir_not_record s r r' q k p : In (IMkdir (Tmp (sv_step s), q)) (mkdir_prog g s r) -> In (k, p) (recs s r') -> q <> p.
  Proof.
    intros H I. apply rec_inv in I.
    assert (P : (exists x y, p = [x; y] /\ (x = N_trainer \/ x = N_data_reader)) \/
                (exists x y z w, p = [x; y; z; w] /\ (x = N_model \/ x = N_optimizer))).
    { destruct k; repeat match goal with H : _ /\ _ |- _ => destruct H end; subst; unfold trainer_file, model_file, optimizer_file, data_reader_file;
        [left|right|right|left]; repeat eexists; auto. }
    clear I. unfold mkdir_prog in H.
    repeat (apply in_app_or in H; destruct H as [H|H]); apply in_if in H as [_ H]; apply in_mkdirs in H as (j & J & E);
      inversion E; subst q; clear E; intros E;
      destruct P as [(x & y & -> & P)|(x & y & z & w & -> & P)]; destruct P; subst x; simpl in J;
      do 5 (destruct j as [|j]; try (simpl in E; discriminate E)).
  Qed.

  Definition msuf (f : fs) (s : save) (r : nat) (l : list instr) : Prop :=
    exists d, mkdir_prog g s r = d ++ l /\ forall p, In (IMkdir p) d -> f p = Some Dir.

  Definition making (f : fs) (s : save) (w : nat -> list instr) : Prop :=
    f (Step (sv_step s), []) = None /\
    (forall q, f (Tmp (sv_step s), q) <> None ->
       f (Tmp (sv_step s), q) = Some Dir /\ exists r, In (IMkdir (Tmp (sv_step s), q)) (mkdir_prog g s r)) /\
    forall r, r < size g -> msuf f s r (w r).

  Lemma making_start f s : f (Step (sv_step s), []) = None -> absent f (Tmp (sv_step s)) -> making f s (mkdir_prog g s).
  Proof.
    intros A B; split; [exact A|]; split; [intros q Q; rewrite B in Q; congruence|].
    intros r R; exists []; split; [reflexivity|intros p []].
  Qed.

  Lemma making_can f s w r : making f s w -> r < size g -> w r = [] \/ exists x, exec (f, w r) x.
  Proof.
    intros (A & B & C) R. destruct (C r R) as (d & D1 & D2). destruct (w r) as [|i l]; [left; reflexivity|right].
    destruct (ordered_mkdir_prog s r d i l D1) as (t & q & -> & P).
    assert (I : In (IMkdir (t, q)) (mkdir_prog g s r)) by (rewrite D1; apply in_or_app; right; left; reflexivity).
    apply in_mkdir_prog in I as (q' & I); inversion I; subst.
    destruct (f (Tmp (sv_step s), q')) eqn:E.
    - destruct (B q') as [E' _]; [congruence|]. eexists; apply ex_mkdir_old; exact E'.
    - eexists; apply ex_mkdir_new; [exact E|]. destruct P as [->|P]; [left; reflexivity|right; apply D2; exact P].
  Qed.

  Lemma making_step f f' s w r l : making f s w -> r < size g -> exec (f, w r) (f', l) -> making f' s (setr w r l).
  Proof.
    intros (A & B & C) R X. destruct (C r R) as (d & D1 & D2). destruct (w r) as [|i l'] eqn:E; [inversion X|].
    assert (I : In i (mkdir_prog g s r)) by (rewrite D1; apply in_or_app; right; left; reflexivity).
    destruct (in_mkdir_prog s r i I) as (q & ->).
    assert (K : forall f2, f2 (Tmp (sv_step s), q) = Some Dir -> (forall p, f p = Some Dir -> f2 p = Some Dir) ->
              forall r', r' < size g -> msuf f2 s r' (setr w r l' r')).
    { intros f2 F1 F2 r' R'. destruct (Nat.eq_dec r' r) as [->|N].
      - rewrite setr_same. exists (d ++ [IMkdir (Tmp (sv_step s), q)]); split; [rewrite <- app_assoc; exact D1|].
        intros p P; apply in_app_or in P; destruct P as [P|[P|[]]]; [apply F2, D2, P|inversion P; subst; exact F1].
      - rewrite setr_other by exact N. destruct (C r' R') as (d' & D1' & D2'). exists d'; split; [exact D1'|]. intros p P; apply F2, D2', P. }
    inversion X; subst.
    - split; [rewrite upd_other; [exact A|intros Q; inversion Q]|]. split.
      + intros q'. destruct (path_eq_dec (Tmp (sv_step s), q') (Tmp (sv_step s), q)) as [Q|Q].
        * inversion Q; subst; rewrite upd_same; intros _; split; [reflexivity|exists r; exact I].
        * rewrite upd_other by exact Q; apply B.
      + apply K; [apply upd_same|]. intros p P. rewrite upd_other; [exact P|congruence].
    - split; [exact A|]; split; [exact B|]. apply K; auto.
  Qed.

  Lemma making_done f s w : making f s w -> idle g w -> writing f s (write_prog g s).
  Proof.
    intros (A & B & C) I.
    assert (D : forall r p, r < size g -> In (IMkdir p) (mkdir_prog g s r) -> f p = Some Dir).
    { intros r p R P. destruct (C r R) as (d & D1 & D2). rewrite (I r R), app_nil_r in D1. apply D2; rewrite <- D1; exact P. }
    apply writing_start; [exact A| |].
    - apply (D 0); [apply (g_pos g G)|]. unfold mkdir_prog. apply in_or_app; left. simpl. left; reflexivity.
    - intros r [k p] R J; simpl. pose proof J as J'. apply rec_inv in J.
      split; [destruct k; repeat match goal with H : _ /\ _ |- _ => destruct H end; subst; discriminate|].
      split.
      + destruct k; repeat match goal with H : _ /\ _ |- _ => destruct H end; subst; cbn [removelast trainer_file model_file optimizer_file data_reader_file].
        * apply (D 0); [apply (g_pos g G)|]. unfold mkdir_prog. apply in_or_app; right; apply in_or_app; left.
          rewrite H; simpl. right; left; reflexivity.
        * destruct (g_sdp0 g G r R H) as (r' & R' & E1 & E2 & E3 & E4).
          apply (D r' _ R'). unfold mkdir_prog. do 2 (apply in_or_app; right). apply in_or_app; left.
          rewrite E1, E2, E3, E4; simpl. do 3 right; left; reflexivity.
        * destruct (g_sdp0 g G r R H0) as (r' & R' & E1 & E2 & E3 & E4).
          apply (D r' _ R'). unfold mkdir_prog. do 3 (apply in_or_app; right). apply in_or_app; left.
          rewrite E1, E2, E3, E4, H; simpl. do 3 right; left; reflexivity.
        * destruct (g_dp0 g G r R H0) as (r' & R' & E1 & E2).
          apply (D r' _ R'). unfold mkdir_prog. do 4 (apply in_or_app; right).
          rewrite E1, E2, H; simpl. right; left; reflexivity.
      + intros Q. destruct (B p) as (_ & r' & P); [congruence|]. eapply (mkdir_not_record s r' r p k p); eauto.
  Qed.

  Lemma making_on f s w r i k : making f s w -> r < size g -> w r = i :: k -> forall t, on i t -> t = Tmp (sv_step s).
  Proof.
    intros (A & B & C) R E t. destruct (C r R) as (d & D1 & _). rewrite E in D1.
    destruct (in_mkdir_prog s r i) as (q & ->); [rewrite D1; apply in_or_app; right; left; reflexivity|]. simpl; auto.
  Qed.

  (** ** Committed steps *)
  Definition saved (h : list event) (s : save) : Prop := exists a b h', h = a ++ Called (CSave s b) :: h'.
  Definition savedx (n : nat) (k : bool) (h : list event) (s : save) : Prop :=
    exists a b h', h = a ++ Called (CSave s b) :: h' /\ exists e, In e a /\ deletes n k e.
  Definition histok (h : list event) (n : nat) (v : status) : Prop :=
    match v with
    | Absent => True
    | Kept s => saved h s
    | Trimming s | Trimmed s => savedx n true h s
    | Deleting s => savedx n false h s
    end.
  Definition models (f : fs) (n : nat) (s : save) : Prop :=
    forall r, r < size g -> rdp g r = 0 -> f (Step n, model_file g r) = Some (File (Whole (sv_state s r K_model))).
  Definition comm1 (f : fs) (n : nat) (v : status) : Prop :=
    match v with
    | Absent => f (Step n, []) = None
    | Kept s => sv_step s = n /\ forall r kp, r < size g -> In kp (recs s r) -> whole_at f (Step n) s r kp
    | Trimming s => sv_step s = n /\ models f n s
    | Trimmed s => sv_step s = n /\ models f n s /\ forall x l, protected x = false -> f (Step n, x :: l) = None
    | Deleting s => sv_step s = n
    end.
  Definition stat_save (v : status) : option save :=
    match v with Absent => None | Kept s | Trimming s | Trimmed s | Deleting s => Some s end.

  Definition ok (f : fs) (h : list event) (m : nat -> status) : Prop :=
    tree f /\ fin f /\ scok f /\ forall n, comm1 f n (m n) /\ histok h n (m n).

  Lemma saved_cons h s e : saved h s -> saved (e :: h) s.
  Proof. intros (a & b & h' & ->); exists (e :: a), b, h'; reflexivity. Qed.
  Lemma savedx_cons n k h s e : savedx n k h s -> savedx n k (e :: h) s.
  Proof. intros (a & b & h' & -> & e' & I & D); exists (e :: a), b, h'; split; [reflexivity|]; exists e'; split; [right; exact I|exact D]. Qed.
  Lemma savedx_new n k h s e : saved h s -> deletes n k e -> savedx n k (e :: h) s.
  Proof. intros (a & b & h' & ->) D; exists (e :: a), b, h'; split; [reflexivity|]; exists e; split; [left; reflexivity|exact D]. Qed.
  Lemma savedx_saved n k h s : savedx n k h s -> saved h s.
  Proof. intros (a & b & h' & -> & _); exists a, b, h'; reflexivity. Qed.
  Lemma histok_cons h n v e : histok h n v -> histok (e :: h) n v.
  Proof. destruct v; simpl; auto using saved_cons, savedx_cons. Qed.
  Lemma histok_saved h n v s : histok h n v -> stat_save v = Some s -> saved h s.
  Proof. destruct v; simpl; intros H E; inversion E; subst; eauto using savedx_saved. Qed.

  Lemma ok_cons f h m e : ok f h m -> ok f (e :: h) m.
  Proof. intros (A & B & C & D); repeat (split; [assumption|]). intros n; destruct (D n); auto using histok_cons. Qed.

  Lemma comm1_frame f f' n v : (forall q, f' (Step n, q) = f (Step n, q)) -> comm1 f n v -> comm1 f' n v.
  Proof.
    intros E; destruct v; simpl; unfold models, whole_at; intros H; rewrite ?E; intuition; rewrite E; auto.
  Qed.

  Lemma kept_models f n s : (forall r kp, r < size g -> In kp (recs s r) -> whole_at f (Step n) s r kp) -> models f n s.
  Proof.
    intros H r R E. apply (H r (K_model, model_file g r) R). unfold recs, records.
    apply in_or_app; right. apply in_or_app; left. rewrite E; left; reflexivity.
  Qed.

  Definition setm (m : nat -> status) (n : nat) (v : status) : nat -> status := fun q => if q =? n then v else m q.
  Lemma setm_same m n v : setm m n v n = v.
  Proof. unfold setm; rewrite Nat.eqb_refl; reflexivity. Qed.
  Lemma setm_other m n v q : q <> n -> setm m n v q = m q.
  Proof. unfold setm; intros; destruct (Nat.eqb_spec q n); congruence. Qed.
  Lemma setk_same k n v : setk k n v n = v.
  Proof. unfold setk; rewrite Nat.eqb_refl; reflexivity. Qed.
  Lemma setk_other k n v q : q <> n -> setk k n v q = k q.
  Proof. unfold setk; intros; destruct (Nat.eqb_spec q n); congruence. Qed.

  (** Operations below "step_<n>.tmp". *)
  Lemma ok_tmp f f' h m i k l : ok f h m -> exec (f, i :: k) (f', l) -> (forall t, on i t -> exists n, t = Tmp n) -> ok f' h m.
  Proof.
    intros (A & B & C & D) X O.
    assert (F : forall t q, (forall n, t <> Tmp n) -> f' (t, q) = f (t, q)).
    { intros t q N; apply (exec_frame _ _ _ _ _ t q X). intros Y; destruct (O t Y) as (n & ->). eapply N; reflexivity. }
    split; [eapply exec_tree; eauto|]. split; [eapply exec_fin; eauto|]. split.
    - unfold scok; rewrite F by discriminate. split; [apply C|]. intros n; rewrite F by discriminate; apply C.
    - intros n; destruct (D n) as (D1 & D2); split; [|exact D2]. eapply comm1_frame; [|exact D1].
      intros q; apply F; discriminate.
  Qed.

  Lemma ok_score f f' h m n v k l : ok f h m ->
    (exists i, exec (f, i :: k) (f', l) /\ (i = IMkdir (Scores, []) \/ i = IOpen (Scores, [N_score n]) \/ i = IWrite (Scores, [N_score n]) v \/
      i = IUnlink (Scores, [N_score n]))) -> ok f' h m.
  Proof.
    intros (A & B & C & D) (i & X & O).
    assert (F : forall t q, t <> Scores -> f' (t, q) = f (t, q)).
    { intros t q N; apply (exec_frame _ _ _ _ _ t q X). intros Y; apply N. destruct O as [->|[->|[->| ->]]]; exact Y. }
    split; [eapply exec_tree; eauto|]. split; [eapply exec_fin; eauto|]. split.
    - destruct C as [C1 C2]. assert (S : forall v, scok (upd f (Scores, [N_score n]) (Some (File v)))).
      { intros v'; split; [rewrite upd_other by discriminate; exact C1|]. intros q.
        destruct (path_eq_dec (Scores, [N_score q]) (Scores, [N_score n])) as [E|E];
          [rewrite E, upd_same; discriminate|rewrite upd_other by exact E; apply C2]. }
      destruct O as [->|[->|[->| ->]]]; inversion X; subst; try apply S; try (split; assumption).
      + split; [rewrite upd_same; auto|]. intros q; rewrite upd_other by discriminate; apply C2.
      + split; [rewrite upd_other by discriminate; exact C1|]. intros q.
        destruct (path_eq_dec (Scores, [N_score q]) (Scores, [N_score n])) as [E|E];
          [rewrite E, upd_same; discriminate|rewrite upd_other by exact E; apply C2].
    - intros q; destruct (D q) as (D1 & D2); split; [|exact D2]. eapply comm1_frame; [|exact D1].
      intros l'; apply F; discriminate.
  Qed.

  (** The rename. *)
  Lemma ok_rename f f' h m s k l : ok f h m -> saved h s -> written f s -> exec (f, IRename (sv_step s) :: k) (f', l) ->
    ok f' h (setm m (sv_step s) (Kept s)) /\ l = k.
  Proof.
    intros (A & B & C & D) S (W1 & W2 & W3) X. pose proof (exec_tree _ _ _ _ A X) as A'. pose proof (exec_fin _ _ _ _ B X) as B'.
    inversion X; subst. split; [|reflexivity]. split; [exact A'|]. split; [exact B'|].
    assert (F : forall t q, t <> Tmp (sv_step s) -> t <> Step (sv_step s) -> rename f (sv_step s) (t, q) = f (t, q)).
    { intros t q N1 N2. unfold rename; cbn [fst snd]. destruct (top_eq_dec t (Step (sv_step s))); [contradiction|].
      destruct (top_eq_dec t (Tmp (sv_step s))); [contradiction|reflexivity]. }
    split.
    - unfold scok; rewrite F by discriminate. split; [apply C|]. intros n; rewrite F by discriminate; apply C.
    - intros n; destruct (Nat.eq_dec n (sv_step s)) as [->|N].
      + rewrite setm_same; split; [|exact S]. split; [reflexivity|]. intros r kp R I.
        specialize (W3 r kp R I). unfold whole_at, rename in *; cbn [fst snd].
        destruct (top_eq_dec (Step (sv_step s)) (Step (sv_step s))); [exact W3|congruence].
      + rewrite setm_other by exact N. destruct (D n) as (D1 & D2); split; [|exact D2]. eapply comm1_frame; [|exact D1].
        intros q; apply F; congruence.
  Qed.

  (** ** Deleting a step *)
  Definition del_step (n : nat) (k : bool) : instr := if k then IKeep (Step n) else IRmtree (Step n).
  Definition del_score (n : nat) (k : bool) : list instr := if k then [] else [IUnlink (Scores, [N_score n])].
  Definition deleting (f : fs) (m : nat -> status) (n : nat) (k : bool) (l : list instr) : Prop :=
    l = IRmtree (Tmp n) :: del_step n k :: del_score n k \/
    (l = del_step n k :: del_score n k /\ absent f (Tmp n)) \/
    ((l = del_score n k \/ l = []) /\ absent f (Tmp n) /\ if k then trim (m n) = m n else m n = Absent).

  Lemma delete_prog_0 n k : delete_prog n k 0 = IRmtree (Tmp n) :: del_step n k :: del_score n k.
  Proof. destruct k; reflexivity. Qed.

  Lemma upd_step_other f n l v q q' : q <> n -> upd f (Step n, l) v (Step q, q') = f (Step q, q').
  Proof. intros; apply upd_other; congruence. Qed.

  Lemma deleting_step f f' h0 x m n k l l' : ok f (x :: h0) m -> deletes n k x ->
    (forall s, stat_save (m n) = Some s -> saved h0 s) -> deleting f m n k l -> exec (f, l) (f', l') ->
    exists m', ok f' (x :: h0) m' /\ (forall q, q <> n -> m' q = m q) /\ (k = true -> trim (m' n) = trim (m n)) /\
      (forall s, stat_save (m' n) = Some s -> saved h0 s) /\ deleting f' m' n k l'.
  Proof.
    intros O DX S [->|[(-> & T)|(E & T & F)]] X.
    - (* the temporary directory *)
      exists m; split; [eapply ok_tmp; [exact O|exact X|simpl; eauto]|]. split; [reflexivity|]. split; [reflexivity|]. split; [exact S|].
      inversion X; subst; [left; reflexivity|right; left; split; [reflexivity|]].
      apply tree_absent; [apply O|assumption].
    - assert (T' : absent f' (Tmp n)).
      { intros q. rewrite (exec_frame _ _ _ _ _ (Tmp n) q X); [apply T|]. destruct k; simpl; discriminate. }
      destruct O as (A & B & C & D). pose proof (exec_tree _ _ _ _ A X) as A'. pose proof (exec_fin _ _ _ _ B X) as B'.
      assert (C' : scok f').
      { assert (F : forall q, f' (Scores, q) = f (Scores, q)) by (intros q; apply (exec_frame _ _ _ _ _ Scores q X); destruct k; simpl; discriminate).
        split; [rewrite F; apply C|intros q; rewrite F; apply C]. }
      assert (D' : forall q, q <> n -> comm1 f' q (m q) /\ histok (x :: h0) q (m q)).
      { intros q N; destruct (D q) as (D1 & D2); split; [|exact D2]. eapply comm1_frame; [|exact D1].
        intros p; apply (exec_frame _ _ _ _ _ (Step q) p X). destruct k; simpl; congruence. }
      assert (FIN : forall v, comm1 f' n v -> histok (x :: h0) n v -> ok f' (x :: h0) (setm m n v)).
      { intros v V1 V2; split; [exact A'|]; split; [exact B'|]; split; [exact C'|]. intros q.
        destruct (Nat.eq_dec q n) as [->|N]; [rewrite setm_same; auto|rewrite setm_other by exact N; auto]. }
      destruct (D n) as (Dn & Hn).
      destruct k; simpl in X.
      + (* keep the model *)
        inversion X; subst.
        * (* one more removed *)
          match goal with HL : leaf _ _ (?a :: ?b) |- _ => rename a into x1; rename b into l1 end.
          exists (setm m n (match m n with Deleting s => Deleting s | Absent => Absent | Kept s | Trimming s | Trimmed s => Trimming s end)).
          rewrite setm_same.
          assert (M : forall s, models f n s -> models (upd f (Step n, x1 :: l1) None) n s).
          { intros s Ms r R E. rewrite upd_other; [apply Ms; auto|]. intros Q; inversion Q; subst; discriminate. }
          split; [|split; [|split; [|split]]].
          -- apply FIN.
             ++ destruct (m n) as [|s|s|s|s]; simpl in *.
                ** rewrite upd_other by discriminate; exact Dn.
                ** destruct Dn as (Dn1 & Dn2); split; [exact Dn1|]. apply M, kept_models; exact Dn2.
                ** destruct Dn as (Dn1 & Dn2); auto.
                ** destruct Dn as (Dn1 & Dn2 & _); auto.
                ** exact Dn.
             ++ destruct (m n) as [|s|s|s|s]; simpl in *; auto. apply savedx_new; auto.
          -- intros q N; apply setm_other; exact N.
          -- intros _. destruct (m n); reflexivity.
          -- destruct (m n); simpl in *; auto; intros s0 E0; apply S; exact E0.
          -- right; left; split; [reflexivity|exact T'].
        * (* nothing left *)
          exists (setm m n (match m n with Deleting s => Deleting s | Absent => Absent | Kept s | Trimming s | Trimmed s => Trimmed s end)).
          rewrite setm_same.
          split; [|split; [|split; [|split]]].
          -- apply FIN.
             ++ destruct (m n) as [|s|s|s|s]; simpl in *; auto.
                ** destruct Dn as (Dn1 & Dn2); split; [exact Dn1|]. split; [apply kept_models; exact Dn2|auto].
                ** destruct Dn as (Dn1 & Dn2); auto.
             ++ destruct (m n) as [|s|s|s|s]; simpl in *; auto. apply savedx_new; auto.
          -- intros q N; apply setm_other; exact N.
          -- intros _. destruct (m n); reflexivity.
          -- destruct (m n); simpl in *; auto; intros s0 E0; apply S; exact E0.
          -- right; right; split; [left; reflexivity|split; [exact T'|]]. rewrite setm_same; destruct (m n); reflexivity.
      + inversion X; subst.
        * match goal with HL : leaf _ _ ?b |- _ => rename b into l1 end.
          exists (setm m n (match m n with Absent => Absent | Deleting s | Kept s | Trimming s | Trimmed s => Deleting s end)).
          rewrite setm_same.
          split; [|split; [|split; [|split]]].
          -- apply FIN.
             ++ destruct (m n) as [|s|s|s|s]; simpl in *; try exact (proj1 Dn); auto.
                destruct (path_eq_dec (Step n, []) (Step n, l1)) as [E|E]; [rewrite E, upd_same; reflexivity|rewrite upd_other by exact E; exact Dn].
             ++ destruct (m n) as [|s|s|s|s]; simpl in *; auto using savedx_new.
          -- intros q N; apply setm_other; exact N.
          -- discriminate.
          -- destruct (m n); simpl in *; auto; intros s0 E0; apply S; exact E0.
          -- right; left; split; [reflexivity|exact T'].
        * exists (setm m n Absent). rewrite setm_same.
          split; [apply FIN; [assumption|exact Logic.I]|]. split; [intros q N; apply setm_other; exact N|].
          split; [discriminate|]. split; [discriminate|]. right; right; split; [left; reflexivity|split; [exact T'|apply setm_same]].
    - (* the score *)
      exists m. assert (U : l = [IUnlink (Scores, [N_score n])] /\ k = false).
      { destruct E as [E|E]; subst l; [|inversion X]. destruct k; [inversion X|auto]. }
      destruct U as [-> ->].
      split; [eapply (ok_score f f' _ m n 0%Z); [exact O|]; eexists; split; [exact X|auto]|].
      split; [reflexivity|]. split; [discriminate|]. split; [exact S|]. right; right. split; [|split; [|exact F]].
      + inversion X; right; reflexivity.
      + intros q. rewrite (exec_frame _ _ _ _ _ (Tmp n) q X) by (simpl; discriminate). apply T.
  Qed.

  Lemma deleting_can f h m n k l : ok f h m -> deleting f m n k l -> l = [] \/ exists x, exec (f, l) x.
  Proof.
    intros (A & B & (C1 & C2) & D) [->|[(-> & T)|([->| ->] & T & F)]].
    - right; apply can_rmtree; exact B.
    - right; destruct k; [apply can_keep|apply can_rmtree]; exact B.
    - destruct k; [left; reflexivity|right]. simpl.
      destruct (f (Scores, [N_score n])) as [[|c]|] eqn:E.
      + destruct (C2 n E).
      + eexists; eapply ex_unlink; exact E.
      + eexists; apply ex_unlink_none; exact E.
    - left; reflexivity.
  Qed.

  Lemma deleting_on f m n k l i l' : deleting f m n k l -> l = i :: l' -> forall t, on i t -> t = Tmp n \/ t = Step n \/ t = Scores.
  Proof.
    intros [->|[(-> & T)|([->| ->] & T & F)]] E; destruct k; inversion E; subst; simpl; auto.
  Qed.

  (** ** The whole machine *)
  Definition K (h : list event) : know := fst (expected h).
  Definition P (h : list event) : option save := snd (expected h).
  Definition agree (m : nat -> status) (k : know) : Prop := forall n v, k n = Some v -> m n = v.
  Definition agreex (m : nat -> status) (k : know) (n0 : nat) : Prop := forall n v, n <> n0 -> k n = Some v -> m n = v.
  Definition BG (h : list event) (p : option save) (f : fs) (bg : nat -> list instr) : Prop :=
    match p with None => idle g bg | Some s => saved h s /\ writing f s bg end.
  Definition aftermk (s : save) (b : bool) : list phase :=
    if b then [PRun (write_prog g s); PRun (commit_prog s)] else [PSpawn s].
  Definition savetail (s : save) (b : bool) : list phase :=
    PRun (delete_prog (sv_step s) false) :: PRun (mkdir_prog g s) :: aftermk s b.
  Definition result (s : save) (b : bool) : status := if b then Kept s else Absent.
  Definition pend_of (s : save) (b : bool) : option save := if b then None else Some s.

  Inductive tail_ok (h0 h : list event) (k1 : know) : list phase -> Prop :=
  | tl_nil : h0 = h -> (forall n, K h n = k1 n) -> P h = None -> tail_ok h0 h k1 []
  | tl_save s b : h = Called (CSave s b) :: h0 -> (forall n, n <> sv_step s -> K h n = k1 n) ->
      K h (sv_step s) = Some (result s b) -> P h = pend_of s b -> tail_ok h0 h k1 (savetail s b).

  Definition hist0 (h0 : list event) (m : nat -> status) : Prop := forall n s, stat_save (m n) = Some s -> saved h0 s.
  Definition post (h : list event) (m : nat -> status) (s : save) (b : bool) : Prop :=
    agreex m (K h) (sv_step s) /\ K h (sv_step s) = Some (result s b) /\ P h = pend_of s b.
  Definition dpost (h : list event) (m : nat -> status) (n : nat) (k : bool) (p : option save) : Prop :=
    agreex m (K h) n /\ (if k then forall v, K h n = Some v -> trim (m n) = v else K h n = Some Absent) /\ P h = p.
  Definition rank0 (cur : nat -> list instr) : Prop := forall r, r < size g -> r <> 0 -> cur r = [].
  Definition scoring (f : fs) (n : nat) (v : Z) (l : list instr) : Prop :=
    l = [IMkdir (Scores, []); IOpen (Scores, [N_score n]); IWrite (Scores, [N_score n]) v] \/
    (l = [IOpen (Scores, [N_score n]); IWrite (Scores, [N_score n]) v] /\ f (Scores, []) = Some Dir) \/
    (l = [IWrite (Scores, [N_score n]) v] /\ exists c, f (Scores, [N_score n]) = Some (File c)) \/ l = [].

  Inductive shape (f : fs) (m : nat -> status) (h : list event) (cur bg : nat -> list instr) : list phase -> option save -> Prop :=
  | sh_quiet p : idle g cur -> BG h p f bg -> agree m (K h) -> P h = p -> shape f m h cur bg [] p
  | sh_join s tl h0 k0 : idle g cur -> saved h0 s -> writing f s bg -> hist0 h0 m -> agree m k0 ->
      tail_ok h0 h (setk k0 (sv_step s) (Some (Kept s))) tl ->
      shape f m h cur bg (PJoin :: PRun (commit_prog s) :: tl) None
  | sh_tocommit s tl h0 k0 : idle g cur -> saved h0 s -> written f s -> idle g bg -> hist0 h0 m -> agree m k0 ->
      tail_ok h0 h (setk k0 (sv_step s) (Some (Kept s))) tl ->
      shape f m h cur bg (PRun (commit_prog s) :: tl) None
  | sh_commit s tl h0 k0 : rank0 cur -> cur 0 = [IRename (sv_step s)] -> saved h0 s -> written f s -> idle g bg -> hist0 h0 m -> agree m k0 ->
      tail_ok h0 h (setk k0 (sv_step s) (Some (Kept s))) tl ->
      shape f m h cur bg tl None
  | sh_tail tl h0 k1 : idle g cur -> idle g bg -> hist0 h0 m -> agree m k1 -> tail_ok h0 h k1 tl -> shape f m h cur bg tl None
  | sh_del s b h0 : rank0 cur -> idle g bg -> h = Called (CSave s b) :: h0 ->
      (forall s1, stat_save (m (sv_step s)) = Some s1 -> saved h0 s1) -> deleting f m (sv_step s) false (cur 0) -> post h m s b ->
      shape f m h cur bg (PRun (mkdir_prog g s) :: aftermk s b) None
  | sh_mk s b : idle g bg -> saved h s -> making f s cur -> m (sv_step s) = Absent -> post h m s b ->
      shape f m h cur bg (aftermk s b) None
  | sh_write s : idle g bg -> saved h s -> writing f s cur -> m (sv_step s) = Absent -> post h m s true ->
      shape f m h cur bg [PRun (commit_prog s)] None
  | sh_todel n k p h0 : idle g cur -> BG h p f bg -> (forall s, p = Some s -> sv_step s <> n) -> h = Called (CDelete n k) :: h0 ->
      (forall s1, stat_save (m n) = Some s1 -> saved h0 s1) -> dpost h m n k p ->
      shape f m h cur bg [PRun (delete_prog n k)] p
  | sh_dele n k p h0 : rank0 cur -> BG h p f bg -> (forall s, p = Some s -> sv_step s <> n) -> h = Called (CDelete n k) :: h0 ->
      (forall s1, stat_save (m n) = Some s1 -> saved h0 s1) -> deleting f m n k (cur 0) -> dpost h m n k p ->
      shape f m h cur bg [] p
  | sh_toscore n v p : idle g cur -> BG h p f bg -> agree m (K h) -> P h = p -> shape f m h cur bg [PRun (score_prog n v)] p
  | sh_score n v p : rank0 cur -> BG h p f bg -> scoring f n v (cur 0) -> agree m (K h) -> P h = p -> shape f m h cur bg [] p.

  Definition Inv (c : config) : Prop :=
    exists m, ok (c_fs c) (c_hist c) m /\ shape (c_fs c) m (c_hist c) (c_cur c) (c_bg c) (c_todo c) (c_pend c).

  Lemma size_pos : 0 < size g. Proof. apply (g_pos g G). Qed.

  Lemma rank0_idle cur : rank0 cur -> cur 0 = [] -> idle g cur.
  Proof. intros R Z r L. destruct (Nat.eq_dec r 0) as [->|N]; auto. Qed.

  Lemma rank0_set cur r l f x : rank0 cur -> r < size g -> exec (f, cur r) x -> r = 0 /\ rank0 (setr cur r l) /\ setr cur r l 0 = l.
  Proof.
    intros H R X. destruct (Nat.eq_dec r 0) as [->|N].
    - split; [reflexivity|]. split; [|apply setr_same]. intros q Q N. rewrite setr_other by exact N; auto.
    - rewrite (H r R N) in X; inversion X.
  Qed.

  Lemma idle_no_step cur r f x : idle g cur -> r < size g -> exec (f, cur r) x -> False.
  Proof. intros I R X; rewrite (I r R) in X; inversion X. Qed.

  Lemma ok_hist0 f h m : ok f h m -> hist0 h m.
  Proof. intros (_ & _ & _ & D) n s E. destruct (D n) as [_ H]. eapply histok_saved; eauto. Qed.

  Lemma post_agree h m s b : post h m s b -> m (sv_step s) = result s b -> agree m (K h).
  Proof.
    intros (A & B & _) E n v V. destruct (Nat.eq_dec n (sv_step s)) as [->|N]; [congruence|apply A; auto].
  Qed.

  Lemma BG_frame h p f f' bg n : BG h p f bg -> (forall s, p = Some s -> sv_step s <> n) ->
    (forall t q, t <> Tmp n -> t <> Step n -> t <> Scores -> f' (t, q) = f (t, q)) -> BG h p f' bg.
  Proof.
    destruct p as [s|]; [|auto]. intros (A & B) N F; split; [exact A|]. specialize (N s eq_refl).
    apply (writing_frame f); [exact B| |]; intros; apply F; congruence.
  Qed.

  Lemma BG_frame_scores h p f f' bg : BG h p f bg ->
    (forall t q, t <> Scores -> f' (t, q) = f (t, q)) -> BG h p f' bg.
  Proof.
    destruct p as [s|]; [|auto]. intros (A & B) F; split; [exact A|].
    apply (writing_frame f); [exact B| |]; intros; apply F; congruence.
  Qed.

  Lemma BG_cons h p f bg e : BG h p f bg -> BG (e :: h) p f bg.
  Proof. destruct p; simpl; [intros [A B]; auto using saved_cons|auto]. Qed.

  (** A step of a background thread. *)
  Lemma bg_step f h m s bg r f' l : ok f h m -> writing f s bg -> r < size g -> exec (f, bg r) (f', l) ->
    ok f' h m /\ writing f' s (setr bg r l) /\ forall t q, t <> Tmp (sv_step s) -> f' (t, q) = f (t, q).
  Proof.
    intros O W R X. destruct (bg r) as [|i k] eqn:E; [inversion X|].
    destruct (writing_not_step f s bg r i k W R E) as (_ & T).
    split; [eapply ok_tmp; [exact O|exact X|]; intros t Y; rewrite (T t Y); eauto|].
    split; [rewrite <- E in X; eapply writing_step; eauto|].
    intros t q N; apply (exec_frame _ _ _ _ _ t q X). intros Y; apply N, T, Y.
  Qed.

  Lemma deleting_frame f f' m n k l : deleting f m n k l -> (forall q, f' (Tmp n, q) = f (Tmp n, q)) -> deleting f' m n k l.
  Proof.
    intros D E. assert (A : absent f (Tmp n) -> absent f' (Tmp n)) by (intros A q; rewrite E; apply A).
    unfold deleting in *; intuition.
  Qed.

  Lemma scoring_frame f f' n v l : scoring f n v l -> (forall q, f' (Scores, q) = f (Scores, q)) -> scoring f' n v l.
  Proof. intros D E. unfold scoring in *; rewrite !E; exact D. Qed.

  Lemma inv_bg f h cur bg todo pd r f' l : r < size g -> exec (f, bg r) (f', l) ->
    Inv (Config f h cur bg todo pd) -> Inv (Config f' h cur (setr bg r l) todo pd).
  Proof.
    intros R X (m & O & H); cbn in O, H. exists m; cbn.
    assert (B : forall p, BG h p f bg -> ok f' h m /\ BG h p f' (setr bg r l) /\
              forall t q, (forall s, p = Some s -> t <> Tmp (sv_step s)) -> f' (t, q) = f (t, q)).
    { intros [s|] B; [|destruct (idle_no_step _ _ _ _ B R X)]. destruct B as (B1 & B2).
      destruct (bg_step f h m s bg r f' l O B2 R X) as (Y1 & Y2 & Y3). split; [exact Y1|]. split; [split; assumption|].
      intros t q N; apply Y3, N; reflexivity. }
    inversion H; subst; try match goal with I : idle g bg |- _ => exact (False_ind _ (idle_no_step _ _ _ _ I R X)) end.
    - destruct (B _ H1) as (Y1 & Y2 & Y3); split; [exact Y1|]. apply sh_quiet; auto.
    - destruct (bg_step f h m s bg r f' l O H2 R X) as (Y1 & Y2 & Y3). split; [exact Y1|]. eapply sh_join; eauto.
    - destruct (B _ H1) as (Y1 & Y2 & Y3); split; [exact Y1|]. eapply sh_todel; eauto.
    - destruct (B _ H1) as (Y1 & Y2 & Y3); split; [exact Y1|]. eapply sh_dele; eauto.
      eapply deleting_frame; [eassumption|]. intros q; apply Y3. intros s E; specialize (H2 s E); congruence.
    - destruct (B _ H1) as (Y1 & Y2 & Y3); split; [exact Y1|]. eapply sh_toscore; eauto.
    - destruct (B _ H1) as (Y1 & Y2 & Y3); split; [exact Y1|]. eapply sh_score; eauto.
      eapply scoring_frame; [eassumption|]. intros q; apply Y3; discriminate.
  Qed.

  Lemma inv_main f h cur bg todo pd r f' l : r < size g -> exec (f, cur r) (f', l) ->
    Inv (Config f h cur bg todo pd) -> Inv (Config f' h (setr cur r l) bg todo pd).
  Proof.
    intros R X (m & O & H); cbn in O, H. unfold Inv; cbn.
    inversion H; subst; try match goal with I : idle g cur |- _ => exact (False_ind _ (idle_no_step _ _ _ _ I R X)) end.
    - (* commit *)
      destruct (rank0_set cur r l f _ H0 R X) as (-> & R1 & R2). rewrite H1 in X.
      assert (S : saved h s).
      { destruct H7 as [->|s' b ->]; [exact H2|apply saved_cons; exact H2]. }
      destruct (ok_rename f f' h m s [] l O S H3 X) as (Y & ->). eexists; split; [exact Y|].
      eapply (sh_tail _ _ _ _ _ todo h0); [apply rank0_idle; assumption|assumption| | |exact H7].
      + intros n s1. destruct (Nat.eq_dec n (sv_step s)) as [->|N].
        * rewrite setm_same; simpl. intros E; inversion E; subst; exact H2.
        * rewrite setm_other by exact N; apply H5.
      + intros n v. destruct (Nat.eq_dec n (sv_step s)) as [->|N].
        * rewrite setm_same, setk_same; congruence.
        * rewrite setm_other, setk_other by exact N; apply H6.
    - (* delete, save *)
      destruct (rank0_set cur r l f _ H0 R X) as (-> & R1 & R2).
      destruct (deleting_step _ _ _ _ _ _ _ _ _ O (conj eq_refl eq_refl : deletes (sv_step s) false (Called (CSave s b))) H3 H4 X)
        as (m' & Y1 & Y2 & _ & Y4 & Y5).
      exists m'; split; [exact Y1|]. apply (sh_del _ _ _ _ _ s b h0); [exact R1|assumption|reflexivity|exact Y4|rewrite R2; exact Y5|].
      destruct H5 as (Q1 & Q2 & Q3); split; [|auto]. intros n v N V; rewrite Y2 by exact N; apply Q1; auto.
    - (* mkdir *)
      destruct (cur r) as [|i k] eqn:E; [inversion X|].
      exists m; split.
      + eapply ok_tmp; [exact O|exact X|]. intros t T. rewrite (making_on f s cur r i k H2 R E t T); eauto.
      + rewrite <- E in X. apply sh_mk; auto. eapply making_step; eauto.
    - (* write *)
      destruct (bg_step f h m s cur r f' l O H2 R X) as (Y1 & Y2 & Y3). exists m; split; [exact Y1|]. apply sh_write; auto.
    - (* delete *)
      destruct (rank0_set cur r l f _ H0 R X) as (-> & R1 & R2).
      destruct (deleting_step _ _ _ _ _ _ _ _ _ O (conj eq_refl eq_refl : deletes n k (Called (CDelete n k))) H4 H5 X)
        as (m' & Y1 & Y2 & Y3 & Y4 & Y5).
      exists m'; split; [exact Y1|]. apply (sh_dele _ _ _ _ _ n k pd h0); [exact R1| |exact H2|reflexivity|exact Y4|rewrite R2; exact Y5|].
      + destruct (cur 0) as [|i k'] eqn:E; [inversion X|].
        apply (BG_frame _ _ f f' _ n H1 H2). intros t q N1 N2 N3. apply (exec_frame _ _ _ _ _ t q X). intros Y.
        destruct (deleting_on _ _ _ _ _ _ _ H5 eq_refl t Y) as [T|[T|T]]; contradiction.
      + destruct H6 as (Q1 & Q2 & Q3); split; [|split; [|exact Q3]].
        * intros q v N V; rewrite Y2 by exact N; apply Q1; auto.
        * destruct k; [|exact Q2]. intros v V; rewrite Y3 by reflexivity; apply Q2; exact V.
    - (* score *)
      destruct (rank0_set cur r l f _ H0 R X) as (-> & R1 & R2).
      assert (Z : (exists i k, cur 0 = i :: k /\ (i = IMkdir (Scores, []) \/ i = IOpen (Scores, [N_score n]) \/
                   i = IWrite (Scores, [N_score n]) v \/ i = IUnlink (Scores, [N_score n]))) /\ scoring f' n v l).
      { destruct H2 as [E|[(E & E1)|[(E & c & E1)|E]]]; rewrite E in X; inversion X; subst; (split; [rewrite E; do 2 eexists; split; [reflexivity|auto]|]).
        - right; left; split; [reflexivity|apply upd_same].
        - right; left; split; [reflexivity|assumption].
        - right; right; left; split; [reflexivity|]. rewrite upd_same; eauto.
        - do 3 right; reflexivity. }
      destruct Z as ((i & k & E & I) & Z). rewrite E in X.
      exists m; split; [eapply (ok_score f f' h m n v); [exact O|]; eauto|].
      apply (sh_score _ _ _ _ _ n v); [exact R1| |rewrite R2; exact Z|assumption|reflexivity].
      apply (BG_frame_scores _ _ f); [exact H1|]. intros t q N. apply (exec_frame _ _ _ _ _ t q X).
        intros Y; apply N. destruct I as [->|[->|[->| ->]]]; exact Y.
  Qed.

  Lemma to_quiet f m h cur bg p : idle g cur -> ok f h m -> shape f m h cur bg [] p ->
    BG h p f bg /\ agree m (K h) /\ P h = p.
  Proof.
    intros I O H. inversion H; subst.
    - auto.
    - pose proof (I 0 size_pos); congruence.
    - match goal with T : tail_ok _ _ _ [] |- _ => inversion T; subst end.
      split; [simpl; assumption|]. split; [|assumption]. intros n v V.
      match goal with A : agree m k1, E : forall n, K h n = k1 n |- _ => apply A; rewrite <- E; exact V end.
    - destruct b; discriminate.
    - split; [assumption|].
      match goal with Q : dpost _ _ _ _ _ |- _ => destruct Q as (Q1 & Q2 & Q3) end. split; [|exact Q3].
      intros q v V. destruct (Nat.eq_dec q n) as [->|N]; [|apply Q1; auto].
      match goal with D : deleting _ _ _ _ _ |- _ => rewrite (I 0 size_pos) in D;
        destruct D as [Y|[(Y & _)|(_ & _ & Y)]]; try (destruct k; discriminate Y) end.
      destruct k; [rewrite <- (Q2 v V); symmetry; exact Y|congruence].
    - auto.
  Qed.

  Lemma inv_crash f h cur bg todo pd : Inv (Config f h cur bg todo pd) -> Inv (Config f (Crashed :: h) none none [] None).
  Proof.
    intros (m & O & H); cbn in O, H. exists m; cbn; split; [apply ok_cons; exact O|].
    apply sh_quiet; [intros r _; reflexivity|intros r _; reflexivity| |reflexivity].
    intros n v V; discriminate.
  Qed.

  Lemma idle_none : idle g none. Proof. intros r _; reflexivity. Qed.

  Lemma expected_cons x h : expected (Called x :: h) =
    (let k := K h in let p := P h in
      match x with
      | CSave s true => (setk (commit_pending p k) (sv_step s) (Some (Kept s)), None)
      | CSave s false => (setk (commit_pending p k) (sv_step s) (Some Absent), Some s)
      | CDelete n false => (setk k n (Some Absent), p)
      | CDelete n true => (setk k n (option_map trim (k n)), p)
      | CScore _ _ => (k, p)
      | CComplete => (commit_pending p k, None)
      end).
  Proof. unfold K, P; cbn [expected]. destruct (expected h); reflexivity. Qed.

  Lemma inv_call f h cur bg pd x : idle g cur -> call_ok pd x ->
    Inv (Config f h cur bg [] pd) -> Inv (Config f (Called x :: h) none bg (phases g pd x) (pending_after pd x)).
  Proof.
    intros I C (m & O & H); cbn in O, H. destruct (to_quiet f m h cur bg pd I O H) as (B & A & E).
    exists m; cbn; split; [apply ok_cons; exact O|]. pose proof (ok_hist0 _ _ _ O) as H0. pose proof idle_none as IN.
    assert (KC : forall y, K (Called y :: h) = fst (expected (Called y :: h))) by reflexivity.
    assert (PC : forall y, P (Called y :: h) = snd (expected (Called y :: h))) by reflexivity.
    assert (TS : forall s b k1, (forall n, commit_pending pd (K h) n = k1 n) -> tail_ok h (Called (CSave s b) :: h) k1 (savetail s b)).
    { intros s b k1 K1; apply tl_save; rewrite ?KC, ?PC, ?expected_cons; cbn zeta; rewrite ?E; destruct b; cbn [fst snd result pend_of]; auto;
        try (intros n N; rewrite setk_other by exact N; apply K1); apply setk_same. }
    destruct x as [s b|n k|n v|]; cbn [phases pending_after complete_phases].
    - destruct pd as [s0|]; cbn [complete_phases app].
      + destruct B as (B1 & B2). apply (sh_join f m _ _ _ s0 (savetail s b) h (K h)); auto.
      + apply (sh_tail f m _ _ _ (savetail s b) h (K h)); auto.
    - apply (sh_todel f m _ _ _ n k pd h); auto using BG_cons.
      + intros s ->; simpl in C; congruence.
      + intros s; apply H0.
      + split; [|split].
        * intros q v N V. apply A. rewrite KC, expected_cons in V. destruct k; cbn [fst] in V; rewrite setk_other in V by exact N; exact V.
        * rewrite KC, expected_cons. destruct k; cbn [fst]; rewrite setk_same; [|reflexivity].
          intros v V. destruct (K h n) as [w|] eqn:W; inversion V; subst. rewrite (A n w W); reflexivity.
        * rewrite PC, expected_cons. destruct k; exact E.
    - apply sh_toscore; auto using BG_cons; rewrite ?PC, ?expected_cons; cbn zeta; [|exact E].
      intros q w W; apply A. rewrite KC, expected_cons in W; exact W.
    - destruct pd as [s0|]; cbn [complete_phases].
      + destruct B as (B1 & B2). apply (sh_join f m _ _ _ s0 [] (Called CComplete :: h) (K h)); auto using saved_cons.
        * intros q s1 S1; apply saved_cons; eapply H0; eauto.
        * apply tl_nil; [reflexivity| |]; rewrite ?PC, ?KC, ?expected_cons; cbn zeta; rewrite ?E; reflexivity.
      + apply sh_quiet; [exact IN|apply BG_cons; exact B| |rewrite PC, expected_cons; reflexivity].
        intros q w W; apply A. rewrite KC, expected_cons in W; cbn zeta in W; rewrite E in W; exact W.
  Qed.

  Lemma inv_run f h cur bg p todo pd : idle g cur -> Inv (Config f h cur bg (PRun p :: todo) pd) -> Inv (Config f h p bg todo pd).
  Proof.
    intros I (m & O & H); cbn in O, H. exists m; cbn; split; [exact O|].
    inversion H; subst.
    - (* tocommit *) eapply sh_commit; eauto; [|reflexivity]. intros r _ N; unfold commit_prog. destruct (Nat.eqb_spec r 0); congruence.
    - match goal with A : cur 0 = _ |- _ => rewrite (I 0 size_pos) in A; discriminate end.
    - (* tail *)
      match goal with T : tail_ok _ _ _ _ |- _ => inversion T; subst end.
      eapply sh_del; eauto.
      + intros r _ N; unfold delete_prog. destruct (Nat.eqb_spec r 0); congruence.
      + left; apply delete_prog_0.
      + split; [|auto]. intros q v N V. match goal with A : agree m k1, E : forall n, _ -> K _ n = k1 n |- _ => apply A; rewrite <- E by exact N; exact V end.
    - (* del *)
      match goal with D : deleting _ _ _ _ _ |- _ => rewrite (I 0 size_pos) in D;
        destruct D as [Y|[(Y & _)|(_ & D1 & D2)]]; try discriminate Y end.
      apply sh_mk; auto.
      + exists [], b, h0; reflexivity.
      + apply making_start; [|exact D1]. destruct O as (_ & _ & _ & O). destruct (O (sv_step s)) as [O1 _]. rewrite D2 in O1; exact O1.
    - (* mk *)
      destruct b; inversion H0; subst. apply sh_write; auto. eapply making_done; eauto.
    - (* write *)
      assert (A0 : agree m (setk (K h) (sv_step s) (Some Absent))).
      { intros q v V. match goal with Q : post _ _ _ _ |- _ => destruct Q as (Q1 & Q2 & Q3) end.
        destruct (Nat.eq_dec q (sv_step s)) as [->|N]; [rewrite setk_same in V; congruence|rewrite setk_other in V by exact N; auto]. }
      eapply (sh_commit f m h _ bg s [] h); [|reflexivity|assumption|eapply writing_done; eauto|assumption|eapply ok_hist0; eauto|exact A0|].
      + intros r _ N; unfold commit_prog. destruct (Nat.eqb_spec r 0); congruence.
      + match goal with Q : post _ _ _ _ |- _ => destruct Q as (Q1 & Q2 & Q3) end.
        apply tl_nil; [reflexivity| |exact Q3]. intros q. destruct (Nat.eq_dec q (sv_step s)) as [->|N].
        * rewrite setk_same; exact Q2.
        * rewrite !setk_other by exact N; reflexivity.
    - (* delete *)
      eapply sh_dele; eauto.
      + intros r _ N; unfold delete_prog. destruct (Nat.eqb_spec r 0); congruence.
      + left; apply delete_prog_0.
    - eapply (sh_score _ _ _ _ _ n v); eauto.
      + intros r _ N; unfold score_prog. destruct (Nat.eqb_spec r 0); congruence.
      + left; reflexivity.
  Qed.

  Lemma inv_work c c' : work g c c' -> Inv c -> Inv c'.
  Proof.
    intros W H; inversion W; subst; eauto using inv_main, inv_bg, inv_run.
    - (* spawn *)
      destruct H as (m & O & H); cbn in O, H. exists m; cbn; split; [exact O|].
      inversion H; subst.
      + match goal with A : cur 0 = _, I : idle g cur |- _ => rewrite (I 0 size_pos) in A; discriminate end.
      + match goal with T : tail_ok _ _ _ _ |- _ => inversion T end.
      + destruct b; match goal with E : aftermk _ _ = _ |- _ => inversion E; subst end.
        match goal with Q : post _ _ _ _ |- _ => pose proof Q as (Q1 & Q2 & Q3) end.
        apply sh_quiet; [apply idle_none| | |exact Q3].
        * split; [assumption|eapply making_done; eauto].
        * eapply post_agree; eauto.
    - (* join *)
      destruct H as (m & O & H); cbn in O, H. exists m; cbn; split; [exact O|].
      inversion H; subst.
      + eapply sh_tocommit; eauto using idle_none, writing_done.
      + match goal with A : cur 0 = _, I : idle g cur |- _ => rewrite (I 0 size_pos) in A; discriminate end.
      + match goal with T : tail_ok _ _ _ _ |- _ => inversion T end.
      + destruct b; discriminate.
  Qed.

  Lemma inv_step c c' : step g c c' -> Inv c -> Inv c'.
  Proof. intros S H; inversion S; subst; eauto using inv_work, inv_call, inv_crash. Qed.

  Lemma inv_start : Inv start.
  Proof.
    exists (fun _ => Absent); cbn. split.
    - split; [intros t l x H; unfold empty_fs in H; congruence|]. split; [exists []; intros p H; unfold empty_fs in H; congruence|].
      split; [split; [left; reflexivity|discriminate]|]. intros n; split; [reflexivity|exact Logic.I].
    - apply sh_quiet; [apply idle_none|apply idle_none| |reflexivity]. intros n v V; cbn in V; congruence.
  Qed.

  Lemma inv_reach c : reach g c -> Inv c.
  Proof. induction 1; [apply inv_start|eapply inv_step; eauto]. Qed.

  (** ** Progress *)
  Lemma idle_dec (w : nat -> list instr) : idle g w \/ exists r, r < size g /\ w r <> [].
  Proof.
    unfold idle. induction (size g) as [|n IH]; [left; intros r R; lia|].
    destruct IH as [IH|(r & R & N)]; [|right; exists r; split; [lia|exact N]].
    destruct (w n) eqn:E; [left; intros r R|right; exists n; split; [lia|congruence]].
    destruct (Nat.eq_dec r n) as [->|N]; [exact E|apply IH; lia].
  Qed.

  Lemma scoring_can f h m n v l : ok f h m -> scoring f n v l -> l = [] \/ exists x, exec (f, l) x.
  Proof.
    intros (_ & _ & (C1 & C2) & _) [->|[(-> & E)|[(-> & c & E)| ->]]].
    - right. destruct C1 as [C1|C1]; [eexists; apply ex_mkdir_new; [exact C1|left; reflexivity]|eexists; apply ex_mkdir_old; exact C1].
    - right. eexists; apply ex_open; [discriminate|exact E|apply C2].
    - right. eexists; eapply ex_write; exact E.
    - left; reflexivity.
  Qed.

  Lemma progress c : Inv c -> quiet g c \/ exists c', work g c c'.
  Proof.
    destruct c as [f h cur bg todo pd]; intros (m & O & H); cbn in O, H.
    assert (M : forall r, r < size g -> (cur r = [] \/ exists x, exec (f, cur r) x) -> cur r <> [] -> exists c', work g (Config f h cur bg todo pd) c').
    { intros r R [E|((f', l) & X)] N; [contradiction|]. eexists; eapply wk_main; eauto. }
    assert (R0 : rank0 cur -> (cur 0 = [] \/ exists x, exec (f, cur 0) x) -> forall r, r < size g -> cur r = [] \/ exists x, exec (f, cur r) x).
    { intros Z1 Z2 r R. destruct (Nat.eq_dec r 0) as [->|N]; auto. }
    assert (C : forall r, r < size g -> cur r = [] \/ exists x, exec (f, cur r) x).
    { inversion H; subst; try (match goal with I : idle g cur |- _ => left; apply I; assumption end).
      - apply R0; [assumption|]. right. match goal with W : written _ _ |- _ => destruct W as (W1 & W2 & _) end.
        match goal with E : cur 0 = _ |- _ => rewrite E end. eexists; apply ex_rename; assumption.
      - apply R0; [assumption|]. eapply deleting_can; eauto.
      - intros r R; eapply making_can; eauto.
      - intros r R; eapply writing_can; eauto.
      - apply R0; [assumption|]. eapply deleting_can; eauto.
      - apply R0; [assumption|]. eapply scoring_can; eauto. }
    destruct (idle_dec cur) as [I|(r & R & N)]; [|right; eapply M; eauto].
    destruct todo as [|[p|s|] todo]; [left; split; [exact I|reflexivity]| | |]; right.
    - eexists; apply wk_run; exact I.
    - eexists; apply wk_spawn; exact I.
    - destruct (idle_dec bg) as [J|(r & R & N)]; [eexists; apply wk_join; assumption|].
      inversion H; subst.
      + destruct (writing_can f s bg r) as [E|((f', l) & X)]; [assumption|assumption|contradiction|].
        eexists; eapply wk_bg; eauto.
      + match goal with A : cur 0 = _ |- _ => rewrite (I 0 size_pos) in A; discriminate end.
      + match goal with T : tail_ok _ _ _ _ |- _ => inversion T end.
      + destruct b; discriminate.
  Qed.

  (** ** What the invariant says in terms of the specification *)
  Lemma in_rec_model full r : rdp g r = 0 -> In (K_model, model_file g r) (records g full r).
  Proof. intros E; unfold records; apply in_or_app; right; apply in_or_app; left; rewrite E; left; reflexivity. Qed.
  Lemma in_rec_trainer r : In (K_trainer, trainer_file r) (records g true r).
  Proof. left; reflexivity. Qed.
  Lemma in_rec_optimizer r : rdp g r = 0 -> In (K_optimizer, optimizer_file g r) (records g true r).
  Proof. intros E; unfold records; do 2 (apply in_or_app; right); apply in_or_app; left; rewrite E; left; reflexivity. Qed.
  Lemma in_rec_reader r : tp g r = 0 -> In (K_data_reader, data_reader_file g r) (records g true r).
  Proof. intros E; unfold records; do 3 (apply in_or_app; right); rewrite E; left; reflexivity. Qed.

  Lemma models_load f n s : models f n s -> loads g f n s K_model.
  Proof.
    intros M r R. destruct (g_rdp0 g G r R) as (o & O & E1 & E2 & E3 & E4). exists o; split; [split; auto|].
    unfold load; cbn [load_path]. replace (model_file g r) with (model_file g o) by (unfold model_file; congruence).
    rewrite (M o O E1); reflexivity.
  Qed.

  Lemma kept_complete f n s : (forall r kp, r < size g -> In kp (recs s r) -> whole_at f (Step n) s r kp) -> complete g f n s.
  Proof.
    intros W; split; [apply models_load, kept_models; exact W|]. unfold recs in W; intros F; rewrite F in W. repeat split.
    - intros r R. exists r; split; [split; [exact R|reflexivity]|]. unfold load.
      pose proof (W r _ R (in_rec_trainer r)) as X. unfold whole_at in X; cbn [snd fst] in X. cbn [load_path]; rewrite X; reflexivity.
    - intros r R. destruct (g_rdp0 g G r R) as (o & O & E1 & E2 & E3 & E4). exists o; split; [split; auto|].
      unfold load; cbn [load_path]. replace (optimizer_file g r) with (optimizer_file g o) by (unfold optimizer_file; congruence).
      pose proof (W o _ O (in_rec_optimizer o E1)) as X. unfold whole_at in X; cbn [snd fst] in X. rewrite X; reflexivity.
    - intros r R. destruct (g_tp0 g G r R) as (o & O & E1 & E2). exists o; split; [split; auto|].
      unfold load; cbn [load_path]. replace (data_reader_file g r) with (data_reader_file g o) by (unfold data_reader_file; congruence).
      pose proof (W o _ O (in_rec_reader o E1)) as X. unfold whole_at in X; cbn [snd fst] in X. rewrite X; reflexivity.
  Qed.

  Lemma models_reported f n s : tree f -> models f n s -> reported f n.
  Proof.
    intros T M. destruct (g_rdp0 g G 0 size_pos) as (o & O & E & _). specialize (M o O E).
    apply (T (Step n) [] N_model). apply (tree_up f (Step n) [N_model] [N_pp (pp g o); N_tp (tp g o); N_sdp (sdp g o)] T).
    change ([N_model] ++ _) with (model_file g o). congruence.
  Qed.

  Theorem crash_safe c n : reach g c -> reported (c_fs c) n ->
    exists after s b before, c_hist c = after ++ Called (CSave s b) :: before /\ sv_step s = n /\
      (complete g (c_fs c) n s \/ exists e k, In e after /\ deletes n k e) /\
      (loads g (c_fs c) n s K_model \/ exists e, In e after /\ deletes n false e).
  Proof.
    intros R D. apply inv_reach in R. destruct c as [f h cur bg todo pd]; destruct R as (m & O & _); cbn in *.
    destruct O as (T & _ & _ & O). destruct (O n) as (C & H).
    destruct (m n) as [|s|s|s|s]; simpl in C, H.
    - unfold reported in D; congruence.
    - destruct C as (C1 & C2). destruct H as (a & b & h' & ->). exists a, s, b, h'; split; [reflexivity|]. split; [exact C1|].
      pose proof (kept_complete f n s C2) as X. split; [left; exact X|left; apply X].
    - destruct C as (C1 & C2). destruct H as (a & b & h' & -> & e & I & E). exists a, s, b, h'; split; [reflexivity|]. split; [exact C1|].
      split; [right; eauto|left; apply models_load; exact C2].
    - destruct C as (C1 & C2 & _). destruct H as (a & b & h' & -> & e & I & E). exists a, s, b, h'; split; [reflexivity|]. split; [exact C1|].
      split; [right; eauto|left; apply models_load; exact C2].
    - destruct H as (a & b & h' & -> & e & I & E). exists a, s, b, h'; split; [reflexivity|]. split; [exact C|]. split; right; eauto.
  Qed.

  Theorem quiet_exact c n : reach g c -> quiet g c ->
    match fst (expected (c_hist c)) n with
    | None => True
    | Some Absent => ~ reported (c_fs c) n
    | Some (Kept s) => reported (c_fs c) n /\ sv_step s = n /\ complete g (c_fs c) n s /\
        (sv_full s = true -> reported_full (c_fs c) n)
    | Some (Trimmed s) => reported (c_fs c) n /\ sv_step s = n /\ loads g (c_fs c) n s K_model /\ ~ reported_full (c_fs c) n
    | Some _ => False
    end.
  Proof.
    intros R (I & T0). apply inv_reach in R. destruct c as [f h cur bg todo pd]; destruct R as (m & O & S); cbn in *. subst todo.
    destruct (to_quiet f m h cur bg pd I O S) as (_ & A & _).
    assert (NE : forall h' q, match fst (expected h') q with Some (Trimming _) | Some (Deleting _) => False | _ => True end).
    { clear. induction h' as [|e h' IH]; intros q; [exact Logic.I|]. destruct e as [x|]; [|exact Logic.I].
      rewrite expected_cons. cbn zeta.
      assert (CP : match commit_pending (P h') (K h') q with Some (Trimming _) | Some (Deleting _) => False | _ => True end).
      { unfold commit_pending. destruct (P h') as [s0|]; [|apply IH]. unfold setk. destruct (q =? sv_step s0); [exact Logic.I|apply IH]. }
      destruct x as [s [|]|k [|]|k v|]; cbn [fst]; try exact CP; try apply IH; unfold setk at 1.
      - destruct (q =? sv_step s); [exact Logic.I|exact CP].
      - destruct (q =? sv_step s); [exact Logic.I|exact CP].
      - destruct (Nat.eqb_spec q k) as [->|N]; [|apply IH]. specialize (IH k). fold (K h') in IH. destruct (K h' k) as [[]|]; simpl; auto.
      - destruct (q =? k); [exact Logic.I|apply IH]. }
    specialize (NE h n). fold (K h) in *. destruct (K h n) as [v|] eqn:E; [|exact Logic.I].
    pose proof (A n v E) as V. destruct O as (T & _ & _ & O). destruct (O n) as (C & _). rewrite V in C.
    destruct v as [|s|s|s|s]; simpl in C; try contradiction.
    - unfold reported; congruence.
    - destruct C as (C1 & C2). pose proof (models_reported f n s T (kept_models _ _ _ C2)) as RP.
      split; [exact RP|]. split; [exact C1|]. split; [apply kept_complete; exact C2|].
      intros F; split; [exact RP|]. apply (tree_up f (Step n) [N_trainer] [N_rank 0] T).
      unfold recs in C2; rewrite F in C2. pose proof (C2 0 _ size_pos (in_rec_trainer 0)) as X. unfold whole_at in X; cbn [snd] in X.
      change ([N_trainer] ++ [N_rank 0]) with (trainer_file 0). congruence.
    - destruct C as (C1 & C2 & C3). split; [eapply models_reported; eauto|]. split; [exact C1|]. split; [apply models_load; exact C2|].
      intros (_ & X). apply X, C3; reflexivity.
  Qed.

  Theorem no_deadlock c : reach g c -> quiet g c \/ exists c', work g c c'.
  Proof. intros R; apply progress, inv_reach; exact R. Qed.
End Manager.
