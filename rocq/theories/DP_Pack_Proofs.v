(** Proofs about pack. *)

From Coq Require Import Lia Permutation.
From Verif Require Import DP_Base DP_Spec DP_Sources_Model DP_Bucketing_Model DP_Laws DP_Sources_Proofs DP_Sources_Proofs2
  DP_Multi_Lemmas DP_Shuffle_Proofs.

Section PackP.
  Variables capacity max_seq_len : nat.
  Variable pad : Z.
  Variables truncate drop : bool.
  Variable I : source.
  Notation pk := (src_pack capacity max_seq_len pad truncate drop I).
  Notation loop := (pk_loop capacity max_seq_len pad truncate drop I).

  (** The part of the loop that handles one sequence. *)
  Definition pk_use (m n : nat) (l : pk_loc) (t : list Z) (s : St I) : option (out * pk_st I) :=
    let numel := length t in
    let l := PkLoc true (pk_batch l) (pk_lens l) in
    if numel =? 0 then loop m n l (None, s)
    else
      let fill_pos := length (pk_batch l) in
      let fill := Nat.min numel (Nat.min (capacity - fill_pos) max_seq_len) in
      let go (r' : option (list Z)) :=
        let l' := PkLoc true (pk_batch l ++ firstn fill t) (pk_lens l ++ [fill]) in
        if fill_pos + fill =? capacity then Some (pk_finish capacity pad truncate drop I true l' r' s)
        else loop m n l' (r', s) in
      if fill <? numel then
        if truncate then
          go (Some (if fill_pos + fill =? capacity
                    then match fill with O => skipn (numel - 1) t | S f => skipn f t end
                    else skipn fill t))
        else if fill_pos =? 0 then Some (Err Recoverable, (None, s))
        else Some (pk_finish capacity pad truncate drop I false l (Some t) s)
      else go None.

  Lemma pk_loop_S m n l r s : loop m (S n) l (r, s) =
    match r with
    | Some t => pk_use m n l t s
    | None =>
      match next I m s with
      | None => None
      | Some (Err e, s') => Some (Err e, (None, s'))
      | Some (Eod, s') => Some (pk_finish capacity pad truncate drop I false l None s')
      | Some (Val (DTensor t), s') => pk_use m n l t s'
      | Some (Val _, s') => Some (Err Recoverable, (None, s'))
      end
    end.
  Proof. reflexivity. Qed.

  Lemma pk_loop_mono : mono I -> forall n n' m m' l x r, n <= n' -> m <= m' -> loop m n l x = Some r -> loop m' n' l x = Some r.
  Proof.
    intros HM n. induction n as [|n IH]; intros n' m m' l [rm s] r Hn Hm H; [discriminate|].
    destruct n' as [|n']; [lia|]. rewrite pk_loop_S in *.
    assert (HU : forall t s, pk_use m n l t s = Some r -> pk_use m' n' l t s = Some r).
    { clear H. intros t s1 H. unfold pk_use in *.
      repeat match type of H with
      | context [if ?b then _ else _] => destruct b
      end; auto; eapply IH; try eassumption; lia. }
    destruct rm as [t|]; [auto|].
    destruct (next I m s) as [[o s']|] eqn:E; [|discriminate]. rewrite (HM _ _ _ _ Hm E).
    destruct o as [d| |e]; auto. destruct d; auto.
  Qed.

  Lemma pk_mono : mono I -> mono pk.
  Proof. intros HM n m x r Hn. apply pk_loop_mono; assumption. Qed.

  (** [todo] is what is still to be packed. *)
  Definition pk_rep (x : pk_st I) (todo : list (list Z)) : Prop :=
    exists ts, todo = match fst x with Some t => t :: ts | None => ts end /\ holds I (snd x) (map DTensor ts).

  Lemma pk_rep_cons x t ts : mono I -> pk_rep x (t :: ts) -> exists n0 s', holds I s' (map DTensor ts) /\
    forall m n l, n0 <= m -> loop m (S n) l x = pk_use m n l t s'.
  Proof.
    intros HM (us & E & Hh). destruct x as [[r|] s]; simpl in E, Hh.
    - inv E. exists 0, s. split; [assumption|]. intros. apply pk_loop_S.
    - subst us. simpl in Hh. destruct (holds_step I HM _ _ Hh) as (n0 & s' & Hn & Hs').
      exists n0, s'. split; [assumption|]. intros m n l Hm. rewrite pk_loop_S, (HM _ _ _ _ Hm Hn). reflexivity.
  Qed.

  Lemma pk_rep_nil x : mono I -> pk_rep x [] -> exists n0 s', pk_rep (None, s') [] /\
    forall m n l, n0 <= m -> loop m (S n) l x = Some (pk_finish capacity pad truncate drop I false l None s').
  Proof.
    intros HM (us & E & Hh). destruct x as [[r|] s]; simpl in E, Hh; [discriminate|]. subst us.
    destruct (holds_step I HM _ _ Hh) as (n0 & s' & Hn & Hs').
    exists n0, s'. split; [exists []; auto|]. intros m n l Hm. rewrite pk_loop_S, (HM _ _ _ _ Hm Hn). reflexivity.
  Qed.

  Definition loc_of (row : list (list Z)) : pk_loc :=
    PkLoc match row with [] => false | _ => true end (concat row) (map (@length Z) row).

  Lemma loc_output row : pk_output capacity pad (loc_of row) = match row with [] => Eod | _ => Val (packed_batch capacity pad row) end.
  Proof.
    unfold pk_output, loc_of, packed_batch. destruct row as [|t row]; [reflexivity|]. cbn [pk_def pk_batch pk_lens].
    rewrite map_map. reflexivity.
  Qed.

  Lemma loc_snoc row t : PkLoc true (concat row ++ t) (map (@length Z) row ++ [length t]) = loc_of (row ++ [t]).
  Proof.
    unfold loc_of. rewrite concat_app, map_app. simpl. rewrite app_nil_r. destruct row; reflexivity.
  Qed.

  Lemma concat_snoc (row : list (list Z)) t : length (concat (row ++ [t])) = length (concat row) + length t.
  Proof. rewrite concat_app, app_length. simpl. rewrite app_nil_r. reflexivity. Qed.
End PackP.

(** *** Contents without truncation *)
Section PackPlain.
  Variables capacity max_seq_len : nat.
  Variable pad : Z.
  Variable drop : bool.
  Variable I : source.
  Notation pk := (src_pack capacity max_seq_len pad false drop I).
  Notation loop := (pk_loop capacity max_seq_len pad false drop I).
  Notation rep := (pk_rep I).

  Definition fits (ts : list (list Z)) : Prop := forall t, In t ts -> 0 < length t <= Nat.min capacity max_seq_len.

  Lemma pack_row : mono I -> forall todo row x, rep x todo -> fits todo -> length (concat row) < capacity ->
    (forall t, In t row -> 0 < length t) ->
    exists n b r x', todo = b ++ r /\ rep x' r /\ length (concat (row ++ b)) <= capacity /\
      (forall t r', r = t :: r' -> capacity < length (concat (row ++ b)) + length t) /\
      (row = [] -> b = [] -> todo = []) /\
      loop n n (loc_of row) x = Some (pk_output capacity pad (loc_of (row ++ b)), x').
  Proof.
    intros HM todo. induction todo as [|t todo IH]; intros row x Hr Hf Hc Hrow.
    - destruct (pk_rep_nil capacity max_seq_len pad false drop I x HM Hr) as (n0 & s' & Hr' & HL).
      exists (S n0), [], [], (None, s'). rewrite !app_nil_r. split; [reflexivity|]. split; [assumption|]. split; [lia|].
      split; [discriminate|]. split; [auto|]. rewrite HL by lia. reflexivity.
    - destruct (pk_rep_cons capacity max_seq_len pad false drop I x t todo HM Hr) as (n0 & s' & Hs' & HL).
      pose proof (Hf t (or_introl eq_refl)) as Ht.
      assert (Hf' : fits todo) by (intros y Hy; apply Hf; right; assumption).
      destruct (Nat.le_gt_cases (length t) (capacity - length (concat row))) as [Hfit|Hfit].
      + (* the sequence fits *)
        assert (Hfill : Nat.min (length t) (Nat.min (capacity - length (concat row)) max_seq_len) = length t) by lia.
        destruct (Nat.eq_dec (length (concat row) + length t) capacity) as [Hfull|Hfull].
        * exists (S n0), [t], todo, (None, s'). split; [reflexivity|]. split; [exists todo; auto|].
          rewrite concat_snoc. split; [lia|]. split.
          { intros y r' ->. pose proof (Hf' y (or_introl eq_refl)). lia. }
          split; [discriminate|]. rewrite HL by lia. unfold pk_use. cbn [pk_batch pk_lens loc_of].
          rewrite Hfill. destruct (Nat.eqb_spec (length t) 0); [lia|]. rewrite Nat.ltb_irrefl.
          destruct (Nat.eqb_spec (length (concat row) + length t) capacity); [|contradiction].
          rewrite firstn_all, loc_snoc. reflexivity.
        * destruct (IH (row ++ [t]) (None, s')) as (n & b & r & x' & E & G1 & G2 & G3 & _ & G5).
          { exists todo. auto. } { assumption. } { rewrite concat_snoc. lia. }
          { intros y Hy. apply in_app_or in Hy. destruct Hy as [Hy|[<-|[]]]; [auto|lia]. }
          exists (S (n0 + n)), (t :: b), r, x'. rewrite <- app_assoc in G2, G3, G5. cbn [app] in *.
          split; [congruence|]. split; [assumption|]. split; [assumption|]. split; [assumption|]. split; [discriminate|].
          rewrite HL by lia. unfold pk_use. cbn [pk_batch pk_lens loc_of].
          rewrite Hfill. destruct (Nat.eqb_spec (length t) 0); [lia|]. rewrite Nat.ltb_irrefl.
          destruct (Nat.eqb_spec (length (concat row) + length t) capacity); [contradiction|].
          rewrite firstn_all, loc_snoc. eapply pk_loop_mono; [assumption| | |exact G5]; lia.
      + (* it does not *)
        assert (Hrow' : row <> []) by (intros ->; simpl in Hfit; lia).
        assert (Hpos : 0 < length (concat row)).
        { destruct row as [|y row]; [contradiction|]. pose proof (Hrow y (or_introl eq_refl)). simpl. rewrite app_length. lia. }
        exists (S n0), [], (t :: todo), (Some t, s'). rewrite !app_nil_r. split; [reflexivity|]. split; [exists todo; auto|].
        split; [lia|]. split; [intros y r' E; inv E; lia|]. split; [contradiction|].
        rewrite HL by lia. unfold pk_use. cbn [pk_batch pk_lens loc_of].
        destruct (Nat.eqb_spec (length t) 0); [lia|].
        destruct (Nat.ltb_spec (Nat.min (length t) (Nat.min (capacity - length (concat row)) max_seq_len)) (length t)); [|lia].
        destruct (Nat.eqb_spec (length (concat row)) 0); [lia|].
        unfold pk_finish. cbn [andb]. unfold pk_output, loc_of. destruct row; [contradiction|]. reflexivity.
  Qed.

  Lemma pack_holds s ts : mono I -> holds I s (map DTensor ts) -> fits ts ->
    exists bs, pack_spec capacity ts bs /\ holds pk (None, s) (map (packed_batch capacity pad) bs).
  Proof.
    intros HM Hh Hf.
    destruct (meas_holds pk (list (list Z)) (fun (x : pk_st I) todo => rep x todo /\ fits todo)
      (fun x => rep x [])
      (fun todo l => exists bs, l = map (packed_batch capacity pad) bs /\ pack_spec capacity todo bs)
      (@length (list Z))) with (s := (None : option (list Z), s)) (a := ts) as (l & (bs & -> & Hg) & Hl);
      [apply pk_mono; assumption| | |split; [exists ts; auto|assumption]|exists bs; auto].
    - intros x Hr. destruct (pk_rep_nil capacity max_seq_len pad false drop I x HM Hr) as (n0 & s' & Hr' & HL).
      exists (S n0), (None, s'). split; [|assumption]. cbn [next src_pack]. rewrite HL by lia. reflexivity.
    - intros x todo [Hr Hf1]. destruct todo as [|t todo].
      + left. split; [assumption|]. exists []. split; [reflexivity|constructor].
      + right. pose proof (Hf1 t (or_introl eq_refl)) as Ht.
        destruct (pack_row HM (t :: todo) [] x Hr Hf1) as (n & b & r & x' & E & G1 & G2 & G3 & G4 & G5); [simpl; lia|intros ? []|].
        simpl in *. assert (Hb : b <> []) by (intros ->; discriminate (G4 eq_refl eq_refl)).
        exists n, (packed_batch capacity pad b), x', r. split.
        { change (PkLoc false [] []) with (loc_of []). rewrite G5, loc_output. destruct b; [contradiction|reflexivity]. }
        split; [split; [assumption|intros y Hy; apply Hf1; rewrite E; apply in_or_app; auto]|].
        split.
        { apply (f_equal (@length _)) in E. rewrite app_length in E. simpl in E. destruct b; [contradiction|simpl in E; lia]. }
        intros l (bs & -> & Hg). exists (b :: bs). split; [reflexivity|]. rewrite E. apply pack_group; assumption.
  Qed.
End PackPlain.

(** *** Contents with truncation *)
Section PackTrunc.
  Variables capacity max_seq_len : nat.
  Variable pad : Z.
  Variable drop : bool.
  Variable I : source.
  Notation pk := (src_pack capacity max_seq_len pad true drop I).
  Notation loop := (pk_loop capacity max_seq_len pad true drop I).
  Notation rep := (pk_rep I).
  Hypothesis Hcap : 2 <= capacity.
  Hypothesis Hmx : 1 <= max_seq_len.

  Definition pos (ts : list (list Z)) : Prop := forall t, In t ts -> 0 < length t.

  (** The exact cutting rule. [row]: the pieces of the row being filled. *)
  Inductive tpack : list (list Z) -> list (list Z) -> list (list (list Z)) -> Prop :=
  | tp_end0 : tpack [] [] []
  | tp_end row : row <> [] -> tpack row [] (if drop then [] else [row])
  | tp_whole row t r out : length t <= max_seq_len -> length (concat row) + length t < capacity ->
      tpack (row ++ [t]) r out -> tpack row (t :: r) out
  | tp_full row t r out : length t <= max_seq_len -> length (concat row) + length t = capacity ->
      tpack [] r out -> tpack row (t :: r) ((row ++ [t]) :: out)
  | tp_split row t r out : max_seq_len < length t -> length (concat row) + max_seq_len < capacity ->
      tpack (row ++ [firstn max_seq_len t]) (skipn max_seq_len t :: r) out -> tpack row (t :: r) out
  | tp_cut row t r k out : length (concat row) + k = capacity -> 0 < k <= max_seq_len -> k < length t ->
      tpack [] (skipn (k - 1) t :: r) out -> tpack row (t :: r) ((row ++ [firstn k t]) :: out).

  Definition row_end (row todo : list (list Z)) (o : out) (x' : pk_st I) : Prop :=
    (exists row' rest, row' <> [] /\ o = Val (packed_batch capacity pad row') /\ rep x' rest /\ pos rest /\
       length (concat rest) + capacity <= length (concat todo) + length (concat row) + 1 /\
       forall outs, tpack [] rest outs -> tpack row todo (row' :: outs)) \/
    (exists row', rep x' [] /\ o = (if drop then Eod else pk_output capacity pad (loc_of row')) /\
       (row' = [] -> row = [] /\ todo = []) /\ (row' <> [] -> tpack row todo (if drop then [] else [row']))).

  Lemma trunc_row : mono I -> forall k todo row x, rep x todo -> pos todo -> length (concat row) + k = capacity -> 0 < k ->
    exists n o x', loop n n (loc_of row) x = Some (o, x') /\ row_end row todo o x'.
  Proof.
    intros HM k. induction k as [k IH] using lt_wf_ind. intros todo row x Hr Hp Hc Hk. destruct todo as [|t todo].
    - destruct (pk_rep_nil capacity max_seq_len pad true drop I x HM Hr) as (n0 & s' & Hr' & HL).
      exists (S n0), (if drop then Eod else pk_output capacity pad (loc_of row)), (None, s'). split.
      + rewrite HL by lia. unfold pk_finish. cbn [andb negb]. destruct drop; reflexivity.
      + right. exists row. split; [assumption|]. split; [reflexivity|]. split; [auto|]. apply tp_end.
    - destruct (pk_rep_cons capacity max_seq_len pad true drop I x t todo HM Hr) as (n0 & s' & Hs' & HL).
      pose proof (Hp t (or_introl eq_refl)) as Ht.
      assert (Hp' : pos todo) by (intros y Hy; apply Hp; right; assumption).
      assert (Hne : forall p, row ++ [p] <> []) by (intros p E; destruct row; discriminate).
      assert (Hval : forall p, pk_output capacity pad (loc_of (row ++ [p])) = Val (packed_batch capacity pad (row ++ [p]))).
      { intros p. rewrite loc_output. destruct (row ++ [p]) eqn:E; [destruct (Hne p E)|reflexivity]. }
      remember (Nat.min (length t) (Nat.min (capacity - length (concat row)) max_seq_len)) as fill eqn:Ef.
      destruct (Nat.ltb_spec fill (length t)) as [Hlt|Hge].
      + (* the sequence is cut *)
        assert (Hfl : length (firstn fill t) = fill) by (rewrite firstn_length; lia).
        destruct (Nat.eq_dec (length (concat row) + fill) capacity) as [Hfull|Hfull].
        * exists (S n0), (Val (packed_batch capacity pad (row ++ [firstn fill t]))), (Some (skipn (fill - 1) t), s'). split.
          { rewrite HL by lia. unfold pk_use. cbn [pk_batch pk_lens loc_of]. rewrite <- Ef.
            destruct (Nat.eqb_spec (length t) 0); [lia|]. destruct (Nat.ltb_spec fill (length t)); [|lia].
            destruct (Nat.eqb_spec (length (concat row) + fill) capacity); [|contradiction].
            replace (map (@length Z) row ++ [fill]) with (map (@length Z) row ++ [length (firstn fill t)]) by (rewrite Hfl; reflexivity).
            rewrite loc_snoc. unfold pk_finish. cbn [andb negb]. rewrite Hval.
            destruct fill as [|f]; [lia|]. rewrite Nat.sub_succ, Nat.sub_0_r. reflexivity. }
          left. exists (row ++ [firstn fill t]), (skipn (fill - 1) t :: todo). split; [apply Hne|]. split; [reflexivity|].
          split; [exists todo; auto|]. split.
          { intros y [<-|Hy]; [rewrite skipn_length; lia|auto]. }
          split.
          { simpl. rewrite !app_length, skipn_length. lia. }
          intros outs Ho. apply tp_cut; [lia|lia|lia|assumption].
        * assert (Hfm : fill = max_seq_len) by lia.
          destruct (IH (k - fill) ltac:(lia) (skipn fill t :: todo) (row ++ [firstn fill t]) (Some (skipn fill t), s'))
            as (n & o & x' & G1 & G2).
          { exists todo. auto. }
          { intros y [<-|Hy]; [rewrite skipn_length; lia|auto]. }
          { rewrite concat_snoc. lia. } { lia. }
          exists (S (n0 + n)), o, x'. split.
          { rewrite HL by lia. unfold pk_use. cbn [pk_batch pk_lens loc_of]. rewrite <- Ef.
            destruct (Nat.eqb_spec (length t) 0); [lia|]. destruct (Nat.ltb_spec fill (length t)); [|lia].
            destruct (Nat.eqb_spec (length (concat row) + fill) capacity); [contradiction|].
            replace (map (@length Z) row ++ [fill]) with (map (@length Z) row ++ [length (firstn fill t)]) by (rewrite Hfl; reflexivity).
            rewrite loc_snoc. eapply pk_loop_mono; [assumption| | |exact G1]; lia. }
          destruct G2 as [(row' & rest & A1 & A2 & A3 & A4 & A5 & A6)|(row' & A1 & A2 & A3 & A4)].
          -- left. exists row', rest. split; [assumption|]. split; [assumption|]. split; [assumption|]. split; [assumption|]. split.
             { rewrite concat_snoc, Hfl in A5. simpl in *. rewrite app_length in *. rewrite skipn_length in A5. lia. }
             intros outs Ho. apply tp_split; [lia|lia|]. rewrite <- Hfm. auto.
          -- right. exists row'. split; [assumption|]. split; [assumption|]. split.
             { intros E. destruct (A3 E) as [B1 _]. destruct (Hne _ B1). }
             intros Hr'. apply tp_split; [lia|lia|]. rewrite <- Hfm. auto.
      + (* the sequence fits *)
        assert (Hfe : fill = length t) by lia.
        destruct (Nat.eq_dec (length (concat row) + length t) capacity) as [Hfull|Hfull].
        * exists (S n0), (Val (packed_batch capacity pad (row ++ [t]))), (None, s'). split.
          { rewrite HL by lia. unfold pk_use. cbn [pk_batch pk_lens loc_of]. rewrite <- Ef, Hfe.
            destruct (Nat.eqb_spec (length t) 0); [lia|]. rewrite Nat.ltb_irrefl.
            destruct (Nat.eqb_spec (length (concat row) + length t) capacity); [|contradiction].
            rewrite firstn_all, loc_snoc. unfold pk_finish. cbn [andb negb]. rewrite Hval. reflexivity. }
          left. exists (row ++ [t]), todo. split; [apply Hne|]. split; [reflexivity|]. split; [exists todo; auto|].
          split; [assumption|]. split; [simpl; rewrite app_length; lia|].
          intros outs Ho. apply tp_full; [lia|lia|assumption].
        * destruct (IH (k - length t) ltac:(lia) todo (row ++ [t]) (None, s')) as (n & o & x' & G1 & G2).
          { exists todo. auto. } { assumption. } { rewrite concat_snoc. lia. } { lia. }
          exists (S (n0 + n)), o, x'. split.
          { rewrite HL by lia. unfold pk_use. cbn [pk_batch pk_lens loc_of]. rewrite <- Ef, Hfe.
            destruct (Nat.eqb_spec (length t) 0); [lia|]. rewrite Nat.ltb_irrefl.
            destruct (Nat.eqb_spec (length (concat row) + length t) capacity); [contradiction|].
            rewrite firstn_all, loc_snoc. eapply pk_loop_mono; [assumption| | |exact G1]; lia. }
          destruct G2 as [(row' & rest & A1 & A2 & A3 & A4 & A5 & A6)|(row' & A1 & A2 & A3 & A4)].
          -- left. exists row', rest. split; [assumption|]. split; [assumption|]. split; [assumption|]. split; [assumption|]. split.
             { rewrite concat_snoc in A5. simpl. rewrite app_length. lia. }
             intros outs Ho. apply tp_whole; [lia|lia|]. auto.
          -- right. exists row'. split; [assumption|]. split; [assumption|]. split.
             { intros E. destruct (A3 E) as [B1 _]. destruct (Hne _ B1). }
             intros Hr'. apply tp_whole; [lia|lia|]. auto.
  Qed.

  Lemma tpack_holds s ts : mono I -> holds I s (map DTensor ts) -> pos ts ->
    exists bs, tpack [] ts bs /\ holds pk (None, s) (map (packed_batch capacity pad) bs).
  Proof.
    intros HM Hh Hf.
    assert (Hnil : forall x, rep x [] -> exists n x', next pk n x = Some (Eod, x') /\ rep x' []).
    { intros x Hr. destruct (pk_rep_nil capacity max_seq_len pad true drop I x HM Hr) as (n0 & s' & Hr' & HL).
      exists (S n0), (None, s'). split; [|assumption]. cbn [next src_pack]. rewrite HL by lia. 
      unfold pk_finish. cbn. destruct drop; reflexivity. }
    destruct (meas_holds pk (list (list Z)) (fun (x : pk_st I) todo => rep x todo /\ pos todo)
      (fun x => exists n x', next pk n x = Some (Eod, x') /\ rep x' [])
      (fun todo l => exists bs, l = map (packed_batch capacity pad) bs /\ tpack [] todo bs)
      (fun todo => length (concat todo))) with (s := (None : option (list Z), s)) (a := ts) as (l & (bs & -> & Hg) & Hl);
      [apply pk_mono; assumption| | |split; [exists ts; auto|assumption]|exists bs; auto].
    - intros x (n & x' & H & Hr). exists n, x'. split; [assumption|]. apply Hnil. assumption.
    - intros x todo [Hr Hp].
      destruct (trunc_row HM capacity todo [] x Hr Hp) as (n & o & x' & G1 & G2); [reflexivity|lia|].
      change (loc_of []) with (PkLoc false [] []) in G1.
      destruct G2 as [(row' & rest & A1 & A2 & A3 & A4 & A5 & A6)|(row' & A1 & A2 & A3 & A4)].
      + right. exists n, (packed_batch capacity pad row'), x', rest. subst o. split; [assumption|]. split; [auto|].
        simpl in A5. split; [lia|]. intros l (bs & -> & Hg). exists (row' :: bs). split; [reflexivity|]. auto.
      + destruct row' as [|p row'].
        * destruct (A3 eq_refl) as [_ ->]. left. split; [|exists []; split; [reflexivity|constructor]].
          exists n, x'. split; [|assumption]. 
          cbn [next src_pack]. rewrite G1, A2. destruct drop; reflexivity.
        * specialize (A4 ltac:(discriminate)). revert A2 A4. destruct drop; intros A2 A4.
          -- left. split; [|exists []; split; [reflexivity|assumption]]. exists n, x'. split; [|assumption].
             cbn [next src_pack]. rewrite G1, A2. reflexivity.
          -- right. rewrite loc_output in A2. subst o. exists n, (packed_batch capacity pad (p :: row')), x', [].
             split; [assumption|]. split; [split; [assumption|intros ? []]|]. split.
             { assert (HT : todo <> []).
               { intros ->. inversion A4. contradiction. }
               destruct todo as [|t todo]; [contradiction|]. pose proof (Hp t (or_introl eq_refl)). simpl. rewrite app_length. lia. }
             intros l (bs & -> & Hg). inversion Hg; subst; [|contradiction]. exists [p :: row']. auto.
  Qed.
  (** *** The cutting rule satisfies the specification *)
  Lemma skipn_cons j (t : list Z) x u : skipn j t = x :: u -> firstn (S j) t = firstn j t ++ [x] /\ skipn (S j) t = u.
  Proof.
    revert t. induction j as [|j IH]; intros [|y t] H; try discriminate.
    - simpl in H. inv H. auto.
    - destruct (IH t H) as [A B]. split; [cbn [firstn app] in *; rewrite A; reflexivity|exact B].
  Qed.

  Lemma stitched_nil_inv s : stitched [] s -> s = [].
  Proof. intros H. inversion H. reflexivity. Qed.

  Lemma stitched_head r rs s : stitched (r :: rs) s -> exists s', s = r ++ s'.
  Proof. intros H. inversion H; subst; eauto. Qed.

  Section Source.
    Variable ts : list (list Z).
    Definition part (p : list Z) : Prop := 0 < length p /\ exists t x y, In t ts /\ t = x ++ p ++ y.

    Lemma part_firstn k t : 0 < k -> part t -> part (firstn k t).
    Proof.
      intros Hk (Hl & u & x & y & Hu & ->). split; [rewrite firstn_length; lia|].
      exists (x ++ t ++ y), x, (skipn k t ++ y). split; [assumption|].
      rewrite (app_assoc (firstn k t)), firstn_skipn. reflexivity.
    Qed.

    Lemma part_skipn k t : k < length t -> part t -> part (skipn k t).
    Proof.
      intros Hk (Hl & u & x & y & Hu & ->). split; [rewrite skipn_length; lia|].
      exists (x ++ t ++ y), (x ++ firstn k t), y. split; [assumption|].
      rewrite <- app_assoc, (app_assoc (firstn k t)), firstn_skipn. reflexivity.
    Qed.

    Lemma concat_pos (row : list (list Z)) p : 0 < length p -> 0 < length (concat (row ++ [p])).
    Proof. intros H. rewrite concat_snoc. lia. Qed.

    Lemma tpack_spec row todo rows : tpack row todo rows ->
      length (concat row) < capacity ->
      (forall p, In p row -> length p <= max_seq_len /\ part p) -> (forall t, In t todo -> part t) ->
      (exists s dropped, stitched (map (@concat Z) rows) s /\ concat row ++ concat todo = s ++ dropped /\
         length dropped < capacity /\ (drop = false -> dropped = [])) /\
      (forall hd row tl, rows = hd ++ row :: tl ->
         0 < length (concat row) <= capacity /\ (drop = true \/ tl <> [] -> length (concat row) = capacity) /\
         forall p, In p row -> 0 < length p <= max_seq_len /\ exists t x y, In t ts /\ t = x ++ p ++ y).
    Proof.
      intros H. induction H as [|row Hne|row t r out H1 H2 H IH|row t r out H1 H2 H IH|row t r out H1 H2 H IH|row t r k out H1 H2 H3 H IH];
        intros Hc Hrow Htodo.
      - split; [exists [], []; simpl; repeat split; auto using stitched_nil; lia|]. intros [|] ? ? E; discriminate.
      - destruct drop.
        + split; [exists [], (concat row); simpl; rewrite app_nil_r; split; [constructor|]; repeat split; auto; discriminate|].
          intros [|] ? ? E; discriminate.
        + split.
          * exists (concat row ++ []), []. simpl. split; [apply stitched_next; constructor|].
            rewrite !app_nil_r. repeat split; auto. lia.
          * intros [|a hd] row1 tl E; [|destruct hd; discriminate]. inv E. split.
            { destruct row1 as [|p row1]; [contradiction|]. destruct (Hrow p (or_introl eq_refl)) as [_ [HP _]].
              simpl in *. rewrite app_length in *. lia. }
            split; [intros [HF|HF]; [discriminate|contradiction]|].
            intros p Hp. destruct (Hrow p Hp) as [HA [HB HC]]. split; [lia|assumption].
      - destruct IH as ((s & dr & S1 & S2 & S3) & S4).
        + rewrite concat_snoc. lia.
        + intros p Hp. apply in_app_or in Hp. destruct Hp as [Hp|[<-|[]]]; [auto|]. split; [assumption|]. apply Htodo. left. reflexivity.
        + intros y Hy. apply Htodo. right. assumption.
        + split; [|assumption]. exists s, dr. split; [assumption|]. split; [|assumption]. rewrite <- S2.
          rewrite concat_app. simpl. rewrite app_nil_r, <- app_assoc. reflexivity.
      - assert (Ht : part t) by (apply Htodo; left; reflexivity).
        destruct IH as ((s & dr & S1 & S2 & S3) & S4).
        + simpl. lia.
        + intros p [].
        + intros y Hy. apply Htodo. right. assumption.
        + split.
          * exists (concat (row ++ [t]) ++ s), dr. cbn [map]. split; [apply stitched_next; assumption|]. split; [|assumption].
            simpl in S2. rewrite concat_app. simpl. rewrite S2, app_nil_r, <- !app_assoc. reflexivity.
          * intros [|a hd] row1 tl E; [|inv E; eauto]. inv E. rewrite concat_snoc. split; [lia|]. split; [auto|].
            intros p Hp. apply in_app_or in Hp. destruct Hp as [Hp|[<-|[]]].
            -- destruct (Hrow p Hp) as [HA [HB HC]]. split; [lia|assumption].
            -- destruct Ht as [HB HC]. split; [lia|assumption].
      - assert (Ht : part t) by (apply Htodo; left; reflexivity).
        destruct IH as ((s & dr & S1 & S2 & S3) & S4).
        + rewrite concat_snoc, firstn_length. lia.
        + intros p Hp. apply in_app_or in Hp. destruct Hp as [Hp|[<-|[]]]; [auto|]. rewrite firstn_length.
          split; [lia|]. apply part_firstn; [lia|assumption].
        + intros y [<-|Hy]; [apply part_skipn; [lia|assumption]|]. apply Htodo. right. assumption.
        + split; [|assumption]. exists s, dr. split; [assumption|]. split; [|assumption]. rewrite <- S2.
          rewrite concat_app. simpl. rewrite app_nil_r, <- !app_assoc, (app_assoc (firstn _ t)), firstn_skipn. reflexivity.
      - assert (Ht : part t) by (apply Htodo; left; reflexivity).
        destruct IH as ((s & dr & S1 & S2 & S3 & S3') & S4).
        + simpl. lia.
        + intros p [].
        + intros y [<-|Hy]; [apply part_skipn; [lia|assumption]|]. apply Htodo. right. assumption.
        + assert (HX : exists x, firstn k t = firstn (k - 1) t ++ [x] /\ skipn (k - 1) t = x :: skipn k t).
          { destruct (skipn (k - 1) t) as [|x u] eqn:E.
            - apply (f_equal (@length _)) in E. rewrite skipn_length in E. simpl in E. lia.
            - exists x. destruct (skipn_cons _ _ _ _ E) as [C1 C2]. replace (S (k - 1)) with k in C1, C2 by lia.
              rewrite C1, C2. auto. }
          destruct HX as (x & X1 & X2).
          assert (Hfl : length (firstn k t) = k) by (rewrite firstn_length; lia).
          split.
          * simpl in S2. rewrite X2 in S2. simpl in S2.
            assert (HG : concat row ++ concat (t :: r) = concat (row ++ [firstn k t]) ++ skipn k t ++ concat r).
            { rewrite concat_app. simpl. rewrite app_nil_r, <- !app_assoc. f_equal. rewrite app_assoc, firstn_skipn. reflexivity. }
            rewrite HG. destruct out as [|row2 out].
            -- apply stitched_nil_inv in S1. subst s. simpl in S2. destruct dr as [|x0 dr]; [discriminate|]. inv S2.
               exists (concat (row ++ [firstn k t]) ++ []), (skipn k t ++ concat r). cbn [map].
               split; [apply stitched_next; constructor|]. rewrite app_nil_r. split; [reflexivity|].
               split; [simpl in S3; lia|]. intros Hd. specialize (S3' Hd). discriminate.
            -- cbn [map] in S1. destruct (S4 [] row2 out eq_refl) as (P1 & _).
               destruct (stitched_head _ _ _ S1) as (s' & Es).
               destruct (concat row2) as [|x2 r2] eqn:Er2; [simpl in P1; lia|]. subst s. simpl in S2. inv S2.
               exists (concat (row ++ [firstn k t]) ++ (r2 ++ s')), dr. cbn [map]. rewrite Er2. split.
               ++ rewrite X1. rewrite concat_app. simpl. rewrite app_nil_r.
                  replace (concat row ++ firstn (k - 1) t ++ [x2]) with ((concat row ++ firstn (k - 1) t) ++ [x2]) by (rewrite app_assoc; reflexivity).
                  apply stitched_lap. assumption.
               ++ split; [|split; assumption].
                  match goal with E : skipn k t ++ concat r = _ |- _ => rewrite E end. rewrite <- !app_assoc. reflexivity.
          * intros [|a hd] row1 tl E; [|inv E; eauto]. inv E. rewrite concat_snoc, Hfl. split; [lia|]. split; [auto|].
            intros p Hp. apply in_app_or in Hp. destruct Hp as [Hp|[<-|[]]].
            -- destruct (Hrow p Hp) as [HA [HB HC]]. split; [lia|assumption].
            -- rewrite Hfl. split; [lia|]. apply part_firstn; [lia|assumption].
    Qed.
  End Source.

  Lemma trunc_holds s ts : mono I -> holds I s (map DTensor ts) -> pos ts ->
    exists bs, trunc_spec capacity max_seq_len drop ts bs /\ holds pk (None, s) (map (packed_batch capacity pad) bs).
  Proof.
    intros HM Hh Hp. destruct (tpack_holds s ts HM Hh Hp) as (bs & H1 & H2). exists bs. split; [|assumption].
    destruct (tpack_spec ts [] ts bs H1) as [G1 G2].
    - simpl. lia.
    - intros p [].
    - intros t Ht. split; [auto|]. exists t, [], []. rewrite app_nil_r. auto.
    - split; assumption.
  Qed.
End PackTrunc.

(** *** Positions *)
Section PackPos.
  Variables capacity max_seq_len : nat.
  Variable pad : Z.
  Variables truncate drop : bool.
  Variable I : source.
  Notation pk := (src_pack capacity max_seq_len pad truncate drop I).
  Notation loop := (pk_loop capacity max_seq_len pad truncate drop I).

  Definition pk_R (x y : pk_st I) : Prop := fst x = fst y /\ equiv I (snd x) (snd y).

  Lemma pk_loop_equiv m n : forall l r s s', equiv I s s' -> res_rel pk_R (loop m n l (r, s)) (loop m n l (r, s')).
  Proof.
    induction n as [|n IH]; intros l r s s' H; [simpl; auto|]. rewrite !pk_loop_S.
    assert (HF : forall fl l1 r1 a b, equiv I a b -> res_rel pk_R (Some (pk_finish capacity pad truncate drop I fl l1 r1 a))
       (Some (pk_finish capacity pad truncate drop I fl l1 r1 b))).
    { intros fl l1 r1 a b Hab. unfold pk_finish. destruct (truncate && negb fl && drop); simpl; repeat split; auto. }
    assert (HU : forall t a b, equiv I a b -> res_rel pk_R (pk_use capacity max_seq_len pad truncate drop I m n l t a)
       (pk_use capacity max_seq_len pad truncate drop I m n l t b)).
    { intros t a b Hab. unfold pk_use.
      repeat match goal with |- context [if ?c then _ else _] => destruct c end; auto; simpl; repeat split; auto. }
    destruct r as [t|]; [auto|]. estep I s s' m H; [|simpl; auto].
    destruct o as [d| |e]; [|auto|simpl; repeat split; auto]. destruct d; auto; simpl; repeat split; auto.
  Qed.

  Lemma pk_R_bisim : bisim pk pk_R.
  Proof.
    intros [r s] [r' s'] [H1 H2]. simpl in H1, H2. subst r'. split; [|split].
    - intros n. apply pk_loop_equiv. assumption.
    - intros g. split; simpl; [reflexivity|]. apply equiv_reset. assumption.
    - exact (equiv_fin _ _ _ H2).
  Qed.

  Variables Inv Tgt : St I -> Prop.
  Hypothesis HR : resumable false I Inv Tgt.

  Definition pk_inv (x : pk_st I) : Prop := Inv (snd x).
  Definition pk_tgt (x : pk_st I) : Prop := fst x = None /\ Tgt (snd x).

  Lemma pk_loop_inv m n : forall l r s o x', Inv s -> loop m n l (r, s) = Some (o, x') -> okstep false (pk_inv x') o.
  Proof.
    induction n as [|n IH]; intros l r s o x' HI H; [discriminate|]. rewrite pk_loop_S in H.
    assert (HF : forall fl l1 r1 a, Inv a -> Some (pk_finish capacity pad truncate drop I fl l1 r1 a) = Some (o, x') ->
      okstep false (pk_inv x') o).
    { intros fl l1 r1 a Ha E. unfold pk_finish, pk_output in E.
      destruct (truncate && negb fl && drop); [|destruct (pk_def l1)]; inv E; apply okstep_intro; simpl; auto. }
    assert (HU : forall t a, Inv a -> pk_use capacity max_seq_len pad truncate drop I m n l t a = Some (o, x') ->
      okstep false (pk_inv x') o).
    { intros t a Ha E. unfold pk_use in E.
      repeat match type of E with context [if ?c then _ else _] => destruct c end; eauto; inv E; apply okstep_intro; simpl; auto. }
    destruct r as [t|]; [eauto|].
    destruct (next I m s) as [[o1 s1]|] eqn:E; [|discriminate].
    pose proof (rs_next _ _ _ _ HR _ _ _ _ HI E) as HI'.
    destruct o1 as [d| |e]; [|eapply HF; [exact HI'|exact H]|inv H; exact HI']. simpl in HI'.
    destruct d; try (eapply HU; [exact HI'|exact H]); inv H; apply okstep_intro; simpl; auto.
  Qed.

  Lemma pk_resumable : resumable false pk pk_inv pk_tgt.
  Proof.
    pose proof HR as [R1 R2 R3 R4 R5]. constructor.
    - exact R1.
    - split; [reflexivity|exact R2].
    - intros n [r s] o x' HI. apply pk_loop_inv. assumption.
    - intros g [r s] HI. apply R4. assumption.
    - intros [r s] [r0 s0] HI [Hr0 Ht]. simpl in Hr0, Ht. subst r0. unfold pk_inv in HI. simpl in HI.
      destruct (R5 _ _ HI Ht) as (t & Hr & Hl). cbn [record_pos reload_pos src_pack fst snd]. rewrite Hr.
      eexists. split; [reflexivity|]. intros rest.
      destruct (Hl rest) as (s1 & E1 & He & Hi). exists (r, s1). split.
      + destruct r as [v|]; rewrite <- !app_assoc, rd_wr_bool; [rewrite rd_wr_tensor|]; rewrite E1; reflexivity.
      + split; [|assumption]. exists pk_R. split; [apply pk_R_bisim|split; [reflexivity|assumption]].
  Qed.

  Lemma pk_restarts g : restarts I Inv g -> restarts pk pk_inv g.
  Proof.
    intros HG [r s] HI. exists pk_R. split; [apply pk_R_bisim|]. split; simpl; auto.
  Qed.
End PackPos.
