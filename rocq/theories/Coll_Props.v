(** Properties of the collater *)
From Coq Require Import String List Bool Arith NArith ZArith Lia ZifyN ZifyNat ZifyBool Ascii.
From Verif Require Import File_Model Sel_Model Sel_Spec Sel_Visit Sel_Map Sel_Props Coll_Model Coll_Spec Coll_Proofs.
Import ListNotations.
Local Open Scope list_scope.

Section Collater.
  Context {A V : Type}.
  Local Notation data := (data A (tensor V)).
  Variable type_of : A -> nat.
  Variable of_bool : bool -> A.
  Variable of_int : nat -> A.
  Variable of_Z : nat -> Z -> V.
  Variable mixed_pad : list (tensor V) -> Z -> nat -> option data.
  Variable mixed_stack : list (tensor V) -> option data.

  (** ** C20: what is collated *)
  (** A bucket is collated exactly if its items have the same structure, and then to what the specification says; in all other cases it raises. *)
  Theorem C20_collate c (b : data) rest out : (forall x, In x (b :: rest) -> proper x) -> short b -> alike (get_options (fst c) (snd c)) (b :: rest) -> exact_pads (get_options (fst c) (snd c)) ->
    collater type_of of_bool of_int of_Z mixed_pad mixed_stack c (Items (b :: rest)) = Some out <-> Collated type_of of_bool of_int of_Z (get_options (fst c) (snd c)) [] (b :: rest) out.
  Proof.
    intros P S0 Al Ex. unfold collater. apply (collate_iff _ _ _ _ _ _ _ _ b rest P S0 Al Ex); [reflexivity|constructor|]. clear. induction rest; constructor; [reflexivity|assumption].
  Qed.
  (** An example that is not a list is a bucket of one item; an empty bucket raises. *)
  Theorem C20_single c (d : data) out : (forall l, d <> Items l) -> proper d -> short d -> alike (get_options (fst c) (snd c)) [d] -> exact_pads (get_options (fst c) (snd c)) ->
    collater type_of of_bool of_int of_Z mixed_pad mixed_stack c d = Some out <-> Collated type_of of_bool of_int of_Z (get_options (fst c) (snd c)) [] [d] out.
  Proof.
    intros N0 P S0 Al Ex. rewrite <- C20_collate; [|intros x [<-|[]]; exact P|exact S0|exact Al|exact Ex]. destruct d as [| |l|]; try reflexivity. now destruct (N0 l).
  Qed.
  Theorem C20_empty c : collater type_of of_bool of_int of_Z mixed_pad mixed_stack c (Items []) = None.
  Proof. reflexivity. Qed.
End Collater.
Print Assumptions C20_collate.
Print Assumptions C20_single.
Print Assumptions C20_empty.
(** The options for a place are those of the first override that speaks of it, or else the general ones. *)
Theorem C20_options opts overrides path o : get_options opts overrides path = o <-> options_at opts overrides path o.
Proof.
  unfold get_options, options_at. cbv zeta. destruct (List.find (fun ov => matches (fst ov) path) overrides) as [ov|] eqn:E.
  - assert (H : exists before after, overrides = before ++ ov :: after /\ matches (fst ov) path = true /\ forall ov', In ov' before -> matches (fst ov') path = false).
    { clear o. induction overrides as [|x l IH]; [discriminate|]. cbn in E. destruct (matches (fst x) path) eqn:M.
      - injection E as ->. exists [], l. split; [reflexivity|]. split; [exact M|contradiction].
      - destruct (IH E) as (be & af & -> & Mo & H). exists (x :: be), af. split; [reflexivity|]. split; [exact Mo|]. intros y [<-|I0]; auto. }
    destruct H as (be & af & -> & Mo & H). split.
    + intros <-. left. exists be, ov, af. split; [reflexivity|]. split; [now apply C21_matches|]. split; [reflexivity|]. intros y I0 S0. apply C21_matches in S0. rewrite (H y I0) in S0. discriminate.
    + intros [(be' & ov' & af' & Eo & S0 & <- & H')|(N0 & _)].
      * apply C21_matches in S0. f_equal. clear E. revert be' Eo H'. induction be as [|x be IH]; intros [|x' be'] Eo H'; cbn in Eo.
        -- now injection Eo.
        -- injection Eo as <- _. exfalso. apply (H' ov (or_introl eq_refl)). now apply C21_matches.
        -- injection Eo as -> _. rewrite (H ov' (or_introl eq_refl)) in S0. discriminate.
        -- injection Eo as <- Eo. apply (IH (fun y I0 => H y (or_intror I0)) be' Eo (fun y I0 => H' y (or_intror I0))).
      * exfalso. apply (N0 ov); [apply in_or_app; right; now left|now apply C21_matches].
  - assert (H : forall ov, In ov overrides -> matches (fst ov) path = false) by (intros ov I0; exact (List.find_none _ _ E ov I0)). split.
    + intros <-. right. split; [|reflexivity]. intros ov I0 S0. apply C21_matches in S0. rewrite (H ov I0) in S0. discriminate.
    + intros [(be & ov & af & -> & S0 & _)|(_ & ->)]; [|reflexivity]. exfalso. apply C21_matches in S0. rewrite (H ov) in S0; [discriminate|]. apply in_or_app. right. now left.
Qed.
Print Assumptions C20_options.
(** A collater can be made exactly if a pad value is given wherever there is padding to a multiple. *)
Theorem C20_make opts overrides : make opts overrides = Some (opts, overrides) <-> forall o, o = opts \/ In o (map snd overrides) -> 1 < pad_to_multiple o -> pad_value o <> None.
Proof.
  unfold make. assert (V : forall o, valid_options o = true <-> (1 < pad_to_multiple o -> pad_value o <> None)).
  { intros o. unfold valid_options. destruct (Nat.ltb_spec 1 (pad_to_multiple o)), (pad_value o); cbn; split; try congruence; try lia; try (intros X; destruct (X H eq_refl)). }
  split.
  - destruct (valid_options opts) eqn:E1, (forallb (fun ov => valid_options (snd ov)) overrides) eqn:E2; try discriminate. intros _ o [->|I0]; [now apply V|]. apply in_map_iff in I0 as (ov & <- & I0). rewrite forallb_forall in E2. apply V, E2, I0.
  - intros H. rewrite (proj2 (V opts)) by (apply H; now left). assert (E2 : forallb (fun ov => valid_options (snd ov)) overrides = true); [|now rewrite E2]. apply forallb_forall. intros ov I0. apply V, H. right. now apply in_map.
Qed.
Print Assumptions C20_make.

(** ** Concrete cases *)
Definition T1 (n : nat) (l : list Z) : tensor Z := Tn n [length l] l.
Definition col := @collater (nat * nat) Z fst (fun b => (1, if b then 1 else 0)) (fun n => (2, n)) (fun _ z => z) (fun _ _ _ => None) (fun _ => None).
Definition ex_opts : options * list (list (list segment) * options) := (Options (Some 0%Z) 4, [([[Key (s_ "y"); Index wildcard]], Options None 1)]).
Definition ex_item (l : list Z) (n : nat) : data (nat * nat) (tensor Z) := Dict [(s_ "x", Tensor (T1 5 l)); (s_ "y", Items [Tensor (T1 5 [Z.of_nat n]); Atom (3, n)])].
Example C20_ex : col ex_opts (Items [ex_item [1; 2; 3] 7; ex_item [4] 8])%Z =
  Some (Dict [(s_ "x", Dict [(str_is_ragged, Atom (1, 1)); (str_seqs, Tensor (Tn 5 [2; 4] [1; 2; 3; 0; 4; 0; 0; 0]%Z)); (str_seq_lens, Items [Atom (2, 3); Atom (2, 1)])]);
              (s_ "y", Items [Tensor (Tn 5 [2; 1] [7; 8]%Z); Items [Atom (3, 7); Atom (3, 8)]])]).
Proof. vm_compute. reflexivity. Qed.
Lemma ex_item_proper l n : proper (ex_item l n).
Proof. constructor; [cbn; constructor; [intros [|[]]; discriminate|constructor; [tauto|constructor]]|]. repeat constructor. Qed.
Lemma ex_item_places l n p e : at_place (ex_item l n) p e ->
  p = [] /\ e = ex_item l n \/ p = [Key (s_ "x")] /\ e = Tensor (T1 5 l) \/ p = [Key (s_ "y")] /\ e = Items [Tensor (T1 5 [Z.of_nat n]); Atom (3, n)] \/
  p = [Key (s_ "y"); Index 0] /\ e = Tensor (T1 5 [Z.of_nat n]) \/ p = [Key (s_ "y"); Index 1] /\ e = Atom (3, n).
Proof.
  intros H. inversion H as [|? s x q ? C H']; subst; [now left|]. destruct s as [k|m]; [|contradiction]. cbn in C. destruct C as [[= <- <-]|[[= <- <-]|[]]].
  - inversion H' as [|? s' ? ? ? C' ?]; subst; [tauto|]. destruct s'; contradiction.
  - inversion H' as [|? s' x' ? ? C' H'']; subst; [tauto|]. destruct s' as [|m]; [contradiction|]. cbn in C'. assert (M : m = 0%N \/ m = 1%N \/ (2 <= m)%N) by lia. destruct M as [->|[->|M]].
    + injection C' as <-. inversion H'' as [|? s'' ? ? ? C'' ?]; subst; [tauto|]. destruct s''; contradiction.
    + injection C' as <-. inversion H'' as [|? s'' ? ? ? C'' ?]; subst; [tauto|]. destruct s''; contradiction.
    + destruct (N.to_nat m) as [|[|k]] eqn:Em; [lia|lia|]. destruct k; discriminate.
Qed.
Example C20_ex_hypotheses : let items := [ex_item [1; 2; 3] 7; ex_item [4] 8]%Z in
  (forall x, In x items -> proper x) /\ short (ex_item [1; 2; 3]%Z 7) /\ alike (get_options (fst ex_opts) (snd ex_opts)) items /\ exact_pads (get_options (fst ex_opts) (snd ex_opts)).
Proof.
  split; [|split; [|split]].
  - intros x [<-|[<-|[]]]; apply ex_item_proper.
  - intros p l H. apply ex_item_places in H. intuition (try discriminate). injection H1 as ->. cbn. lia.
  - intros b b' p t t' I0 I1 H H'.
    assert (E : exists l n l' n', b = ex_item l n /\ b' = ex_item l' n') by (destruct I0 as [<-|[<-|[]]], I1 as [<-|[<-|[]]]; eexists _, _, _, _; split; reflexivity). destruct E as (l & n & l' & n' & -> & ->).
    apply ex_item_places in H, H'. destruct H as [(-> & X)|[(-> & X)|[(-> & X)|[(-> & X)|(-> & X)]]]]; try discriminate; injection X as ->;
      destruct H' as [(E' & X')|[(E' & X')|[(E' & X')|[(E' & X')|(E' & X')]]]]; try discriminate; injection X' as ->; split; reflexivity.
  - intros p z H. apply (f_equal (fun o => match o with Some v => Z.abs v | None => 0%Z end)) in H. rewrite <- H. unfold get_options. destruct (List.find _ _) as [ov|] eqn:E; [|cbn; lia]. apply List.find_some in E as ([<-|[]] & _). cbn. lia.
Qed.
(** A pad value that a floating point number cannot hold is rounded in the part that pads to the longest sequence, and exact in the part that pads to
    the multiple: a row can contain two different pad values. *)
Theorem C20_pad_value_refuted : ~ (forall c (b : data (nat * nat) (tensor Z)) rest out, (forall x, In x (b :: rest) -> proper x) -> short b -> alike (get_options (fst c) (snd c)) (b :: rest) ->
  col c (Items (b :: rest)) = Some out -> Collated fst (fun b => (1, if b then 1 else 0)) (fun n => (2, n)) (fun _ z => z) (get_options (fst c) (snd c)) [] (b :: rest) out).
Proof.
  intros H. set (z := (2 ^ 53 + 1)%Z). specialize (H (Options (Some z) 4, []) (Tensor (T1 5 [1; 1]%Z)) [Tensor (T1 5 [1]%Z)]
    (Dict [(str_is_ragged, Atom (1, 1)); (str_seqs, Tensor (Tn 5 [2; 4] [1; 1; z; z; 1; z - 1; z; z]%Z)); (str_seq_lens, Items [Atom (2, 2); Atom (2, 1)])])).
  assert (C : forall l p e, at_place (Tensor (T1 5 l) : data (nat * nat) (tensor Z)) p e -> p = [] /\ e = Tensor (T1 5 l)).
  { intros l p e A0. inversion A0 as [|? s ? ? ? C ?]; subst; [now split|]. destruct s; contradiction. }
  assert (X := H ltac:(intros x [<-|[<-|[]]]; constructor) ltac:(intros p l A0; apply C in A0 as (_ & [=]))).
  assert (Y : alike (get_options (Options (Some z) 4) []) [Tensor (T1 5 [1; 1]%Z); Tensor (T1 5 [1]%Z) : data (nat * nat) (tensor Z)]).
  { intros b b' p t t' I0 I1 A0 A1. assert (E : exists l l', b = Tensor (T1 5 l) /\ b' = Tensor (T1 5 l')) by (destruct I0 as [<-|[<-|[]]], I1 as [<-|[<-|[]]]; eexists _, _; split; reflexivity). destruct E as (l & l' & -> & ->).
    apply C in A0 as (-> & [= ->]). apply C in A1 as (_ & [= ->]). split; reflexivity. }
  specialize (X Y ltac:(vm_compute; reflexivity)). inversion X as [ls ? ? ? E|kvs ? ? ? ? E|us z' o' Ez' Pd E|us dt sh Ez' Hs E|vs Hs E]; try (destruct ls; discriminate); try (destruct vs; discriminate); try discriminate.
  - destruct kvs; discriminate.
  - subst o'. injection Ez' as <-. change [Tensor (T1 5 [1; 1]%Z); Tensor (T1 5 [1]%Z)] with (map (@Tensor (nat * nat) (tensor Z)) [T1 5 [1; 1]%Z; T1 5 [1]%Z]) in E. apply map_inj in E; [|now intros x y [= ->]]. subst us.
    destruct Pd as (dt & trail & lens & w & rows & rg & F & W & R & _ & Eo). inversion F as [|? n1 ? ? (_ & S1) F1]; subst. inversion F1 as [|? n2 ? ? (_ & S2) F2]; subst. inversion F2; subst. injection S1 as <- <-. injection S2 as <-.
    cbn in R. inversion R as [|? r1 ? ? R1 R']; subst. inversion R' as [|? r2 ? ? R2 R'']; subst. inversion R''; subst. cbn in Eo. injection Eo as _ <- <- Er. vm_compute in Er. discriminate.
Qed.
Print Assumptions C20_pad_value_refuted.
