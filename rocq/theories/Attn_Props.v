(** C50: key/value states of incremental decoding. *)
From Coq Require Import List Bool Arith Lia.
From Verif Require Import Attn_Model Attn_Spec Attn_Proofs.
Import ListNotations.

Section S.
Context {K V : Type}.
Implicit Types h : list (event K V).

Lemma replay_cons f mx inc e h : h <> [] ->
  replay f mx inc (e :: h) = bind (replay f mx inc h) (match e with Fed k v => append k v | Reordered o => reorder o end).
Proof. intro H. destruct e as [k v|o]; [|reflexivity]. destruct h; [congruence|reflexivity]. Qed.

Lemma replay_full mx inc h : inc <> Some 0 -> legal h -> h <> [] -> (inc = None -> total h <= mx) ->
  exists s, replay None mx inc h = Ok (SFull s) /\ full_inv mx inc h s.
Proof.
  intro I. induction h as [|e h IH]; intros L N F; [congruence|]. destruct L as [Le L].
  destruct h as [|e' h'].
  - destruct e as [k v|o]; [|destruct Le as [Le _]; congruence].
    destruct (full_init_ok mx inc k v I Le) as (s & E & Inv); [intro J; specialize (F J); simpl in F; lia|].
    exists s. cbn [replay self_factory]. rewrite E. split; [reflexivity|exact Inv].
  - destruct (IH L) as (s & E & Inv); [congruence|intro J; specialize (F J); destruct e; cbn [total] in *; lia|].
    rewrite (replay_cons None mx inc e (e' :: h')) by congruence. rewrite E. cbn [bind]. destruct e as [k v|o].
    + destruct (full_append_ok mx inc (e' :: h') k v s Inv ltac:(congruence) Le) as (s' & E' & Inv'); [exact F|].
      exists s'. cbn [append]. rewrite E'. split; [reflexivity|exact Inv'].
    + destruct (full_reorder_ok mx inc (e' :: h') o s Inv Le) as (s' & E' & Inv').
      exists s'. cbn [reorder]. rewrite E'. split; [reflexivity|exact Inv'].
Qed.

Lemma replay_local mx w inc h : inc <> Some 0 -> legal h -> h <> [] -> 0 < Nat.min mx w -> smooth (Nat.min mx w) h ->
  exists s, replay (Some w) mx inc h = Ok (SLocal s) /\ local_inv (Nat.min mx w) inc h s.
Proof.
  intros I L N P. revert L N. induction h as [|e h IH]; intros L N F; [congruence|]. destruct L as [Le L].
  destruct h as [|e' h'].
  - destruct e as [k v|o]; [|destruct Le as [Le _]; congruence].
    destruct (local_init_ok mx w inc k v I Le P) as (s & E & Inv).
    exists s. cbn [replay self_factory]. rewrite E. split; [reflexivity|exact Inv].
  - destruct (IH L) as (s & E & Inv); [congruence|destruct e; cbn [smooth] in F; tauto|].
    rewrite (replay_cons (Some w) mx inc e (e' :: h')) by congruence. rewrite E. cbn [bind]. destruct e as [k v|o].
    + destruct (local_append_ok _ inc (e' :: h') k v s P I Inv ltac:(congruence) L Le) as (s' & E' & Inv');
        [cbn [smooth] in F; destruct F as [[F|F] _]; [congruence|exact F]|].
      exists s'. cbn [append]. rewrite E'. split; [reflexivity|exact Inv'].
    + destruct (local_reorder_ok _ inc (e' :: h') o s Inv Le) as (s' & E' & Inv').
      exists s'. cbn [reorder]. rewrite E'. split; [reflexivity|exact Inv'].
Qed.

Lemma full_inv_get mx inc h s : full_inv mx inc h s ->
  holds_exactly (size h) (total h) (keys h) (fst (full_get s)) /\ holds_exactly (size h) (total h) (values h) (snd (full_get s)).
Proof.
  intros (El & _ & _ & Hk & Hv). unfold full_get. cbn [fst snd]. rewrite El.
  split; eapply holds_get; eauto.
Qed.
Lemma local_inv_get win inc h s : local_inv win inc h s ->
  holds_exactly (size h) (Nat.min win (total h)) (fun i => lastn win (keys h i)) (fst (local_get s)) /\
  holds_exactly (size h) (Nat.min win (total h)) (fun i => lastn win (values h i)) (snd (local_get s)).
Proof.
  intros (El & Ew & Ei & Wl & Wn & Lm & Hk & Hv). unfold local_get. cbn [fst snd]. rewrite El.
  assert (S : total h = Nat.min win (total h) \/ (Nat.min win (total h) = width (l_k s) /\ width (l_k s) <= total h)).
  { destruct (Nat.le_ge_cases (total h) win); [left|right]; lia. }
  split; eapply holds_get; eauto.
Qed.

(** Whatever the increment and the sequence of steps and reorderings, the state holds in every row all that was fed to the
    sequence that is now there, in order and nothing else. Without an increment the memory is allocated once, for [max_len]
    steps. *)
Theorem C50_full : forall max_len inc h, inc <> Some 0 -> legal h -> h <> [] -> (inc = None -> total h <= max_len) ->
  exists st, replay None max_len inc h = Ok st /\
    holds_exactly (size h) (total h) (keys h) (fst (get st)) /\ holds_exactly (size h) (total h) (values h) (snd (get st)).
Proof.
  intros mx inc h I L N F. destruct (replay_full mx inc h I L N F) as (s & E & Inv).
  exists (SFull s). split; [exact E|]. exact (full_inv_get _ _ _ _ Inv).
Qed.

(** A window of [w] steps holds the last [w] steps, or all if there are fewer, as long as no step of several tokens runs over
    the end of a window that is not full. *)
Theorem C50_local : forall max_len w inc h, inc <> Some 0 -> legal h -> h <> [] ->
  let win := Nat.min max_len w in
  0 < win -> smooth win h ->
  exists st, replay (Some w) max_len inc h = Ok st /\
    holds_exactly (size h) (Nat.min win (total h)) (fun i => lastn win (keys h i)) (fst (get st)) /\
    holds_exactly (size h) (Nat.min win (total h)) (fun i => lastn win (values h i)) (snd (get st)).
Proof.
  intros mx w inc h I L N win P S. destruct (replay_local mx w inc h I L N P S) as (s & E & Inv).
  exists (SLocal s). split; [exact E|]. exact (local_inv_get _ _ _ _ Inv).
Qed.

(** In particular when steps are fed one at a time after the first. *)
Theorem C50_local_stepwise : forall max_len w inc h, inc <> Some 0 -> legal h -> h <> [] ->
  let win := Nat.min max_len w in
  0 < win -> stepwise h ->
  exists st, replay (Some w) max_len inc h = Ok st /\
    holds_exactly (size h) (Nat.min win (total h)) (fun i => lastn win (keys h i)) (fst (get st)) /\
    holds_exactly (size h) (Nat.min win (total h)) (fun i => lastn win (values h i)) (snd (get st)).
Proof. intros mx w inc h I L N win P S. apply C50_local; auto. now apply stepwise_smooth. Qed.

(** The memory: a full state reserves [max_len] steps, or a multiple of the increment less than one increment above the steps
    fed; a window never reserves more than the window. The sizes reported are those of what is held. *)
Theorem C50_memory : forall max_len inc h unit, inc <> Some 0 -> legal h -> h <> [] -> (inc = None -> total h <= max_len) ->
  exists s, replay None max_len inc h = Ok (SFull s) /\
    full_size unit s = 2 * (size h * total h) * unit /\
    exists w, full_capacity unit s = 2 * (size h * w) * unit /\ total h <= w /\
      match inc with None => w = max_len | Some i => w mod i = 0 /\ w < total h + i end.
Proof.
  intros mx inc h u I L N F. destruct (replay_full mx inc h I L N F) as (s & E & Inv). exists s. split; [exact E|].
  destruct Inv as (El & _ & C & Hk & _). unfold full_size, full_capacity. assert (B : batch (f_k s) = size h) by apply Hk. rewrite B, El.
  split; [ring|]. exists (width (f_k s)). split; [reflexivity|]. split; [apply Hk|].
  destruct inc as [i|]; [|exact C]. destruct C as (Ip & M & C). split; [exact M|]. lia.
Qed.
Theorem C50_local_memory : forall max_len w inc h unit, inc <> Some 0 -> legal h -> h <> [] ->
  let win := Nat.min max_len w in
  0 < win -> smooth win h ->
  exists s, replay (Some w) max_len inc h = Ok (SLocal s) /\
    local_size unit s = 2 * (size h * Nat.min win (total h)) * unit /\
    local_capacity unit s <= 2 * (size h * win) * unit.
Proof.
  intros mx w inc h u I L N win P S. destruct (replay_local mx w inc h I L N P S) as (s & E & Inv). exists s. split; [exact E|].
  fold win in Inv. destruct Inv as (El & Ew & Ei & Wl & Wn & Lm & Hk & _). unfold local_size, local_capacity.
  assert (B : batch (l_k s) = size h) by apply Hk. rewrite B, El, Ew.
  split; [|apply Nat.mul_le_mono_r, Nat.mul_le_mono_l, Nat.mul_le_mono_l; exact Wl].
  destruct (Nat.leb_spec win (total h)) as [Q|Q].
  - replace (width (l_k s)) with (Nat.min win (total h)) by lia. reflexivity.
  - rewrite Nat.min_r by lia. ring.
Qed.

(** An increment of zero is rejected. *)
Theorem C50_increment : forall max_len (k : mat K) (v : mat V) w,
  full_init k v max_len (Some 0) = Err BadIncrement /\ local_init k v max_len w (Some 0) = Err BadIncrement /\
  @new_bag K V max_len (Some 0) = Err BadIncrement.
Proof. intros. repeat split. Qed.

(** ** Several modules sharing a bag *)
Lemma lookup_set m m' (s : state K V) l : lookup m (set_state m' s l) = if m =? m' then Some s else lookup m l.
Proof.
  induction l as [|[n t] l IH]; cbn [set_state lookup].
  - reflexivity.
  - destruct (Nat.eqb_spec m' n) as [->|N]; cbn [lookup].
    + destruct (m =? n); reflexivity.
    + destruct (Nat.eqb_spec m n) as [->|N2]; [|exact IH].
      destruct (Nat.eqb_spec n m'); [congruence|reflexivity].
Qed.
Lemma lookup_reorder o l l' m : reorder_all o l = Ok l' ->
  match lookup m l with
  | None => lookup m l' = None
  | Some s => exists s' : state K V, reorder o s = Ok s' /\ lookup m l' = Some s'
  end.
Proof.
  revert l'. induction l as [|[n s] l IH]; intros l' E; cbn [reorder_all lookup] in *.
  - injection E as <-. reflexivity.
  - destruct (reorder o s) as [s'|] eqn:Es; cbn [bind] in E; [|discriminate E].
    destruct (reorder_all o l) as [l''|] eqn:El; cbn [bind] in E; [|discriminate E]. injection E as <-. cbn [lookup].
    destruct (m =? n); [exists s'; now split|]. apply IH. reflexivity.
Qed.

Definition agrees f mx inc' (b : bag K V) (H : nat -> list (event K V)) : Prop :=
  inc b = inc' /\ max_steps b = mx /\ inc' <> Some 0 /\ (step_nr b = 0 \/ step_nr b < mx) /\
  forall m, legal (H m) /\
    match lookup m (states b) with None => H m = [] | Some st => H m <> [] /\ replay (f m) mx inc' (H m) = Ok st end.

Lemma session_agrees f mx inc' b H : session f mx inc' b H -> agrees f mx inc' b H.
Proof.
  induction 1 as [b E|b H m k v ok ov b' S IH Le E|b H n b' S IH E|b H o b' S IH O E].
  - unfold new_bag in E. destruct inc' as [[|i]|]; try discriminate E; injection E as <-; (split; [reflexivity|split; [reflexivity|split; [congruence|split; [now left|]]]]);
      intro m; split; simpl; trivial; reflexivity.
  - destruct IH as (Ei & Em & I & St & G). unfold self_attend in E. destruct (G m) as [Lm Gm].
    destruct (lookup m (states b)) as [s|] eqn:Lk.
    + destruct Gm as [Nm Rm]. destruct (append k v s) as [s'|] eqn:Ea; cbn [bind] in E; [|discriminate E]. injection E as <- <- <-.
      split; [exact Ei|split; [exact Em|split; [exact I|split; [exact St|]]]]. intro m'. cbn [states]. rewrite lookup_set.
      destruct (Nat.eqb_spec m' m) as [->|N]; [|exact (G m')]. split; [split; assumption|]. split; [congruence|].
      rewrite replay_cons by exact Nm. rewrite Rm. exact Ea.
    + destruct (self_factory (f m) k v (max_steps b) (inc b)) as [s'|] eqn:Ea; cbn [bind] in E; [|discriminate E]. injection E as <- <- <-.
      split; [exact Ei|split; [exact Em|split; [exact I|split; [exact St|]]]]. intro m'. cbn [states]. rewrite lookup_set.
      destruct (Nat.eqb_spec m' m) as [->|N]; [|exact (G m')]. split; [split; assumption|]. split; [congruence|].
      rewrite Gm. cbn [replay]. rewrite Ei, Em in Ea. exact Ea.
  - destruct IH as (Ei & Em & I & St & G). unfold increment in E. destruct (Nat.leb_spec (max_steps b) (step_nr b + n)); [discriminate E|].
    injection E as <-. split; [exact Ei|split; [exact Em|split; [exact I|split; [right; cbn [step_nr]; lia|exact G]]]].
  - destruct IH as (Ei & Em & I & St & G). unfold bag_reorder in E. destruct (reorder_all o (states b)) as [l'|] eqn:Er; cbn [bind] in E; [|discriminate E].
    injection E as <-. split; [exact Ei|split; [exact Em|split; [exact I|split; [exact St|]]]]. intro m. cbn [states].
    pose proof (lookup_reorder o _ _ m Er) as Lr. destruct (G m) as [Lm Gm]. pose proof (O m) as Om.
    destruct (lookup m (states b)) as [s|].
    + destruct Lr as (s' & Es & ->). destruct Gm as [Nm Rm]. destruct (H m) as [|e h'] eqn:Hm; [congruence|].
      split; [split; [exact (Om ltac:(congruence))|exact Lm]|]. split; [congruence|].
      rewrite replay_cons by congruence. rewrite Rm. exact Es.
    + rewrite Lr, Gm. split; [exact Logic.I|reflexivity].
Qed.

(** Every module that keeps all steps attends, whenever it is fed, to exactly what was fed to it for each sequence of the
    batch: other modules, steps and reorderings of the bag do not disturb it, and it does not fail. *)
Theorem C50_attend : forall f max_len inc b H m k v,
  @session K V f max_len inc b H -> f m = None -> legal_event (Fed k v) (H m) -> room b (H m) k ->
  exists ok ov b', self_attend m (f m) k v b = Ok (ok, ov, b') /\
    (forall i, i < length (rows k) -> nth_error (rows ok) i = Some (map Some (keys (Fed k v :: H m) i))) /\
    (forall i, i < length (rows k) -> nth_error (rows ov) i = Some (map Some (values (Fed k v :: H m) i))) /\
    length (rows ok) = length (rows k) /\ length (rows ov) = length (rows k).
Proof.
  intros f mx inc' b H m k v S Fm Le R. destruct (session_agrees _ _ _ _ _ S) as (Ei & Em & I & St & G). destruct (G m) as [Lm Gm].
  set (h := Fed k v :: H m).
  assert (Room : inc' = None -> total h <= mx).
  { intro J. cbn [h total]. destruct R as [R|[R|(R1 & R2 & R3)]]; [congruence|lia|]. destruct St; lia. }
  destruct (replay_full mx inc' h I) as (st & Er & Inv); [split; assumption|unfold h; congruence|exact Room|].
  rewrite Fm in *. unfold self_attend. destruct (lookup m (states b)) as [s|].
  - destruct Gm as [Nm Rm]. unfold h in Er. rewrite replay_cons, Rm in Er by exact Nm. cbn [bind] in Er. rewrite Er. cbn [bind].
    destruct (full_inv_get _ _ _ _ Inv) as [[_ Gk] [_ Gv]]. do 3 eexists. split; [reflexivity|]. cbn [get]. rewrite Gk, Gv. cbn [h size] in *. rewrite !map_length, !seq_length.
    split; [intros i Hi; exact (nth_error_seq_map _ _ _ Hi)|]. split; [intros i Hi; exact (nth_error_seq_map _ _ _ Hi)|]. split; reflexivity.
  - unfold h in Er. rewrite Gm in *. cbn [replay] in Er. rewrite Ei, Em, Er. cbn [bind]. do 3 eexists. split; [reflexivity|].
    destruct Le as (Rk & Rv & Wv & Lv & _). unfold h. cbn [keys values]. rewrite Gm. cbn [keys values app].
    split; [intros i Hi; exact (proj1 (given_rows k _ Rk eq_refl i Hi))|]. split; [intros i Hi; exact (proj1 (given_rows v _ Rv Lv i Hi))|].
    unfold given. cbn [rows]. rewrite !map_length. split; [reflexivity|exact Lv].
Qed.

(** The same for a module with a window: after its first feed, which is attended to as a whole, it sees the last [win] steps. *)
Theorem C50_attend_window : forall f max_len inc b H m k v w,
  @session K V f max_len inc b H -> f m = Some w -> let win := Nat.min max_len w in
  0 < win -> legal_event (Fed k v) (H m) -> H m <> [] -> smooth win (Fed k v :: H m) ->
  exists ok ov b', self_attend m (f m) k v b = Ok (ok, ov, b') /\
    (forall i, i < length (rows k) -> nth_error (rows ok) i = Some (map Some (lastn win (keys (Fed k v :: H m) i)))) /\
    (forall i, i < length (rows k) -> nth_error (rows ov) i = Some (map Some (lastn win (values (Fed k v :: H m) i)))) /\
    length (rows ok) = length (rows k) /\ length (rows ov) = length (rows k).
Proof.
  intros f mx inc' b H m k v w S Fm win P Le Nm Sm. destruct (session_agrees _ _ _ _ _ S) as (Ei & Em & I & St & G). destruct (G m) as [Lm Gm].
  set (h := Fed k v :: H m) in *.
  destruct (replay_local mx w inc' h I) as (st & Er & Inv); [split; assumption|unfold h; congruence|exact P|exact Sm|].
  rewrite Fm in *. unfold self_attend. destruct (lookup m (states b)) as [s|]; [|congruence].
  destruct Gm as [_ Rm]. unfold h in Er. rewrite replay_cons, Rm in Er by exact Nm. cbn [bind] in Er. rewrite Er. cbn [bind].
  destruct (local_inv_get _ _ _ _ Inv) as [[_ Gk] [_ Gv]]. do 3 eexists. split; [reflexivity|]. cbn [get]. rewrite Gk, Gv. cbn [h size] in *. rewrite !map_length, !seq_length.
  split; [intros i Hi; exact (nth_error_seq_map _ _ _ Hi)|]. split; [intros i Hi; exact (nth_error_seq_map _ _ _ Hi)|]. split; reflexivity.
Qed.

(** Reordering a bag succeeds if every module that was fed has the rows asked for, as long as no full state without increment
    and no window was overrun; here for bags all of whose modules keep all steps. *)
Theorem C50_reorder : forall max_len inc b H o,
  @session K V (fun _ => None) max_len inc b H -> (forall m, inc = None -> total (H m) <= max_len) ->
  (forall m, H m <> [] -> legal_event (Reordered o) (H m)) -> exists b', bag_reorder o b = Ok b'.
Proof.
  intros mx inc' b H o S F O. destruct (session_agrees _ _ _ _ _ S) as (Ei & Em & I & St & G).
  assert (Gen : forall l : list (nat * state K V), (forall m s, lookup m l = Some s -> exists s', reorder o s = Ok s') ->
     NoDup (map fst l) -> exists l', reorder_all o l = Ok l').
  { induction l as [|[m s] l IH]; intros A ND; [exists []; reflexivity|]. cbn [reorder_all]. inversion_clear ND.
    destruct (A m s) as [s' ->]; [cbn [lookup]; now rewrite Nat.eqb_refl|]. cbn [bind].
    destruct IH as [l' ->]; [|assumption|eexists; reflexivity].
    intros m' s'' L. apply (A m' s''). cbn [lookup]. destruct (Nat.eqb_spec m' m) as [->|]; [|exact L]. exfalso. apply H0.
    clear - L. induction l as [|[n t] l IH]; [discriminate L|]. cbn [lookup] in L. destruct (Nat.eqb_spec m n) as [->|]; [now left|right; now apply IH]. }
  assert (ND : NoDup (map fst (states b))).
  { clear - S. assert (Set_nd : forall m s (l : list (nat * state K V)), NoDup (map fst l) -> NoDup (map fst (set_state m s l))).
    { intros m s. assert (Inc : forall l x, In x (map fst (set_state m s l)) -> x = m \/ In x (map fst l)).
      { induction l as [|[n t] l IH]; intros x Hx; cbn [set_state] in Hx.
        - destruct Hx as [<-|[]]. now left.
        - destruct (m =? n); cbn [map fst In] in Hx |- *; [destruct Hx as [<-|Hx]; [now left|right; now right]|].
          destruct Hx as [<-|Hx]; [right; now left|]. destruct (IH x Hx); tauto. }
      induction l as [|[n t] l IH]; intro N; cbn [set_state]; [repeat constructor; intros []|]. inversion_clear N.
      destruct (Nat.eqb_spec m n) as [->|Q]; cbn [map fst]; constructor; auto.
      intro J. destruct (Inc _ _ J); congruence. }
    induction S as [b E|b H m k v ok ov b' S IH Le E|b H n b' S IH E|b H o b' S IH O E].
    - unfold new_bag in E. destruct inc' as [[|i]|]; try discriminate E; injection E as <-; constructor.
    - unfold self_attend in E. destruct (lookup m (states b)); match type of E with bind ?x _ = _ => destruct x; cbn [bind] in E; [|discriminate E] end; injection E as <- <- <-; cbn [states]; now apply Set_nd.
    - unfold increment in E. destruct (_ <=? _); [discriminate E|]. injection E as <-. exact IH.
    - unfold bag_reorder in E. destruct (reorder_all o (states b)) as [l'|] eqn:Er; cbn [bind] in E; [|discriminate E]. injection E as <-. cbn [states].
      enough (map fst l' = map fst (states b)) as -> by exact IH. clear - Er. revert l' Er.
      induction (states b) as [|[n s] l IH]; intros l' E; cbn [reorder_all] in E; [injection E as <-; reflexivity|].
      destruct (reorder o s); cbn [bind] in E; [|discriminate E]. destruct (reorder_all o l) as [l''|]; cbn [bind] in E; [|discriminate E]. injection E as <-.
      cbn [map fst]. f_equal. now apply IH. }
  destruct (Gen (states b)) as [l' El]; [|exact ND|unfold bag_reorder; rewrite El; eexists; reflexivity].
  intros m s Ls. destruct (G m) as [Lm Gm]. rewrite Ls in Gm. destruct Gm as [Nm Rm].
  destruct (replay_full mx inc' (H m) I Lm Nm (F m)) as (st & E & Inv). rewrite E in Rm. injection Rm as <-.
  destruct (full_reorder_ok _ _ _ o st Inv (O m Nm)) as (s' & Es & _). exists (SFull s'). cbn [reorder]. now rewrite Es.
Qed.

(** The number of the step stays below the maximum. *)
Theorem C50_steps : forall f max_len inc b H, @session K V f max_len inc b H -> step_nr b = 0 \/ step_nr b < max_len.
Proof. intros f mx inc' b H S. destruct (session_agrees _ _ _ _ _ S) as (_ & _ & _ & St & _). exact St. Qed.

(** ** Attention over an encoder output *)
(** It attends to the keys and values it was first given, whatever is passed later. *)
Theorem C50_cross : forall m k v (b : bag K V), lookup m (states b) = None ->
  let '(ok, ov, b') := cross_attend m k v b in
  ok = given k /\ ov = given v /\
  forall k2 v2, cross_attend m k2 v2 b' = (given k, given v, b').
Proof.
  intros m k v b L. unfold cross_attend at 1. rewrite L. repeat split. intros k2 v2. unfold cross_attend. cbn [states].
  rewrite lookup_set, Nat.eqb_refl. reflexivity.
Qed.
(** A reordering that changes the number of rows is applied to it. *)
Theorem C50_cross_reorder_partial : forall (s : static K V) o, length o <> length (rows (s_k s)) ->
  length (rows (s_v s)) = length (rows (s_k s)) -> (forall i, In i o -> i < length (rows (s_k s))) ->
  exists s', static_reorder o s = Ok s' /\
    rows (s_k s') = map (fun i => nth i (rows (s_k s)) []) o /\ rows (s_v s') = map (fun i => nth i (rows (s_v s)) []) o.
Proof.
  intros s o N Lv O. unfold static_reorder, batch. destruct (Nat.eqb_spec (length o) (length (rows (s_k s)))); [congruence|].
  assert (G : forall A (m : mat A), (forall i, In i o -> i < length (rows m)) -> exists m', index_select o m = Ok m' /\ rows m' = map (fun i => nth i (rows m) []) o).
  { intros A m B. unfold index_select. destruct (select_ok (rows m) o B) as (l' & E & L & N'). rewrite E. eexists. split; [reflexivity|]. cbn [rows].
    apply nth_error_ext; [now rewrite map_length|]. rewrite L. intros i Hi. rewrite (N' i Hi), nth_error_map.
    rewrite (nth_error_nth' o 0 Hi). cbn [option_map]. apply nth_error_nth'. apply B. now apply nth_In. }
  destruct (G _ (s_k s) O) as (k' & Ek & Rk). destruct (G _ (s_v s)) as (v' & Ev & Rv); [intros i Hi; rewrite Lv; now apply O|].
  rewrite Ek. cbn [bind]. rewrite Ev. cbn [bind]. eexists. split; [reflexivity|]. cbn [s_k s_v]. now split.
Qed.
End S.

(** ** Witnesses *)
(** Two rows fed [1;2] and [5;6], then 3 and 7, swapped, then 4 and 8 fed. *)
Definition m1 (l : list (list nat)) : mat nat := Mat (length (hd [] l)) l.
Definition h1 : list (event nat nat) :=
  [Fed (m1 [[4]; [8]]) (m1 [[40]; [80]]); Reordered [1; 0]; Fed (m1 [[3]; [7]]) (m1 [[30]; [70]]); Fed (m1 [[1; 2]; [5; 6]]) (m1 [[10; 20]; [50; 60]])].
Lemma rect_m1 l : forallb (fun r => length r =? length (hd [] l)) l = true -> rect (m1 l).
Proof. intros H r Hr. cbn [rows m1] in *. rewrite forallb_forall in H. apply Nat.eqb_eq. exact (H r Hr). Qed.
Lemma legal_h1 : legal h1.
Proof.
  unfold h1. cbn [legal legal_event].
  repeat match goal with
  | |- _ /\ _ => split | |- rect _ => apply rect_m1; reflexivity | |- True => exact I | |- _ = _ => reflexivity
  | |- _ <> _ => congruence | |- _ \/ _ => first [left; reflexivity|right; reflexivity]
  | |- forall i, In i _ -> _ => intros i [<-|[<-|[]]]; cbn; lia
  end.
Qed.
Example C50_ex_history : legal h1 /\ h1 <> [] /\ total h1 = 4 /\ stepwise h1 /\
  map (keys h1) [0; 1] = [[5; 6; 7; 4]; [1; 2; 3; 8]] /\ map (fun i => lastn 3 (keys h1 i)) [0; 1] = [[6; 7; 4]; [2; 3; 8]].
Proof. split; [exact legal_h1|]. split; [unfold h1; congruence|]. split; [reflexivity|]. split; [cbn [h1 stepwise]|split; reflexivity].
  split; [now right|]. split; [now right|]. split; [now left|exact I]. Qed.
Example C50_ex_full : match replay None 8 (Some 3) h1 with Ok st => fst (get st) = given (m1 [[5; 6; 7; 4]; [1; 2; 3; 8]]) | Err _ => False end.
Proof. vm_compute. reflexivity. Qed.
Example C50_ex_local : match replay (Some 3) 8 (Some 2) h1 with Ok st => fst (get st) = given (m1 [[6; 7; 4]; [2; 3; 8]]) | Err _ => False end.
Proof. vm_compute. reflexivity. Qed.

(** A session with two modules in which both are fed and the batch is rearranged. *)
Definition b0 : bag nat nat := Bag 0 4 None [].
Definition fed (m : nat) (k : mat nat) (b : bag nat nat) : bag nat nat := match self_attend m None k k b with Ok (_, _, b') => b' | Err _ => b end.
Definition b1 := fed 1 (m1 [[11]; [12]]) (fed 0 (m1 [[1]; [2]]) b0).
Definition b2 := match increment 1 b1 with Ok b => b | Err _ => b1 end.
Definition b3 := match bag_reorder [1; 1; 0] b2 with Ok b => b | Err _ => b2 end.
Definition H3 (m : nat) : list (event nat nat) :=
  match m with
  | 0 => [Reordered [1; 1; 0]; Fed (m1 [[1]; [2]]) (m1 [[1]; [2]])]
  | 1 => [Reordered [1; 1; 0]; Fed (m1 [[11]; [12]]) (m1 [[11]; [12]])]
  | _ => []
  end.
Example C50_ex_session : exists H, session (fun _ => None) 4 None b3 H /\ (forall m, H m = H3 m) /\
  legal_event (Fed (m1 [[3]; [4]; [5]]) (m1 [[3]; [4]; [5]])) (H 0) /\ room b3 (H 0) (m1 [[3]; [4]; [5]]) /\
  self_attend 0 None (m1 [[3]; [4]; [5]]) (m1 [[3]; [4]; [5]]) b3 =
    Ok (given (m1 [[2; 3]; [2; 4]; [1; 5]]), given (m1 [[2; 3]; [2; 4]; [1; 5]]), fed 0 (m1 [[3]; [4]; [5]]) b3).
Proof.
  eexists. split.
  - eapply (Rearranged _ _ _ b2 _ [1; 1; 0]); [|intros m Hm|vm_compute; reflexivity].
    + eapply (Stepped _ _ _ b1 _ 1); [|vm_compute; reflexivity].
      eapply (Attended _ _ _ (fed 0 (m1 [[1]; [2]]) b0) _ 1 (m1 [[11]; [12]]) (m1 [[11]; [12]])).
      * eapply (Attended _ _ _ b0 _ 0 (m1 [[1]; [2]]) (m1 [[1]; [2]])).
        -- apply Started. reflexivity.
        -- repeat split; try (apply rect_m1; reflexivity). now left.
        -- vm_compute. reflexivity.
      * repeat split; try (apply rect_m1; reflexivity). now left.
      * vm_compute. reflexivity.
    + destruct m as [|[|m]]; cbn in Hm |- *; [| |congruence]; (split; [congruence|]); intros i [<-|[<-|[<-|[]]]]; lia.
  - split; [intros [|[|m]]; reflexivity|]. split.
    + repeat split; try (apply rect_m1; reflexivity). now right.
    + split; [|vm_compute; reflexivity]. right. left. cbn. lia.
Qed.
Example C50_ex_window : exists k, legal_event (Fed k k) h1 /\ smooth 3 (Fed k k :: h1) /\ width k = 2 /\
  ~ smooth 5 (Fed k k :: h1).
Proof.
  exists (m1 [[1; 2]; [3; 4]]). split; [repeat split; try (apply rect_m1; reflexivity); now right|].
  split; [|split; [reflexivity|]].
  - cbn [smooth h1]. split; [right; right; left; cbn; lia|]. split; [right; right; left; cbn; lia|]. split; [right; left; cbn; lia|]. split; [now left|exact I].
  - intros [[H|[H|[H|H]]] _]; [discriminate H|cbn in H; lia|cbn in H; lia|cbn in H; lia].
Qed.

(** A step of two tokens fed to a half full window leaves memory that was never written in the window, and drops a step that
    is still inside it. *)
Theorem C50_local_refuted : exists h : list (event nat nat), legal h /\ h <> [] /\ total h = 4 /\ keys h 0 = [1; 2; 3; 4] /\
  forall inc, inc = None \/ inc = Some 1 ->
  exists st, replay (Some 3) 8 inc h = Ok st /\ rows (fst (get st)) = [[None; Some 3; Some 4]].
Proof.
  exists [Fed (m1 [[3; 4]]) (m1 [[3; 4]]); Fed (m1 [[1; 2]]) (m1 [[1; 2]])].
  split.
  { cbn [legal legal_event]. repeat match goal with
    | |- _ /\ _ => split | |- rect _ => apply rect_m1; reflexivity | |- True => exact I | |- _ = _ => reflexivity | |- _ \/ _ => first [left; reflexivity|right; reflexivity] end. }
  split; [congruence|]. split; [reflexivity|]. split; [reflexivity|].
  intros inc' [->| ->]; eexists; (split; [vm_compute; reflexivity|reflexivity]).
Qed.
(** Feeding one step more than the maximum to a state without increment is not an error: the step is lost. *)
Theorem C50_overflow_refuted : exists h : list (event nat nat), legal h /\ total h = 3 /\ keys h 0 = [1; 2; 3] /\
  exists st, replay None 2 None h = Ok st /\ rows (fst (get st)) = [[Some 1; Some 2]].
Proof.
  exists [Fed (m1 [[3]]) (m1 [[3]]); Fed (m1 [[1; 2]]) (m1 [[1; 2]])].
  split.
  { cbn [legal legal_event]. repeat match goal with
    | |- _ /\ _ => split | |- rect _ => apply rect_m1; reflexivity | |- True => exact I | |- _ = _ => reflexivity | |- _ \/ _ => first [left; reflexivity|right; reflexivity] end. }
  split; [reflexivity|]. split; [reflexivity|]. eexists; split; [vm_compute; reflexivity|reflexivity].
Qed.
(** A reordering that keeps the number of rows is ignored by attention over an encoder output: with rows of the sources
    a, a, b, c and the order 2, 2, 3, 3 (a is finished, b and c get two beams each), the rows stay those of a, a, b, c. *)
Theorem C50_cross_refuted : forall a b c : nat, a <> b ->
  let k := m1 [[a]; [a]; [b]; [c]] in
  static_reorder [2; 2; 3; 3] (Static k k) = Ok (Static k k) /\
  nth 0 (rows k) [] <> nth 2 (rows k) [].
Proof. intros a b c N k. split; [reflexivity|]. cbn. congruence. Qed.

Print Assumptions C50_full.
Print Assumptions C50_local.
Print Assumptions C50_local_stepwise.
Print Assumptions C50_memory.
Print Assumptions C50_local_memory.
Print Assumptions C50_increment.
Print Assumptions C50_attend.
Print Assumptions C50_attend_window.
Print Assumptions C50_reorder.
Print Assumptions C50_steps.
Print Assumptions C50_cross.
Print Assumptions C50_cross_reorder_partial.
Print Assumptions C50_local_refuted.
Print Assumptions C50_overflow_refuted.
Print Assumptions C50_cross_refuted.
