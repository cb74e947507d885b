(** C68: streams of fragments of Parquet datasets *)
From Coq Require Import List Bool Arith Lia Permutation.
From Verif Require Import Pq_Model Pq_Spec Pq_Proofs.
Import ListNotations.

(** With a seed, or without shuffling: one order of the files per epoch fixes what is read, whenever the iterator is saved and restored: every call gives the next
    element of the windows of that stream. For a stream without end the statement is about each of its finite parts. *)
Theorem C68_stream : forall (file frag rng : Type) rows whole split shuffle rand_files entropy fragments fraction nb_files shift window_size nb_epoch seed (seeded : nat -> rng) shuffle_window,
  (forall r l, Permutation (rand_files r l) l) -> (forall r l, Permutation (snd (shuffle_window r l)) l) -> (shuffle = false \/ seed <> None) -> 1 <= window_size ->
  exists (order : nat -> list file) (r0 : rng),
    (forall e, Permutation (order e) (truncate_files fragments fraction nb_files)) /\ (forall s, seed = Some s -> r0 = seeded s) /\
    forall E fuel h,
      let stream := flat_map (fun e => elements rows whole split (order e)) (seq 0 E) : list frag in
      nb_epoch = Some E \/ (nb_epoch = None /\ calls h + window_size <= length stream) -> 2 * E + 2 <= fuel ->
      outputs rows whole split shuffle rand_files entropy fragments fraction nb_files shift window_size nb_epoch seed shuffle_window fuel h (init entropy seed seeded)
      = Some (firstn (calls h) (deliver shuffle_window window_size r0 stream)).
Proof.
  intros. exists (files_of shuffle rand_files entropy fragments fraction nb_files shift seed), (fst (new_random entropy seed seeded 0)).
  split; [apply files_perm; auto|]. split; [intros s ->; auto|]. intros E fuel h stream Hn F.
  assert (HE : match nb_epoch with Some n => E <= n | None => True end) by (destruct Hn as [-> | [-> _]]; auto).
  assert (Es : stream = stream_from rows whole split shuffle rand_files entropy fragments fraction nb_files shift seed E 0) by (unfold stream_from; rewrite Nat.sub_0_r; auto).
  apply outputs_ok with (E := E); auto.
  - rewrite Es. apply init_rel; auto.
  - destruct Hn as [Hn|[_ Hn]]; auto. left. rewrite (Permutation_length (deliver_perm _ _ ltac:(eassumption) ltac:(eassumption) _ _)). auto.
Qed.
Print Assumptions C68_stream.

(** A window never lets an element out: the first k windows hold exactly the first k windows of the stream. *)
Theorem C68_windows : forall (X R : Type) shuffle_window window_size (r : R) (l : list X) k,
  (forall r l, Permutation (snd (shuffle_window r l)) l) -> 1 <= window_size ->
  Permutation (firstn (k * window_size) (deliver shuffle_window window_size r l)) (firstn (k * window_size) l) /\ Permutation (deliver shuffle_window window_size r l) l.
Proof. intros. split; [apply windows_perm; auto | apply deliver_perm; auto]. Qed.
Print Assumptions C68_windows.

(** Read to the end, in one go or not: every fragment once per epoch *)
Theorem C68_epochs : forall (file frag rng : Type) rows whole split shuffle rand_files entropy fragments fraction nb_files shift window_size n seed (seeded : nat -> rng) shuffle_window fuel h,
  (forall r l, Permutation (rand_files r l) l) -> (forall r l, Permutation (snd (shuffle_window r l)) l) -> (shuffle = false \/ seed <> None) -> 1 <= window_size -> 2 * n + 2 <= fuel ->
  let all := elements rows whole split (truncate_files (file := file) fragments fraction nb_files) : list frag in
  n * length all <= calls h ->
  exists out, outputs rows whole split shuffle rand_files entropy fragments fraction nb_files shift window_size (Some n) seed shuffle_window fuel h (init entropy seed seeded) = Some out /\
    Permutation out (concat (repeat all n)).
Proof.
  intros. assert (HE : match Some n with Some m => n <= m | None => True end) by auto.
  set (st := stream_from rows whole split shuffle rand_files entropy fragments fraction nb_files shift seed n 0).
  assert (P : Permutation st (concat (repeat all n))) by (apply stream_perm; auto).
  exists (deliver shuffle_window window_size (fst (new_random entropy seed seeded 0)) st). split.
  - rewrite outputs_ok with (E := n) (out := deliver shuffle_window window_size (fst (new_random entropy seed seeded 0)) st); auto; [|apply init_rel; auto].
    f_equal. apply firstn_all2. rewrite (Permutation_length (deliver_perm _ _ ltac:(eassumption) ltac:(eassumption) _ _)), (Permutation_length P).
    assert (L : forall k, length (concat (repeat all k)) = k * length all) by (induction k; cbn; auto; rewrite app_length; lia). rewrite L. auto.
  - rewrite <- P. apply deliver_perm; auto.
Qed.
Print Assumptions C68_epochs.

(** After a reset, from whatever state, everything is delivered as by a new iterator. *)
Theorem C68_reset : forall (file frag rng : Type) rows whole split shuffle rand_files entropy fragments fraction nb_files shift window_size nb_epoch seed (seeded : nat -> rng) shuffle_window i E fuel h,
  (forall r l, Permutation (rand_files r l) l) -> (forall r l, Permutation (snd (shuffle_window r l)) l) -> seed <> None -> 1 <= window_size -> 2 * E + 2 <= fuel ->
  nb_epoch = Some E \/ (nb_epoch = None /\ calls h + window_size <= E * length (elements rows whole split (truncate_files (file := file) fragments fraction nb_files) : list frag)) ->
  let out := outputs rows whole split shuffle rand_files entropy fragments fraction nb_files shift window_size nb_epoch seed shuffle_window fuel h in
  out (reset entropy seed seeded i) = out (init entropy seed seeded) /\ out (init entropy seed seeded) <> None.
Proof.
  intros. assert (HE : match nb_epoch with Some m => E <= m | None => True end) by (destruct H4 as [-> | [-> _]]; auto).
  set (st := stream_from rows whole split shuffle rand_files entropy fragments fraction nb_files shift seed E 0).
  set (all := elements rows whole split (truncate_files fragments fraction nb_files)) in *.
  assert (P : Permutation st (concat (repeat all E))) by (apply stream_perm; auto).
  assert (L : forall k, length (concat (repeat all k)) = k * length all) by (induction k; cbn; auto; rewrite app_length; lia).
  assert (C : calls h + window_size <= length (deliver shuffle_window window_size (fst (new_random entropy seed seeded 0)) st) \/ nb_epoch = Some E).
  { destruct H4 as [-> | [_ C]]; auto. left. rewrite (Permutation_length (deliver_perm _ _ ltac:(eassumption) ltac:(eassumption) _ _)), (Permutation_length P), L. auto. }
  set (o := deliver shuffle_window window_size (fst (new_random entropy seed seeded 0)) st) in *.
  assert (Ok : forall j, rel rows whole split shuffle rand_files entropy fragments fraction nb_files shift window_size seed shuffle_window E j o -> out j = Some (firstn (calls h) o)).
  { intros j Rj. unfold out. apply outputs_ok with (E := E); auto. }
  rewrite (Ok (init entropy seed seeded)), (Ok (reset entropy seed seeded i)); [split; auto; discriminate| |]; [apply reset_rel|apply init_rel]; auto.
Qed.
Print Assumptions C68_reset.

(** The files within the limits: the first ones, as many as the stricter of the limits says *)
Theorem C68_files : forall (file : Type) (l : list file) fraction nb_files,
  let out := truncate_files l fraction nb_files in
  (exists rest, l = out ++ rest) /\ length out = Nat.min (match nb_files with Some n => n | None => length l end) (match fraction with Some f => Nat.min (f (length l)) (length l) | None => length l end).
Proof.
  intros file l fr nf out. unfold out, truncate_files. set (k := match fr with Some f => firstn (f (length l)) l | None => l end).
  assert (K : (exists rest, l = k ++ rest) /\ length k = match fr with Some f => Nat.min (f (length l)) (length l) | None => length l end).
  { unfold k. destruct fr as [f|]; [split; [exists (skipn (f (length l)) l); symmetry; apply firstn_skipn|apply firstn_length]|]. split; [exists []; rewrite app_nil_r; auto|auto]. }
  destruct K as [[rest K1] K2]. assert (Kl : length k <= length l) by (rewrite K1, app_length; lia). destruct nf as [n|]; [|split; eauto; lia]. destruct (n <? length k) eqn:B.
  - apply Nat.ltb_lt in B. split; [exists (skipn n k ++ rest); rewrite app_assoc, firstn_skipn; auto|]. rewrite firstn_length. lia.
  - apply Nat.ltb_ge in B. split; eauto. lia.
Qed.
Print Assumptions C68_files.

(** ** The parts of the ranks *)
Section Parts.
  Context {X : Type}.
  Variable dec : forall x y : X, {x = y} + {x <> y}.
  Notation count x l := (count_occ dec l x).
  Notation total f w := (list_sum (map f (seq 0 w))).
  Lemma total_ext : forall f g k w, (forall r, k <= r < k + w -> f r = g r) -> list_sum (map f (seq k w)) = list_sum (map g (seq k w)).
  Proof. intros f g k w H. f_equal. apply map_ext_in. intros r I. apply in_seq in I. auto. Qed.
  Lemma total_one : forall w k v a, k <= v < k + w -> list_sum (map (fun r => if v =? r then a else 0) (seq k w)) = a.
  Proof.
    induction w; intros k v a H; [lia|]. cbn [seq map list_sum fold_right]. destruct (v =? k) eqn:B.
    - apply Nat.eqb_eq in B. subst. fold (list_sum (map (fun r => if k =? r then a else 0) (seq (S k) w))). rewrite (total_ext _ (fun _ => 0)).
      + clear. generalize (S k). induction w; intros m; cbn; auto. 
      + intros r Hr. destruct (k =? r) eqn:C; auto. apply Nat.eqb_eq in C. lia.
    - apply Nat.eqb_neq in B. apply IHw. lia.
  Qed.
  Lemma filter_count : forall (f : X -> bool) l x, count x (filter f l) = if f x then count x l else 0.
  Proof.
    intros f. induction l as [|y l IH]; intros x; cbn [filter count_occ]. { destruct (f x); auto. }
    destruct (dec y x) as [->|N].
    - destruct (f x) eqn:F; cbn [count_occ]; rewrite IH, F; auto. destruct (dec x x); congruence.
    - destruct (f y); cbn [count_occ]; rewrite IH; auto. destruct (dec y x); congruence.
  Qed.
  Lemma hash_parts : forall w (h : X -> nat) (outs : nat -> list X) n x, 0 < w -> (forall r, r < w -> count x (outs r) = n) -> total (fun r => count x (filter (fun y => h y mod w =? r) (outs r))) w = n.
  Proof.
    intros w h outs n x W H. rewrite (total_ext _ (fun r => if h x mod w =? r then n else 0)); [apply total_one; pose proof (Nat.mod_upper_bound (h x) w); lia|].
    intros r Hr. rewrite filter_count. destruct (h x mod w =? r); auto. apply H. lia.
  Qed.
  Lemma pos_parts : forall w l x k, 0 < w -> total (fun r => count x (map snd (filter (fun p => fst p mod w =? r) (combine (seq k (length l)) l)))) w = count x l.
  Proof.
    intros w l x k W. revert k. induction l as [|y l IH]; intros k.
    - assert (Z : forall n m, list_sum (map (fun _ : nat => 0) (seq m n)) = 0) by (induction n; intros m; cbn; auto). apply Z.
    - cbn [length seq combine filter count_occ]. rewrite (total_ext _ (fun r => (if k mod w =? r then (if dec y x then 1 else 0) else 0) + count x (map snd (filter (fun p => fst p mod w =? r) (combine (seq (S k) (length l)) l))))).
      + assert (S2 : forall f g m n, list_sum (map (fun r => f r + g r) (seq m n)) = list_sum (map f (seq m n)) + list_sum (map g (seq m n))).
        { intros f g m n. revert m. induction n; intros m; cbn; auto. unfold list_sum in *. rewrite IHn. lia. }
        rewrite S2, IH, total_one by (pose proof (Nat.mod_upper_bound k w); lia). destruct (dec y x); auto.
      + intros r _. cbn [fst]. destruct (k mod w =? r); auto. cbn [map snd count_occ]. destruct (dec y x); auto.
  Qed.
End Parts.

(** Every rank has the same seed and reads to the end: each fragment is delivered to one rank per epoch, with files shifted per rank or not. *)
Theorem C68_ranks : forall (file frag rng : Type) (dec : forall x y : frag, {x = y} + {x <> y}) rows whole split shuffle rand_files fragments fraction nb_files window_size n seed (seeded : nat -> rng) shuffle_window
    circular (shift : nat -> nat -> nat) hash world entropy (hist : nat -> list op) fuel x,
  (forall r l, Permutation (rand_files r l) l) -> (forall r l, Permutation (snd (shuffle_window r l)) l) -> seed <> None -> 1 <= window_size -> 2 * n + 2 <= fuel -> 0 < world ->
  let all := elements rows whole split (truncate_files (file := file) fragments fraction nb_files) : list frag in
  (forall r, n * length all <= calls (hist r)) ->
  exists out : nat -> list frag,
    (forall r, outputs rows whole split shuffle rand_files (entropy r) fragments fraction nb_files (if circular : bool then Some (shift r) else None) window_size (Some n) seed shuffle_window fuel (hist r) (init (entropy r) seed seeded) = Some (out r)) /\
    list_sum (map (fun r => count_occ dec (rank_part circular hash r world (out r)) x) (seq 0 world)) = n * count_occ dec all x.
Proof.
  intros. assert (HE : match Some n with Some m => n <= m | None => True end) by auto.
  destruct seed as [s|] eqn:Eseed; [|easy].
  set (sh := fun r => if circular then Some (shift r) else None).
  set (st := fun r => stream_from rows whole split shuffle rand_files (entropy r) fragments fraction nb_files (sh r) (Some s) n 0).
  assert (P : forall r, Permutation (st r) (concat (repeat all n))) by (intros r; apply stream_perm; auto).
  assert (L : forall k, length (concat (repeat all k)) = k * length all) by (induction k; cbn; auto; rewrite app_length; lia).
  assert (C : forall k, count_occ dec (concat (repeat all k)) x = k * count_occ dec all x) by (induction k; cbn; auto; rewrite count_occ_app; lia).
  assert (D : forall r, Permutation (deliver shuffle_window window_size (seeded s) (st r)) (st r)) by (intros r; apply deliver_perm; auto).
  exists (fun r => deliver shuffle_window window_size (seeded s) (st r)). split.
  - intros r. change (if circular then Some (shift r) else None) with (sh r).
    rewrite outputs_ok with (E := n) (out := deliver shuffle_window window_size (seeded s) (st r)); auto.
    + f_equal. apply firstn_all2. rewrite (Permutation_length (D r)), (Permutation_length (P r)), L. auto.
    + apply (init_rel rows whole split shuffle rand_files (entropy r) fragments fraction nb_files (sh r) window_size (Some s) seeded shuffle_window); auto.
  - unfold rank_part. destruct circular.
    + apply hash_parts; auto. intros r _. rewrite (proj1 (Permutation_count_occ dec _ _) (D r)), (proj1 (Permutation_count_occ dec _ _) (P r)). apply C.
    + assert (Same : forall r, st r = st 0). { intros r. unfold st, sh, stream_from, files_of, ordered. cbn [p_seed seed_of]. destruct shuffle; auto. }
      rewrite (total_ext _ (fun r => count_occ dec (map snd (filter (fun p => fst p mod world =? r) (combine (seq 0 (length (deliver shuffle_window window_size (seeded s) (st 0)))) (deliver shuffle_window window_size (seeded s) (st 0))))) x)).
      * rewrite pos_parts by auto. rewrite (proj1 (Permutation_count_occ dec _ _) (D 0)), (proj1 (Permutation_count_occ dec _ _) (P 0)). apply C.
      * intros r _. rewrite Same. auto.
Qed.
Print Assumptions C68_ranks.

(** ** Listed fragments *)
(** What is listed is a beginning of all fragments; it ends early only at a limit, and at the first fragment that reaches one. *)
Theorem C68_limits : forall (file frag : Type) rows whole split (n_rows : frag -> nat) nb_fragments nb_rows (files : list file),
  let all := elements rows whole split files : list frag in
  let out := list_fragments rows whole split n_rows nb_fragments nb_rows files in
  let nr l := list_sum (map n_rows l) in
  (exists rest, all = out ++ rest) /\
  (length out < length all -> (exists n, nb_fragments = Some n /\ n <= length out) \/ (exists n, nb_rows = Some n /\ n <= nr out)) /\
  (forall k n, nb_fragments = Some n -> 1 <= k < length out -> k < n) /\
  (forall k n, nb_rows = Some n -> 1 <= k < length out -> nr (firstn k out) < n) /\
  (forall n, nb_fragments = Some n -> 1 <= n -> length out <= n).
Proof.
  intros file frag rows whole split n_rows nf nr0 files all out nr.
  assert (Q : forall l, nr l = list_sum (map n_rows l)) by auto.
  assert (K : forall l tr tf, let o := limited n_rows nf nr0 l tr tf in
    (exists rest, l = o ++ rest) /\ (length o < length l -> (exists n, nf = Some n /\ n <= tf + length o) \/ (exists n, nr0 = Some n /\ n <= tr + nr o)) /\
    (forall k n, nf = Some n -> 1 <= k < length o -> tf + k < n) /\ (forall k n, nr0 = Some n -> 1 <= k < length o -> tr + nr (firstn k o) < n)).
  { induction l as [|x l IH]; intros tr tf; cbn [limited]. { cbn. split; [exists []; auto|]. split; [lia|]. split; intros; lia. }
    destruct (reached nf (S tf)) eqn:R1; [|destruct (reached nr0 (tr + n_rows x)) eqn:R2].
    - cbv zeta. split; [exists l; auto|]. split; [|split; cbn; intros; lia]. intros _. left. unfold reached in R1. destruct nf as [n|]; [|discriminate]. exists n. split; auto. apply Nat.leb_le in R1. cbn. lia.
    - cbv zeta. split; [exists l; auto|]. split; [|split; cbn; intros; lia]. intros _. right. unfold reached in R2. destruct nr0 as [n|]; [|discriminate]. exists n. split; auto. apply Nat.leb_le in R2. unfold nr. cbn. lia.
    - destruct (IH (tr + n_rows x) (S tf)) as ((rest & A) & B & C & D). cbv zeta. set (o := limited n_rows nf nr0 l (tr + n_rows x) (S tf)) in *. split; [exists rest; rewrite A at 1; auto|]. split; [|split].
      + cbn [length]. intros Lt. destruct (B ltac:(lia)) as [(n & E1 & E2)|(n & E1 & E2)]; [left; exists n; split; auto; lia|right; exists n; split; auto; unfold nr in *; cbn; unfold list_sum in *; lia].
      + intros [|k] n En [H1 H2]; [lia|]. cbn [length] in H2. destruct k as [|k]; [|specialize (C (S k) n En ltac:(lia)); lia]. unfold reached in R1. rewrite En in R1. apply Nat.leb_gt in R1. lia.
      + intros [|k] n En [H1 H2]; [lia|]. cbn [length] in H2. unfold nr in *. cbn [firstn map list_sum fold_right]. destruct k as [|k]; [|specialize (D (S k) n En ltac:(lia)); unfold list_sum in *; lia]. unfold reached in R2. rewrite En in R2. apply Nat.leb_gt in R2. cbn. lia. }
  assert (K' : forall l tr, let o := limited_rows n_rows nr0 l tr in
    (exists rest, l = o ++ rest) /\ (length o < length l -> exists n, nr0 = Some n /\ n <= tr + nr o) /\ (forall k n, nr0 = Some n -> 1 <= k < length o -> tr + nr (firstn k o) < n)).
  { induction l as [|x l IH]; intros tr; cbn [limited_rows]. { cbn. split; [exists []; auto|]. split; [lia|]. intros; lia. }
    destruct (reached nr0 (tr + n_rows x)) eqn:R2.
    - cbv zeta. split; [exists l; auto|]. split; [|cbn; intros; lia]. intros _. unfold reached in R2. destruct nr0 as [n|]; [|discriminate]. exists n. split; auto. apply Nat.leb_le in R2. unfold nr. cbn. lia.
    - destruct (IH (tr + n_rows x)) as ((rest & A) & B & D). cbv zeta. set (o := limited_rows n_rows nr0 l (tr + n_rows x)) in *. split; [exists rest; rewrite A at 1; auto|]. split.
      + cbn [length]. intros Lt. destruct (B ltac:(lia)) as (n & E1 & E2). exists n; split; auto; unfold nr in *; cbn; unfold list_sum in *; lia.
      + intros [|k] n En [H1 H2]; [lia|]. cbn [length] in H2. unfold nr in *. cbn [firstn map list_sum fold_right]. destruct k as [|k]; [|specialize (D (S k) n En ltac:(lia)); unfold list_sum in *; lia]. unfold reached in R2. rewrite En in R2. apply Nat.leb_gt in R2. cbn. lia. }
  unfold out, all, list_fragments, elements. destruct split.
  - destruct (K (flat_map rows files) 0 0) as (A & B & C & D). cbv zeta in A, B, C, D. set (o := limited n_rows nf nr0 (flat_map rows files) 0 0) in *. split; auto. split; auto. split; auto. split; auto.
    intros n En Hn. destruct (le_lt_dec (length o) 1); [lia|]. specialize (C (length o - 1) n En ltac:(lia)). lia.
  - set (l := match nf with Some n => firstn n (map whole files) | None => map whole files end). destruct (K' l 0) as (A & B & D). cbv zeta in A, B, D. set (o := limited_rows n_rows nr0 l 0) in *. destruct A as [rest A].
    assert (Lo : length o <= length l) by (rewrite A, app_length; lia). assert (Ll : forall n, nf = Some n -> length l <= n) by (intros n En; unfold l; rewrite En, firstn_length; lia).
    split; [|split; [|split; [|split]]]; auto.
    + unfold l in A. destruct nf as [n|]; [|exists rest; auto]. exists (rest ++ skipn n (map whole files)). rewrite app_assoc, <- A. symmetry. apply firstn_skipn.
    + intros Lt. destruct (le_lt_dec (length l) (length o)) as [G|G]; [|right; auto]. left. unfold l in *. destruct nf as [n|]; [|lia]. exists n. split; auto. rewrite firstn_length in *. lia.
    + intros k n En Hk. specialize (Ll n En). lia.
    + intros n En _. specialize (Ll n En). lia.
Qed.
Print Assumptions C68_limits.

(** The sequence that is then read: the listed fragments in some order, once per epoch, epoch after epoch *)
Theorem C68_listed_epochs : forall (frag rng : Type) (permutation : rng -> list frag -> rng * list frag) nb_epochs shuffle r l s again,
  (forall r l, Permutation (snd (permutation r l)) l) -> schedule permutation nb_epochs shuffle r l = Some (s, again) ->
  (again = true <-> nb_epochs = None) /\
  exists blocks, s = concat blocks /\ Forall (fun b => Permutation b l) blocks /\ (forall n, nb_epochs = Some n -> length blocks = n) /\ (nb_epochs = None -> blocks <> []).
Proof.
  intros frag rng permutation nb shuffle r l s again H E. set (n := match nb with Some n => n | None => 100 end).
  assert (B : forall k r, exists blocks, permutations permutation k r l = concat blocks /\ Forall (fun b => Permutation b l) blocks /\ length blocks = k).
  { induction k; intros r1; cbn [permutations]. { exists []; auto. } destruct (permutation r1 l) as [r2 p] eqn:Ep. destruct (IHk r2) as (bl & -> & F & L). exists (p :: bl). split; auto. split; [constructor; auto|cbn; auto].
    specialize (H r1 l). rewrite Ep in H. auto. }
  assert (G : exists blocks, s = concat blocks /\ Forall (fun b => Permutation b l) blocks /\ length blocks = n).
  { unfold schedule in E. fold n in E. destruct shuffle.
    - destruct (n =? 0); [discriminate|]. assert (s = permutations permutation n r l) by congruence. subst s. apply B.
    - assert (s = concat (repeat l n)) by congruence. subst s. exists (repeat l n). split; auto. split; [|apply repeat_length]. apply Forall_forall. intros b I. apply repeat_spec in I. subst. auto. }
  split.
  - assert (again = match nb with Some _ => false | None => true end). { unfold schedule in E. fold n in E. destruct shuffle; [destruct (n =? 0)|]; congruence. } subst again. destruct nb; split; congruence.
  - destruct G as (bl & A & F & L). exists bl. split; auto. split; auto. unfold n in L. split; [intros m ->; auto|]. intros -> ->. discriminate.
Qed.
Print Assumptions C68_listed_epochs.

(** ** Findings *)
Section Findings.
  Definition one (f : nat) : list nat := [f].
  Definition rand (r : nat) (l : list nat) : list nat := if r =? 0 then l else rev l.
  Lemma rand_perm : forall r l, Permutation (rand r l) l. Proof. intros r l. unfold rand. destruct (r =? 0); auto. symmetry. apply Permutation_rev. Qed.
  Definition keep (r : nat) (l : list nat) : nat * list nat := (r, l).
  Lemma keep_perm : forall r l, Permutation (snd (keep r l)) l. Proof. auto. Qed.
  Definition flip (k : nat) : nat := if k =? 2 then 1 else 0.
  (** With shuffling and no seed the files are shuffled anew whenever the stream is iterated again; this also happens in the middle of an epoch, after a window that
      spans the end of the epoch before it: in two epochs a fragment is delivered once and another three times. *)
  Theorem C68_unseeded_refuted : ~ (forall rand_files entropy (fragments : list nat) window_size n fuel h,
    (forall r l, Permutation (rand_files r l) l) -> 1 <= window_size -> 2 * n + 2 <= fuel -> n * length fragments <= calls h ->
    forall out, outputs one id true true rand_files entropy fragments None None None window_size (Some n) None keep fuel h (init entropy None id) = Some out -> Permutation out (concat (repeat fragments n))).
  Proof.
    intros H. specialize (H rand flip [0; 1; 2] 2 2 10 (repeat Call 6) rand_perm ltac:(lia) ltac:(lia) ltac:(cbn; lia) _ eq_refl). cbn in H. rewrite (Permutation_count_occ Nat.eq_dec) in H. specialize (H 0). cbn in H. discriminate.
  Qed.
  Print Assumptions C68_unseeded_refuted.
  (** With shuffling and no seed each rank has an order of its own, and the shards overlap: a fragment is delivered to no rank. *)
  Theorem C68_unseeded_ranks_refuted : ~ (forall rand_files (entropy : nat -> nat -> nat) (fragments : list nat) window_size fuel (out : nat -> list nat) x,
    (forall r l, Permutation (rand_files r l) l) -> 1 <= window_size -> 4 <= fuel ->
    (forall r, outputs one id true true rand_files (entropy r) fragments None None None window_size (Some 1) None keep fuel (repeat Call (length fragments)) (init (entropy r) None id) = Some (out r)) ->
    list_sum (map (fun r => count_occ Nat.eq_dec (rank_part false id r 2 (out r)) x) (seq 0 2)) = count_occ Nat.eq_dec fragments x).
  Proof.
    intros H. specialize (H rand (fun r _ => r) [0; 1] 2 10 (fun r => rand r [0; 1]) 1 rand_perm ltac:(lia) ltac:(lia)). 
    assert (A : forall r, outputs one id true true rand (fun _ => r) [0; 1] None None None 2 (Some 1) None keep 10 (repeat Call 2) (init (fun _ => r) None id) = Some (rand r [0; 1])) by (intros [|r]; reflexivity).
    specialize (H A). cbn in H. discriminate.
  Qed.
  Print Assumptions C68_unseeded_ranks_refuted.
  (** When no file is left, because no partition passes the filters, and the number of epochs is not limited, asking for an element never returns. *)
  Theorem C68_empty_refuted : forall (file frag rng : Type) rows whole split entropy fraction nb_files window_size seed (seeded : nat -> rng) shuffle_window fuel, 1 <= window_size ->
    next rows whole split false (fun _ l => l) entropy ([] : list file) fraction nb_files None window_size None seed shuffle_window fuel (init entropy seed seeded) = (Hang : @result file frag rng).
  Proof.
    intros. assert (T : truncate_files ([] : list file) fraction nb_files = []) by (unfold truncate_files; destruct fraction as [fr|]; rewrite ?firstn_nil; destruct nb_files as [nf|]; auto; destruct (nf <? _); rewrite ?firstn_nil; auto).
    assert (R : forall f i rg w, match rg with Some g => g_cur g = None /\ g_files g = [] | None => True end -> rep_next rows whole split false (fun _ l => l) entropy ([] : list file) fraction nb_files None None seed f i rg w = (Diverge : @step file frag rng)).
    { induction f; intros i rg w G; auto. cbn [rep_next]. destruct rg as [g|].
      - destruct G as [G1 G2]. unfold pull. rewrite G1, G2. destruct split; cbn [pull_files]; apply IHf; auto.
      - cbn [more]. unfold iter, ordered. rewrite T. apply IHf. cbn. rewrite skipn_nil. auto. }
    unfold init. destruct (new_random entropy seed seeded 0) as [r e]. unfold next. cbn [win_it window index length Nat.leb]. destruct window_size as [|w]; [lia|]. cbn [collect]. rewrite R by auto. auto.
  Qed.
  Print Assumptions C68_empty_refuted.
  (** A limit of no fragments lists one, when files are split into row groups. *)
  Theorem C68_limit_zero_refuted : exists rows (files : list nat), length (list_fragments (frag := nat) rows id true id (Some 0) None files) = 1.
  Proof. exists one, [7; 8]. reflexivity. Qed.
  Print Assumptions C68_limit_zero_refuted.
End Findings.

(** A case that meets the hypotheses: three files, five row groups, shuffled with a seed, windows of two, two epochs, saved twice on the way *)
Definition ex_rows (f : nat) : list nat := seq (10 * f) (S (f mod 2)).
Definition ex_shuffle (r : nat) (l : list nat) : nat * list nat := (S r, if Nat.even r then l else rev l).
Example C68_case : 
  outputs ex_rows id true true rand id [1; 2; 3] None None (Some (fun n => 1)) 2 (Some 2) (Some 0) ex_shuffle 10 (repeat Call 3 ++ [Save] ++ repeat Call 3 ++ [Save] ++ repeat Call 6) (init id (Some 0) id)
  = Some [20; 30; 10; 31; 11; 20; 11; 10; 30; 31]
  /\ (forall r l, Permutation (rand r l) l) /\ (forall r l, Permutation (snd (ex_shuffle r l)) l).
Proof.
  split; [vm_compute; reflexivity|]. split; [apply rand_perm|]. intros r l. unfold ex_shuffle. cbn. destruct (Nat.even r); auto. symmetry. apply Permutation_rev.
Qed.
Example C68_case_limits : list_fragments ex_rows id true (fun _ => 4) (Some 4) (Some 9) [1; 2; 3] = [10; 11; 20].
Proof. reflexivity. Qed.
Example C68_case_ranks : map (fun r => rank_part true id r 2 [10; 11; 20; 30; 31]) [0; 1] = [[10; 20; 30]; [11; 31]] /\ map (fun r => rank_part false id r 2 [10; 11; 20; 30; 31]) [0; 1] = [[10; 20; 31]; [11; 30]].
Proof. split; reflexivity. Qed.
