(** C48: random number generator bags. [G] is the state of a generator, [mseed] seeds it, [draw] draws from it. *)

From Coq Require Import ZArith List Bool Arith Lia.
From Verif Require Import Rng_Model Rng_Spec Rng_Proofs.
Import ListNotations.

(** For every program [p], also one that raises: under [temporary_manual_seed] it runs as in the state where all generators of
    the bag are freshly seeded, and afterwards these generators have their old states. An invalid seed raises before [p] is run. *)
Theorem C48_temporary_seed : forall G V (mseed : Z -> G) (draw : G -> V * G) b s p h,
  let '(h', t, o) := exec mseed draw (PTemp b s p) h in
  (valid_seed s -> exists h1 h2, (forall r, nth_error h1 r = seeded mseed b s h r) /\ exec mseed draw p h1 = (h2, t, o) /\
     (forall r, nth_error h' r = if in_dec Nat.eq_dec r b then nth_error h r else nth_error h2 r)) /\
  (~ valid_seed s -> h' = h /\ t = [] /\ o = Raised ValueError).
Proof. exact temp_lemma. Qed.
Print Assumptions C48_temporary_seed.

(** If the block uses only generators of the bag, what comes after it draws the same numbers as without the block. *)
Theorem C48_transparent : forall G V (mseed : Z -> G) (draw : G -> V * G) b s p q h, stays_in b p ->
  fst (fst (exec mseed draw (PTemp b s p) h)) = h /\
  (snd (exec mseed draw (PTemp b s p) h) = Returned ->
     exec mseed draw (PSeq (PTemp b s p) q) h =
       (let '(h', t, o) := exec mseed draw q h in (h', snd (fst (exec mseed draw (PTemp b s p) h)) ++ t, o))) /\
  ((exists e, snd (exec mseed draw (PTemp b s p) h) = Raised e) ->
     exec mseed draw (PTry (PTemp b s p) q) h =
       (let '(h', t, o) := exec mseed draw q h in (h', snd (fst (exec mseed draw (PTemp b s p) h)) ++ t, o))).
Proof.
  intros G V mseed draw b s p q h HS. split; [apply temp_transparent_lemma; assumption|].
  split; [apply seq_after_lemma; assumption|apply try_after_lemma; assumption].
Qed.
Print Assumptions C48_transparent.

(** [manual_seed] and [seed] put all generators of the bag, and no others, into the same seeded state. *)
Theorem C48_seed : forall G (mseed : Z -> G) b s h,
  (valid_seed s -> exists h', manual_seed mseed b s h = (h', Returned) /\ forall r, nth_error h' r = seeded mseed b s h r) /\
  (~ valid_seed s -> manual_seed mseed b s h = (h, Raised ValueError)) /\
  forall rs r, nth_error (seed_bag mseed b rs h) r = seeded mseed b rs h r.
Proof.
  intros G mseed b s h. destruct (manual_seed_lemma G mseed b s h) as [H1 H2].
  split; [assumption|]. split; [assumption|]. intros rs r. apply seed_lemma.
Qed.
Print Assumptions C48_seed.

(** A saved state restores the generators of the bag; every other dictionary is rejected. *)
Theorem C48_state_dict : forall G b (h h2 : heap G), (forall r, In r b -> r < length h) -> length h2 = length h ->
  exists h3, load_state_dict b (state_dict b h) h2 = (h3, Returned) /\
    forall r, nth_error h3 r = if in_dec Nat.eq_dec r b then nth_error h r else nth_error h2 r.
Proof. exact roundtrip_lemma. Qed.
Print Assumptions C48_state_dict.

Theorem C48_load_errors : forall G b (sd : state G) h,
  (snd (load_state_dict b sd h) = Returned <->
    exists l, sd_generators sd = Gens l /\ length l = length b /\ (forall s, In s l -> s <> None) /\ sd_extra sd = false) /\
  (snd (load_state_dict b sd h) = Returned \/ snd (load_state_dict b sd h) = Raised StateDictError).
Proof. exact load_error_lemma. Qed.
Print Assumptions C48_load_errors.

(** A counter as generator; a program with nested blocks, one of which raises. *)
Definition zseed (s : Z) : Z := (1000 * s)%Z.
Definition zdraw (g : Z) : Z * Z := (g, (g + 1)%Z).
Definition ex_prog : prog := PTry (PSeq (PDraw 0) (PTemp [1] 7 (PSeq (PDraw 1) PRaise))) (PSeq (PDraw 1) (PDraw 0)).

Example C48_example : stays_in [0; 1] ex_prog /\ valid_seed 3 /\
  exec zseed zdraw (PSeq (PDraw 0) (PSeq (PTemp [0; 1] 3 ex_prog) (PSeq (PDraw 0) (PDraw 1)))) [5; 60]%Z =
  ([7; 61]%Z, [5; 3000; 7000; 3000; 3001; 6; 60]%Z, Returned).
Proof.
  split; [|split; [split; [discriminate|reflexivity]|vm_compute; reflexivity]].
  simpl. intuition.
Qed.
