(** Vocabulary of the theorems about random number generator bags. *)

From Coq Require Import ZArith List Bool.
From Verif Require Import Rng_Model.
Import ListNotations.

(** Seeds that [manual_seed] accepts. *)
Definition valid_seed (s : Z) : Prop := (0 <= s < 2 ^ 32)%Z.

(** The generators with all those of the bag freshly seeded. *)
Definition seeded {G} (mseed : Z -> G) (b : bag) (s : Z) (h : heap G) (r : ref) : option G :=
  if in_dec Nat.eq_dec r b then option_map (fun _ => mseed s) (nth_error h r) else nth_error h r.

(** The program touches only generators of the bag. *)
Fixpoint stays_in (b : bag) (p : prog) : Prop :=
  match p with
  | PDraw r => In r b
  | PRaise => True
  | PSeq p q | PTry p q => stays_in b p /\ stays_in b q
  | PManualSeed c _ | PSeed c _ => incl c b
  | PTemp c _ p => incl c b /\ stays_in b p
  end.
