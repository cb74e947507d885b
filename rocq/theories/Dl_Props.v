From Coq Require Import List Bool Arith Lia.
Import ListNotations.
From Verif Require Import Dl_Model Dl_Spec Dl_Proofs.

(** * C63: the asset cache hands out complete assets only

    For every history of calls, network errors, and stops of the process at any point but the ones excluded by [no_leftover]: what a call (without
    local_only) returns is the complete asset. Missing for the full claim: stops while data is being received or an asset is being removed, see below. *)
Theorem C63_complete_partial : forall (name byte : Type) name_dec file (good : list byte) archive,
  (forall l, archive file good = Some (Some l) -> NoDup (map fst l)) -> forall tr s (d : @dir name byte),
  reach name_dec file good archive empty tr s -> Forall no_leftover tr -> In (Returned false d) tr -> complete file good archive d.
Proof. intros name byte name_dec file good archive N tr s d R F I0. exact (returned_in name_dec file good archive N _ tr s d (inv_empty file good archive) R F I0). Qed.
Print Assumptions C63_complete_partial.

(** With local_only too, if moreover no extraction was interrupted *)
Theorem C63_local_partial : forall (name byte : Type) name_dec file (good : list byte) archive,
  (forall l, archive file good = Some (Some l) -> NoDup (map fst l)) -> forall tr s s' b (d : @dir name byte),
  reach name_dec file good archive empty tr s -> Forall no_leftover tr -> Forall no_interrupted tr -> step name_dec file good archive s (Some (Returned b d)) s' ->
  complete file good archive d.
Proof.
  intros name byte name_dec file good archive N tr s s' b d R F G H.
  exact (local_complete name_dec file good archive s b d s' (inv_reach name_dec file good archive N _ _ _ (inv_empty _ _ _) R F) (inv2_reach name_dec file good archive N tr s R F G) H).
Qed.
Print Assumptions C63_local_partial.

(** A call with force that is not interrupted returns the complete asset, whatever was in the cache. *)
Theorem C63_force : forall (name byte : Type) name_dec file (good : list byte) archive,
  (forall l, archive file good = Some (Some l) -> NoDup (map fst l)) -> forall x tr s (d : @dir name byte),
  reach name_dec file good archive (x, CleanA) tr s -> Forall no_crash tr -> In (Returned false d) tr -> complete file good archive d.
Proof. intros name byte name_dec file good archive N x tr s d R F I0. exact (force_complete name_dec file good archive N x tr s d R F I0). Qed.
Print Assumptions C63_force.

(** The server is asked only if there is neither an asset nor a finished download in the cache. *)
Theorem C63_cached : forall (name byte : Type) name_dec file (good : list byte) archive tr (s s' : @state name byte),
  reach name_dec file good archive empty tr s -> step name_dec file good archive s (Some Fetch) s' -> asset (fst s) = None /\ download (fst s) = None.
Proof. intros name byte name_dec file good archive tr s s' R H. pose proof (inv4_reach name_dec file good archive tr s R) as J. inversion H; subst. exact J. Qed.
Print Assumptions C63_cached.

(** ** Findings *)
Ltac st R tac := eapply r_step in R; [|tac; fail]; cbn in R.
Definition plain (n : nat) (c : list nat) : option (option (@dir nat nat)) := None.
Definition packed (n : nat) (c : list nat) : option (option (@dir nat nat)) := Some (Some [(1, [11]); (2, [12])]).
Notation plain_reach := (reach Nat.eq_dec 0 [1; 2; 3] plain).
Notation packed_reach := (reach Nat.eq_dec 0 [1; 2; 3] packed).

(** The process stops while receiving the data. The next call downloads the file, next to the truncated one left behind, takes the first file of the
    directory for the asset and removes the others: it may return the truncated file, and so will all later calls. *)
Theorem C63_truncated_refuted : exists tr s, plain_reach empty tr s /\ tr = [Fetch; Crashed (Write 7 1); Fetch; Returned false [(7, [1])]] /\ fst s = FS (Some [(7, [1])]) None None.
Proof.
  pose proof (r_start Nat.eq_dec 0 [1; 2; 3] plain empty) as R. unfold empty in R at 2.
  st R ltac:(apply s_call). st R ltac:(apply s_missing). st R ltac:(apply s_mktmp). st R ltac:(apply (s_open _ _ _ _ _ _ _ 7); [intros []|discriminate]).
  st R ltac:(apply (s_write _ _ _ _ _ _ _ _ _ 1); cbn; lia). st R ltac:(apply s_crash; discriminate).
  st R ltac:(apply s_call). st R ltac:(apply s_missing). st R ltac:(apply s_mktmp). st R ltac:(apply (s_open _ _ _ _ _ _ _ 8); [intros [E|[]]; discriminate|discriminate]).
  st R ltac:(apply (s_write _ _ _ _ _ _ _ _ _ 3); cbn; lia). st R ltac:(apply s_full; reflexivity). st R ltac:(eapply s_name; left; reflexivity). st R ltac:(apply s_move). st R ltac:(apply s_ensure).
  st R ltac:(apply (s_plain _ _ _ _ _ _ _ 7 [1]); [cbn; auto|reflexivity]). st R ltac:(apply (s_rm _ _ _ _ _ [])). st R ltac:(apply s_rm_end). st R ltac:(apply s_return).
  eexists _, _. split; [exact R|]. split; reflexivity.
Qed.
Print Assumptions C63_truncated_refuted.

(** The process stops while force removes the old asset. Later calls return what is left of it. *)
Theorem C63_half_removed_refuted : exists tr s, packed_reach empty tr s /\ exists tr', tr = tr' ++ [Crashed CleanA; Returned false [(1, [11])]].
Proof.
  pose proof (r_start Nat.eq_dec 0 [1; 2; 3] packed empty) as R. unfold empty in R at 2.
  st R ltac:(apply s_call). st R ltac:(apply s_missing). st R ltac:(apply s_mktmp). st R ltac:(apply (s_open _ _ _ _ _ _ _ 7); [intros []|discriminate]).
  st R ltac:(apply (s_write _ _ _ _ _ _ _ _ _ 3); cbn; lia). st R ltac:(apply s_full; reflexivity). st R ltac:(eapply s_name; left; reflexivity). st R ltac:(apply s_move). st R ltac:(apply s_ensure).
  st R ltac:(eapply (s_archive _ _ _ _ _ _ _ 0); [cbn; auto|reflexivity]). st R ltac:(apply s_extract). st R ltac:(apply s_extract). st R ltac:(apply s_all). st R ltac:(apply s_rm_end). st R ltac:(apply s_return).
  st R ltac:(apply s_force). st R ltac:(apply (s_clean_a _ _ _ _ [])). st R ltac:(apply s_crash; discriminate).
  st R ltac:(apply s_call). st R ltac:(apply s_exists; left; discriminate). st R ltac:(apply s_extracted). st R ltac:(apply s_return).
  eexists _, _. split; [exact R|]. exists [Fetch; Returned false [(2, [12]); (1, [11])]]. reflexivity.
Qed.
Print Assumptions C63_half_removed_refuted.

(** The process stops while an archive is being extracted. A call with local_only then returns the part extracted so far. *)
Theorem C63_local_refuted : exists tr s, packed_reach empty tr s /\ tr = [Fetch; Crashed (Extract 0 [(2, [12])]); Returned true [(1, [11])]].
Proof.
  pose proof (r_start Nat.eq_dec 0 [1; 2; 3] packed empty) as R. unfold empty in R at 2.
  st R ltac:(apply s_call). st R ltac:(apply s_missing). st R ltac:(apply s_mktmp). st R ltac:(apply (s_open _ _ _ _ _ _ _ 7); [intros []|discriminate]).
  st R ltac:(apply (s_write _ _ _ _ _ _ _ _ _ 3); cbn; lia). st R ltac:(apply s_full; reflexivity). st R ltac:(eapply s_name; left; reflexivity). st R ltac:(apply s_move). st R ltac:(apply s_ensure).
  st R ltac:(eapply (s_archive _ _ _ _ _ _ _ 0); [cbn; auto|reflexivity]). st R ltac:(apply s_extract). st R ltac:(apply s_crash; discriminate).
  st R ltac:(apply s_local). st R ltac:(apply s_return).
  eexists _, _. split; [exact R|]. reflexivity.
Qed.
Print Assumptions C63_local_refuted.

(** The process stops while force removes a finished download: the cache is then neither used nor filled any more. Every later call without force fails
    and does not ask the server. *)
Theorem C63_dead_refuted : exists tr s, plain_reach empty tr s /\
  forall tr' s', unforced 0 [1; 2; 3] plain Nat.eq_dec s tr' s' -> forall l, In l tr' -> match l with Failed _ | Crashed _ => True | _ => False end.
Proof.
  pose proof (r_start Nat.eq_dec 0 [1; 2; 3] plain empty) as R. unfold empty in R at 2.
  st R ltac:(apply s_call). st R ltac:(apply s_missing). st R ltac:(apply s_mktmp). st R ltac:(apply (s_open _ _ _ _ _ _ _ 7); [intros []|discriminate]).
  st R ltac:(apply (s_write _ _ _ _ _ _ _ _ _ 3); cbn; lia). st R ltac:(apply s_full; reflexivity). st R ltac:(eapply s_name; left; reflexivity). st R ltac:(apply s_move). st R ltac:(apply s_crash; discriminate).
  st R ltac:(apply s_force). st R ltac:(apply s_clean_a_end; left; reflexivity). st R ltac:(apply (s_clean_d _ _ _ _ _ [])). st R ltac:(apply s_crash; discriminate).
  eexists _, _. split; [exact R|]. clear R. intros tr' s' U.
  assert (J : (exists A T p, s' = (FS A (Some []) T, p) /\ (A = None \/ A = Some []) /\ match p with Idle | Check | Ensure | Pick | Retrieve _ => True | _ => False end) /\
              forall l, In l tr' -> match l with Failed _ | Crashed _ => True | _ => False end); [|apply J].
  induction U as [|tr s o s' U IH H N].
  - split; [|intros l []]. eexists _, _, _. split; [reflexivity|]. split; [left; reflexivity|exact I].
  - destruct IH as ((A & T & p & -> & HA & Hp) & F).
    assert (G : (exists A T p, s' = (FS A (Some []) T, p) /\ (A = None \/ A = Some []) /\ match p with Idle | Check | Ensure | Pick | Retrieve _ => True | _ => False end) /\
                match o with Some (Failed _) | Some (Crashed _) | None => True | _ => False end).
    { inversion H; subst; try contradiction; cbn in N; try congruence.
      all: try (destruct HA as [HA|HA]; discriminate HA). all: try match goal with X : In _ [] |- _ => destruct X end. all: split; [|exact I].
      all: try (eexists _, _, _; split; [reflexivity|]; split; [exact HA|exact I]; fail).
      eexists _, _, _. split; [reflexivity|]. split; [right; destruct HA as [-> | ->]; reflexivity|exact I]. }
    destruct G as (G1 & G2). split; [exact G1|]. intros l I0. apply in_app_or in I0 as [I0|I0]; [exact (F l I0)|]. destruct o as [l0|]; cbn in I0; [|contradiction]. destruct I0 as [<-|I0]; [|contradiction]. destruct l0; exact G2.
Qed.
Print Assumptions C63_dead_refuted.

(** The server chooses the name under which the file is stored, and that may lead out of the cache, to any place: with an absolute name, and with a relative
    one too. *)
Theorem C63_outside_refuted : forall (name : Type) (cache target : list name), let base := Path true (map Dir cache) in
  exists p q : path name, absolute p = true /\ absolute q = false /\
  find_path (comps (joinpath base p)) = rev target /\ find_path (comps (joinpath base q)) = rev target.
Proof.
  intros name cache target base. exists (Path true (map Dir target)), (Path false (repeat Up (length cache) ++ map Dir target)).
  assert (D : forall (l acc : list name), fold_left (fun at_ c => match c with Up => tl at_ | Dir n => n :: at_ end) (map Dir l) acc = rev l ++ acc).
  { induction l as [|x l IH]; intros acc; cbn; [reflexivity|]. rewrite IH, <- app_assoc. reflexivity. }
  assert (U : forall (acc : list name), fold_left (fun at_ c => match c with Up => tl at_ | Dir n => n :: at_ end) (repeat Up (length acc)) acc = []).
  { induction acc as [|x acc IH]; cbn; [reflexivity|exact IH]. }
  unfold find_path, joinpath. cbn [absolute comps base]. repeat split.
  - rewrite D. apply app_nil_r.
  - rewrite !fold_left_app, (D cache []), app_nil_r. rewrite <- (rev_length cache), U, D. apply app_nil_r.
Qed.
Print Assumptions C63_outside_refuted.

(** A history that satisfies the conditions: stopped after the download and again after the removal of the extracted archive, then completed. *)
Example C63_example : exists tr s d, packed_reach empty tr s /\ Forall no_leftover tr /\ Forall no_interrupted tr /\ In (Returned false d) tr /\ In (Crashed Ensure) tr /\ In (Crashed RmD) tr /\ length d = 2.
Proof.
  pose proof (r_start Nat.eq_dec 0 [1; 2; 3] packed empty) as R. unfold empty in R at 2.
  st R ltac:(apply s_call). st R ltac:(apply s_missing). st R ltac:(apply s_mktmp). st R ltac:(apply (s_open _ _ _ _ _ _ _ 7); [intros []|discriminate]).
  st R ltac:(apply (s_write _ _ _ _ _ _ _ _ _ 3); cbn; lia). st R ltac:(apply s_full; reflexivity). st R ltac:(eapply s_name; left; reflexivity). st R ltac:(apply s_move). st R ltac:(apply s_crash; discriminate).
  st R ltac:(apply s_call). st R ltac:(apply s_exists; right; discriminate). st R ltac:(apply s_ensure).
  st R ltac:(eapply (s_archive _ _ _ _ _ _ _ 0); [cbn; auto|reflexivity]). st R ltac:(apply s_create). st R ltac:(apply s_extract). st R ltac:(apply s_extract). st R ltac:(apply s_all). st R ltac:(apply s_crash; discriminate).
  st R ltac:(apply s_call). st R ltac:(apply s_exists; right; discriminate). st R ltac:(apply s_ensure). st R ltac:(apply s_nothing). st R ltac:(apply s_return).
  eexists _, _, _. split; [exact R|]. cbn. split; [repeat constructor|]. split; [repeat constructor|]. split; [right; right; right; left; reflexivity|]. split; [cbn; auto|]. split; [cbn; auto|reflexivity].
Qed.
