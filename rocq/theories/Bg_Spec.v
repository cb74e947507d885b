(** Notions for the statements about background work: the steps of the events of each kind, in order. *)
From Coq Require Import List ZArith.
From Verif Require Import Bg_Model.
Import ListNotations.

Definition begins (l : list ev) : list Z := flat_map (fun e => match e with Begin n => [n] | _ => [] end) l.
Definition commits (l : list ev) : list Z := flat_map (fun e => match e with Commit n => [n] | _ => [] end) l.
Definition save_hooks (l : list ev) : list Z := flat_map (fun e => match e with SaveHook n => [n] | _ => [] end) l.
Definition starts (l : list ev) : list Z := flat_map (fun e => match e with ExportStart n => [n] | _ => [] end) l.
Definition ends (l : list ev) : list Z := flat_map (fun e => match e with ExportEnd n _ => [n] | _ => [] end) l.
(** The exports that ended well *)
Definition exported (l : list ev) : list Z := flat_map (fun e => match e with ExportEnd n true => [n] | _ => [] end) l.
Definition export_hooks (l : list ev) : list Z := flat_map (fun e => match e with ExportHook n => [n] | _ => [] end) l.
(** [l] is [m], or all but its last element *)
Definition all_but_one (l m : list Z) : Prop := m = l \/ exists n, m = l ++ [n].
(** Nothing is left to be done in the background *)
Definition settled (l : list ev) : Prop := commits l = begins l /\ ends l = starts l /\ export_hooks l = exported l.
