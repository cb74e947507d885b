(** What the statements about the asset cache mean. *)
From Coq Require Import List Bool.
Import ListNotations.
From Verif Require Import Dl_Model.

Section Spec.
  Context {name byte : Type}.
  Variable file : name.
  Variable good : list byte.
  Variable archive : name -> list byte -> option (option (@dir name byte)).
  (** The files the asset consists of *)
  Definition expected : @dir name byte := match archive file good with Some (Some l) => l | _ => [(file, good)] end.
  Definition complete (d : @dir name byte) : Prop := NoDup (map fst d) /\ forall e, In e d <-> In e expected.

  (** The process did not stop while the data was being received, nor while an asset was being removed, and .download.tmp could always be removed after an
      error. *)
  Definition no_leftover (l : @label name byte) : Prop :=
    match l with Crashed (Write _ _) | Crashed (Full _) | Crashed Undo | Crashed CleanA | Left => False | _ => True end.
  (** No extraction was interrupted. *)
  Definition no_interrupted (l : @label name byte) : Prop := match l with Crashed (Extract _ _) | Failed (Extract _ _) => False | _ => True end.
  (** Nothing was interrupted *)
  Definition no_crash (l : @label name byte) : Prop := match l with Crashed _ | Left => False | _ => True end.
  (** Histories in which force is not used *)
  Inductive unforced (name_dec : forall a b : name, {a = b} + {a <> b}) (s0 : @state name byte) : list (@label name byte) -> @state name byte -> Prop :=
  | u_start : unforced name_dec s0 [] s0
  | u_step tr s o s' : unforced name_dec s0 tr s -> step name_dec file good archive s o s' -> snd s' <> CleanA ->
      unforced name_dec s0 (tr ++ match o with Some e => [e] | None => [] end) s'.
End Spec.
