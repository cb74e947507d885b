(** What a loaded fragment should hold. *)

Require Import String List Arith Bool.
From Verif Require Import Pql_Model.
Import ListNotations.

Section Spec.
  Context {V : Type}.
  Variable num : nat -> V.

  (** A row of a fragment: its row group, its position there, its number in the
      fragment, and its cells. *)
  Record origin := { group_id : nat; position : nat; number : nat; cells : list (option V) }.

  Fixpoint origins_from (n : nat) (groups : list (nat * list (list (option V)))) : list origin :=
    match groups with
    | [] => []
    | (g, rs) :: groups' =>
        map (fun ir => {| group_id := g; position := fst ir; number := n + fst ir; cells := snd ir |}) (combine (seq 0 (length rs)) rs)
        ++ origins_from (n + length rs) groups'
    end.
  Definition origins (fr : fragment V) : list origin := origins_from 0 (row_groups fr).

  (** The value of a row in any column of the loaded table. *)
  Definition value (fr : fragment V) (o : origin) (n : name) : option V :=
    if String.eqb n "__row_groups_ids"%string then Some (num (group_id o))
    else if String.eqb n "__index_in_fragement"%string then Some (num (position o))
    else if mem n scanner_columns then Some (scanned fr n (number o))
    else match find (fun kv => String.eqb n (fst kv)) (partition fr) with
         | Some kv => Some (snd kv)
         | None => lookup n (physical fr) (cells o)
         end.

  (** The columns of the loaded table. *)
  Definition columns_of (fr : fragment V) (columns : option (list name)) (traces : bool) : list name :=
    let wanted n := match columns with None => true | Some cs => mem n cs end in
    match columns with None => physical fr | Some cs => filter (fun c => mem c (physical fr)) cs end
    ++ (if traces then scanner_columns else [])
    ++ filter wanted (map fst (partition fr))
    ++ (if traces then ["__row_groups_ids"; "__index_in_fragement"]%string else []).

  (** Names of columns are not used twice, and rows have all columns. *)
  Definition technical : list name := scanner_columns ++ ["__row_groups_ids"; "__index_in_fragement"]%string.
  Definition well_formed (fr : fragment V) : Prop :=
    NoDup (physical fr ++ map fst (partition fr) ++ technical)
    /\ Forall (fun g => Forall (fun r => length r = length (physical fr)) (snd g)) (row_groups fr).

  (** A filter looks at its columns only. *)
  Definition looks_at_refs (f : filter_expr V) : Prop := forall u v, (forall n, In n (refs f) -> u n = v n) -> test f u = test f v.

  Definition satisfies (f : option (filter_expr V)) (u : name -> option V) : bool :=
    match f with None => true | Some f => match test f u with Some true => true | _ => false end end.
End Spec.
