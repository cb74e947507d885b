(** What the filters of tables promise. *)

Require Import List Arith ZArith Bool.
Import ListNotations.

(** A value between two bounds, [None] being no bound. *)
Definition between (lo hi : option Z) (v : Z) : Prop :=
  match lo with None => True | Some b => (b <= v)%Z end /\ match hi with None => True | Some b => (v <= b)%Z end.

(** All values of a list are between the bounds. *)
Definition all_between (lo hi : option Z) (l : list (option Z)) : Prop := forall v, In (Some v) l -> between lo hi v.

(** The cell has a list with a value. *)
Definition has_value (cell : option (list (option Z))) : Prop := exists l v, cell = Some l /\ In (Some v) l.

(** The order of the rows is kept and none is invented or repeated. *)
Inductive sublist {A} : list A -> list A -> Prop :=
| sub_nil : sublist [] []
| sub_keep x l l' : sublist l l' -> sublist (x :: l) (x :: l')
| sub_drop x l l' : sublist l l' -> sublist l (x :: l').
