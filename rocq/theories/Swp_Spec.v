(** Specification of sweep tags, independent of the loops of the code *)
From Coq Require Import Decimal List Bool Arith NArith.
From Verif Require Import Swp_Model.
Import ListNotations.

(** ** Formats: a sequence of pieces. [Lone] is not a documented one. *)
Inductive piece := Lit (c : N) | LBrace | RBrace | Key (k : str) | Lone (c : N).
Definition text (p : piece) : str :=
  match p with Lit c => [c] | LBrace => [lbrace; lbrace] | RBrace => [rbrace; rbrace] | Key k => [lbrace] ++ k ++ [rbrace] | Lone c => [rbrace; c] end.
Definition well_formed (p : piece) : Prop :=
  match p with
  | Lit c => c <> lbrace /\ c <> rbrace
  | LBrace | RBrace => True
  | Key k => ~ In rbrace k /\ match k with [] => False | c :: _ => c <> lbrace end
  | Lone _ => False
  end.
(** With the piece that is accepted although it is not documented: a closing brace alone, before any other character *)
Definition accepted (p : piece) : Prop := match p with Lone c => c <> rbrace | _ => well_formed p end.
Definition replacement (tags : dict) (p : piece) : str :=
  match p with Lit c => [c] | LBrace => [lbrace] | RBrace => [rbrace] | Key k => match get tags k with Some t => t | None => k end | Lone c => [c] end.

(** ** Settings of a configuration: the leaf at a path *)
Inductive step := Idx (i : nat) | Fld (k : str).
Definition is_leaf (v : value) : Prop := match v with VList _ | VDict _ => False | _ => True end.
Inductive setting : value -> list step -> value -> Prop :=
  | SLeaf : forall v, is_leaf v -> setting v [] v
  | SIdx : forall l i x s leaf, nth_error l i = Some x -> setting x s leaf -> setting (VList l) (Idx i :: s) leaf
  | SFld : forall l k x s leaf, In (k, x) l -> setting x s leaf -> setting (VDict l) (Fld k :: s) leaf.
(** Keys as of dataclasses: not empty, without dots and brackets, and different within a dictionary *)
Definition good_key (k : str) : Prop := k <> [] /\ ~ In dot k /\ ~ In lbrack k /\ ~ In rbrack k.
Inductive proper : value -> Prop :=
  | PLeaf : forall v, is_leaf v -> proper v
  | PList : forall l, Forall proper l -> proper (VList l)
  | PDict : forall l, NoDup (map fst l) -> Forall (fun kv => good_key (fst kv)) l -> Forall (fun kv => proper (snd kv)) l -> proper (VDict l).
(** How a path is written: a.b[2].c *)
Fixpoint suffix (s : list step) : str :=
  match s with [] => [] | Idx i :: s' => [lbrack] ++ print_nat i ++ [rbrack] ++ suffix s' | Fld k :: s' => [dot] ++ k ++ suffix s' end.
Definition write_path (s : list step) : str := match s with Fld k :: s' => k ++ suffix s' | _ => suffix s end.
(** What is written for a setting *)
Definition leaf_tag (word : N -> bool) (sha1_hex : str -> str) (v : value) : str :=
  match v with
  | VNone => s_none | VBool true => s_t | VBool false => s_f | VNum t => t
  | VStr s => if 16 <=? length (filter word s) then firstn 8 (sha1_hex (filter word s)) else filter word s
  | _ => []
  end.
