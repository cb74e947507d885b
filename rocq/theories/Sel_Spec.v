(** What a selector means. Written without reference to the parser and the visitor; a path is a list of segments. *)
From Coq Require Import List Bool Arith NArith Ascii.
From Verif Require Import File_Model Sel_Model.
Import ListNotations.

(** ** Syntax *)
(** A key: not empty, without dot, opening bracket and white space *)
Definition good_key (k : str) : Prop := k <> [] /\ Forall (fun c => c <> "."%char /\ c <> "["%char /\ is_space c = false) k.
Definition is_digit (c : ascii) : Prop := 48 <= nat_of_ascii c <= 57.
Definition decimal (b : str) : N := fold_left (fun n c => n * 10 + N.of_nat (nat_of_ascii c - 48))%N b 0%N.
(** Between the brackets: a number, or a star for any *)
Definition number (b : str) (n : N) : Prop := b <> [] /\ Forall is_digit b /\ n = decimal b /\ (n < 2 ^ 64 - 1)%N.
Definition star (b : str) (n : N) : Prop := b = ["*"%char] /\ n = wildcard.
Definition index_text (b : str) (n : N) : Prop := number b n \/ star b n.
Definition segment_text (ix : str -> N -> Prop) (s : segment) (t : str) : Prop :=
  match s with Key k => good_key k /\ t = "."%char :: k | Index n => exists b, ix b n /\ t = "["%char :: b ++ ["]"%char] end.
(** The segments one after another; there is no dot before a key that comes first *)
Definition path_text (ix : str -> N -> Prop) (p : list segment) (t : str) : Prop :=
  exists ts, p <> [] /\ Forall2 (segment_text ix) p ts /\ match p with Key _ :: _ => "."%char :: t = concat ts | _ => t = concat ts end.
(** Paths separated by commas, white space around a path is allowed *)
Definition surrounded (t u : str) : Prop := exists a z, u = a ++ t ++ z /\ Forall (fun c => is_space c = true) a /\ Forall (fun c => is_space c = true) z.
Fixpoint join (c : ascii) (us : list str) : str := match us with [] => [] | [u] => u | u :: us' => u ++ c :: join c us' end.
Definition selector_text (ix : str -> N -> Prop) (ps : list (list segment)) (s : str) : Prop :=
  exists ts us, ps <> [] /\ Forall2 (path_text ix) ps ts /\ Forall2 surrounded ts us /\ s = join ","%char us /\ Forall (fun u => ~ In ","%char u) us.

(** ** Meaning *)
Section Data.
  Context {A T : Type}.
  Local Notation data := (data A T).
  (** Step by step from the example to an element *)
  Definition child (d : data) (s : segment) (e : data) : Prop :=
    match s, d with
    | Key k, Dict kv => In (k, e) kv
    | Index n, Items l => nth_error l (N.to_nat n) = Some e
    | _, _ => False
    end.
  Inductive at_place : data -> list segment -> data -> Prop :=
  | at_root d : at_place d [] d
  | at_child d s e p x : child d s e -> at_place e p x -> at_place d (s :: p) x.
  (** A place a path speaks of: a star stands for every index *)
  Definition stands_for (s t : segment) : Prop := match s with Index n => if N.eq_dec n wildcard then exists j, t = Index j else t = s | Key _ => t = s end.
  Definition addressed (d : data) (path place : list segment) : Prop := Forall2 stands_for path place /\ exists e, at_place d place e.
  (** All of a path is there: wherever its first part leads to, the next segment leads on. A star leads on from every list, even an empty one. *)
  Definition leads_on (d : data) (s : segment) : Prop :=
    match s, d with Index n, Items l => n = wildcard \/ N.to_nat n < length l | Key k, Dict kv => exists e, In (k, e) kv | _, _ => False end.
  Definition all_there (d : data) (path : list segment) : Prop :=
    forall p s p' place e, path = p ++ s :: p' -> Forall2 stands_for p place -> at_place d place e -> leads_on e s.
  (** Keys of dictionaries are distinct. *)
  Inductive proper : data -> Prop :=
  | proper_atom a : proper (Atom a)
  | proper_tensor t : proper (Tensor t)
  | proper_items l : Forall proper l -> proper (Items l)
  | proper_dict kv : NoDup (map fst kv) -> Forall (fun e => proper (snd e)) kv -> proper (Dict kv).
  (** [d] with [g] applied to the elements at the places in [S], and nothing else changed *)
  Fixpoint changed_at (g : data -> data) (S : list segment -> bool) (d : data) : data :=
    if S [] then g d else
    match d with
    | Items l => Items ((fix go (i : N) (l : list data) := match l with [] => [] | x :: l' => changed_at g (fun p => S (Index i :: p)) x :: go (N.succ i) l' end) 0%N l)
    | Dict kv => Dict (map (fun e => (fst e, changed_at g (fun p => S (Key (fst e) :: p)) (snd e))) kv)
    | _ => d
    end.
  Definition one_of (ps : list (list segment)) (p : list segment) : bool := if in_dec (list_eq_dec segment_dec) p ps then true else false.
  (** Two paths of the selector never lead to the same element, or to an element inside another one *)
  Definition separate (d : data) (ps : list (list segment)) : Prop :=
    forall i j path path' p p', i <> j -> nth_error ps i = Some path -> nth_error ps j = Some path' -> addressed d path p -> addressed d path' p' -> forall r, p ++ r <> p'.
  (** The length of an element: the first dimension of a tensor, the value of an integer, the number of items of a list; nothing else has one *)
  Inductive has_length (size0 : T -> option nat) (int_of : A -> option nat) : data -> nat -> Prop :=
  | length_tensor t n : size0 t = Some n -> has_length size0 int_of (Tensor t) n
  | length_int a n : int_of a = Some n -> has_length size0 int_of (Atom a) n
  | length_list l : has_length size0 int_of (Items l) (length l).
End Data.
