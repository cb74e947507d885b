(** Specification for the file mapper and its cache. *)
From Coq Require Import List Bool Arith NArith Ascii.
From Verif Require Import File_Model.
Import ListNotations.

(** ** What happened to a cache, latest first *)
Inductive op {V : Type} := Get (k : str) | Add (k : str) (v : V) | Clear.
Inductive event {V : Type} := Hit (k : str) (v : V) | Miss (k : str) | Added (k : str) (v : V) | Cleared.
Arguments op : clear implicits. Arguments event : clear implicits.
Definition step {V} (o : op V) (c : cache V) : event V * cache V :=
  match o with
  | Get k => match maybe_get k c with (Some v, c) => (Hit k v, c) | (None, c) => (Miss k, c) end
  | Add k v => (Added k v, add k v c)
  | Clear => (Cleared, clear c)
  end.
Fixpoint run {V} (ops : list (op V)) (es : list (event V)) (c : cache V) : list (event V) * cache V :=
  match ops with [] => (es, c) | o :: ops' => let (e, c) := step o c in run ops' (e :: es) c end.

(** The keys in the order of their last use. A key is used if it is added or found. *)
Fixpoint recent {V} (es : list (event V)) : list str :=
  match es with
  | [] => []
  | (Hit k _ | Added k _) :: es' => k :: remove str_eq_dec k (recent es')
  | Miss _ :: es' => recent es'
  | Cleared :: _ => []
  end.
(** The value that was last added under a key. *)
Fixpoint last_added {V} (k : str) (es : list (event V)) : option V :=
  match es with
  | [] => None
  | Added k' v :: es' => if str_eq_dec k' k then Some v else last_added k es'
  | _ :: es' => last_added k es'
  end.

(** ** Numbers as text *)
Definition digit_char (d : nat) : ascii := ascii_of_nat (48 + d).
(** A text of decimal digits, the most significant first, and the number it denotes. *)
Inductive denotes : str -> N -> Prop :=
| denotes_digit d : d < 10 -> denotes [digit_char d] (N.of_nat d)
| denotes_more s n d : denotes s n -> d < 10 -> denotes (s ++ [digit_char d]) (n * 10 + N.of_nat d).
Definition blank (s : str) : Prop := Forall (fun c => is_space c = true) s.
(** A text with blanks around it. *)
Definition padded (inner s : str) : Prop := exists l r, s = l ++ inner ++ r /\ blank l /\ blank r.
(** A pathname: no colon, not empty, does not begin or end with a blank. *)
Definition pathname (p : str) : Prop := p <> [] /\ ~ In ":"%char p /\ is_space (hd ":"%char p) = false /\ is_space (last p ":"%char) = false.
(** The bytes [o .. o + k) of a file. *)
Definition segment (o k : N) (b : list ascii) : list ascii := firstn (N.to_nat k) (skipn (N.to_nat o) b).
