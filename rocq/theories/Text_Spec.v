(** What reading a text file should give. Written without reference to the reader. *)
From Coq Require Import List Bool Arith Ascii.
Import ListNotations.
Definition lf : ascii := ascii_of_nat 10.
Definition cr : ascii := ascii_of_nat 13.
(** A line that ends with a line feed and has no other *)
Definition lf_line (l : list ascii) : Prop := exists t, l = t ++ [lf] /\ ~ In lf t.
(** A line that ends with a carriage return and a line feed, and in which these follow each other nowhere else *)
Definition has_crlf (l : list ascii) : Prop := exists x y, l = x ++ cr :: lf :: y.
Definition crlf_line (l : list ascii) : Prop := exists t, l = t ++ [cr; lf] /\ ~ has_crlf (t ++ [cr]).
(** [ls] are the lines of the contents [b], [rest] is what follows the last of them *)
Definition lf_lines (b : list ascii) (ls : list (list ascii)) (rest : list ascii) : Prop := b = concat ls ++ rest /\ Forall lf_line ls /\ ~ In lf rest.
Definition crlf_lines (b : list ascii) (ls : list (list ascii)) (rest : list ascii) : Prop :=
  b = concat ls ++ rest /\ Forall crlf_line ls /\ ~ has_crlf rest.
(** No carriage return is the last byte of a piece of [k] bytes with the line feed in the next; [None]: the file is read in one piece. *)
Definition unsplit (k : option nat) (b : list ascii) : Prop :=
  match k with None => True | Some c => forall i, 0 < i -> nth_error b (i * c - 1) = Some cr -> nth_error b (i * c) <> Some lf end.
(** The line ending of the first line *)
Definition first_is_crlf (b : list ascii) : Prop := exists t u, b = t ++ cr :: lf :: u /\ ~ In lf t.
Definition first_is_lf (b : list ascii) : Prop := exists t u, b = t ++ lf :: u /\ ~ In lf t /\ (forall t', t <> t' ++ [cr]).
(** White space, and removing it from the start ([l]) or the end ([r]) *)
Definition white (c : ascii) : Prop := nat_of_ascii c = 32 \/ 9 <= nat_of_ascii c <= 13.
Definition trimmed (l r : bool) (s m : list ascii) : Prop :=
  exists a z, s = a ++ m ++ z /\ Forall white a /\ Forall white z /\
    (l = false -> a = []) /\ (r = false -> z = []) /\
    (l = true -> forall c m', m = c :: m' -> ~ white c) /\ (r = true -> forall c m', m = m' ++ [c] -> ~ white c).
