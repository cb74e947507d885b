(** What the consumer of a prefetching source may see. *)
From Coq Require Import List Bool Arith.
From Verif Require Import Prefetch_Model.
Import ListNotations.

Section Spec.
  Context {D E S R : Type}.
  Variable X : source D E S R.
  Notation trace := (list (call D R * ret D E R)).
  (** Calling next of the inner source again and again gives these examples and leaves that state. *)
  Inductive pulls : S -> list D -> S -> Prop :=
  | pulls_nil s : pulls s [] s
  | pulls_cons s d s' l s'' : pull X s = (Val d, s') -> pulls s' l s'' -> pulls s (d :: l) s''.
  (** Calls of next alone: the examples of the source in order; at the end, the end for ever; after an error of the source, that error for ever. *)
  Inductive reads (s : S) : list (ret D E R) -> Prop :=
  | reads_some l s' : pulls s l s' -> reads s (map Got l)
  | reads_end l s' s'' j : pulls s l s' -> pull X s' = (Eod, s'') -> reads s (map Got l ++ repeat End j)
  | reads_error l lost e s' s'' j : pulls s (l ++ lost) s' -> pull X s' = (Err e, s'') -> reads s (map Got l ++ repeat (Raise e) j).

  (** ** All calls: a source in one thread that may read ahead *)
  (** An error has been read: the examples [l] may be given, then the error is raised. *)
  Inductive dying (e : E) : list D -> trace -> Prop :=
  | dying_nil l : dying e l []
  | dying_got d l t : dying e l t -> dying e (d :: l) ((Next, Got d) :: t)
  | dying_lost l l' t : dying e l t -> dying e (l ++ l') t
  | dying_next t : dying e [] t -> dying e [] ((Next, Raise e) :: t)
  | dying_other c l t : c <> Next -> dying e l t -> dying e l ((c, Raise e) :: t)
  | dying_close l t : dying e l t -> dying e l ((Close, Done) :: t).
  (** [follows l s ended t]: the examples [l] have been read and not been given, [s] is the state of the inner source. *)
  Inductive follows : list D -> S -> bool -> trace -> Prop :=
  | f_nil l s b : follows l s b []
  | f_ahead l s d s' t : pull X s = (Val d, s') -> follows (l ++ [d]) s' false t -> follows l s false t
  | f_ended l s s' t : pull X s = (Eod, s') -> follows l s' true t -> follows l s false t
  | f_error l s e s' t : pull X s = (Err e, s') -> dying e l t -> follows l s false t
  | f_got d l s b t : follows l s b t -> follows (d :: l) s b ((Next, Got d) :: t)
  | f_end s t : follows [] s true t -> follows [] s true ((Next, End) :: t)
  | f_reset l s b rng t : follows [] (reset X rng s) false t -> follows l s b ((Reset rng, Done) :: t)
  | f_record f q s b t : follows (q ++ f) s b t -> follows (q ++ f) s b ((Record_ true, Tape (Some (f, q)) (record X s)) :: t)
  | f_record_weak l s b t : follows l s b t -> follows l s b ((Record_ false, Tape None (record X s)) :: t)
  | f_reload l s b f q r t : follows (q ++ f) (reload X s r) false t -> follows l s b ((Reload (Some (f, q)) r, Done) :: t)
  | f_reload_weak l s b r t : follows [] (reload X s r) false t -> follows l s b ((Reload None r, Done) :: t)
  | f_close l s b t : follows l s b t -> follows l s b ((Close, Done) :: t).

  (** Two states of the inner source from which the same examples, and the same end or error, are read *)
  Definition same (s t : S) : Prop := forall l o, (exists s', pulls s l s' /\ fst (pull X s') = o) <-> (exists t', pulls t l t' /\ fst (pull X t') = o).
End Spec.
