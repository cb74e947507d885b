(** Model of selectors and the mapper that uses them: /repo/native/src/fairseq2n/data/element_selector.cc, element_mapper.cc, data_length_extractor.cc.
    Strings are lists of bytes; std::size_t is a number below 2^64. *)
From Coq Require Import List Bool Arith NArith Ascii Lia.
From Verif Require Import File_Model.
Import ListNotations.

(** data.h: a value that has no elements, a tensor, a list or a dictionary (its keys in the order of iteration) *)
Inductive data (A T : Type) : Type := Atom (a : A) | Tensor (t : T) | Items (l : list (data A T)) | Dict (kv : list (str * data A T)).
Arguments Atom {A T}. Arguments Tensor {A T}. Arguments Items {A T}. Arguments Dict {A T}.

(** ** Parsing *)
(** element_path_segment: element_selector.h line 24 *)
Inductive segment := Key (k : str) | Index (n : N).
(** wildcard_index: line 24 *)
Definition wildcard : N := 2 ^ 64 - 1.
Inductive parser_state := ParsingKey | ParsingIndex | ParsedIndex.
(** The loop of maybe_parse_path: lines 77-156. [first]: char_idx is 0. [part]: the characters from segment_offset on, reversed. [out]: output. *)
Fixpoint parse (first : bool) (state : parser_state) (idx : N) (part : str) (out : list segment) (s : str) : option (list segment) :=
  match s with
  | [] => match state with
          | ParsingKey => match part with [] => None | _ => Some (out ++ [Key (rev part)]) end
          | ParsedIndex => Some out
          | ParsingIndex => None
          end
  | c :: s' =>
      match state with
      | ParsingKey =>
          if ascii_dec c "."%char then match part with [] => None | _ => parse false ParsingKey idx [] (out ++ [Key (rev part)]) s' end
          else if ascii_dec c "["%char then
            match part with
            | [] => if first then parse false ParsingIndex idx [] out s' else None
            | _ => parse false ParsingIndex idx [] (out ++ [Key (rev part)]) s'
            end
          else if is_space c then None
          else parse false ParsingKey idx (c :: part) out s'
      | ParsingIndex =>
          if ascii_dec c "]"%char then match part with [] => None | _ => parse false ParsedIndex 0 [] (out ++ [Index idx]) s' end
          else match digit c with
          | Some d => let tmp := wrap (10 * idx + d) in if (tmp <? idx)%N then None else parse false ParsingIndex tmp (c :: part) out s'
          | None => if ascii_dec c "*"%char then parse false ParsingIndex wildcard (c :: part) out s' else None
          end
      | ParsedIndex =>
          if ascii_dec c "["%char then parse false ParsingIndex idx [] out s'
          else if ascii_dec c "."%char then parse false ParsingKey idx [] out s'
          else None
      end
  end.
(** maybe_parse_path: lines 56-157 *)
Definition maybe_parse_path (s : str) : option (list segment) := match trim s with [] => None | s => parse true ParsingKey 0 [] [] s end.
(** The constructor: lines 26-54; [None]: it raises *)
Fixpoint parse_paths (ps : list str) : option (list (list segment)) :=
  match ps with
  | [] => Some []
  | p :: ps' => match maybe_parse_path p with None => None | Some x => option_map (cons x) (parse_paths ps') end
  end.
Definition selector (s : str) : option (list (list segment)) := parse_paths (split ","%char s).

(** ** matches: lines 159-188 *)
Definition segment_dec : forall x y : segment, {x = y} + {x <> y}.
Proof. decide equality; [apply str_eq_dec|apply N.eq_dec]. Defined.
Fixpoint matches_path (p path : list segment) : bool :=
  match p, path with
  | [], [] => true
  | x :: p', y :: path' =>
      if segment_dec x y then matches_path p' path'
      else match x, y with Index n, Index _ => if N.eq_dec n wildcard then matches_path p' path' else false | _, _ => false end
  | _, _ => false
  end.
Definition matches (ps : list (list segment)) (path : list segment) : bool := existsb (fun p => matches_path p path) ps.

Section Data.
  Context {A T : Type}.
  Local Notation data := (data A T).

  (** ** visit: lines 190-296 *)
  Definition lookup (k : str) (kv : list (str * data)) : option data := option_map snd (List.find (fun e => str_eqb (fst e) k) kv).
  Definition set_back (s : segment) (p : list segment) : list segment := removelast p ++ [s].
  Fixpoint pop (n : nat) (p : list segment) : list segment := match n with 0 => p | S n' => pop n' (removelast p) end.
  (** What the visitor is given: the element, here its place in the example, and the resolved path. [i]: the number of segments this call has
      gone through. The result: whether all elements are there, the calls of the visitor, and resolved_path. *)
  Fixpoint visit (path : list segment) (i : nat) (d : data) (place resolved : list segment) : bool * list (list segment * list segment) * list segment :=
    match path with
    | [] => (true, [(place, resolved)], pop i resolved)
    | Key k :: path' =>
        let resolved := resolved ++ [Key k] in
        match d with
        | Dict kv => match lookup k kv with Some e => visit path' (S i) e (place ++ [Key k]) resolved | None => (false, [], resolved) end
        | _ => (false, [], resolved)
        end
    | Index n :: path' =>
        let resolved := resolved ++ [Index n] in
        match d with
        | Items l =>
            if (n =? wildcard)%N then
              (fix each (j : nat) (l : list data) (resolved : list segment) :=
                 match l with
                 | [] => (true, [], pop i resolved)
                 | e :: l' =>
                     let resolved := set_back (Index (N.of_nat j)) resolved in
                     match visit path' 0 e (place ++ [Index (N.of_nat j)]) resolved with
                     | (false, v, r) => (false, v, r)
                     | (true, v, r) => match each (S j) l' r with (b, v', r') => (b, v ++ v', r') end
                     end
                 end) 0 l resolved
            else if (N.of_nat (length l) <=? n)%N then (false, [], resolved)
            else match nth_error l (N.to_nat n) with Some e => visit path' (S i) e (place ++ [Index n]) resolved | None => (false, [], resolved) end
        | _ => (false, [], resolved)
        end
    end.
  (** visit(d, path, visitor): lines 203-233; [None]: it raises *)
  Definition visit_path (d : data) (path : list segment) : option (list (list segment * list segment)) :=
    match visit path 0 d [] [] with (true, v, _) => Some v | (false, _, _) => None end.
  Fixpoint visit_paths (d : data) (paths : list (list segment)) : option (list (list segment * list segment)) :=
    match paths with
    | [] => Some []
    | p :: ps => match visit_path d p with None => None | Some v => option_map (app v) (visit_paths d ps) end
    end.

  (** ** element_mapper.cc *)
  (** The element at a place, and writing to it. A place stands for the pointer the mapper keeps. *)
  Fixpoint get (d : data) (p : list segment) : option data :=
    match p with
    | [] => Some d
    | Key k :: p' => match d with Dict kv => match lookup k kv with Some e => get e p' | None => None end | _ => None end
    | Index n :: p' => match d with Items l => match nth_error l (N.to_nat n) with Some e => get e p' | None => None end | _ => None end
    end.
  Fixpoint set_nth (n : nat) (x : data) (l : list data) : list data :=
    match l, n with [], _ => [] | _ :: l', 0 => x :: l' | y :: l', S n' => y :: set_nth n' x l' end.
  Fixpoint set_key (k : str) (x : data) (kv : list (str * data)) : list (str * data) :=
    match kv with [] => [] | (k', y) :: kv' => if str_eqb k' k then (k', x) :: kv' else (k', y) :: set_key k x kv' end.
  Fixpoint put (d : data) (p : list segment) (x : data) : data :=
    match p with
    | [] => x
    | Key k :: p' => match d with Dict kv => match lookup k kv with Some e => Dict (set_key k (put e p' x) kv) | None => d end | _ => d end
    | Index n :: p' => match d with Items l => match nth_error l (N.to_nat n) with Some e => Items (set_nth (N.to_nat n) (put e p' x) l) | None => d end | _ => d end
    end.
  Fixpoint is_prefix (p q : list segment) : bool :=
    match p, q with [], _ => true | x :: p', y :: q' => if segment_dec x y then is_prefix p' q' else false | _ :: _, [] => false end.
  Definition is_strict_prefix (p q : list segment) : bool := is_prefix p q && negb (is_prefix q p).
  (** What the function of the user gives: a value, or it raises *)
  Variable f : data -> option data.
  Inductive mapped := Done (d : data) | Raised | Dangling.
  (** apply_function: lines 38-50, for the elements in the given order. [written]: the elements already replaced; a pointer into one of them dangles. *)
  Fixpoint apply (order written : list (list segment)) (d : data) : mapped :=
    match order with
    | [] => Done d
    | p :: order' =>
        if existsb (fun w => is_strict_prefix w p) written then Dangling
        else match get d p with
             | None => Dangling
             | Some e => match f e with None => Raised | Some e' => apply order' (p :: written) (put d p e') end
             end
    end.
  (** operator(): lines 27-64. [order]: the order in which parallel_for gets to the elements, a rearrangement of those visited. *)
  Definition buffer (sel : option (list (list segment))) (d : data) : option (list (list segment)) :=
    match sel with None => Some [[]] | Some ps => option_map (map fst) (visit_paths d ps) end.
  Definition map_element (sel : option (list (list segment))) (reorder : list (list segment) -> list (list segment)) (d : data) : mapped :=
    match sel with
    | None => match f d with Some d' => Done d' | None => Raised end
    | Some _ => match buffer sel d with None => Raised | Some b => apply (reorder b) [] d end
    end.

  (** ** data_length_extractor.cc *)
  (** extract_length: lines 33-50. [size0]: the size of the first dimension of a tensor; [int_of]: the value of an integer that is not negative.
      [None]: it raises *)
  Variable size0 : T -> option nat.
  Variable int_of : A -> option nat.
  Definition extract_length (d : data) : option nat :=
    match d with Tensor t => size0 t | Atom a => int_of a | Items l => Some (length l) | Dict _ => None end.
  Fixpoint max_length (acc : nat) (ds : list (option data)) : option nat :=
    match ds with
    | [] => Some acc
    | Some d :: ds' => match extract_length d with Some n => max_length (Nat.max acc n) ds' | None => None end
    | None :: _ => None
    end.
  (** operator(): lines 30-64 *)
  Definition data_length (sel : option (list (list segment))) (d : data) : option nat :=
    match sel with
    | None => extract_length d
    | Some ps => match visit_paths d ps with None => None | Some v => max_length 0 (map (fun pr => get d (fst pr)) v) end
    end.
End Data.
Arguments mapped : clear implicits.
