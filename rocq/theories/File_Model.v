(** Model of the file mapper and its cache: /repo/native/src/fairseq2n/data/file_mapper.cc, data/detail/lru_cache.h, utils/string.h,
    data/immutable_string.cc. Strings are lists of bytes. *)
From Coq Require Import List Bool Arith NArith Ascii Lia.
Import ListNotations.

Definition str := list ascii.
Definition str_eq_dec : forall x y : str, {x = y} + {x <> y} := list_eq_dec ascii_dec.
Definition str_eqb (x y : str) : bool := if str_eq_dec x y then true else false.

(** ** lru_cache.h lines 17-112 *)
Section Cache.
  Context {V : Type}.
  (** entries_: a node of the list has an identity, which is what an iterator refers to. map_: key to iterator. [next]: the identity of the
      next node. *)
  Record cache := Cache { capacity : nat; entries : list (nat * (str * V)); table : list (str * nat); next : nat }.
  Definition empty_cache (n : nat) : cache := Cache n [] [] 0.
  Definition find (k : str) (m : list (str * nat)) : option nat := option_map snd (List.find (fun kv => str_eqb (fst kv) k) m).
  Definition erase (k : str) (m : list (str * nat)) : list (str * nat) := filter (fun kv => negb (str_eqb (fst kv) k)) m.
  Definition node (i : nat) (l : list (nat * (str * V))) : option (str * V) := option_map snd (List.find (fun e => fst e =? i) l).
  (** entries_.splice(entries_.begin(), entries_, entry_node) *)
  Definition splice (i : nat) (l : list (nat * (str * V))) : list (nat * (str * V)) :=
    match node i l with Some kv => (i, kv) :: filter (fun e => negb (fst e =? i)) l | None => l end.
  Definition set_value (i : nat) (v : V) (l : list (nat * (str * V))) : list (nat * (str * V)) :=
    map (fun e => if fst e =? i then (i, (fst (snd e), v)) else e) l.
  Definition last_key (l : list (nat * (str * V))) : option str := match rev l with e :: _ => Some (fst (snd e)) | [] => None end.
  (** lru_cache::add: lines 58-95 *)
  Definition add (k : str) (v : V) (c : cache) : cache :=
    if capacity c =? 0 then c
    else match find k (table c) with
    | Some i => Cache (capacity c) (set_value i v (splice i (entries c))) (table c) (next c)
    | None =>
        let '(es, m) :=
          if length (table c) =? capacity c
          then match last_key (entries c) with Some lk => (removelast (entries c), erase lk (table c)) | None => (entries c, table c) end
          else (entries c, table c) in
        Cache (capacity c) ((next c, (k, v)) :: es) ((k, next c) :: erase k m) (S (next c))
    end.
  (** lru_cache::maybe_get: lines 97-112 *)
  Definition maybe_get (k : str) (c : cache) : option V * cache :=
    match find k (table c) with
    | Some i => (option_map snd (node i (entries c)), Cache (capacity c) (splice i (entries c)) (table c) (next c))
    | None => (None, c)
    end.
  (** clear, size: lines 38-50 *)
  Definition clear (c : cache) : cache := Cache (capacity c) [] [] (next c).
  Definition size (c : cache) : nat := length (table c).
End Cache.
Arguments cache : clear implicits.

(** ** Strings *)
(** immutable_string::split: immutable_string.cc lines 57-77. [part]: the characters since the last separator, reversed. *)
Fixpoint split_from (sep : ascii) (part s : str) : list str :=
  match s with
  | [] => [rev part]
  | c :: s' => if ascii_dec c sep then rev part :: split_from sep [] s' else split_from sep (c :: part) s'
  end.
Definition split (sep : ascii) (s : str) : list str := split_from sep [] s.
(** isspace in the C locale *)
Definition is_space (c : ascii) : bool := let n := nat_of_ascii c in (n =? 32) || ((9 <=? n) && (n <=? 13)).
(** ltrim, rtrim, trim: utils/string.h lines 54-83 *)
Fixpoint ltrim (s : str) : str := match s with c :: s' => if is_space c then ltrim s' else s | [] => [] end.
Definition rtrim (s : str) : str := rev (ltrim (rev s)).
Definition trim (s : str) : str := rtrim (ltrim s).
(** std::from_chars for std::size_t in base 10: no sign, no space; [None]: no digit *)
Definition digit (c : ascii) : option N := let n := nat_of_ascii c in if (48 <=? n) && (n <=? 57) then Some (N.of_nat (n - 48)) else None.
Fixpoint digits (acc : N) (s : str) : N * str :=
  match s with c :: s' => match digit c with Some d => digits (acc * 10 + d) s' | None => (acc, s) end | [] => (acc, []) end.
Definition max_size : N := 2 ^ 64 - 1.
(** from_string: utils/string.h lines 85-101. Both exceptions end in an invalid_argument at the only caller. *)
Definition from_string (s : str) : option N :=
  match s with
  | c :: _ => match digit c with
              | None => None
              | Some _ => let (n, rest) := digits 0 s in if (max_size <? n)%N then None else match rest with [] => Some n | _ => None end
              end
  | [] => None
  end.

(** ** file_mapper.cc *)
Inductive exn := InvalidArgument | SystemError.
(** A memory block of a file: the contents of the map and the shared part, as an offset and a size. *)
Record block := Block { contents : list ascii; offset : N; bytes : N }.
Inductive result := Ok (b : block) | Err (e : exn).
Section Mapper.
  (** memory_map_file(root_dir_ / pathname); [None]: the file cannot be opened or mapped *)
  Variable files : str -> option (list ascii).
  Definition state := cache (list ascii).

  (** Lines 42-63: at most three parts, none of them empty once trimmed *)
  Definition parts (s : str) : option (list str) :=
    let ps := map trim (split ":"%char s) in
    if (3 <? length ps) || existsb (fun p => match p with [] => true | _ => false end) ps then None else Some ps.
  (** get_memory_map: lines 124-139, under the mutex *)
  Definition get_memory_map (p : str) (c : state) : option (list ascii) * state :=
    match maybe_get p c with
    | (Some b, c) => (Some b, c)
    | (None, c) => match files p with None => (None, c) | Some b => (Some b, add p b c) end
    end.
  Definition wrap (n : N) : N := (n mod (2 ^ 64))%N.
  (** operator(): lines 33-122, for a string. The block of the result is what "data" holds; "path" is the input. *)
  Definition call (s : str) (c : state) : result * state :=
    match parts s with
    | None => (Err InvalidArgument, c)
    | Some ps =>
        match ps with
        | p :: specs =>
            let spec i := match nth_error specs i with Some t => Some (from_string t) | None => None end in
            match spec 0, spec 1 with
            | Some None, _ => (Err InvalidArgument, c)
            | Some (Some _), Some None => (Err InvalidArgument, c)
            | off, sz =>
                match get_memory_map p c with
                | (None, c) => (Err SystemError, c)
                | (Some b, c) =>
                    let n := N.of_nat (length b) in
                    match off with
                    | None => (Ok (Block b 0 n), c)
                    | Some None => (Err InvalidArgument, c)
                    | Some (Some o) =>
                        if (n <? o)%N then (Err InvalidArgument, c)
                        else match sz with
                        | Some (Some k) => if (n <? wrap (o + k))%N then (Err InvalidArgument, c) else (Ok (Block b o k), c)
                        | _ => (Ok (Block b o (n - o)), c)
                        end
                    end
                end
            end
        | [] => (Err InvalidArgument, c)   (* split gives at least one part *)
        end
    end.
  (** Calls one after another; calls in parallel only meet in get_memory_map, which holds the mutex. *)
  Fixpoint calls (ss : list str) (c : state) : list result * state :=
    match ss with [] => ([], c) | s :: ss' => let (r, c) := call s c in let (rs, c) := calls ss' c in (r :: rs, c) end.
End Mapper.
(** Reading all bytes of a block; [None]: memory outside the file is read. *)
Definition read (b : block) : option (list ascii) :=
  if (N.of_nat (length (contents b)) <? offset b + bytes b)%N then None
  else Some (firstn (N.to_nat (bytes b)) (skipn (N.to_nat (offset b)) (contents b))).
