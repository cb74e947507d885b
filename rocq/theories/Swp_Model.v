(** Model of sweep tags, the names of the output directories of runs: /repo/src/fairseq2/recipe/internal/sweep_tag.py (line numbers refer to it).
    A character is its code point. Which characters are word characters, and SHA-1 with its hexadecimal form, are given from outside; the hash is taken of the
    characters instead of their UTF-8 encoding, which is injective and compatible with concatenation. A number is the text that Python prints for it. *)
From Coq Require Import Decimal List Bool Arith NArith.
Import ListNotations.

Definition str := list N.
Definition streq (a b : str) : bool := if list_eq_dec N.eq_dec a b then true else false.
(** The configuration in unstructured form, line 51 *)
Inductive value := VNone | VStr (s : str) | VBool (b : bool) | VNum (text : str) | VList (l : list value) | VDict (l : list (str * value)).
(** Character codes *)
Definition lbrace : N := 123. Definition rbrace : N := 125. Definition dot : N := 46. Definition lbrack : N := 91. Definition rbrack : N := 93.
Definition s_none : str := [110;111;110;101]%N. Definition s_t : str := [116]%N. Definition s_f : str := [102]%N.
Definition s_world_size : str := [119;111;114;108;100;95;115;105;122;101]%N.
Definition s_hash : str := [104;97;115;104]%N.
(** f"{n}" of an index or of the size of the world *)
Fixpoint digits (u : uint) : str :=
  match u with
  | Nil => [] | D0 u => 48 :: digits u | D1 u => 49 :: digits u | D2 u => 50 :: digits u | D3 u => 51 :: digits u | D4 u => 52 :: digits u
  | D5 u => 53 :: digits u | D6 u => 54 :: digits u | D7 u => 55 :: digits u | D8 u => 56 :: digits u | D9 u => 57 :: digits u
  end%N.
Definition print_nat (n : nat) : str := digits (Nat.to_uint n).

(** dict[str, str]: assignment, get *)
Definition dict := list (str * str).
Fixpoint set (d : dict) (k v : str) : dict :=
  match d with [] => [(k, v)] | (k', v') :: d' => if streq k' k then (k', v) :: d' else (k', v') :: set d' k v end.
Fixpoint get (d : dict) (k : str) : option str := match d with [] => None | (k', v) :: d' => if streq k' k then Some v else get d' k end.
(** sorted(tags.items()): by key, the keys being different; Python compares strings by code points *)
Fixpoint str_leb (a b : str) : bool := match a, b with [], _ => true | _ :: _, [] => false | x :: a', y :: b' => if (x =? y)%N then str_leb a' b' else (x <? y)%N end.
Fixpoint insert (x : str * str) (d : dict) : dict := match d with [] => [x] | y :: d' => if str_leb (fst x) (fst y) then x :: d else y :: insert x d' end.
Definition sorted (d : dict) : dict := fold_right insert [] d.

Section S.
  (** The class [-_\w] of regular expressions, line 119; the hexadecimal digest, lines 123-127, 137 *)
  Variable word : N -> bool.
  Variable sha1_hex : str -> str.
  (** _remove_non_word, lines 117-119 *)
  Definition remove_non_word (s : str) : str := filter word s.
  (** _generate_tag_hash, lines 121-127 *)
  Definition generate_tag_hash (s : str) : str := firstn 8 (sha1_hex s).
  Definition str_tag (s : str) : str := let tag := remove_non_word s in if 16 <=? length tag then generate_tag_hash tag else tag.
  (** _collect_tags, lines 73-115; the last case of lines 113-115 cannot occur in this type *)
  Fixpoint collect_tags (obj : value) (tags : dict) (path : str) : dict :=
    match obj with
    | VNone => set tags path s_none
    | VStr s => set tags path (str_tag s)
    | VBool b => set tags path (if b then s_t else s_f)
    | VNum t => set tags path t
    | VList l => (fix go (l : list value) (idx : nat) (tags : dict) : dict :=
                    match l with [] => tags | x :: l' => go l' (S idx) (collect_tags x tags (path ++ [lbrack] ++ print_nat idx ++ [rbrack])) end) l 0 tags
    | VDict l => (fix go (l : list (str * value)) (tags : dict) : dict :=
                    match l with [] => tags | (k, x) :: l' => go l' (collect_tags x tags (match path with [] => k | _ => path ++ [dot] ++ k end)) end) l tags
    end.
  (** _generate_hash, lines 129-139 *)
  Definition hash_input (tags : dict) : str := flat_map (fun kv => fst kv ++ snd kv) (sorted tags).
  Definition generate_hash (tags : dict) : str := firstn 8 (sha1_hex (hash_input tags)).

  (** _safe_format, lines 141-219 *)
  Inductive state := LITERAL | PLACEHOLDER | OPENING_BRACE | CLOSING_BRACE.
  Inductive result := Tag (s : str) | EmptyFormat | EmptyPlaceholder | Unmatched | Unknown (keys : list str).
  (** set.add *)
  Definition add_key (k : str) (l : list str) : list str := if existsb (streq k) l then l else l ++ [k].
  Fixpoint insert_key (k : str) (l : list str) : list str := match l with [] => [k] | x :: l' => if str_leb k x then k :: l else x :: insert_key k l' end.
  Fixpoint format_loop (fmt : str) (st : state) (output placeholder : str) (unknown : list str) (tags : dict) : result :=
    match fmt with
    | [] => match st with
            | LITERAL => match unknown with [] => Tag output | _ => Unknown (fold_right insert_key [] unknown) end
            | _ => Unmatched
            end
    | c :: fmt' =>
        match st with
        | LITERAL => if (c =? lbrace)%N then format_loop fmt' OPENING_BRACE output placeholder unknown tags
                     else if (c =? rbrace)%N then format_loop fmt' CLOSING_BRACE output placeholder unknown tags
                     else format_loop fmt' LITERAL (output ++ [c]) placeholder unknown tags
        | OPENING_BRACE => if (c =? lbrace)%N then format_loop fmt' LITERAL (output ++ [lbrace]) placeholder unknown tags
                           else if (c =? rbrace)%N then EmptyPlaceholder
                           else format_loop fmt' PLACEHOLDER output (placeholder ++ [c]) unknown tags
        | PLACEHOLDER => if (c =? rbrace)%N then
                           match get tags placeholder with
                           | Some tag => format_loop fmt' LITERAL (output ++ tag) [] unknown tags
                           | None => format_loop fmt' LITERAL (output ++ placeholder) [] (add_key placeholder unknown) tags
                           end
                         else format_loop fmt' PLACEHOLDER output (placeholder ++ [c]) unknown tags
        | CLOSING_BRACE => if (c =? rbrace)%N then format_loop fmt' LITERAL (output ++ [rbrace]) placeholder unknown tags
                           else format_loop fmt' LITERAL (output ++ [c]) placeholder unknown tags
        end
    end.
  Definition safe_format (fmt : str) (tags : dict) : result := format_loop fmt LITERAL [] [] [] tags.
  (** str.strip: of the spaces among the characters *)
  Variable space : N -> bool.
  Fixpoint lstrip (s : str) : str := match s with c :: s' => if space c then lstrip s' else s | [] => [] end.
  Definition strip (s : str) : str := List.rev (lstrip (List.rev (lstrip s))).
  (** maybe_generate, lines 46-71; None: no_sweep_dir *)
  Definition all_tags (config : value) (world_size : nat) : dict :=
    let tags := collect_tags config [(s_world_size, print_nat world_size)] [] in set tags s_hash (generate_hash tags).
  Definition maybe_generate (no_sweep_dir : bool) (sweep_format : str) (config : value) (world_size : nat) : option result :=
    if no_sweep_dir then None
    else Some (match strip sweep_format with [] => EmptyFormat | fmt => safe_format fmt (all_tags config world_size) end).
End S.
