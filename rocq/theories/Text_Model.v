(** Model of the text reader: /repo/native/src/fairseq2n/data/record_reader.cc, text/text_line_reader.cc, text/text_data_source.cc, file_stream.cc,
    memory_stream.cc. Characters are bytes. Errors of the operating system are not modelled. The key under which a line is returned is left out. *)
From Coq Require Import List Bool Arith Ascii Lia.
From Verif Require Import File_Model.
Import ListNotations.

Definition LF : ascii := ascii_of_nat 10.
Definition CR : ascii := ascii_of_nat 13.
Definition is_lf (c : ascii) : bool := nat_of_ascii c =? 10.
Definition is_cr (c : ascii) : bool := nat_of_ascii c =? 13.

(** ** Streams *)
(** file_stream ([chunk = Some k]: chunk_size_) and memory_stream ([chunk = None]). [pos]: the file position, or the size of the original block
    less that of block_. *)
Record stream := Stream { bytes : list ascii; chunk : option nat; pos : nat; is_eod : bool }.
Definition open (b : list ascii) (k : option nat) : stream := Stream b k 0 false.
(** read_chunk: file_stream.cc lines 37-61 (read is called until the chunk is full or read gives 0), memory_stream.cc lines 11-15 *)
Definition read_chunk (s : stream) : list ascii * stream :=
  match chunk s with
  | Some k =>
      if is_eod s then ([], s)
      else let c := firstn k (skipn (pos s) (bytes s)) in (c, Stream (bytes s) (chunk s) (pos s + length c) (length c <? k))
  | None => let c := skipn (pos s) (bytes s) in (c, Stream (bytes s) (chunk s) (pos s + length c) (is_eod s))
  end.
(** seek: file_stream.cc lines 64-68, memory_stream.cc lines 17-24. The latter moves on from where it is. *)
Definition seek (o : nat) (s : stream) : stream :=
  match chunk s with
  | Some _ => Stream (bytes s) (chunk s) o (is_eod s)
  | None => let left := length (bytes s) - pos s in Stream (bytes s) (chunk s) (if left <=? o then length (bytes s) else pos s + o) (is_eod s)
  end.
(** reset: file_stream.cc lines 76-82, memory_stream.cc lines 32-36 *)
Definition rewind (s : stream) : stream := Stream (bytes s) (chunk s) 0 (match chunk s with Some _ => false | None => is_eod s end).

(** ** Lines *)
Inductive ending := Lf | Crlf | Infer.
(** The loops of maybe_find_record_end: text_line_reader.cc lines 25-45; the result is the position after the line ending. *)
Fixpoint find_lf (cs : list ascii) : option nat :=
  match cs with [] => None | c :: cs' => if is_lf c then Some 1 else option_map S (find_lf cs') end.
Fixpoint find_crlf (has_cr : bool) (cs : list ascii) : option nat :=
  match cs with
  | [] => None
  | c :: cs' => if is_lf c then (if has_cr then Some 1 else option_map S (find_crlf has_cr cs')) else option_map S (find_crlf (is_cr c) cs')
  end.
(** infer_line_ending: lines 57-76 *)
Fixpoint infer (has_cr : bool) (cs : list ascii) : ending :=
  match cs with [] => Infer | c :: cs' => if is_lf c then (if has_cr then Crlf else Lf) else infer (is_cr c) cs' end.
(** maybe_find_record_end: lines 14-55 *)
Definition find_end (e : ending) (cs : list ascii) : option nat * ending :=
  let e := match e with Infer => infer false cs | _ => e end in
  (match e with Infer => None | Lf => find_lf cs | Crlf => find_crlf false cs end, e).

(** ** record_reader.cc *)
Record reader := Reader { source : stream; current : list ascii; previous : list (list ascii); stream_offset : nat; chunk_offset : nat; line_ending : ending }.
Definition make (s : stream) (e : ending) : reader := Reader s [] [] 0 0 e.
Inductive outcome := Record_ (r : list ascii) | End | Partial | Overflow.
(** load_next_record: lines 75-121. [len]: record_len_. The result: the distance to the end of the record, [None]: end of data, and the
    length; [inr]: the exception. [fuel]: a bound on the number of chunks. *)
Fixpoint load (fuel : nat) (len : nat) (r : reader) : option ((option nat * nat + unit) * reader) :=
  let (found, e) := find_end (line_ending r) (current r) in
  let r := Reader (source r) (current r) (previous r) (stream_offset r) (chunk_offset r) e in
  match found with
  | Some o => Some (inl (Some o, len + o), r)
  | None =>
      match fuel with
      | 0 => None
      | S fuel' =>
          let off := pos (source r) in
          let (next_chunk, s) := read_chunk (source r) in
          match next_chunk with
          | [] =>
              match current r with
              | [] => Some (inl (None, len), Reader s (current r) (previous r) off 0 e)
              | _ => Some (inr tt, Reader s (current r) (previous r) off (chunk_offset r) e)
              end
          | _ => load fuel' (len + length (current r)) (Reader s next_chunk (previous r ++ [current r]) off 0 e)
          end
      end
  end.
(** next, extract_record, copy_split_record, move_to_next_record: lines 22-33, 123-161. [Overflow]: the chunks
    copied are longer than the block allocated for them. *)
Definition next_record (r : reader) : option (outcome * reader) :=
  match load (S (length (bytes (source r)))) 0 r with
  | None => None
  | Some (inr _, r) => Some (Partial, r)
  | Some (inl (None, _), r) => Some (End, r)
  | Some (inl (Some o, len), r) =>
      let out := match previous r with
                 | [] => Record_ (firstn len (current r))
                 | _ => if length (concat (previous r)) + o =? len then Record_ (concat (previous r) ++ firstn o (current r)) else Overflow
                 end in
      Some (out, Reader (source r) (skipn o (current r)) [] (stream_offset r) (chunk_offset r + o) (line_ending r))
  end.
(** reset: lines 35-45 *)
Definition reset (r : reader) : reader := Reader (rewind (source r)) [] (previous r) 0 0 (line_ending r).
(** record_position: lines 47-53 *)
Definition record (r : reader) : nat * nat := (stream_offset r, chunk_offset r).
(** reload_position: lines 55-73; [None]: the tape is corrupt *)
Definition reload (t : nat * nat) (r : reader) : option reader :=
  let (so, co) := t in
  let s := seek so (source r) in
  if 0 <? co
  then let (c, s) := read_chunk s in
       if length c <=? co then None else Some (Reader s (skipn co c) (previous r) so co (line_ending r))
  else Some (Reader s [] (previous r) so co (line_ending r)).

(** ** text_data_source.cc *)
Record options := Options { skip_empty : bool; do_ltrim : bool; do_rtrim : bool }.
Inductive line := Line (l : list ascii) | NoMore | ReadError | Corrupted.
(** is_empty: lines 119-133 *)
Definition is_empty_line (e : ending) (l : list ascii) : bool := match e with Lf => length l =? 1 | Crlf => length l =? 2 | Infer => false end.
(** read_next_line: lines 107-117; [fuel]: a bound on the number of lines *)
Fixpoint read_next_line (fuel : nat) (o : options) (r : reader) : option (outcome * reader) :=
  match fuel with
  | 0 => None
  | S fuel' =>
      match next_record r with
      | Some (Record_ l, r) => if skip_empty o && is_empty_line (line_ending r) l then read_next_line fuel' o r else Some (Record_ l, r)
      | x => x
      end
  end.
(** next: lines 36-62. An empty record is the end of data. *)
Definition next (o : options) (r : reader) : option (line * reader) :=
  match read_next_line (S (length (bytes (source r)))) o r with
  | None => None
  | Some (Partial, r) => Some (ReadError, r)
  | Some (Overflow, r) => Some (Corrupted, r)
  | Some (End, r) => Some (NoMore, r)
  | Some (Record_ l, r) =>
      let l := if do_ltrim o then ltrim l else l in
      let l := if do_rtrim o then rtrim l else l in
      Some (Line l, r)
  end.
(** Calling next until it gives no line; [fuel]: a bound on the number of lines *)
Fixpoint read_all (fuel : nat) (o : options) (r : reader) : option (list (list ascii) * line * reader) :=
  match fuel with
  | 0 => None
  | S fuel' => match next o r with
               | Some (Line l, r) => match read_all fuel' o r with Some (ls, e, r) => Some (l :: ls, e, r) | None => None end
               | Some (x, r) => Some ([], x, r)
               | None => None
               end
  end.
Definition read_text (o : options) (e : ending) (k : option nat) (b : list ascii) : option (list (list ascii) * line * reader) :=
  read_all (S (length b)) o (make (open b k) e).
