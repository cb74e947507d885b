(** Model of the asset cache: _AssetDownloadOperation in /repo/src/fairseq2/assets/download_manager.py (line numbers refer to it), on a local file
    system (/repo/src/fairseq2/file_system.py:603-637). One asset, one process at a time, which may stop at any point. The cache of an asset consists of
    three directories named after the hash of its URI: the asset itself, .download and .download.tmp. A directory is a list of files (sub-directories are
    part of the names). Renaming is atomic, removing a directory and extracting an archive are not. Not modelled: a server that does not announce the
    size and stops early, flushing of NFS caches, progress. *)
From Coq Require Import List Bool Arith.
Import ListNotations.

Section Dl.
  Context {name byte : Type}.
  Variable name_dec : forall a b : name, {a = b} + {a <> b}.
  Definition dir := list (name * list byte).
  Definition without (n : name) (d : dir) : dir := filter (fun e => if name_dec (fst e) n then false else true) d.
  Definition put (n : name) (c : list byte) (d : dir) : dir := (n, c) :: without n d.

  (** What the server has: the name and the content of the file *)
  Variable file : name.
  Variable good : list byte.
  (** Lines 717-757: a file with the suffix .zip or a tar file. [None]: not an archive. [Some None]: it cannot be extracted. *)
  Variable archive : name -> list byte -> option (option dir).

  Record fs := FS { asset : option dir; download : option dir; tmp : option dir }.
  (** Where the operation is. CleanA, CleanD, CleanT: _clean_cached_asset; Check..Named and Undo: _download_asset; Ensure..RmD:
      _ensure_asset_extracted; Retrieve: _retrieve_asset_path, with local_only or not *)
  Inductive pc := Idle | CleanA | CleanD | CleanT | Check | MkTmp | Open | Write (t : name) (k : nat) | Full (t : name) | Named | Undo
    | Ensure | Pick | Extract (e : name) (todo : dir) | RmD | Retrieve (local_only : bool).
  (** [Fetch]: a request to the server. [Returned]: run returned the path of the asset, with this content. [Failed], [Crashed]: where an error was
      raised, or the process stopped. [Left]: .download.tmp could not be removed after an error. *)
  Inductive label := Fetch | Returned (local_only : bool) (d : dir) | Failed (p : pc) | Crashed (p : pc) | Left.
  Definition state := (fs * pc)%type.
  Definition exists_dir (d : option dir) : dir := match d with Some d => d | None => [] end.

  Inductive step : state -> option label -> state -> Prop :=
  (* run: lines 530-548 *)
  | s_call x : step (x, Idle) None (x, Check)
  | s_force x : step (x, Idle) None (x, CleanA)
  | s_local x : step (x, Idle) None (x, Retrieve true)
  (* _clean_cached_asset: lines 550-570; rmtree removes one file after the other *)
  | s_clean_a a e b D T : step (FS (Some (a ++ e :: b)) D T, CleanA) None (FS (Some (a ++ b)) D T, CleanA)
  | s_clean_a_end A D T : A = None \/ A = Some [] -> step (FS A D T, CleanA) None (FS None D T, CleanD)
  | s_clean_d A a e b T : step (FS A (Some (a ++ e :: b)) T, CleanD) None (FS A (Some (a ++ b)) T, CleanD)
  | s_clean_d_end A D T : D = None \/ D = Some [] -> step (FS A D T, CleanD) None (FS A None T, CleanT)
  | s_clean_t A D a e b : step (FS A D (Some (a ++ e :: b)), CleanT) None (FS A D (Some (a ++ b)), CleanT)
  | s_clean_t_end A D T : T = None \/ T = Some [] -> step (FS A D T, CleanT) None (FS A D None, Check)
  (* _download_asset: lines 572-697 *)
  | s_exists A D T : A <> None \/ D <> None -> step (FS A D T, Check) None (FS A D T, Ensure)
  | s_missing T : step (FS None None T, Check) None (FS None None T, MkTmp)
  | s_mktmp A D T : step (FS A D T, MkTmp) None (FS A D (Some (exists_dir T)), Open)
  | s_unreachable x : step (x, Open) None (x, Undo)
  | s_open A D T t : ~ In t (map fst T) -> t <> file -> step (FS A D (Some T), Open) (Some Fetch) (FS A D (Some (put t [] T)), Write t 0)
  | s_write A D T t k k' : k < k' -> k' <= length good -> step (FS A D (Some T), Write t k) None (FS A D (Some (put t (firstn k' good) T)), Write t k')
  | s_broken x t k : step (x, Write t k) None (x, Undo)
  | s_full x t k : k = length good -> step (x, Write t k) None (x, Full t)
  | s_name A D T t c : In (t, c) T -> step (FS A D (Some T), Full t) None (FS A D (Some (put file c (without t T))), Named)
  | s_move A D T : step (FS A D T, Named) None (FS A T None, Ensure)
  (* remove_tmp_dir: lines 590-596 *)
  | s_undo A D a e b : step (FS A D (Some (a ++ e :: b)), Undo) None (FS A D (Some (a ++ b)), Undo)
  | s_undone A D T : T = None \/ T = Some [] -> step (FS A D T, Undo) (Some (Failed Undo)) (FS A D None, Idle)
  | s_left x : step (x, Undo) (Some Left) (x, Idle)
  (* _ensure_asset_extracted: lines 699-762 *)
  | s_extracted A T : step (FS A None T, Ensure) None (FS A None T, Retrieve false)
  | s_ensure A D T : step (FS A (Some D) T, Ensure) None (FS (Some (exists_dir A)) (Some D) T, Pick)
  | s_nothing A T : step (FS A (Some []) T, Pick) None (FS A (Some []) T, Retrieve false)
  | s_plain A D T n c : In (n, c) D -> archive n c = None -> step (FS (Some A) (Some D) T, Pick) None (FS (Some (put n c A)) (Some (without n D)) T, RmD)
  | s_bad A D T n c : In (n, c) D -> archive n c = Some None -> step (FS A (Some D) T, Pick) (Some (Failed Pick)) (FS A (Some D) T, Idle)
  | s_archive A D T n c l : In (n, c) D -> archive n c = Some (Some l) -> step (FS A (Some D) T, Pick) None (FS A (Some D) T, Extract n l)
  | s_create A D T n m c l : step (FS (Some A) D T, Extract n ((m, c) :: l)) None (FS (Some (put m [] A)) D T, Extract n ((m, c) :: l))
  | s_extract A D T n m c l : step (FS (Some A) D T, Extract n ((m, c) :: l)) None (FS (Some (put m c A)) D T, Extract n l)
  | s_disk x n l : step (x, Extract n l) (Some (Failed (Extract n l))) (x, Idle)
  | s_all A D T n : step (FS A (Some D) T, Extract n []) None (FS A (Some (without n D)) T, RmD)
  | s_rm A a e b T : step (FS A (Some (a ++ e :: b)) T, RmD) None (FS A (Some (a ++ b)) T, RmD)
  | s_rm_end A T : step (FS A (Some []) T, RmD) None (FS A None T, Retrieve false)
  (* _retrieve_asset_path: lines 764-794 *)
  | s_none D T b : step (FS None D T, Retrieve b) (Some (Failed (Retrieve b))) (FS None D T, Idle)
  | s_empty D T b : step (FS (Some []) D T, Retrieve b) (Some (Failed (Retrieve b))) (FS (Some []) D T, Idle)
  | s_return e d D T b : step (FS (Some (e :: d)) D T, Retrieve b) (Some (Returned b (e :: d))) (FS (Some (e :: d)) D T, Idle)
  (* the process stops *)
  | s_crash x p : p <> Idle -> step (x, p) (Some (Crashed p)) (x, Idle).

  Inductive reach (s0 : state) : list label -> state -> Prop :=
  | r_start : reach s0 [] s0
  | r_step tr s o s' : reach s0 tr s -> step s o s' -> reach s0 (tr ++ match o with Some e => [e] | None => [] end) s'.
  (** An empty cache *)
  Definition empty : state := (FS None None None, Idle).
End Dl.

(** The path of the downloaded file: lines 676-693. A path is absolute or not, and a list of components; the name comes from the Content-Disposition
    header of the server. *)
Section Where.
  Context {name : Type}.
  Inductive comp := Up | Dir (n : name).
  Record path := Path { absolute : bool; comps : list comp }.
  (** Path.joinpath *)
  Definition joinpath (p q : path) : path := if absolute q then q else Path (absolute p) (comps p ++ comps q).
  (** Where the operating system finds an absolute path (without symbolic links): the names from the root, the last one first *)
  Definition find_path (l : list comp) : list name := fold_left (fun at_ c => match c with Up => tl at_ | Dir n => n :: at_ end) l [].
End Where.
Arguments path : clear implicits.
Arguments comp : clear implicits.
