(** Model of the digests kept beside the input and of the files results are written to:
    psi/utils/table_utils.cc (KeyInfo::Make of a unique table 379-422), psi/utils/pb_helper.cc
    (DumpPbMessageToJsonFile 27-36, LoadJsonFileToPbMessage 38-52), psi/utils/io.cc
    (GetArrowOutputStream 95-104, GetStdOutFileStream 106-118), psi/utils/join_processor.cc (Make 36-47,
    GetUniqueKeysInfo 257-267, GenerateResult 283-341), psi/interface.cc (Init 82-107) and
    psi/legacy/bucket_psi.cc (CreateOutputFolder 111-124).

    [sha]: SHA-256; [keys_of columns file]: the joined keys of the rows of a CSV file;
    [show], [parse]: protobuf's JSON printer and reader.  Simplified: JSON that protobuf cannot print is
    left out, so is the time between the opening of a file and its last write. *)
From Coq Require Import List NArith Bool.
From Verif Require Import Base Text DigestModel.
Import ListNotations.
Local Open Scope N_scope.

(** proto::KeyInfoMeta. *)
Record meta : Type := mk_meta { mt_hash : bytes; mt_dup : N; mt_unique : N; mt_original : N; mt_size : N }.

(** What writing a text through an std::ofstream does: the stream is found not good by the caller,
    or these bytes end up in the file (an error when the stream is closed goes unnoticed). *)
Inductive written : Type := Noticed | Left (b : bytes).

(** std::getline over a file, the lines put together without their ends. *)
Fixpoint join_lines (text : bytes) : bytes :=
  match text with [] => [] | c :: r => if c =? newline then join_lines r else c :: join_lines r end.

Section Meta.
Variable sha : bytes -> bytes.
Variable keys_of : list nat -> bytes -> list bytes.
Variable show : meta -> bytes.
Variable parse : bytes -> option meta.

(** The input file and the file <input>.meta next to it. *)
Record place : Type := mk_place { pl_input : bytes; pl_meta : option bytes }.

(** The part of KeyInfo::Make after the look at the old file (401-418). *)
Definition key_meta (columns : list nat) (file : bytes) : meta :=
  let keys := keys_of columns file in
  let lines := u32 (N.of_nat (length keys)) in
  mk_meta (sha (concat keys)) 0 lines lines (N.of_nat (length file)).
Definition rebuild (disk : bytes -> written) (columns : list nat) (p : place) : outcome (meta * place) :=
  let m := key_meta columns (pl_input p) in
  match disk (show m) with Noticed => Throw | Left b => Ok (m, mk_place (pl_input p) (Some b)) end.
(** KeyInfo::Make (379-422): an old file that is not empty is read, and used if its size fits. *)
Definition make_info (disk : bytes -> written) (columns : list nat) (p : place) : outcome (meta * place) :=
  match pl_meta p with
  | Some (c :: r) =>
    match parse (join_lines (c :: r)) with
    | None => Throw
    | Some m => if mt_size m =? N.of_nat (length (pl_input p)) then Ok (m, p) else rebuild disk columns p
    end
  | _ => rebuild disk columns p
  end.
(** What Init takes from it: the keys come from the file, hash and counts from the meta. *)
Definition info_of (columns : list nat) (p : place) (m : meta) : kinfo :=
  mk_kinfo (keys_of columns (pl_input p)) (mt_hash m) (mt_dup m) (mt_unique m).
Definition use_input (disk : bytes -> written) (columns : list nat) (p : place) : outcome (kinfo * place) :=
  do mp <- make_info disk columns p; Ok (info_of columns p (fst mp), snd mp).

(** Runs one after the other: before each the user puts a file in place; the old meta stays. *)
Fixpoint runs (disk : bytes -> written) (old : option bytes) (l : list (bytes * list nat)) : outcome (list kinfo * option bytes) :=
  match l with
  | [] => Ok ([], old)
  | (file, columns) :: r =>
    do kp <- use_input disk columns (mk_place file old);
    do rest <- runs disk (pl_meta (snd kp)) r;
    Ok (fst kp :: fst rest, snd rest)
  end.
End Meta.

(** A path: absolute or not, and its components. *)
Record fpath : Type := mk_path { fp_abs : bool; fp_parts : list bytes }.
(** std::filesystem::path::parent_path; [None] is the empty path. *)
Definition parent (p : fpath) : option fpath :=
  if fp_abs p then Some (mk_path true (removelast (fp_parts p)))
  else match removelast (fp_parts p) with [] => None | d => Some (mk_path false d) end.
(** The machine: which directories exist, which may be made by one mkdir (its own parent being there) or
    with all above them, which files may be opened for writing, how many bytes the disk takes. *)
Record machine : Type := mk_machine {
  has_dir : fpath -> bool; can_mkdir : fpath -> bool; can_mkdirs : fpath -> bool; can_open : fpath -> bool; room : nat }.

(** GetStdOutFileStream: std::filesystem::exists("") is false and create_directories("") an error;
    whether the stream is open is not looked at. *)
Definition open_out (w : machine) (p : fpath) : outcome bool :=
  match parent p with
  | None => Throw
  | Some d => if has_dir w d then Ok (can_open w p) else if can_mkdirs w d then Ok (can_open w p) else Throw
  end.
(** GetArrowOutputStream: ValueOrDie aborts the process, here an exception. *)
Definition open_arrow (w : machine) (p : fpath) : outcome unit :=
  do o <- open_out w p; enforce o (Ok tt).
(** GenerateResult's file: [None] if there is none; the stream is never looked at. *)
Definition result_file (w : machine) (p : fpath) (text : bytes) : outcome (option bytes) :=
  do o <- open_out w p; Ok (if o then Some (firstn (room w) text) else None).
(** CreateOutputFolder, before the run, in legacy bucket PSI: create_directory of one level. *)
Definition legacy_folder (w : machine) (p : fpath) : outcome unit :=
  match parent p with
  | None => Ok tt
  | Some d => if has_dir w d then Ok tt else
              let above := match parent d with None => true | Some dd => has_dir w dd end in
              enforce (above && can_mkdir w d) (Ok tt)
  end.
