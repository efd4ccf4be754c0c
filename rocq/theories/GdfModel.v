(** Model of the files of a grouped APSI database: psi/wrapper/apsi/utils/group_db.cc, LoadMeta
    (207-237), LoadBucket (239-255), the order in which Generate's files reach the disk (342-402),
    the status file and its checks (404-499), a build in a directory that may already hold one
    (510-552).

    The rows of a group and the layout of its database file are those of GroupDbModel.v.  Bytes of
    an ofstream reach the file in order, some of them only when the stream is destroyed; the two
    streams of Generate are destroyed in the reverse order of their creation.  JSON of the status
    file is not modelled: the status is a record. *)
From Coq Require Import List NArith Bool Arith.
From Verif Require Import Base Text StoreModel GroupDbModel.
Import ListNotations.
Local Open Scope N_scope.

(* ------------------------------------------------------------------ *)
(** * The meta file *)

(** Lines 397-401; [os] in the order of the unordered_map. *)
Definition meta_line (p : N * N) : bytes := dec (fst p) ++ 32 :: dec (snd p) ++ [newline].
Definition meta_text (os : list (N * N)) : bytes := dec (N.of_nat (length os)) ++ newline :: flat_map meta_line os.

(** An ifstream: what is left of the file, and failbit. *)
Definition istream : Type := (bytes * bool)%type.
Definition is_blank (c : N) : bool := (c =? 32) || ((9 <=? c) && (c <=? 13)).
Fixpoint skip_ws (s : bytes) : bytes :=
  match s with c :: r => if is_blank c then skip_ws r else s | [] => [] end.
Fixpoint digits (s : bytes) : bytes * bytes :=
  match s with
  | c :: r => if is_digit c then let '(d, t) := digits r in (c :: d, t) else ([], s)
  | [] => ([], [])
  end.
(** [in >> v] for a size_t: the value of v afterwards, [None] if it is left without one.  At the end
    of the file, or if the stream has failed before, v is not written; something else that is no
    number writes 0, a number over the limit the limit.  Signs are not modelled. *)
Definition read_size (s : istream) : option N * istream :=
  let '(t, bad) := s in
  if bad then (None, s)
  else match skip_ws t with
       | [] => (None, ([], true))
       | t' =>
         match digits t' with
         | ([], r) => (Some 0, (r, true))
         | (d, r) => let v := digits_value d in
                     if v <? 18446744073709551616 then (Some v, (r, false)) else (Some 18446744073709551615, (r, true))
         end
       end.

(** Loop 227-234; a later entry replaces an earlier one of the same bucket.  Using a variable that
    was not written is undefined. *)
Fixpoint load_entries (n : nat) (s : istream) (m : list (N * N)) : outcome (list (N * N)) :=
  match n with
  | O => Ok m
  | S n' =>
    let '(b, s1) := read_size s in
    let '(o, s2) := read_size s1 in
    match b, o with
    | Some b, Some o => load_entries n' s2 ((b, o) :: m)
    | _, _ => UB
    end
  end.
Definition load_meta (max_bucket : N) (text : bytes) : outcome (list (N * N)) :=
  let '(n, s) := read_size (text, false) in
  match n with
  | None => UB
  | Some n => enforce (n <=? max_bucket) (load_entries (N.to_nat n) s [])
  end.

(* ------------------------------------------------------------------ *)
(** * What a crash in Generate leaves: database file and meta file *)

Definition gfiles : Type := (option bytes * option bytes)%type.
(** After [n] steps: the database file is created and gets its bytes but for the last [tail], which
    are still in the stream's buffer; the meta file is created and gets its bytes; the rest of
    the database file follows. *)
Definition gen_crash (db meta : bytes) (tail n : nat) : gfiles :=
  let head := (length db - tail)%nat in
  if Nat.eqb n 0 then (None, None)
  else if Nat.leb (n - 1) head then (Some (firstn (n - 1) db), None)
  else
    let k := (n - 2 - head)%nat in
    if Nat.leb k (length meta) then (Some (firstn head db), Some (firstn k meta))
    else (Some (firstn (head + (k - length meta)) db), Some meta).

Section Library.
Variable DB : Type.
Variable build : list row -> DB.
Variable ser : DB -> bytes.
Variable deser : bytes -> option DB.
Variable map_order : list (N * list row) -> list (N * list row).
Variable meta_order : list (N * N) -> list (N * N).

(** The two files of a complete Generate. *)
Definition gen_files (d : list (N * nat) * bytes) : bytes * bytes :=
  (snd d, meta_text (meta_order (map (fun p => (fst p, N.of_nat (snd p))) (fst d)))).

(** LoadBucket; TryLoadSenderDB (sender_db.cc 42-63) makes a null database of what cannot be read. *)
Definition open_bucket (db : bytes) (os : list (N * N)) (b : N) : option DB :=
  match assoc b os with
  | None => None
  | Some o => deser (skipn (N.to_nat o) db)
  end.
(** GetBucketDB in a new process, for a bucket of the group with source [src]: Generate (264-276)
    and LoadBucket. *)
Definition reopen (max_bucket : N) (src : list gline) (fs : gfiles) (b : N) : outcome (option DB) :=
  match fs with
  | (Some db, Some meta) => do os <- load_meta max_bucket meta; Ok (open_bucket db os b)
  | _ => do d <- generate DB build ser map_order max_bucket src;
         Ok (open_bucket (snd d) (map (fun p => (fst p, N.of_nat (snd p))) (fst d)) b)
  end.

(* ------------------------------------------------------------------ *)
(** * The directory *)

(** The arguments of GroupDB; of the parameter file its content. *)
Record gset := mk_gset { gs_groups : N; gs_buckets : N; gs_nonce : N; gs_params : N; gs_compress : bool }.
(** GroupDBStatus (group_db_status.proto); the version is always the same.  Counts are uint32. *)
Record gstat := mk_gstat { gt_groups : N; gt_buckets : N; gt_nonce : N; gt_params : N; gt_compress : bool; gt_done : bool }.

(** The constructor (453-499). *)
Definition gdb_open (s : gset) (d : option gstat) : outcome gstat :=
  match d with
  | Some st =>
    enforce (gt_groups st =? gs_groups s)
      (enforce (gt_buckets st =? gs_buckets s)
         (enforce (gt_nonce st =? gs_nonce s) (enforce (gt_params st =? gs_params s) (Ok st))))
  | None => Ok (mk_gstat (u32 (gs_groups s)) (u32 (gs_buckets s)) (gs_nonce s) (gs_params s) (gs_compress s) false)
  end.

(** The directory: status, source files of the groups with the state BUCKETED, databases. *)
Record gdir := mk_gdir { dr_stat : option gstat; dr_disk : gdisk; dr_items : list gitem }.
Definition empty_dir (s : gset) : gdir := mk_gdir None (fresh_disk (gs_groups s)) [].

Variable hash : bytes -> N.
(** Constructor and GenerateGroupBucketDB (184-193): the state GENERATED is set whatever the
    children did. *)
Definition gdb_build (s : gset) (table : list row) (d : gdir) : outcome gdir :=
  do st <- gdb_open s (dr_stat d);
  do disk <- divide_group hash (gs_buckets s) (gs_groups s) table (dr_disk d);
  let items := if gd_divided (dr_disk d) then dr_items d else items_of disk in
  Ok (mk_gdir (Some (mk_gstat (gt_groups st) (gt_buckets st) (gt_nonce st) (gt_params st) (gt_compress st) true))
        disk (gen_all DB build ser map_order (per_group (gs_buckets s) (gs_groups s)) items)).
End Library.
