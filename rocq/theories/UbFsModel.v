(** Model of what a run of unbalanced PSI does to the files of one party: Init at the server
    (psi/utils/join_processor.cc 53-79, 100-140), OfflineGenCache (psi/algorithm/ecdh/ub_psi/server.cc
    63-87, psi/utils/ec.cc 24-42, ub_psi_cache.cc 123-143) and OfflineTransferCache at the client
    (client.cc 54-79, psi/utils/ec_point_store.cc 383-426).

    A path is the list of its names from the root; a file system maps paths to files and directories
    (no links; a path stands for one place, so paths are compared name by name).  Simplified: the
    temporary directory of the run (server.cc 48-49) and log files are left out; what is written into
    the cache files is given by [content]; disk errors other than a missing file are left out. *)
From Coq Require Import List NArith Bool String.
From Verif Require Import Base Text PhModel.
Import ListNotations.

Definition path : Type := list string.
Inductive node : Type := Dir | File (b : bytes).
Definition fs : Type := path -> option node.

Fixpoint path_eqb (a b : path) : bool :=
  match a, b with
  | [], [] => true
  | x :: r, y :: s => String.eqb x y && path_eqb r s
  | _, _ => false
  end.
(** [p] is [q] or a directory above it. *)
Fixpoint under (p q : path) : bool :=
  match p, q with
  | [], _ => true
  | x :: r, y :: s => String.eqb x y && under r s
  | _ :: _, [] => false
  end.

(** std::filesystem::exists, remove_all, create_directories; writing and reading a file. *)
Definition fs_exists (f : fs) (p : path) : bool := match f p with Some _ => true | None => false end.
Definition fs_remove_all (f : fs) (p : path) : fs := fun q => if under p q then None else f q.
Definition fs_mkdirs (f : fs) (p : path) : fs :=
  fun q => if under q p then match f q with None => Some Dir | Some n => Some n end else f q.
Definition fs_write (f : fs) (p : path) (b : bytes) : fs := fun q => if path_eqb q p then Some (File b) else f q.
Definition fs_read (f : fs) (p : path) : option bytes := match f p with Some (File b) => Some b | _ => None end.

(** The paths of UbPsiConfig; [None] is the empty string. *)
Record uf_config : Type := mk_uf { uf_mode : ph_mode; uf_cache : option path; uf_input : path; uf_key : option path }.

(** The files after a call, and whether it threw. *)
Definition uf_res : Type := (fs * bool)%type.

(** The modes in which the server reads its input (join_processor.cc 61-66). *)
Definition uf_needs_input (m : ph_mode) : bool := match m with PhGen | PhOffline | PhFull => true | _ => false end.

(** JoinProcessor at the server: the empty path (102-103), CheckUbPsiServerConfig (53-79), the
    directory (137-140). *)
Definition uf_server_init (c : uf_config) (f : fs) : uf_res :=
  match uf_cache c with
  | None => (f, true)
  | Some cache =>
    if negb (fs_exists f cache) && negb (fs_exists f (uf_input c)) then (f, true)
    else
      let f1 := if uf_needs_input (uf_mode c) then fs_remove_all f cache else f in
      (if fs_exists f1 cache then f1 else fs_mkdirs f1 cache, false)
  end.

Local Open Scope string_scope.
Local Open Scope list_scope.
Section Gen.
Variable content : string -> bytes.   (* what is written into a cache file *)

(** OfflineGenCache: the key, ub_psi_cache.bin, the sorted input and its key info (239-268), the meta. *)
Definition uf_gen (c : uf_config) (cache : path) (f : fs) : uf_res :=
  let key := match uf_key c with
             | None => true
             | Some k => match fs_read f k with Some b => Nat.eqb (List.length b) 32 | None => false end
             end in
  if negb key then (f, true)
  else
    let wr f name := fs_write f (cache ++ [name]) (content name) in
    let f1 := wr f "ub_psi_cache.bin" in
    match fs_read f1 (uf_input c) with
    | None => (f1, true)
    | Some _ => (wr (wr (wr f1 "join_sorted_input.csv") "join_sorted_input_key_info.csv") "ub_psi_cache.meta", false)
    end.
(** A run that builds the cache, up to the end of OfflineGenCache. *)
Definition uf_build (c : uf_config) (f : fs) : uf_res :=
  match uf_cache c with
  | None => (f, true)
  | Some cache => let '(f1, bad) := uf_server_init c f in if bad then (f1, true) else uf_gen c cache f1
  end.

(** The client: Init creates the directory (join_processor.cc 137-140); OfflineTransferCache removes
    the directory if it holds a server_cache, and writes a new one. *)
Definition uf_client (c : uf_config) (f : fs) : uf_res :=
  match uf_cache c with
  | None => (f, true)
  | Some cache =>
    let f1 := if fs_exists f cache then f else fs_mkdirs f cache in
    let f2 := if fs_exists f1 (cache ++ ["server_cache"]) then fs_remove_all f1 cache else f1 in
    let f3 := if fs_exists f2 cache then f2 else fs_mkdirs f2 cache in
    let wr f name := fs_write f (cache ++ [name]) (content name) in
    (wr (wr f3 "server_cache") "server_cache.meta", false)
  end.
End Gen.
