(** Model of how a row's key is built and of the equal-input shortcut:
    psi/utils/key.cc (KeysJoin), psi/utils/arrow_csv_batch_provider.cc (ReadBatch),
    psi/utils/table_utils.cc (key digests), psi/interface.cc (Init 98-126) and
    psi/legacy/bucket_psi.cc (296-318) with psi/utils/csv_checker.cc (90-113, 148-150).

    SHA-256 is an argument; feeding it a sequence of strings hashes their concatenation.
    Not modelled: CSV syntax, and here the reuse of a digest from a "meta" file (see MetaModel). *)
From Coq Require Import List NArith Bool.
From Verif Require Import Base Text JoinModel BucketModel.
Import ListNotations.
Local Open Scope N_scope.

(** KeysJoin (key.cc 185-187). *)
Definition keys_join (sep : N) (cols : list bytes) : bytes := join_with sep cols.

(** The key ReadBatch builds for a row of key-column values
    (arrow_csv_batch_provider.cc 117-124; delimiter ',' by default, .h 36). *)
Definition row_key (cols : list bytes) : bytes := keys_join comma cols.

Section Digest.
Variable sha : bytes -> bytes.

(** What a party's KeyInfo holds. *)
Record kinfo : Type := mk_kinfo { ki_keys : list bytes; ki_hash : bytes; ki_dup : N; ki_cnt : N }.

(** KeyInfo::Make for a sorted table (table_utils.cc 300-374): each distinct key is hashed when it
    is written (310); [batches] are what the reader delivers. *)
Definition sorted_info (batches : list (list bytes)) : kinfo :=
  let '(es, m) := key_info_make beqb [] batches in
  mk_kinfo (map ke_key es) (sha (concat (map ke_key es))) (km_dup m) (km_unique m).

(** KeyInfo::Make for a table declared unique (table_utils.cc 396-422). *)
Definition unique_info (keys : list bytes) : kinfo :=
  mk_kinfo keys (sha (concat keys)) 0 (u32 (N.of_nat (length keys))).

(** digest_equal_ after AbstractPsiParty::Init (interface.cc 98-107); [parties] in rank order. *)
Definition digest_equal (check : bool) (parties : list kinfo) : outcome bool :=
  if check then
    if forallb (fun p => ki_dup p =? 0) parties
    then hash_list_equal (map ki_hash parties)
    else Ok false
  else Ok false.

(** The indices a party writes for equal digests (interface.cc 117-126). *)
Definition equal_indices (p : kinfo) : list N := map N.of_nat (seq 0 (N.to_nat (ki_cnt p))).

(** Legacy BucketPsi::Run (bucket_psi.cc 296-314): digest over all joined keys in file order
    (csv_checker.cc 94-113); indices 0, 1, ... if equal. *)
Definition legacy_digest (keys : list bytes) : bytes := sha (concat keys).
Definition legacy_equal (files : list (list bytes)) : outcome bool :=
  hash_list_equal (map legacy_digest files).
End Digest.
