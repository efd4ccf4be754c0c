(** What is asked of the JSON printer and reader, of disks and of histories of runs. *)
From Coq Require Import List NArith.
From Verif Require Import Base Text DigestModel MetaModel.
Import ListNotations.
Local Open Scope N_scope.

(** What is printed is not empty and can be read back once its line ends are gone. *)
Definition json_ok (show : meta -> bytes) (parse : bytes -> option meta) : Prop :=
  forall m, parse (filter (fun c => negb (c =? newline)) (show m)) = Some m /\ show m <> [].
(** The digest of unique keys. *)
Definition kept (sha : bytes -> bytes) (keys : list bytes) (size : nat) : meta :=
  mk_meta (sha (concat keys)) 0 (u32 (N.of_nat (length keys))) (u32 (N.of_nat (length keys))) (N.of_nat size).
(** A disk with room. *)
Definition roomy (disk : bytes -> written) : Prop := forall b, disk b = Left b.
(** Whenever a file has the length of an earlier one, its keys are those of the earlier run. *)
Definition sizes_tell (keys_of : list nat -> bytes -> list bytes) (l : list (bytes * list nat)) : Prop :=
  forall a b, In a l -> In b l -> length (fst a) = length (fst b) -> keys_of (snd a) (fst a) = keys_of (snd b) (fst b).
