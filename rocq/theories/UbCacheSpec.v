(** What C36 and C37 ask of the cache files. *)
From Coq Require Import List NArith.
From Verif Require Import Base Text UbCacheModel.
Import ListNotations.

(** A record within the ranges of its fields; the ciphertext has the declared length. *)
Definition rec_ok (len : nat) (r : crec) : Prop :=
  length (cr_data r) = len /\ (cr_origin r < max32)%N /\ (cr_shuffle r < max32)%N /\ (cr_dup r < max32)%N.
Definition item_ok (len : nat) (it : bytes * N) : Prop := length (fst it) = len /\ (snd it < max32)%N.
(** Rows of the peer table: each item once plus its duplicates; a uint32 counter. *)
Definition peer_rows (its : list (bytes * N)) : N := u32 (fold_right (fun it a => snd it + 1 + a)%N 0%N its).
