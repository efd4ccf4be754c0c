(** What C108 is about, without the model's loops. *)
From Coq Require Import List NArith.
From Verif Require Import Base Text GroupDbModel RdErrModel.
Import ListNotations.

(** The rows of a file read without a failure. *)
Definition file_rows (batches : list (list row)) : list row := concat batches.
(** The calls of a reader that does not fail. *)
Definition calls (batches : list (list row)) : list rd_event := map RdBatch batches.
Definition some_failed (evs : list rd_event) : Prop := In RdFail evs.
Definition no_empty_batch (evs : list rd_event) : Prop := forall b, In (RdBatch b) evs -> b <> [].
(** The rows of bucket [i]. *)
Definition rows_in_bucket (hash : bytes -> N) (nb : N) (i : nat) (rows : list row) : list row :=
  filter (fun r => Nat.eqb (N.to_nat (hash (fst r) mod nb)) i) rows.
