(** Specification used for ECDH PSI (see also StoreSpec.matches). *)
From Coq Require Import List NArith Bool.
From Verif Require Import Base Text EcdhModel.
Import ListNotations.

(** The (item, extra count) pairs a peer reconstructs from a sequence of batches. *)
Definition sent (bs : list (list bytes * dupmap)) : list (bytes * N) :=
  flat_map (fun b => map (fun ix => (snd ix, dup_at (snd b) (fst ix))) (number 0 (fst b))) bs.

(** Counts a data provider may report: at least 1, and a uint32_t. *)
Definition good_count (it : bytes * N) : Prop := (1 <= snd it < max32)%N.
