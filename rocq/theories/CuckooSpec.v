(** What a user expects of the cuckoo table, without reference to how items
    are inserted. *)
From Coq Require Import List NArith Lia Bool.
From Verif Require Import Base CuckooModel.
Import ListNotations.

(** Hash number h of a 128-bit code: 64 bits starting at bit 16 h. *)
Definition hash_nr (code h : N) : N := (code / 2 ^ (16 * h)) mod 2 ^ 64.

Inductive place := InBin (p : nat) (h : N) | InStash (p : nat).

(** Input [idx] is stored at a place: the entry's low 56 bits are the input
    number, the high 8 bits the hash number; the all-ones word is an empty entry. *)
Definition stored (t : cuckoo) (idx : N) (pl : place) : Prop :=
  match pl with
  | InBin p h => exists e, nth_error (ck_bins t) p = Some e /\ e <> (2 ^ 64 - 1)%N /\
                           (e mod 2 ^ 56 = idx)%N /\ (e / 2 ^ 56 = h)%N
  | InStash p => exists e, nth_error (ck_stash t) p = Some e /\ e <> (2 ^ 64 - 1)%N /\ (e mod 2 ^ 56 = idx)%N
  end.

(** Parameters accepted by the constructor and used by the callers: 1..5 hash
    numbers, at least one bin, input numbers fit 56 bits. *)
Definition good_opts (o : ck_opts) : Prop :=
  (1 <= ko_hash o <= 5 /\ 0 < ko_bins o /\ ko_input o < 2 ^ 56)%N.
