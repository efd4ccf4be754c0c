(** What decoding an OKVS means, for one key, without batches, bins in flight or threads. *)
From Coq Require Import List NArith Bool.
From Verif Require Import Base.
Import ListNotations.
Local Open Scope N_scope.

(** Sum (exclusive or) of a list of words. *)
Definition xor_all (l : list N) : N := fold_right N.lxor 0 l.

(** A row of the sparse matrix is legal: the right number of distinct columns, all below
    the sparse size. *)
Definition legal_row (weight : nat) (sparse : N) (row : list N) : Prop :=
  length row = weight /\ NoDup row /\ Forall (fun c => c < sparse) row.

(** The value of the key with sparse columns [row] and dense coefficients [coef] in the
    table p: the sum of the sparse entries plus the sum of coefficient times dense entry. *)
Definition table_value (mul : N -> N -> N) (p : list N) (sparse : nat) (row : list N) (coef : list N) : N :=
  N.lxor (xor_all (map (fun c => nth (N.to_nat c) p 0) row))
         (xor_all (map (fun ic => mul (nth (sparse + fst ic)%nat p 0) (snd ic))
                       (combine (seq 0 (length coef)) coef))).

(** d, d^2, ..., d^k. *)
Fixpoint powers (mul : N -> N -> N) (d x : N) (k : nat) : list N :=
  match k with O => [] | S k' => x :: powers mul d (mul x d) k' end.
(** Bits 0 .. k-1 of d as field elements 0 and 1. *)
Definition bits01 (d : N) (k : nat) : list N := map (fun i => if N.testbit d (N.of_nat i) then 1 else 0) (seq 0 k).

(** The bin of a hash: its two halves and its top 32 bits folded, modulo the number of bins. *)
Definition bin_number (nb : nat) (h : N) : nat :=
  N.to_nat (N.lxor (N.lxor (h mod 2 ^ 64) (h / 2 ^ 64)) (h / 2 ^ 96) mod N.of_nat nb).
(** Part number b of a table made of parts of length k. *)
Definition part {A : Type} (k b : nat) (p : list A) : list A := firstn k (skipn (b * k) p).
