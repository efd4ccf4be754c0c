(** Coefficients of a matrix of polynomials, and finite sums. *)
From Coq Require Import List Arith NArith.
Import ListNotations.

(** Coefficient z of entry (r, c) of a matrix with [cols] columns, stored row by row. *)
Definition coeff (poly_len cols : nat) (data : list N) (r c z : nat) : N :=
  nth ((r * cols + c) * poly_len + z) data 0%N.

Definition nsum (n : nat) (f : nat -> N) : N := fold_right N.add 0%N (map f (seq 0 n)).
