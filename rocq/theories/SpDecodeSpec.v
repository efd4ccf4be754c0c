(** Integer polynomials modulo X^n + 1, coefficient by coefficient. *)
From Coq Require Import List Arith NArith ZArith.
Import ListNotations.
Local Open Scope Z_scope.

Definition zsum (n : nat) (f : nat -> Z) : Z := fold_right Z.add 0 (map f (seq 0 n)).

(** Coefficient z of the product of [s] and [c] modulo X^n + 1. *)
Definition negacyclic (n : nat) (s c : nat -> Z) (z : nat) : Z :=
  zsum n (fun i => if (i <=? z)%nat then s i * c (z - i)%nat else - (s i * c (n + z - i)%nat)).

(** a = b modulo m. *)
Definition eqm (m a b : Z) : Prop := exists k, a = b + k * m.
