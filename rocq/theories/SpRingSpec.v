(** Equality modulo q and size of polynomials modulo X^n + 1. *)
From Coq Require Import List Arith NArith ZArith.
From Verif Require Import SpDecodeSpec.
Local Open Scope Z_scope.

(** Equal coefficients modulo q. *)
Definition peq (n : nat) (q : Z) (a b : nat -> Z) : Prop := forall z, (z < n)%nat -> eqm q (a z) (b z).

(** Modulo q, all coefficients are at most [B] in absolute value. *)
Definition small (n : nat) (q : Z) (B : Z) (a : nat -> Z) : Prop :=
  exists r, peq n q a r /\ forall z, (z < n)%nat -> Z.abs (r z) <= B.

Fixpoint psum (k : nat) (f : nat -> nat -> Z) : nat -> Z :=
  match k with O => fun _ => 0 | S j => fun z => psum j f z + f j z end.
