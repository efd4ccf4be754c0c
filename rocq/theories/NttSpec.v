(** What the number theoretic transform computes: the values of a polynomial at the odd powers of
    a root of X^n = -1, in bit reversed order. *)
From Coq Require Import List Arith NArith ZArith.
From Verif Require Import SpDecodeSpec.
Import ListNotations.
Local Open Scope Z_scope.

(** f(0) + f(1) x + ... + f(n-1) x^(n-1). *)
Definition peval (n : nat) (f : nat -> Z) (x : Z) : Z := zsum n (fun j => f j * x ^ Z.of_nat j).

(** The number whose binary digits, [k] of them, are those of [i] read backwards. *)
Definition bit_reverse (k i : nat) : nat :=
  fold_right Nat.add 0%nat (map (fun b => if Nat.testbit i b then 2 ^ (k - 1 - b) else 0)%nat (seq 0 k)).

(** The point at which output i of a transform of length 2^k is the value. *)
Definition ntt_point (psi : Z) (k i : nat) : Z := psi ^ Z.of_nat (2 * bit_reverse k i + 1).

(** [psi] is a square root of -1 of order 2n: what a minimal primitive 2n-th root is. *)
Definition is_root (m : Z) (n : nat) (psi : Z) : Prop := eqm m (psi ^ Z.of_nat n) (-1).

(** [data] holds, row by row, for every polynomial a(r, c) of a matrix and every modulus its values at the
    points that belong to this modulus, reduced up to one copy of the modulus. *)
Definition is_transform (L : nat) (moduli : list N) (psi : nat -> Z) (rows cols : nat) (data : list N)
    (a : nat -> nat -> nat -> Z) : Prop :=
  let n := (2 ^ L)%nat in
  length data = (rows * cols * (length moduli * n))%nat
  /\ forall r c k i, (r < rows)%nat -> (c < cols)%nat -> (k < length moduli)%nat -> (i < n)%nat ->
       let m := nth k moduli 0%N in
       let v := nth ((r * cols + c) * (length moduli * n) + k * n + i) data 0%N in
       (v <= m)%N /\ eqm (Z.of_N m) (Z.of_N v) (peval n (a r c) (ntt_point (psi k) L i)).

(** The product of all moduli. *)
Definition nprod (l : list N) : N := fold_right N.mul 1%N l.

(** The product of matrices of polynomials modulo X^n + 1, [K] being the inner dimension. *)
Definition mat_product (n K : nat) (a b : nat -> nat -> nat -> Z) (r c z : nat) : Z :=
  zsum K (fun k => negacyclic n (a r k) (b k c) z).
