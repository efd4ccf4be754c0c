(** What the modular helpers are expected to compute, in terms of integers. *)
From Coq Require Import NArith ZArith.
Local Open Scope Z_scope.

(** [c] is the representative of [v] modulo [m] around 0 (up to half a unit). *)
Definition around_zero (c : Z) (v m : N) : Prop :=
  (c - Z.of_N v) mod Z.of_N m = 0 /\ 2 * Z.abs c <= Z.of_N m + 1.

(** [y] is [c * b / a] rounded to a nearest integer. *)
Definition nearest (y c a b : Z) : Prop := 2 * Z.abs (y * a - c * b) <= a.
