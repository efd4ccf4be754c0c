(** What a comparison length must guarantee and how precise log2 is. *)
From Coq Require Import NArith.
Local Open Scope N_scope.

(** Union bound: with values of [bytes] random bytes the probability that one of the
    a * b pairs collides is at most a * b / 2^(8 bytes); it has to be <= 2^-s. *)
Definition collision_bound (a b s bytes : N) : Prop := a * b * 2 ^ s <= 2 ^ (8 * bytes).

(** [v] (in units of 2^-52) differs from log2 n by less than [err] units:
    log2 n < (v + err) / 2^52  and  (v - err) / 2^52 < log2 n, without logarithms. *)
Definition close_log2 (err : N) (n v : N) : Prop :=
  n ^ (2 ^ 52) < 2 ^ (v + err) /\ 2 ^ v < n ^ (2 ^ 52) * 2 ^ err.
