(** The analytic Gaussian mechanism: what delta noise of a given size leaves, and what a normal
    distribution function is taken to be. *)
From Coq Require Import Reals.
Local Open Scope R_scope.

(** Continuous, symmetric, with values between 0 and 1 that get as near to 1 as one likes. *)
Definition distribution (Phi : R -> R) : Prop :=
  continuity Phi /\ (forall t, 0 <= Phi t <= 1) /\ (forall t, Phi (- t) = 1 - Phi t) /\
  (forall eta, 0 < eta -> exists T, forall t, T <= t -> 1 - eta <= Phi t).
(** Balle and Wang 2018, Theorem 8: noise of deviation sigma on a query of sensitivity gs is
    (epsilon, delta)-private exactly if this is at most delta. *)
Definition gauss_delta (Phi : R -> R) (epsilon gs sigma : R) : R :=
  Phi (gs / (2 * sigma) - epsilon * sigma / gs) - exp epsilon * Phi (- gs / (2 * sigma) - epsilon * sigma / gs).
