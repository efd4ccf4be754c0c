(** Specification for C97, without the model. *)
From Coq Require Import NArith.
Local Open Scope N_scope.

Definition power2 (n : N) : Prop := exists k, n = 2 ^ k.
(** Bins of [cap] places can hold [n] items at all: together, or each with the average load. *)
Definition room (nb cap n : N) : Prop := n <= nb * cap.
(** The smallest number of groups of [d] that hold [n], and the largest share of [n] for [d]. *)
Definition up_div (n d q : N) : Prop := n <= d * q /\ (q = 0 \/ d * (q - 1) < n).
