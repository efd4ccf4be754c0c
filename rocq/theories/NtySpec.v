(** Specification of multi-party PSI. *)
From Coq Require Import List Arith NArith Permutation.
From Verif Require Import OkvsModel NtyModel.
Import ListNotations.
Local Open Scope N_scope.

(** x is in the sets of all parties. *)
Definition common (wsize : nat) (inputs : nat -> list N) (x : N) : Prop := forall i, (i < wsize)%nat -> In x (inputs i).
(** How often x occurs. *)
Definition times (x : N) (l : list N) : nat := count_occ N.eq_dec l x.
(** Sizes of a table as Baxos::Init makes them for GF128. *)
Definition fit_shape (s : okvs_shape) : Prop :=
  let q := sh_param s in
  (1 <= sh_bins s)%nat /\ (1 <= ok_weight q <= 20)%nat /\ N.of_nat (ok_weight q) <= ok_sparse q /\ ok_sparse q <= 2 ^ 63 /\
  ok_dt q = DGF128 /\ (1 <= ok_dense q)%nat.
(** Values of different items differ where it matters: no two of the receiver's items have
    one value, and if an item of the receiver and one of the helper have one value, they
    are one item, which everybody has. *)
Definition own_distinct (R rv : list N) : Prop :=
  forall y y' v, In (y, v) (combine R rv) -> In (y', v) (combine R rv) -> y = y'.
Definition no_collision (wsize : nat) (inputs : nat -> list N) (R rv H hv : list N) : Prop :=
  forall y z v, In (y, v) (combine R rv) -> In (z, v) (combine H hv) -> y = z /\ common wsize inputs y.
(** What is given: AES is a permutation of 128-bit blocks, inputs are 128-bit, the sizes of
    the tables fit, shuffles permute, and the receiver's indices fit 32 bits. *)
Definition nty_given (enc dec : N -> N -> N) (cr : nat -> N -> N) (shape : nat -> okvs_shape) (mach : nat -> machine)
  (wsize hlp rcv : nat) (inputs : nat -> list N) (shufH shufR : list N -> list N) : Prop :=
  (forall k x, enc k x < 2 ^ 128) /\ (forall k x, x < 2 ^ 128 -> dec k (enc k x) = x) /\ (forall i x, cr i x < 2 ^ 128) /\
  (forall i x, In x (inputs i) -> x < 2 ^ 128) /\
  (forall i, (i < wsize)%nat -> i <> hlp -> i <> rcv ->
     fit_shape (shape (length (inputs i))) /\ Permutation (m_order (mach i)) (seq 0 (sh_bins (shape (length (inputs i)))))) /\
  (forall l, Permutation (shufH l) l) /\ (forall l, Permutation (shufR l) l) /\ N.of_nat (length (inputs rcv)) <= 2 ^ 32.
