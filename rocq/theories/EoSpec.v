(** What the OPRF must compute: F_k(x) = H2(x, k H1(x)) with H1 the first candidate that is on the curve.
    Octet strings and the numbers they denote are those of EllSpec. *)
From Coq Require Import List Arith NArith ZArith Znumtheory.
From Verif Require Import Text EllSpec.
Import ListNotations.
Local Open Scope Z_scope.

Section Curve.
Variable Pt : Type.
Variable infty : Pt.
Variable smul : Z -> Pt -> Pt.
Variable lift : Z -> option Pt.
Variable oct : Pt -> bytes.
Variable unoct : bytes -> option Pt.
Variables p n : Z.
Variable minv : Z -> Z.
Variables sha hash : bytes -> bytes.

(** A curve over a field of p elements with a prime number n of points, as OpenSSL has it. *)
Record curve_ok : Prop := {
  co_p : 0 < p < 256 ^ 32;
  co_n : prime n;
  co_n_small : n < 256 ^ 32;
  co_mul : forall a b P, 0 <= a < n -> 0 <= b < n -> smul a (smul b P) = smul ((a * b) mod n) P;
  co_one : forall P, smul 1 P = P;
  co_zero : forall P, smul 0 P = infty;
  co_infty : forall a, smul a infty = infty;
  co_faithful : forall a b P, P <> infty -> 0 <= a < n -> 0 <= b < n -> smul a P = smul b P -> a = b;
  co_cyclic : forall P Q, P <> infty -> exists a, 0 <= a < n /\ Q = smul a P;
  co_lift : forall x P, lift x = Some P -> P <> infty;
  co_oct : forall P, P <> infty -> length (oct P) = 33%nat;
  co_oct_infty : length (oct infty) = 1%nat;
  co_unoct : forall P, unoct (oct P) = Some P;
  co_inv : forall a, 0 < a < n -> 0 <= minv a < n /\ (a * minv a) mod n = 1;
  co_inv0 : minv 0 = 0 }.

(** The candidates for the x coordinate: SHA-256 of the item, then of the 32 bytes of the candidate before. *)
Inductive candidate (m : bytes) : nat -> Z -> Prop :=
| cand_first : candidate m 0 (os2ip (sha m) mod p)
| cand_next : forall i x b, candidate m i x -> i2os x 32 b -> candidate m (S i) (os2ip (sha b) mod p).
(** The item's point is that of the first candidate on the curve, number i. *)
Definition maps_to (m : bytes) (i : nat) (P : Pt) : Prop :=
  (exists x, candidate m i x /\ lift x = Some P) /\ forall j x, (j < i)%nat -> candidate m j x -> lift x = None.

(** A key is usable if it is not 0 modulo the order. *)
Definition key_ok (k : bytes) : Prop := length k = 32%nat /\ os2ip k mod n <> 0.
Definition key_point (k : bytes) (P : Pt) : bytes := oct (smul (os2ip k mod n) P).
(** F_k(x), and the variant without the item. *)
Definition prf (k item : bytes) (P : Pt) (len : nat) : bytes := firstn len (hash (item ++ key_point k P)).
Definition prf_simple (k : bytes) (P : Pt) (len : nat) : bytes := firstn len (hash (key_point k P)).
End Curve.
