(** The field GF(2^128) = GF(2)[x] / (x^128 + x^7 + x^2 + x + 1), by coefficients. *)
From Coq Require Import List NArith Bool.
Import ListNotations.
Local Open Scope N_scope.

(** Sum in GF(2) of g 0, ..., g (n-1). *)
Fixpoint xsum (n : nat) (g : nat -> bool) : bool :=
  match n with O => false | S k => xorb (xsum k g) (g k) end.

(** c is the product of the polynomials a and b: coefficient k is the convolution. *)
Definition is_product (a b c : N) : Prop :=
  forall k : nat, N.testbit_nat c k =
    xsum (S k) (fun i => andb (N.testbit_nat a i) (N.testbit_nat b (k - i))).

(** The modulus. *)
Definition gf_poly : N := 2 ^ 128 + 2 ^ 7 + 2 ^ 2 + 2 + 1.

(** c is the field product of a and b: the representative of degree below 128 of the
    polynomial product, modulo gf_poly (addition of polynomials is lxor). *)
Definition field_product (a b c : N) : Prop :=
  c < 2 ^ 128 /\
  exists ab q qf, is_product a b ab /\ is_product q gf_poly qf /\ N.lxor c ab = qf.

(** c is the product of k factors a. *)
Inductive field_power (a : N) : N -> N -> Prop :=
| fp_one : field_power a 0 1
| fp_more : forall k c d, field_power a k c -> field_product a c d -> field_power a (N.succ k) d.
