(** Theorems about GF(2^128) arithmetic: C52. *)
From Coq Require Import List NArith Bool Lia.
From Verif Require Import Base GfModel GfSpec GfProofs GfProofs2.
Import ListNotations.
Local Open Scope N_scope.

(** C52.  On every CPU, Mul computes the product in GF(2)[x]/(x^128+x^7+x^2+x+1), so
    two parties on different CPUs compute the same values. *)
Theorem C52_mul_is_the_field_product :
  forall avx a b, a < 2 ^ 128 -> b < 2 ^ 128 -> field_product a b (gf_mul avx a b).
Proof. exact gf_mul_correct. Qed.
Print Assumptions C52_mul_is_the_field_product.

Theorem C52_cpu_independent :
  forall a b, a < 2 ^ 128 -> b < 2 ^ 128 -> gf_mul true a b = gf_mul false a b.
Proof. intros a b A B. symmetry. apply mul_any; assumption. Qed.
Print Assumptions C52_cpu_independent.

Lemma field_laws : forall avx a b c, a < 2 ^ 128 -> b < 2 ^ 128 -> c < 2 ^ 128 ->
  gf_mul avx a b = gf_mul avx b a /\
  gf_mul avx (gf_mul avx a b) c = gf_mul avx a (gf_mul avx b c) /\
  gf_mul avx a (N.lxor b c) = N.lxor (gf_mul avx a b) (gf_mul avx a c) /\
  gf_mul avx a 1 = a /\
  (gf_mul avx a b = 0 -> a = 0 \/ b = 0).
Proof.
  intros avx a b c A B C. assert (L : N.lxor b c < 2 ^ 128) by (apply lxor_below; assumption).
  rewrite !(mul_any avx a), !(mul_any avx b) by assumption.
  rewrite !(mul_any avx) by (first [assumption|apply mul_red; assumption|reflexivity]).
  split; [|split; [|split; [|split]]].
  - apply mul_comm; assumption.
  - apply mul_assoc; assumption.
  - apply mul_lxor_r; assumption.
  - apply mul_1_r; assumption.
  - apply no_zero_divisors; assumption.
Qed.

(** C52.  With xor as addition this is a field: Mul is commutative, associative,
    distributes over xor, has unit 1 and no zero divisors. *)
Theorem C52_field_laws :
  forall avx a b c, a < 2 ^ 128 -> b < 2 ^ 128 -> c < 2 ^ 128 ->
  gf_mul avx a b = gf_mul avx b a /\
  gf_mul avx (gf_mul avx a b) c = gf_mul avx a (gf_mul avx b c) /\
  gf_mul avx a (N.lxor b c) = N.lxor (gf_mul avx a b) (gf_mul avx a c) /\
  gf_mul avx a 1 = a /\
  (gf_mul avx a b = 0 -> a = 0 \/ b = 0).
Proof. exact field_laws. Qed.
Print Assumptions C52_field_laws.

Lemma inv_facts : forall avx a, a < 2 ^ 128 ->
  match gf_inv avx a with
  | Ok r => a <> 0 /\ r < 2 ^ 128 /\ field_product a r 1
  | Throw => a = 0
  | _ => False
  end.
Proof.
  intros avx a A. destruct (N.eq_dec a 0) as [->|NZ].
  - rewrite gf_inv_zero. reflexivity.
  - destruct (gf_inv_correct avx a A NZ) as [r [E [F G]]]. rewrite E. auto.
Qed.

(** C52.  Inv returns the inverse of every element but 0, its internal check never
    fails for those, and it throws for 0. *)
Theorem C52_inverse :
  forall avx a, a < 2 ^ 128 ->
  match gf_inv avx a with
  | Ok r => a <> 0 /\ r < 2 ^ 128 /\ field_product a r 1
  | Throw => a = 0
  | _ => False
  end.
Proof. exact inv_facts. Qed.
Print Assumptions C52_inverse.

(** C52.  Pow is the i-th power of every element but 0; of 0 it is 0 (for i = 0 too). *)
Theorem C52_power :
  forall avx a i, a < 2 ^ 128 -> i < 2 ^ 64 ->
  (a <> 0 -> field_power a i (gf_pow avx a i)) /\ gf_pow avx 0 i = 0.
Proof.
  intros avx a i A I. split; [|reflexivity]. intros NZ. rewrite gf_pow_correct by assumption.
  apply N.eqb_neq in NZ. rewrite NZ. apply gpow_field. exact A.
Qed.
Print Assumptions C52_power.

Example C52_example :
  gf_mul true 0xdeadbeef12345678deadbeef12345678 0xfedcba9876543210fedcba9876543210 = 0xef9ea0dbc097f4b13cff5ef5a84da3fc /\
  gf_mul false 0xdeadbeef12345678deadbeef12345678 0xfedcba9876543210fedcba9876543210 = 0xef9ea0dbc097f4b13cff5ef5a84da3fc /\
  gf_pow true 0xdeadbeef12345678deadbeef12345678 3 = gf_pow false 0xdeadbeef12345678deadbeef12345678 3 /\
  gf_inv true 2 = Ok 0x80000000000000000000000000000043 /\ gf_inv false 0 = Throw.
Proof. vm_compute. repeat split; reflexivity. Qed.
