(** What the words of the Spiral client are made of: masks, noise and ternary keys. *)
From Coq Require Import List Arith NArith ZArith.
From Verif Require Import Base SpGadgetModel SpDecodeModel SpDecodeSpec SpRingModel SpSelModel SpSrvModel SpSrvSpec SpCliModel.
Import ListNotations.
Local Open Scope N_scope.

(** A generator of uint64_t. *)
Definition words64 (s : prg) : Prop := forall i, s i < 2 ^ 64.
(** Mask i: 2^L consecutive words of the public generator modulo q. *)
Definition mask (L : nat) (P : sel_params) (pub : prg) (i : nat) : poly :=
  fun z => (Z.of_N (pub (i * 2 ^ L + z)%nat) mod sp_q P)%Z.
(** Noise: no coefficient beyond the largest value of the sampler. *)
Definition bounded (dg : gaussian) (e : poly) : Prop := forall z, (Z.abs (e z) <= Z.of_nat (dg_max dg))%Z.
(** A ternary polynomial with w coefficients that are not 0. *)
Definition ternary (L w : nat) (s : poly) : Prop :=
  (forall z, (-1 <= s z <= 1)%Z) /\ zsum (2 ^ L) (fun z => Z.abs (s z)) = Z.of_nat w.
(** A table for the sampler. *)
Definition gaussian_ok (dg : gaussian) (P : sel_params) : Prop :=
  length (dg_cdf dg) = (2 * dg_max dg + 1)%nat /\ (Z.of_nat (dg_max dg) < sp_q P)%Z.
(** The matrices of keys and query have fewer than 2^64 words. *)
Definition shapes_fit (L : nat) (P : sel_params) : Prop :=
  forall d, In d [2 * 1; 2 * sp_left P; 2 * sp_right P; 2 * (2 * sp_conv P); (sp_n P + 1) * sp_conv P; (sp_n P + 1) * sp_n P]%nat ->
    N.of_nat (d * 2 ^ L) < 2 ^ 64.
(** The words of a secret key: [rows] polynomials modulo q. *)
Definition key_words (L : nat) (P : sel_params) (rows : nat) (m : raw_mat) (S : nat -> poly) : Prop :=
  rm_rows m = rows /\ rm_cols m = 1%nat /\ length (rm_data m) = (rows * 2 ^ L)%nat
  /\ forall r z, (r < rows)%nat -> (z < 2 ^ L)%nat -> Z.of_N (nth (r * 2 ^ L + z) (rm_data m) 0) = (S r z mod sp_q P)%Z.
