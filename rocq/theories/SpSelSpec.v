(** What a ciphertext decrypts to, closeness up to noise, and the noise bounds of SpSelProps. *)
From Coq Require Import List Arith NArith ZArith.
From Verif Require Import SpDecodeSpec SpRingSpec.
Local Open Scope Z_scope.

(** [a] and [b] differ, modulo X^n + 1 and q, by a polynomial with coefficients at most [B]. *)
Definition near (n : nat) (q B : Z) (a b : nat -> Z) : Prop := small n q B (fun z => a z - b z).

(** The decryption of the pair (c0, c1) under s before rounding: s * c0 + c1. *)
Definition decrypt (n : nat) (s c0 c1 : nat -> Z) : nat -> Z := fun z => negacyclic n s c0 z + c1 z.

(** Key switching with [t] digits below 2^bits under keys with noise [Be]. *)
Definition switch_noise (n t bits : nat) (Be : Z) : Z := Z.of_nat t * (Z.of_nat n * (2 ^ Z.of_nat bits - 1) * Be).

(** Noise after [i] rounds of expansion of a query with noise [Be], every round adding [K]. *)
Definition expand_noise (Be K : Z) (i : nat) : Z := 2 ^ Z.of_nat i * Be + (2 ^ Z.of_nat i - 1) * K.

(** Bound on the noise of the server's response: plaintexts at most [Bp], Regev key at most [Bs], fresh
    noise at most [Be]; for every gadget the number of digits and their bits. *)
Definition response_noise (n : nat) (Bp Bs Be : Z) (g stop dim0 v2 np : nat)
           (left right conv gsw : nat * nat) : Z :=
  let sw t := switch_noise n (fst t) (snd t) in
  let K := Z.max (sw left Be) (sw right Be) in
  let reg := expand_noise Be K g in
  let inp := expand_noise Be K (S stop) in
  let fold := Z.of_nat n * Bs * inp + sw (2 * fst conv, snd conv)%nat Be in
  Z.of_nat dim0 * (Z.of_nat n * Bp * reg)
  + Z.of_nat v2 * (2 * sw (2 * fst gsw, snd gsw)%nat fold)
  + Z.of_nat np * sw conv Be.
