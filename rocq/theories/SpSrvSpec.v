(** When words stand for polynomials: what the server is given and what its parameters have to satisfy. *)
From Coq Require Import List Arith NArith ZArith.
From Verif Require Import Base SpGadgetModel SpDecodeSpec SpRingModel SpRingSpec SpSelModel NttModel NttSpec SpSrvModel.
Import ListNotations.
Local Open Scope N_scope.

(** A matrix in transformed form, and one of coefficients. *)
Definition stands_ntt (L : nat) (moduli : list N) (psi : nat -> Z) (rows cols : nat) (m : raw_mat) (a : nat -> nat -> nat -> Z) : Prop :=
  rm_rows m = rows /\ rm_cols m = cols /\ is_transform L moduli psi rows cols (rm_data m) a.
Definition stands_raw (L : nat) (q : Z) (rows cols : nat) (m : raw_mat) (a : nat -> nat -> nat -> Z) : Prop :=
  rm_rows m = rows /\ rm_cols m = cols /\ length (rm_data m) = (rows * cols * 2 ^ L)%nat
  /\ Forall (fun v => v < 2 ^ 64) (rm_data m)
  /\ forall r c z, (r < rows)%nat -> (c < cols)%nat -> (z < 2 ^ L)%nat ->
       eqm q (Z.of_N (nth ((r * cols + c) * 2 ^ L + z) (rm_data m) 0)) (a r c z).

(** Row r of a ciphertext. *)
Definition ct_row (c : ct) (r : nat) : poly := match r with O => fst c | _ => snd c end.

(** The digits of the expansion keys fit ToNttNoReduce. *)
Definition small_digits (NP : ntt_params) (P : sel_params) (d : nat) : Prop :=
  (1 <= d)%nat /\ forall k, (k < 2)%nat -> (2 ^ Z.of_nat (bits_for P d) <= 4 * Z.of_N (nth k (np_moduli NP) 0%N))%Z.

(** Plaintext [item] of one partition: polynomial [trial], coefficient z; all plaintexts are there and their
    coefficients are below the plaintext modulus. *)
Definition pt_of (L : nat) (database : list (list N)) (trial item z : nat) : N := nth (trial * 2 ^ L + z) (nth item database []) 0.
Definition db_ok (L : nat) (P : sel_params) (database : list (list N)) : Prop :=
  let items := (2 ^ sp_v1 P * 2 ^ sp_v2 P)%nat in
  let words := (sp_n P * sp_n P * 2 ^ L)%nat in
  (items <= length database)%nat /\ forall item, (item < items)%nat ->
    (words <= length (nth item database []))%nat
    /\ forall x, (x < words)%nat -> nth x (nth item database []) 0 < Z.to_N (sp_p P).

(** The words of the client's public keys stand for the keys of SpSelModel. *)
Definition keys_stand (L : nat) (moduli : list N) (psi : nat -> Z) (P : sel_params) (pks : public_keys)
           (left right : list (nat -> ct)) (conv : nat -> ct) (packing : list (nat -> nat -> poly)) : Prop :=
  let stands := stands_ntt L moduli psi in
  let no_mat := RawMat 0 0 [] in
  (length (pk_left pks) = length left /\ forall i, (i < length left)%nat ->
     stands 2%nat (sp_left P) (nth i (pk_left pks) no_mat) (fun r k => ct_row (nth i left (fun _ => ct_zero) k) r))
  /\ (length (pk_right pks) = length right /\ forall i, (i < length right)%nat ->
     stands 2%nat (sp_right P) (nth i (pk_right pks) no_mat) (fun r k => ct_row (nth i right (fun _ => ct_zero) k) r))
  /\ (exists cw, hd_error (pk_conv pks) = Some cw /\ stands 2%nat (2 * sp_conv P)%nat cw (fun r k => ct_row (conv k) r))
  /\ length (pk_packing pks) = sp_n P /\ forall i, (i < sp_n P)%nat ->
     stands (sp_n P + 1)%nat (sp_conv P) (nth i (pk_packing pks) no_mat) (fun r k => nth i packing (fun _ _ => pzero) k r).
