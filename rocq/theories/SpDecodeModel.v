(** Model of the modulus switch at the end of SpiralServer::ProcessQuery and of
    SpiralClient::DecodeResponseInternal (psi/algorithm/spiral/spiral_server.cc 746-752,
    spiral_client.cc 389-460), with PolyMatrixRaw::Rescale and SubMatrix
    (poly_matrix.cc 121-139, 181-195).

    FromNtt(Multiply(ToNtt(a), ToNtt(b))) under q2_params_ is the parameter [mul_q2]. *)
From Coq Require Import List Arith NArith ZArith Bool.
From Verif Require Import Base StoreModel PirPackModel SpArithModel SpLoopModel SpGadgetModel.
Import ListNotations.

Section Decode.
Variable poly_len : nat.

(** PolyMatrixRaw::Rescale: the loops visit every word of the rows once, in place. *)
Definition rescale_rows (m : raw_mat) (start_row end_row : nat) (im om : N) : outcome raw_mat :=
  enforce (start_row <? end_row) (
  enforce (end_row <=? rm_rows m) (
  let w := rm_cols m * poly_len in
  do d <- map_out (fun p =>
            do v <- get p (rm_data m);
            if (start_row * w <=? p) && (p <? end_row * w) then rescale v im om else Ok v)
          (seq 0 (length (rm_data m)));
  Ok (RawMat (rm_rows m) (rm_cols m) d))).

(** spiral_server.cc 747-752, for one packed ciphertext. *)
Definition mod_switch (ct : raw_mat) (q p q2 : N) : outcome raw_mat :=
  let q1 := u64 (4 * p) in
  do ct <- rescale_rows ct 0 1 q q2;
  rescale_rows ct 1 (rm_rows ct) q q1.

(** PolyMatrixRaw::SubMatrix. *)
Definition sub_matrix (m : raw_mat) (row col rows cols : nat) : outcome raw_mat :=
  enforce ((row <? rm_rows m) && (col <? rm_cols m)
           && (row + rows <=? rm_rows m) && (col + cols <=? rm_cols m)) (
  do d <- map_out (fun p =>
            let z := p mod poly_len in
            let c := (p / poly_len) mod cols in
            let r := p / poly_len / cols in
            get (poly_start poly_len m (row + r) (col + c) + z) (rm_data m))
          (seq 0 (rows * cols * poly_len));
  Ok (RawMat rows cols d)).

Local Open Scope Z_scope.
(** The loop body of DecodeResponseInternal (spiral_client.cc 427-457). *)
Definition decode_coeff (p q2 : N) (prod rest : N) : outcome N :=
  let q1 := u64 (4 * p) in
  if (p =? 0)%N then UB else
  let q1_i64 := to_i64 q1 in
  let q2_i64 := to_i64 q2 in
  let val_first := to_i64 prod in
  do val_first <- (if val_first >=? Z.quot q2_i64 2 then i64 (val_first - q2_i64) else Ok val_first);
  let val_rest := to_i64 rest in
  do val_rest <- (if val_rest >=? Z.quot q1_i64 2 then i64 (val_rest - q1_i64) else Ok val_rest);
  let denominator := to_i64 (u64 (q2 * (q1 / p))) in
  do r <- i64 (val_first * q1_i64);
  do t <- i64 (val_rest * q2_i64);
  do r <- i64 (r + t);
  let sign := if r >=? 0 then 1 else -1 in
  do h <- i64 (sign * Z.quot denominator 2);
  do tmp <- i64 (r + h);
  do res <- quot_c tmp denominator;
  let p128 := Z.of_N p in
  do middle <- quot_c denominator p128;
  do r2 <- i128 (2 * p128);
  do s <- i128 (res + middle);
  do s <- i128 (s + r2);
  do res <- rem_c s p128;
  Ok (Z.to_N (res mod 2 ^ 64)).
Local Close Scope Z_scope.

(** FromNtt(Multiply(ToNtt(a), ToNtt(b))). *)
Variable mul_q2 : raw_mat -> raw_mat -> raw_mat.

(** DecodeResponseInternal (spiral_client.cc 389-460); [sk] is sk_gsw_, n rows, one column. *)
Definition decode_response (n : nat) (q p q2 : N) (sk response : raw_mat) : outcome raw_mat :=
  do skd <- map_out (fun i => do v <- get i (rm_data sk); recenter v q q2) (seq 0 (poly_len * n));
  do first_row <- sub_matrix response 0 0 1 (rm_cols response);
  do rest_rows <- sub_matrix response 1 0 (rm_rows response - 1) (rm_cols response);
  let sk_prod := mul_q2 (RawMat n 1 skd) first_row in
  do d <- map_out (fun i =>
            do a <- get i (rm_data sk_prod);
            do b <- get i (rm_data rest_rows);
            decode_coeff p q2 a b)
          (seq 0 (n * n * poly_len));
  Ok (RawMat n n d).
End Decode.
