(** Model of the messages of the Spiral protocol: PolyMatrixProto (psi/algorithm/spiral/serializable.proto
    21-25, poly_matrix.cc 36-98), the public keys and the response (serialize.cc 160-293), the query with
    its first row replaced by a seed (spiral_client.cc 66-103) and Response (spiral_server.h 88-100).

    A message is the protobuf object: encoding it to bytes and parsing the bytes again are not modelled. *)
From Coq Require Import List Arith NArith ZArith Bool.
From Verif Require Import Base StoreModel PirPackModel SpArithModel SpLoopModel SpGadgetModel SpDecodeModel
  SpSelModel NttModel SpSrvModel SpCliModel.
Import ListNotations.
Local Open Scope N_scope.

Record mat_proto := MatProto { pr_rows : N; pr_cols : N; pr_data : list N }.

Section Wire.
Variable avx : bool.
Variable NP : ntt_params.
(** InvertUintMod. *)
Variable inv : N -> N -> N.
Variable P : sel_params.
Let n : nat := np_len NP.

(** The size check: size_t arithmetic wraps (poly_matrix.cc 70, 81). *)
Definition size_matches (rows cols : N) (data : list N) : bool :=
  u64 (u64 (rows * cols) * N.of_nat n) =? N.of_nat (length data).

Definition to_proto (m : raw_mat) : mat_proto := MatProto (N.of_nat (rm_rows m)) (N.of_nat (rm_cols m)) (rm_data m).
Definition from_proto (p : mat_proto) : outcome raw_mat :=
  enforce (size_matches (pr_rows p) (pr_cols p) (pr_data p)) (
  Ok (RawMat (N.to_nat (pr_rows p)) (N.to_nat (pr_cols p)) (pr_data p))).

(** ToProtoRng and FromProtoRng. *)
Definition to_proto_rng (m : raw_mat) : outcome mat_proto :=
  enforce (1 <? rm_rows m)%nat (
  let offset := (rm_cols m * n)%nat in
  if (offset <=? length (rm_data m))%nat
  then Ok (MatProto (N.of_nat (rm_rows m - 1)) (N.of_nat (rm_cols m)) (skipn offset (rm_data m)))
  else UB).
Definition from_proto_rng (p : mat_proto) (rng : prg) : outcome raw_mat :=
  enforce (size_matches (pr_rows p) (pr_cols p) (pr_data p)) (
  let q := w_modulus P in
  let first_row := map (fun i => sub_u64 q (rng i mod q)) (seq 0 (N.to_nat (u64 (pr_cols p * N.of_nat n)))) in
  Ok (RawMat (N.to_nat (u64 (pr_rows p + 1))) (N.to_nat (pr_cols p)) (first_row ++ pr_data p))).

(** SerializePublicKeys and DeserializePublicKeys (serialize.cc 189-214, 254-293). *)
Record keys_proto := KeysProto {
  kp_packing : list mat_proto; kp_left : list mat_proto; kp_right : list mat_proto; kp_conv : list mat_proto }.
Definition ntt_to_proto (m : raw_mat) : outcome mat_proto := do r <- from_ntt avx NP inv m; Ok (to_proto r).
Definition ntt_from_proto (p : mat_proto) : outcome raw_mat := do r <- from_proto p; to_ntt avx NP r.
Definition keys_to_proto (k : public_keys) : outcome keys_proto :=
  do a <- map_out ntt_to_proto (pk_packing k);
  do b <- map_out ntt_to_proto (pk_left k);
  do c <- map_out ntt_to_proto (pk_right k);
  do d <- map_out ntt_to_proto (pk_conv k);
  Ok (KeysProto a b c d).
Definition keys_from_proto (k : keys_proto) : outcome public_keys :=
  do a <- map_out ntt_from_proto (kp_packing k);
  do b <- map_out ntt_from_proto (kp_left k);
  do c <- map_out ntt_from_proto (kp_right k);
  do d <- map_out ntt_from_proto (kp_conv k);
  Ok (PublicKeys a b c d).

(** SerializeRng and DeserializeRng (spiral_client.cc 86-103); [rng_of] is the stream of a seed. *)
Definition query_to_proto (ct : raw_mat) (seed : N) : outcome (mat_proto * N) := do p <- to_proto_rng ct; Ok (p, seed).
Definition query_from_proto (rng_of : N -> prg) (m : mat_proto * N) : outcome raw_mat := from_proto_rng (fst m) (rng_of (snd m)).

(** Response (spiral_server.h 88-100). *)
Definition respond (rng_of : N -> prg) (q2 : N) (db : list N) (single parts : nat) (keys : keys_proto) (query : mat_proto * N)
  : outcome (list mat_proto) :=
  do ct <- query_from_proto rng_of query;
  do pks <- keys_from_proto keys;
  do r <- w_process_query avx NP inv P q2 db single parts pks ct;
  Ok (map to_proto r).

(** GenQueryInternal with its seed, and SerializeRngToStr (spiral_client.cc 77-84, 282-353). *)
Definition pt_query (rng_of : N -> prg) (dg : gaussian) (sk_reg : raw_mat) (k : nat) (rng : prg) (seed : N) : outcome (mat_proto * N) :=
  do ct <- gen_query avx NP inv P dg sk_reg k (rng, rng_of seed);
  query_to_proto ct seed.

(** GeneratePksString and GenerateIndexQueryStr (spiral_client.h 84-94, 120-124). *)
Definition pks_message (dg : gaussian) (sk_gsw sk_reg : raw_mat) (st : prgs) : outcome keys_proto :=
  do k <- gen_public_keys avx NP inv P dg sk_gsw sk_reg st;
  keys_to_proto k.
Definition query_message (rng_of : N -> prg) (dg : gaussian) (sk_reg : raw_mat) (logt rows len idx : nat) (rng : prg) (seed : N)
  : outcome (mat_proto * N) :=
  do k <- client_pt_index (sp_n P * sp_n P * sp_len P) logt rows len idx;
  pt_query rng_of dg sk_reg k rng seed.

(** DecodeIndexResponse (spiral_client.h 126-132, spiral_client.cc 355-388): here all partitions are
    decoded before the first is converted to bytes. *)
Definition open_message (mul_q2 : raw_mat -> raw_mat -> raw_mat) (q2 : N) (sk_gsw : raw_mat) (logt len idx : nat)
           (response : list mat_proto) : outcome (list N) :=
  do rs <- map_out from_proto response;
  do ds <- map_out (decode_response n mul_q2 (sp_n P) (w_modulus P) (Z.to_N (sp_p P)) q2 sk_gsw) rs;
  client_decode (sp_n P * sp_n P * sp_len P) logt len idx (map rm_data ds).
End Wire.
