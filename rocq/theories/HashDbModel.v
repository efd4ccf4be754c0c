(** Model of IndexPirDataBase::GenerateFromSimpleHashTable (psi/algorithm/pir_interface/pir_db.h 62) of
    SealPIR (psi/algorithm/sealpir/seal_pir.cc 624-739) and Spiral
    (psi/algorithm/spiral/spiral_server.cc 375-428): the server takes the shape of the table it is given
    instead of the one it was made for.

    Simplified as in SealPirModel and PirPackModel, whose functions are used for the parts the two ways of
    loading have in common; the declared shape of a Spiral server is overwritten and is left out. *)
From Coq Require Import List Arith NArith Bool.
From Verif Require Import Base StoreModel Text PirPackModel NttModel SpArithModel SpLoopModel SpRingModel SealPirModel.
Import ListNotations.

(** SealPIR (seal_pir.cc 624-739) on a server with parameters [P0] and stores [old]: the table is cut by the
    old parameters (626-635), SetPirParams with two dimensions (641), then the loop over the partitions of the new
    parameters (661-736).  Result: pir_params_ and the stores. *)
Definition seal_from_hash (encode : list N -> list N) (fpow : nat -> nat -> nat) (P0 : seal_params)
    (old : list (list (list N))) (db : raw_db) : outcome (seal_params * list (list (list N))) :=
  do parts <- partition db (sl_psize P0);
  enforce (sl_pnum P0 =? length parts) (
  do P <- set_pir_params fpow (sl_n P0) (sl_logt P0) (rd_rows db) (rd_len db) 2;
  enforce (N.of_nat (sl_npt P) <? prod64 (sl_dims P))%N (
  do st <- map_out (fun i => do part <- get i parts; do o <- get i old; do pts <- gen_partition encode P part; Ok (o ++ pts))
                   (seq 0 (sl_pnum P));
  Ok (P, st ++ skipn (sl_pnum P) old))).

(** Spiral (spiral_server.cc 375-428) on a server holding pt_dbs_ [old]: UpdateByDatabaseInfo with the shape of
    the table (391-395); one partition replaces pt_dbs_ (404), several are appended to it (423).  Result: the sum of
    the dimensions, pt_dbs_, single_pt_db_size_ and partition_num_. *)
Definition spiral_from_hash (pt_coeffs logt v0 : nat) (old : list N) (d : raw_db) : outcome (nat * (list N * nat * nat)) :=
  enforce (logt =? 8) (
  do (v, _) <- update_dims pt_coeffs logt v0 (rd_rows d) (rd_len d);
  do (ps, num) <- generate_raw pt_coeffs logt (rd_rows d) (rd_len d) v d;
  let '(p, single) := ps in
  Ok (v, (if rd_len d <=? max_byte_len pt_coeffs logt then p else old ++ p, single, num))).
