(** Model of the life of a Spiral PIR server (psi/algorithm/spiral/spiral_server.h 38-206, spiral_server.cc
    208-371, 430-462, 682-760): filled, dumped, loaded again and asked.

    Simplified: the polynomial arithmetic is the ideal one of PirPackModel.  reoriented_dbs_ holds the plaintexts of
    every partition instead of their words after ReorientDatabase (same order, one block for each partition).
    The two dimensions are one number, their sum, and the parameters of the server are GetDefaultParam updated by
    the database shape, as DeserializeFromProto builds them.  The type tag and the delimited messages around a dump
    are left out, and no stream fails.  A call that throws ends the server. *)
From Coq Require Import List Arith NArith Bool.
From Verif Require Import Base StoreModel Text PirPackModel.
Import ListNotations.

(** The members of SpiralServer (spiral_server.h 182-206); [sv_v] is DbDim1 + DbDim2 of params_. *)
Record sp_server := SpServer {
  sv_rows : nat; sv_len : nat; sv_v : nat; sv_pts : nat;
  sv_single : nat; sv_num : nat;
  sv_flat : list N;
  sv_parts : list (list (list N));
  sv_set : bool }.

(** SpiralServerProto (the fields written at spiral_server.cc 213-228). *)
Record sp_proto := SpProto {
  pr_rows : nat; pr_len : nat; pr_pts : nat; pr_v : nat; pr_single : nat; pr_num : nat; pr_flat : list N }.

Section Server.
Variables (pt_coeffs : nat) (v0 : nat -> nat -> nat).

(** The constructor without a database (spiral_server.h 38-40 and the initial values 186-206). *)
Definition sv_new (rows len v : nat) : sp_server := SpServer rows len v 0 0 1 [] [] false.

(** pt_nums_ as set at spiral_server.cc 59 and 141. *)
Definition sv_pt_nums (s : sp_server) (d : raw_db) : outcome nat :=
  do es <- element_size pt_coeffs 8 (Nat.min (sv_len s) (max_byte_len pt_coeffs 8));
  Ok (uint_num (length (rd_db d)) es).

(** GenerateFromRawData (spiral_server.cc 337-371): one partition replaces pt_dbs_ (349), several are appended to
    it (367). *)
Definition sv_generate (s : sp_server) (d : raw_db) : outcome sp_server :=
  do (fs, num) <- generate_raw pt_coeffs 8 (sv_rows s) (sv_len s) (sv_v s) d;
  let '(flat, single) := fs in
  do pts <- sv_pt_nums s d;
  Ok (SpServer (sv_rows s) (sv_len s) (sv_v s) pts single num
        (if rd_len d <=? max_byte_len pt_coeffs 8 then flat else sv_flat s ++ flat) (sv_parts s) true).

(** GenerateFromRawDataAndReorient (spiral_server.cc 430-462): the same for reoriented_dbs_ (437, 458); pt_dbs_ and
    single_pt_db_size_ are not touched. *)
Definition sv_reorient (s : sp_server) (d : raw_db) : outcome sp_server :=
  do parts <- generate_reorient pt_coeffs 8 (sv_rows s) (sv_len s) (sv_v s) d;
  do pts <- sv_pt_nums s d;
  Ok (SpServer (sv_rows s) (sv_len s) (sv_v s) pts (sv_single s) (length parts)
        (sv_flat s) (if rd_len d <=? max_byte_len pt_coeffs 8 then parts else sv_parts s ++ parts) true).

(** Dump and SerializeToProto (spiral_server.cc 208-231, 312-321). *)
Definition sv_dump (s : sp_server) : outcome sp_proto :=
  enforce (sv_set s)
    (Ok (SpProto (sv_rows s) (sv_len s) (sv_pts s) (sv_v s) (sv_single s) (sv_num s) (sv_flat s))).

(** Load and DeserializeFromProto (spiral_server.cc 233-310, 323-335): pt_dbs_ of the new server stays empty. *)
Definition sv_load (p : sp_proto) : outcome sp_server :=
  do (v, pts) <- update_dims pt_coeffs 8 (v0 (pr_rows p) (pr_len p)) (pr_rows p) (pr_len p);
  enforce (pts =? pr_pts p)
  (enforce (v =? pr_v p)
  (enforce (pr_single p * pr_num p =? length (pr_flat p))
  (do parts <- load_pts pt_coeffs v (pr_flat p) (pr_single p) (pr_num p);
   Ok (SpServer (pr_rows p) (pr_len p) v pts (pr_single p) (pr_num p) [] parts true)))).

(** A query for row [idx] answered by ProcessQuery (spiral_server.cc 682-760) and decoded by the client: partition i
    is read from word i * single_db_size_ of reoriented_dbs_ (905) for every i below partition_num_; reading
    past its end is undefined. *)
Definition sv_ask (s : sp_server) (idx : nat) : outcome bytes :=
  enforce (sv_set s)
  (if length (sv_parts s) <? sv_num s then UB
   else retrieve pt_coeffs 8 (sv_rows s) (sv_len s) idx (firstn (sv_num s) (sv_parts s))).

End Server.
