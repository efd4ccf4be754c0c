(** C40, C41: a raw database laid out in plaintexts gives every row back. *)
From Coq Require Import List NArith Bool Arith Lia.
From Verif Require Import Base StoreModel Text PirPackModel PirPackSpec
  PirPackProofs PirPackProofs2 PirPackProofs3.
Import ListNotations.

(** Partition then Combine, row by row. *)
Theorem C40_partition_combine : forall rows len (db : list bytes) plen,
  length db = rows -> (forall r, In r db -> length r = len) -> 1 <= plen ->
  exists parts, partition (RawDb rows len db) plen = Ok parts
    /\ Forall (fun p => rd_rows p = rows /\ rd_len p = Nat.min plen len /\ length (rd_db p) = rows
                        /\ forall r, In r (rd_db p) -> length r = Nat.min plen len) parts
    /\ forall i, i < rows -> combine (map (fun p => nth i (rd_db p) []) parts) len = Ok (nth i db []).
Proof.
  intros rows len db plen Hn Hl Hp. destruct (Nat.le_gt_cases len plen) as [Hle|Hgt].
  - exists [RawDb rows len db]. split.
    + unfold partition. cbn [rd_len rd_rows rd_db]. apply Nat.leb_le in Hle. rewrite Hle.
      unfold raw_make, enforce. rewrite forallb_len by auto. reflexivity.
    + split.
      * constructor; auto. cbn [rd_len rd_rows rd_db]. rewrite Nat.min_r by lia. auto.
      * intros i Hi. cbn [map rd_db combine]. unfold enforce.
        assert (Hr : length (nth i db []) = len) by (apply Hl, nth_In; unfold bytes in *; lia).
        unfold bytes in *. rewrite Hr, Nat.eqb_refl. reflexivity.
  - eexists. split; [apply partition_ok; auto|]. split.
    + apply Forall_forall. intros p Hin. apply in_map_iff in Hin. destruct Hin as (k & <- & _).
      cbn [rd_len rd_rows rd_db]. rewrite Nat.min_l, map_length by lia. repeat split; auto.
      intros r Hr. apply in_map_iff in Hr. destruct Hr as (r0 & <- & _). apply pchunk_length.
    + intros i Hi. rewrite map_map. cbn [rd_db].
      rewrite (map_ext_in _ (fun k => pchunk plen k (nth i db []))).
      * apply combine_ok; auto. apply Hl, nth_In. unfold bytes in *. lia.
      * intros k _. rewrite (nth_indep _ [] (pchunk plen k [])) by (rewrite map_length; unfold bytes in *; lia).
        apply map_nth.
Qed.

(** GenerateFromRawDataAndReorient, with the dimensions UpdateByDatabaseInfo picks: every row
    the client asks for comes back unchanged, for every plaintext width from 1 to 64 bits. *)
Theorem C40_row_retrieval : forall pt_coeffs logt rows len (db : list bytes) v0 v pts,
  1 <= logt <= 64 -> 8 <= pt_coeffs * logt -> 1 <= len -> 1 <= rows -> length db = rows ->
  (forall r, In r db -> length r = len /\ Forall is_byte r) ->
  v0 <= 30 -> update_dims pt_coeffs logt v0 rows len = Ok (v, pts) -> (N.of_nat pts <= 2 ^ 30)%N ->
  exists parts, generate_reorient pt_coeffs logt rows len v (RawDb rows len db) = Ok parts
    /\ Forall (fun p => length p = 2 ^ v) parts
    /\ forall i, i < rows -> retrieve pt_coeffs logt rows len i parts = Ok (nth i db []).
Proof.
  intros pt_coeffs logt rows len db v0 v pts Hlog Hm Hlen Hrows Hn Hdb Hv0 Hu Hpts.
  assert (Hmb : 1 <= max_byte_len pt_coeffs logt) by (apply Nat.div_le_lower_bound; lia).
  destruct (update_dims_ok pt_coeffs logt Hlog v0 rows len Hmb Hlen Hv0) as (es & Ees & Hup).
  assert (Epts : pts = uint_num rows es).
  { unfold update_dims in Hu. rewrite Ees in Hu. cbn [bind] in Hu. destruct (uint_num rows es <=? 4); [congruence|].
    destruct (grow_dims 32 v0 (uint_num rows es)); cbn [bind] in Hu; congruence. }
  subst pts. destruct (Hup Hpts) as (v' & Hu' & Hv & Hle).
  assert (v' = v) by congruence. subst v'.
  destruct (generate_reorient_ok pt_coeffs logt Hlog rows len v db Hmb Hlen Hn Hrows Hv Hdb)
    as (parts & E & L & _ & R).
  exists parts. split; [exact E|]. split; [apply (L es); auto|exact R].
Qed.

(** GenerateFromRawData, dumped and loaded again (8-bit plaintexts, as the code requires). *)
Theorem C40_row_retrieval_dump : forall pt_coeffs rows len (db : list bytes) v0 v pts,
  1 <= pt_coeffs -> 1 <= len -> 1 <= rows -> length db = rows ->
  (forall r, In r db -> length r = len /\ Forall is_byte r) ->
  v0 <= 30 -> update_dims pt_coeffs 8 v0 rows len = Ok (v, pts) -> (N.of_nat pts <= 2 ^ 30)%N ->
  exists pt_dbs single num parts,
    generate_raw pt_coeffs 8 rows len v (RawDb rows len db) = Ok (pt_dbs, single, num)
    /\ load_pts pt_coeffs v pt_dbs single num = Ok parts
    /\ Forall (fun p => length p = 2 ^ v) parts
    /\ forall i, i < rows -> retrieve pt_coeffs 8 rows len i parts = Ok (nth i db []).
Proof.
  intros pt_coeffs rows len db v0 v pts Hm Hlen Hrows Hn Hdb Hv0 Hu Hpts.
  assert (Hmb : 1 <= max_byte_len pt_coeffs 8) by (apply Nat.div_le_lower_bound; lia).
  destruct (update_dims_ok pt_coeffs 8 ltac:(lia) v0 rows len Hmb Hlen Hv0) as (es & Ees & Hup).
  assert (Epts : pts = uint_num rows es).
  { unfold update_dims in Hu. rewrite Ees in Hu. cbn [bind] in Hu. destruct (uint_num rows es <=? 4); [congruence|].
    destruct (grow_dims 32 v0 (uint_num rows es)); cbn [bind] in Hu; congruence. }
  subst pts. destruct (Hup Hpts) as (v' & Hu' & Hv & Hle).
  assert (v' = v) by congruence. subst v'.
  destruct (generate_raw_ok pt_coeffs 8 rows len v db es eq_refl Hmb Hlen Hn Hrows Hv Hdb Ees Hle)
    as (pt_dbs & single & num & parts & E & El & L & _ & R).
  exists pt_dbs, single, num, parts. auto.
Qed.

(** Two rows of 5 bytes, plaintexts of 3 coefficients of 5 bits: rows span 5 partitions. *)
Example C40_example :
  let db := [[1; 2; 3; 4; 255]; [250; 0; 17; 34; 51]; [9; 8; 7; 6; 5]]%N in
  exists parts, update_dims 3 5 2 3 5 = Ok (3, 3)
  /\ generate_reorient 3 5 3 5 3 (RawDb 3 5 db) = Ok parts /\ length parts = 5
  /\ retrieve 3 5 3 5 1 parts = Ok [250; 0; 17; 34; 51]%N
  /\ retrieve 3 5 3 5 2 parts = Ok [9; 8; 7; 6; 5]%N.
Proof. cbv zeta. eexists. split; [reflexivity|]. split; [reflexivity|]. repeat split. Qed.

(** Three rows per plaintext, dumped and loaded. *)
Example C40_example_dump :
  let db := [[1; 2]; [250; 0]; [9; 8]; [77; 66]; [5; 5]]%N in
  exists f s n parts, generate_raw 7 8 5 2 1 (RawDb 5 2 db) = Ok (f, s, n)
  /\ load_pts 7 1 f s n = Ok parts
  /\ parts = [[[1; 2; 250; 0; 9; 8; 1]; [77; 66; 5; 5; 1; 1; 1]]]%N
  /\ retrieve 7 8 5 2 3 parts = Ok [77; 66]%N.
Proof. cbv zeta. eexists _, _, _, _. split; [reflexivity|]. split; [reflexivity|]. repeat split. Qed.

(** Packing: the coefficients, read as bit strings, are the bytes followed by fewer than
    logt zero bits. *)
Theorem C41_pack : forall w logt offset size bs,
  1 <= logt -> (N.of_nat logt <= w)%N -> (w <= 64)%N -> 1 <= size -> offset + size <= length bs ->
  Forall is_byte bs ->
  exists cs pad, bytes_to_coeffs w logt offset size bs = Ok cs
    /\ Forall (fun x => (x < 2 ^ N.of_nat logt)%N) cs
    /\ bitstring logt cs = bitstring 8 (firstn size (skipn offset bs)) ++ repeat false pad
    /\ pad < logt.
Proof.
  intros w logt offset size bs H1 H2 H3 H4 H5 H6.
  destruct (pack_ok w logt offset size bs) as (cs & pad & E & _ & B & S & P); auto.
  exists cs, pad. auto.
Qed.

(** Unpacking: the complete bytes are the bits of the coefficients. *)
Theorem C41_unpack : forall logt cs, 1 <= logt <= 64 ->
  Forall (fun x => (x < 2 ^ N.of_nat logt)%N) cs ->
  exists bs, coeffs_to_bytes logt cs = Ok bs
    /\ length bs = (length cs * logt + 7) / 8 /\ Forall is_byte bs
    /\ bitstring 8 (firstn (length cs * logt / 8) bs)
       = firstn (8 * (length cs * logt / 8)) (bitstring logt cs).
Proof.
  intros logt cs H1 H2. destruct (unpack_ok logt cs H1 H2) as (bs & E & L & B & S).
  exists bs. split; [exact E|]. split; [|auto]. rewrite L. unfold uint_num. f_equal. lia.
Qed.

(** Bytes to coefficients and back: the first [size] bytes are the original ones, whatever
    coefficients were appended in between (the server pads with ones). *)
Theorem C41_round_trip : forall w logt offset size bs cs more,
  1 <= logt -> (N.of_nat logt <= w)%N -> (w <= 64)%N -> 1 <= size -> offset + size <= length bs ->
  Forall is_byte bs -> bytes_to_coeffs w logt offset size bs = Ok cs ->
  Forall (fun x => (x < 2 ^ N.of_nat logt)%N) more ->
  exists out, coeffs_to_bytes logt (cs ++ more) = Ok out
    /\ firstn size out = firstn size (skipn offset bs).
Proof.
  intros w logt offset size bs cs more H1 H2 H3 H4 H5 H6 H7 H8.
  destruct (round_trip w logt offset size bs cs more) as (out & E & _ & _ & F); auto.
  exists out. auto.
Qed.

(** An incomplete last byte is not a prefix of the bit string: its bits are right aligned and mixed with earlier ones,
    so coefficients whose bits do not fill whole bytes do not survive in the bytes. *)
Theorem C41_last_byte_refuted : exists logt cs bs, 1 <= logt <= 64
  /\ Forall (fun x => (x < 2 ^ N.of_nat logt)%N) cs /\ coeffs_to_bytes logt cs = Ok bs
  /\ firstn (length cs * logt) (bitstring 8 bs) <> bitstring logt cs.
Proof.
  exists 12, [2748]%N, [171; 188]%N. split; [lia|]. split; [constructor; [reflexivity|constructor]|].
  split; [reflexivity|]. vm_compute. discriminate.
Qed.

Example C41_example :
  bytes_to_coeffs 64 12 1 5 [7; 171; 205; 239; 1; 35; 7]%N = Ok [2748; 3567; 18; 768]%N
  /\ coeffs_to_bytes 12 [2748; 3567; 18; 768; 1; 1]%N = Ok [171; 205; 239; 1; 35; 0; 0; 16; 1]%N
  /\ bytes_to_coeffs 8 3 0 2 [165; 60]%N = Ok [5; 1; 2; 3; 6; 0]%N.
Proof. repeat split. Qed.

Print Assumptions C40_partition_combine.
Print Assumptions C40_row_retrieval.
Print Assumptions C40_row_retrieval_dump.
Print Assumptions C41_pack.
Print Assumptions C41_unpack.
Print Assumptions C41_round_trip.
Print Assumptions C41_last_byte_refuted.
