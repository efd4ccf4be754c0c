(** Model of how Spiral PIR lays a raw database out in plaintexts and how the client takes
    its row out again: psi/algorithm/pir_interface/pir_db.cc (Partition, Combine),
    psi/algorithm/spiral/util.cc (ConvertBytesToCoeffs, ConvertBytesToU8Coeffs,
    ConvertCoeffsToBytes), params.cc/params.h (ElementSizeOfPt, MaxByteLenOfPt,
    UpdateByDatabaseInfo), spiral_server.cc (ReorientRawDb up to ReorientDatabase,
    ConvertRawDbToPtDb, GenerateFromRawData, GenerateFromRawDataAndReorient, the cutting
    half of PtDbsToReorientedDbs) and spiral_client.{h,cc} (GenQuery's plaintext index,
    DecodeResponse).

    Sizes are nat and do not wrap: all are bounded by the size of an object in memory.
    The lattice part (encrypted selection of one plaintext and its decryption) is not
    here; the client is handed the selected plaintext of every partition. *)
From Coq Require Import List NArith Bool Arith.
From Verif Require Import Base StoreModel Text.
Import ListNotations.

(** arith::UintNum (arith/arith.h 231-233); callers have checked the divisor. *)
Definition uint_num (len unit : nat) : nat := (len + unit - 1) / unit.

(** Inner loop of ConvertBytesToCoeffs over one byte (util.cc 171-186) and of the U8
    version (util.cc 203-219): [w] is the width of a stored coefficient (64 or 8).  State:
    array, room, flag.  At most 8 rounds. *)
Fixpoint b2c_byte (fuel : nat) (w : N) (logt : nat) (src : N) (rest : nat)
         (st : list N * nat * nat) {struct fuel} : outcome (list N * nat * nat) :=
  match fuel with
  | O => Ok st
  | S f =>
    if rest =? 0 then Ok st
    else
      let '(arr, room, flag) := st in
      let '(room, flag) := if room =? 0 then (logt, S flag) else (room, flag) in
      let shift := Nat.min room rest in
      match nth_error arr flag with
      | None => UB
      | Some c =>
        let c' := (N.lor (N.shiftl c (N.of_nat shift) mod 2 ^ 64)
                         (N.shiftr src (N.of_nat (8 - shift))) mod 2 ^ w)%N in
        let remain := (2 ^ N.of_nat (8 - shift) - 1)%N in
        b2c_byte f w logt (u32 (N.shiftl (N.land src remain) (N.of_nat shift)))
                 (rest - shift) (upd flag (fun _ => c') arr, room - shift, flag)
      end
  end.

(** The loop over the bytes (util.cc 167-187, 199-220). *)
Fixpoint b2c_loop (n : nat) (w : N) (logt i offset : nat) (bytes : list N)
         (st : list N * nat * nat) : outcome (list N * nat * nat) :=
  match n with
  | O => Ok st
  | S n' =>
    match nth_error bytes (i + offset) with
    | None => UB
    | Some b =>
      do st' <- b2c_byte 9 w logt b 8 st;
      b2c_loop n' w logt (S i) offset bytes st'
    end
  end.

(** ConvertBytesToCoeffs ([w] = 64, util.cc 158-189) and ConvertBytesToU8Coeffs ([w] = 8,
    util.cc 191-223).  size = 0 writes the last coefficient of an empty vector. *)
Definition bytes_to_coeffs (w : N) (logt offset size : nat) (bytes : list N)
  : outcome (list N) :=
  if logt =? 0 then UB
  else
    do st <- b2c_loop size w logt 0 offset bytes
                      (repeat 0%N (uint_num (8 * size) logt), logt, 0);
    let '(arr, room, flag) := st in
    if 64 <=? room then UB
    else
      match nth_error arr flag with
      | None => UB
      | Some c => Ok (upd flag (fun _ => N.shiftl c (N.of_nat room) mod 2 ^ w)%N arr)
      end.

(** Inner loop of ConvertCoeffsToBytes over one coefficient (util.cc 107-121): room, j and
    the byte array.  At most 65 rounds. *)
Fixpoint c2b_coeff (fuel : nat) (logt : nat) (src : N) (rest : nat)
         (st : list N * nat * nat) {struct fuel} : outcome (list N * nat * nat) :=
  match fuel with
  | O => Ok st
  | S f =>
    let '(bs, room, j) := st in
    if (rest =? 0) || negb (j <? length bs) then Ok st
    else
      let shift := Nat.min room rest in
      if 64 <=? logt - shift then UB
      else
        match nth_error bs j with
        | None => UB
        | Some b =>
          let b1 := (N.shiftl b (N.of_nat shift) mod 256)%N in
          let b2 := (N.lor b1 (N.shiftr src (N.of_nat (logt - shift))) mod 256)%N in
          let bs := upd j (fun _ => b2) bs in
          let room := room - shift in
          c2b_coeff f logt (u64 (N.shiftl src (N.of_nat shift))) (rest - shift)
                    (if room =? 0 then (bs, 8, S j) else (bs, room, j))
        end
  end.

Fixpoint c2b_loop (logt : nat) (cs : list N) (st : list N * nat * nat)
  : outcome (list N * nat * nat) :=
  match cs with
  | [] => Ok st
  | c :: r => do st' <- c2b_coeff (S logt) logt c logt st; c2b_loop logt r st'
  end.

(** ConvertCoeffsToBytes, both overloads (util.cc 98-156). *)
Definition coeffs_to_bytes (logt : nat) (cs : list N) : outcome (list N) :=
  do st <- c2b_loop logt cs (repeat 0%N (uint_num (length cs * logt) 8), 8, 0);
  let '(bs, _, _) := st in Ok bs.

(** RawDatabase (pir_db.h 78-118): rows_, row_byte_len_, db_. *)
Record raw_db := RawDb { rd_rows : nat; rd_len : nat; rd_db : list bytes }.

(** The constructor with ValidateDb (pir_db.h 86-90, 38-43). *)
Definition raw_make (rows len : nat) (db : list bytes) : outcome raw_db :=
  enforce (forallb (fun r => length r =? len) db) (Ok (RawDb rows len db)).

(** std::vector(begin + a, begin + b) for a row: out of range is UB. *)
Definition slice_row (r : bytes) (a b : nat) : outcome bytes :=
  if (a <=? b) && (b <=? length r) then Ok (firstn (b - a) (skipn a r)) else UB.

Fixpoint map_out {A B : Type} (f : A -> outcome B) (l : list A) : outcome (list B) :=
  match l with
  | [] => Ok []
  | x :: r => do y <- f x; do ys <- map_out f r; Ok (y :: ys)
  end.

(** db_[n] for n < rows_. *)
Definition first_rows (d : raw_db) : outcome (list bytes) :=
  if rd_rows d <=? length (rd_db d) then Ok (firstn (rd_rows d) (rd_db d)) else UB.

(** RawDatabase::Partition (pir_db.cc 81-127). *)
Definition partition (d : raw_db) (plen : nat) : outcome (list raw_db) :=
  if rd_len d <=? plen then do r <- raw_make (rd_rows d) (rd_len d) (rd_db d); Ok [r]
  else if plen =? 0 then UB
  else
    let num := (rd_len d + plen - 1) / plen in
    do rs <- first_rows d;
    do init <- map_out (fun i =>
        do sub <- map_out (fun r => slice_row r (i * plen) (i * plen + plen)) rs;
        raw_make (rd_rows d) plen sub) (seq 0 (num - 1));
    let start_col := (num - 1) * plen in
    let end_col := Nat.min (start_col + plen) (rd_len d) in
    do sub <- map_out (fun r =>
        do c <- slice_row r start_col end_col;
        if length c <=? plen then Ok (c ++ repeat 0%N (plen - length c)) else UB) rs;
    do last <- raw_make (rd_rows d) plen sub;
    Ok (init ++ [last]).

(** The copy loop of Combine (pir_db.cc 68-77): [i] of [n] parts done. *)
Fixpoint combine_loop (i n m row_len : nat) (data : list bytes) : outcome bytes :=
  match data with
  | [] => Ok []
  | d :: r =>
    if i <? n - 1 then do t <- combine_loop (S i) n m row_len r; Ok (d ++ t)
    else
      (* end = row_byte_len - i * m in size_t; past the part is undefined *)
      if (row_len <? i * m) || (length d <? row_len - i * m) then UB
      else do t <- combine_loop (S i) n m row_len r; Ok (firstn (row_len - i * m) d ++ t)
  end.

(** RawDatabase::Combine (pir_db.cc 51-79). *)
Definition combine (data : list bytes) (row_len : nat) : outcome bytes :=
  match data with
  | [d] => enforce (length d =? row_len) (Ok d)
  | [] => UB
  | d0 :: _ =>
    let m := length d0 in
    enforce (forallb (fun t => length t =? m) data)
    (enforce (row_len <=? length data * m)
    (combine_loop 0 (length data) m row_len data))
  end.

(** Params: plaintext coefficients n*n*poly_len, and Log2 of the plaintext modulus. *)
Section Params.
Variables (pt_coeffs logt : nat).

(** MaxByteLenOfPt (params.h 344-348). *)
Definition max_byte_len : nat := pt_coeffs * logt / 8.

(** ElementSizeOfPt (params.cc 88-100). *)
Definition element_size (len : nat) : outcome nat :=
  if (logt =? 0) || (uint_num (8 * len) logt =? 0) then UB
  else Ok (Nat.max (pt_coeffs / uint_num (8 * len) logt) 1).

(** The loop growing v2 in UpdateByDatabaseInfo (params.cc 136-138); an int shift by 31 or
    more is undefined.  [v] is v1 + v2. *)
Fixpoint grow_dims (fuel : nat) (v pts : nat) : outcome nat :=
  match fuel with
  | O => Diverge
  | S f => if 31 <=? v then UB
           else if (2 ^ N.of_nat v <? N.of_nat pts)%N then grow_dims f (S v) pts else Ok v
  end.

(** UpdateByDatabaseInfo (params.cc 102-149): the sum v1 + v2 and the plaintext count.
    [v0] is the sum of the two truncated products log2*0.6 and log2*0.4; ValidCheck and
    ComputeId are left out. *)
Definition update_dims (v0 rows per_row : nat) : outcome (nat * nat) :=
  do es <- element_size (Nat.min per_row max_byte_len);
  let pts := uint_num rows es in
  if pts <=? 4 then Ok (3, pts) else do v <- grow_dims 32 v0 pts; Ok (v, pts).

(** The loop over the plaintexts in ReorientRawDb (spiral_server.cc 82-109) and
    ConvertRawDbToPtDb (spiral_server.cc 166-193). *)
Fixpoint pt_loop (n : nat) (w : N) (total bpt el used offset : nat) (all : list N)
  : outcome (list (list N)) :=
  match n with
  | O => Ok []
  | S n' =>
    if total <=? offset then Ok []
    else
      let sz := if total <? offset + bpt then total - offset else bpt in
      enforce (sz mod el =? 0)
      (do cs <- bytes_to_coeffs w logt offset sz all;
       enforce (length cs <=? used)
       (do r <- pt_loop n' w total bpt el used (offset + sz) all;
        Ok ((cs ++ repeat 1%N (pt_coeffs - length cs)) :: r)))
  end.

(** ReorientRawDb before ReorientDatabase (spiral_server.cc 38-118), and ConvertRawDbToPtDb
    before the flattening (spiral_server.cc 124-200).  [rows]/[per_row] are database_info_,
    [v] the sum of the two database dimensions. *)
Definition raw_to_pts (w : N) (rows per_row v : nat) (raw : list bytes)
  : outcome (list (list N)) :=
  enforce (length raw =? rows)
  (match raw with
   | [] => UB
   | r0 :: _ =>
     enforce (length r0 <=? max_byte_len)
     (let el := Nat.min per_row max_byte_len in
      do es <- element_size el;
      let pts := uint_num (length raw) es in
      if (31 <=? v) then UB
      else
        let prod := 2 ^ v in
        let used := es * uint_num (8 * el) logt in
        enforce (used <=? pt_coeffs)
        (do vec <- pt_loop pts w (rows * el) (es * el) el used 0 (concat raw);
         enforce (length vec <=? pts)
         (Ok (vec ++ repeat (repeat 1%N pt_coeffs) (prod - length vec)))))
   end).

(** Flattening in ConvertRawDbToPtDb (spiral_server.cc 196-206): writing past the
    prod * PtCoeffs buffer is UB. *)
Definition raw_to_flat (rows per_row v : nat) (raw : list bytes) : outcome (list N) :=
  do vec <- raw_to_pts 8 rows per_row v raw;
  if length (concat vec) <=? 2 ^ v * pt_coeffs
  then Ok (concat vec ++ repeat 0%N (2 ^ v * pt_coeffs - length (concat vec))) else UB.

(** GenerateFromRawDataAndReorient (spiral_server.cc 430-458) before ReorientDatabase: one
    plaintext list per partition. *)
Definition generate_reorient (rows per_row v : nat) (d : raw_db)
  : outcome (list (list (list N))) :=
  if rd_len d <=? max_byte_len then do p <- raw_to_pts 64 rows per_row v (rd_db d); Ok [p]
  else
    do subs <- partition d max_byte_len;
    map_out (fun s => raw_to_pts 64 rows per_row v (rd_db s)) subs.

(** GenerateFromRawData (spiral_server.cc 337-371): pt_dbs_, single_pt_db_size_ and
    partition_num_. *)
Definition generate_raw (rows per_row v : nat) (d : raw_db) : outcome (list N * nat * nat) :=
  enforce (logt =? 8)
  (if rd_len d <=? max_byte_len then
     do p <- raw_to_flat rows per_row v (rd_db d); Ok (p, length p, 1)
   else
     do subs <- partition d max_byte_len;
     do ps <- map_out (fun s => raw_to_flat rows per_row v (rd_db s)) subs;
     match ps with
     | [] => Ok ([], 0, length subs)
     | p0 :: _ =>
       enforce (forallb (fun p => length p =? length p0) ps)
       (Ok (concat ps, length p0, length subs))
     end).

(** The cutting half of PtDbsToReorientedDbs (spiral_server.cc 272-296), run when a dumped
    server is loaded. *)
Definition load_pts (v : nat) (pt_dbs : list N) (single num : nat)
  : outcome (list (list (list N))) :=
  enforce (length pt_dbs =? num * single)
  (enforce (length pt_dbs =? num * 2 ^ v * pt_coeffs)
  (enforce (single =? pt_coeffs * 2 ^ v)
  (map_out (fun i =>
     map_out (fun j =>
       map_out (fun k => match nth_error pt_dbs (i * single + j * pt_coeffs + k) with
                         | Some c => Ok c | None => UB end)
               (seq 0 pt_coeffs))
     (seq 0 (2 ^ v)))
   (seq 0 num)))).

(** SpiralClient's constructor and GenQuery (spiral_client.h 65-94): the plaintext asked
    for. *)
Definition client_pt_index (rows per_row idx : nat) : outcome nat :=
  do es <- element_size (Nat.min per_row max_byte_len);
  enforce (0 <? rows) (enforce (idx <? rows) (Ok (idx / es))).

(** DecodeResponse (spiral_client.cc 354-388) on the decrypted plaintexts. *)
Definition client_decode (per_row idx : nat) (resp : list (list N)) : outcome bytes :=
  if max_byte_len =? 0 then UB
  else
    let num := (per_row + max_byte_len - 1) / max_byte_len in
    let el := Nat.min per_row max_byte_len in
    do es <- element_size el;
    enforce (length resp =? num)
    (do res <- map_out (fun cs =>
        enforce (length cs =? pt_coeffs)
        (do bs <- coeffs_to_bytes logt cs;
         let off := idx mod es in
         slice_row bs (off * el) (off * el + el))) resp;
     combine res per_row).

(** The ideal lattice part: the client's query index selects the same plaintext of every
    partition. *)
Definition select_pts (k : nat) (parts : list (list (list N))) : outcome (list (list N)) :=
  map_out (fun p => match nth_error p k with Some c => Ok c | None => UB end) parts.

(** One retrieval against the loaded plaintexts. *)
Definition retrieve (rows per_row idx : nat) (parts : list (list (list N))) : outcome bytes :=
  do k <- client_pt_index rows per_row idx;
  do resp <- select_pts k parts;
  client_decode per_row idx resp.

End Params.
