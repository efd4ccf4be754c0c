(** Model of the decoding side of the OKVS: psi/algorithm/rr22/okvs/paxos_hash.cc (all),
    paxos.cc Decode / Decode32 / Decode1 (1697-1850, 2038-2285, and the U64 twins) and
    baxos.{h,cc} bin choice and Decode (baxos.h 129-147, baxos.cc 460-680).

    128-bit words are numbers below 2^128.  [add_to_decode_] is false in the whole code
    base (baxos.h 47, paxos.h 284), so only the assigning variants are modelled.
    libdivide (DoMod32) is taken to divide exactly.  AES is a parameter: AesCrHash over a
    span is the hash of each element. *)
From Coq Require Import List NArith Bool.
From Verif Require Import Base StoreModel GfModel.
Import ListNotations.
Local Open Scope N_scope.

(** PaxosParam (paxos_utils.h / paxos.h): the fields decoding depends on. *)
Inductive dense_type := DBinary | DGF128.
Record okvs_param := mk_okvs {
  ok_weight : nat;
  ok_sparse : N;       (* sparse_size *)
  ok_dense : nat;      (* dense_size *)
  ok_dt : dense_type;
}.

(** Conversion to IdxType, a w-bit unsigned integer. *)
Definition cast (w : N) (x : N) : N := x mod 2 ^ w.

(** 64-bit word at byte offset 4 i of a 128-bit hash (little endian). *)
Definition word_at (h : N) (i : N) : N := N.shiftr h (32 * i) mod 2 ^ 64.

(** BuildRow, weight == 3 (paxos_hash.cc 231-266).  sparse_size <= 2 divides by zero. *)
Definition build_row3 (w s h : N) : outcome (list N) :=
  if s <=? 2 then UB else
  let r0 := cast w (word_at h 0 mod s) in
  let r1 := cast w (word_at h 1 mod (s - 1)) in
  let r2 := cast w (word_at h 2 mod (s - 2)) in
  enforce (r0 <? s) (enforce (r1 <? s) (enforce (r2 <? s) (
  let mn := N.min r0 r1 in
  let mx := r0 + r1 - mn in
  let '(r1, mx) := if mx =? r1 then (cast w (r1 + 1), mx + 1) else (r1, mx) in
  let r2 := if mn <=? r2 then cast w (r2 + 1) else r2 in
  let r2 := if mx <=? r2 then cast w (r2 + 1) else r2 in
  Ok [r0; r1; r2]))).

(** BuildRow, any other weight (paxos_hash.cc 268-293).  [ins col l] is the two inner
    loops on the sorted prefix l: step over smaller-or-equal entries incrementing col,
    shift the rest up, write col. *)
Fixpoint ins_col (w col : N) (l : list N) : list N :=
  match l with
  | [] => [cast w col]
  | x :: r => if x <=? col then x :: ins_col w (col + 1) r else cast w col :: x :: r
  end.
Fixpoint rows_loop (avx : bool) (w s : N) (hh : N) (todo : nat) (j : N) (l : list N) {struct todo} : outcome (list N) :=
  match todo with
  | O => Ok l
  | S k =>
      if s - j =? 0 then UB else
      rows_loop avx w s (gf_mul avx hh hh) k (j + 1)
                (ins_col w ((gf_mul avx hh hh mod 2 ^ 64) mod (s - j)) l)
  end.
Definition build_row (avx : bool) (w : N) (p : okvs_param) (h : N) : outcome (list N) :=
  if Nat.eqb (ok_weight p) 3 then build_row3 w (ok_sparse p) h
  else rows_loop avx w (ok_sparse p) h (ok_weight p) 0 [].

(** One 64-bit lane of BuildRow32 (paxos_hash.cc 38-206): _mm_cmpgt_epi64 compares signed
    numbers, masks are all ones or zero, _mm_sub_epi64 wraps. *)
Definition ones64 : N := 2 ^ 64 - 1.
Definition sgt (a b : N) : N :=
  if (b + 2 ^ 63) mod 2 ^ 64 <? (a + 2 ^ 63) mod 2 ^ 64 then ones64 else 0.
Definition veq (a b : N) : N := if a =? b then ones64 else 0.
Definition vsub (a b : N) : N := (a + 2 ^ 64 - b) mod 2 ^ 64.
(** DoMod32 on one lane: the quotient by libdivide, then the remainder. *)
Definition do_mod (v m : N) : N := vsub v ((v / m * m) mod 2 ^ 64).
Definition lane_row3 (w s h : N) : list N :=
  let a := do_mod (word_at h 0) s in
  let b := do_mod (word_at h 1) (s - 1) in
  let c := do_mod (word_at h 2) (s - 2) in
  let mask := sgt a b in
  let mn := N.lxor a b in
  let mx := N.lxor (N.land mn mask) b in
  let mn := N.lxor mn mx in
  let mask := veq mx b in
  let b := vsub b mask in
  let mx := vsub mx mask in
  let mask := N.lxor (sgt mn c) ones64 in
  let c := vsub c mask in
  let mask := N.lxor (sgt mx c) ones64 in
  let c := vsub c mask in
  [cast w a; cast w b; cast w c].

(** All results, or the first failure. *)
Fixpoint omapM {A B : Type} (f : A -> outcome B) (l : list A) : outcome (list B) :=
  match l with
  | [] => Ok []
  | x :: r => do y <- f x; do ys <- omapM f r; Ok (y :: ys)
  end.

(** BuildRow32 (paxos_hash.cc 33-224) on the 32 hashes of a batch; the vector path is
    taken for weight 3 on CPUs with AVX2. *)
Definition build_row32 (avx : bool) (w : N) (p : okvs_param) (hs : list N) : outcome (list (list N)) :=
  if Nat.eqb (ok_weight p) 3 && avx then
    if ok_sparse p <=? 2 then UB else Ok (map (lane_row3 w (ok_sparse p)) hs)
  else omapM (build_row avx w p) hs.

(** p[k]; C53 shows the columns read are in range (anything else would be UB). *)
Definition pget (p : list N) (k : N) : N := nth (N.to_nat k) p 0.

(** Helper::MultAdd (paxos_utils.h) for values of vw bits (128, or 64 for PxVectorU64):
    *dst ^= (Galois128(src) * m), truncated to the value type. *)
Definition mult_add (avx : bool) (vw : N) (v src m : N) : N := N.lxor v (gf_mul avx src m mod 2 ^ vw).

(** Decode1 (paxos.cc 2258-2285; U64 2226-2251). *)
Fixpoint dense_gf (avx : bool) (vw : N) (p : list N) (d : N) (todo : nat) (col x v : N) {struct todo} : N :=
  match todo with
  | O => v
  | S k => let x := gf_mul avx x d in
           dense_gf avx vw p d k (col + 1) x (mult_add avx vw v (pget p col) x)
  end.
Fixpoint dense_bin (p : list N) (d : N) (todo : nat) (i col v : N) {struct todo} : N :=
  match todo with
  | O => v
  | S k => dense_bin p d k (i + 1) (col + 1) (if N.testbit d i then N.lxor v (pget p col) else v)
  end.
Definition decode1 (avx : bool) (vw : N) (q : okvs_param) (row : list N) (d : N) (p : list N) : N :=
  let v := pget p (hd 0 row) in
  let v := fold_left (fun v c => N.lxor v (pget p c)) (tl row) v in
  match ok_dt q with
  | DGF128 => dense_gf avx vw p d (ok_dense q - 1) (ok_sparse q + 1) d
                       (mult_add avx vw v (pget p (ok_sparse q)) d)
  | DBinary => dense_bin p d (ok_dense q) 0 (ok_sparse q) v
  end.

(** Decode32 (paxos.cc 2038-2220; U64 1852-2035): the same work on 32 lanes at once, one
    column of the rows at a time. *)
Definition zip_with {A B C : Type} (f : A -> B -> C) (a : list A) (b : list B) : list C :=
  map (fun xy => f (fst xy) (snd xy)) (combine a b).
Fixpoint lanes_sparse (p : list N) (rows : list (list N)) (todo : nat) (j : nat) (vs : list N) {struct todo} : list N :=
  match todo with
  | O => vs
  | S k => lanes_sparse p rows k (S j) (zip_with (fun v r => N.lxor v (pget p (nth j r 0))) vs rows)
  end.
Fixpoint lanes_gf (avx : bool) (vw : N) (p : list N) (ds : list N) (todo : nat) (col : N)
  (xs vs : list N) {struct todo} : list N :=
  match todo with
  | O => vs
  | S k => let xs := zip_with (gf_mul avx) xs ds in
           lanes_gf avx vw p ds k (col + 1) xs (zip_with (fun v x => mult_add avx vw v (pget p col) x) vs xs)
  end.
Fixpoint lanes_bin (avx : bool) (vw : N) (p : list N) (todo : nat) (col : N) (d2 vs : list N) {struct todo} : list N :=
  match todo with
  | O => vs
  | S k =>
      (* b is passed to the 128-bit MultAdd: h is a const Helper, the masking overload is not const *)
      let b := map (fun d => d mod 2) d2 in
      let d2 := map (fun d => d / 2) d2 in
      lanes_bin avx vw p k (col + 1) d2 (zip_with (fun v x => mult_add avx vw v (pget p col) x) vs b)
  end.
Definition decode32 (avx : bool) (vw : N) (q : okvs_param) (rows : list (list N)) (ds : list N)
  (p : list N) : outcome (list N) :=
  let vs := map (fun r => pget p (hd 0 r)) rows in
  let vs := lanes_sparse p rows (ok_weight q - 1) 1 vs in
  match ok_dt q with
  | DGF128 =>
      let vs := zip_with (fun v x => mult_add avx vw v (pget p (ok_sparse q)) x) vs ds in
      Ok (lanes_gf avx vw p ds (ok_dense q - 1) (ok_sparse q + 1) ds vs)
  | DBinary =>
      enforce (Nat.leb (ok_dense q) 64)
        (Ok (lanes_bin avx vw p (ok_dense q) (ok_sparse q) (map (fun d => d mod 2 ^ 64) ds) vs))
  end.

(** One key alone, and a list of hashed keys in batches of 32 with a tail of single ones
    (paxos.cc 1832-1846; baxos.cc 508-540 has the same two loops). *)
Definition decode_one (avx : bool) (w vw : N) (q : okvs_param) (p : list N) (h : N) : outcome N :=
  do row <- build_row avx w q h; Ok (decode1 avx vw q row h p).
Fixpoint decode_hashed (fuel : nat) (avx : bool) (w vw : N) (q : okvs_param) (p : list N) (hs : list N) {struct fuel}
  : outcome (list N) :=
  match fuel with
  | O => omapM (decode_one avx w vw q p) hs
  | S f =>
      if Nat.leb 32 (length hs) then
        let b := firstn 32 hs in
        do rows <- build_row32 avx w q b;
        do vs <- decode32 avx vw q rows b p;
        do rest <- decode_hashed f avx w vw q p (skipn 32 hs);
        Ok (vs ++ rest)
      else omapM (decode_one avx w vw q p) hs
  end.

Section AES.
(** AesCrHash::Hash with the seed of the table. *)
Variable aes : N -> N.

(** Paxos::Decode / DecodeU64 (paxos.cc 1717-1850). *)
Definition paxos_decode (avx : bool) (w vw : N) (q : okvs_param) (p : list N) (inputs : list N)
  : outcome (list N) :=
  enforce (N.of_nat (length p) =? ok_sparse q + N.of_nat (ok_dense q))
    (decode_hashed (length inputs) avx w vw q p (map aes inputs)).

(** BinIdxCompress and ModNumBins (baxos.h 138-147); the main loops use DoMod32. *)
Definition bin_compress (h : N) : N :=
  N.lxor (N.lxor (h mod 2 ^ 64) (N.shiftr h 64)) (N.shiftr h 96).
Definition bin_tail (nb h : N) : N := bin_compress h mod nb.
Definition bin_main (nb h : N) : N := do_mod (bin_compress h) nb.

(** ImplDecodeBin (baxos.cc 488-541): decode the pending (hash, index) pairs of one bin
    and store each value at its index. *)
Definition store_all (vals : list N) (ivs : list (nat * N)) : list N :=
  fold_left (fun vals iv => upd (fst iv) (fun _ => snd iv) vals) ivs vals.
Definition decode_bin (avx : bool) (w : N) (q : okvs_param) (p : list N) (pend : list (N * nat))
  (vals : list N) : outcome (list N) :=
  enforce (Nat.leb (ok_weight q) 20)
    (do vs <- decode_hashed (length pend) avx w 128 q p (map fst pend);
     Ok (store_all vals (combine (map snd pend) vs))).

(** ImplDecodeBatch (baxos.cc 544-643).  pp.subspan(bin * size_per, size_per). *)
Definition bin_slice (q : okvs_param) (pp : list N) (bin : nat) : list N :=
  let per := (N.to_nat (ok_sparse q) + ok_dense q)%nat in
  firstn per (skipn (bin * per) pp).
Definition flush_bin (avx : bool) (w : N) (q : okvs_param) (pp : list N) (bin : nat)
  (st : list (list (N * nat)) * list N) : outcome (list (list (N * nat)) * list N) :=
  let '(bins, vals) := st in
  do vals <- decode_bin avx w q (bin_slice q pp bin) (nth bin bins []) vals;
  Ok (upd bin (fun _ => []) bins, vals).
Definition push_key (avx : bool) (w : N) (q : okvs_param) (pp : list N) (dsz : nat) (bin : nat) (h : N)
  (idx : nat) (st : list (list (N * nat)) * list N) : outcome (list (list (N * nat)) * list N) :=
  let '(bins, vals) := st in
  let bins := upd bin (fun l => l ++ [(h, idx)]) bins in
  if Nat.eqb (length (nth bin bins [])) dsz then flush_bin avx w q pp bin (bins, vals)
  else Ok (bins, vals).
Fixpoint push_all (avx : bool) (w : N) (q : okvs_param) (pp : list N) (dsz : nat) (bin_of : nat -> N -> N)
  (hs : list N) (idx : nat) (st : list (list (N * nat)) * list N) {struct hs}
  : outcome (list (list (N * nat)) * list N) :=
  match hs with
  | [] => Ok st
  | h :: r =>
      do st <- push_key avx w q pp dsz (N.to_nat (bin_of idx h)) h idx st;
      push_all avx w q pp dsz bin_of r (S idx) st
  end.
Fixpoint flush_rest (avx : bool) (w : N) (q : okvs_param) (pp : list N) (todo : nat) (bin : nat)
  (st : list (list (N * nat)) * list N) {struct todo} : outcome (list (list (N * nat)) * list N) :=
  match todo with
  | O => Ok st
  | S k =>
      do st <- (match nth bin (fst st) [] with [] => Ok st | _ => flush_bin avx w q pp bin st end);
      flush_rest avx w q pp k (S bin) st
  end.
Definition decode_batch (avx : bool) (w : N) (nb : nat) (q : okvs_param) (pp : list N) (inputs : list N)
  : outcome (list N) :=
  let n := length inputs in
  let dsz := Nat.min 512 n in
  let main := (Nat.div n 32 * 32)%nat in
  let bin_of idx h := if Nat.ltb idx main then bin_main (N.of_nat nb) h else bin_tail (N.of_nat nb) h in
  do st <- push_all avx w q pp dsz bin_of (map aes inputs) 0 (repeat [] nb, repeat 0 n);
  do st <- flush_rest avx w q pp nb 0 st;
  Ok (snd st).

(** ImplParDecode (baxos.cc 646-679): thread i decodes inputs [n i / T, n (i+1) / T) into
    the same range of values; the ranges are disjoint, so the order does not matter. *)
Definition par_slice {A : Type} (T i : nat) (l : list A) : list A :=
  let b := Nat.div (length l * i) T in
  let e := Nat.div (length l * (i + 1)) T in
  firstn (e - b) (skipn b l).
(** Baxos::Decode (baxos.cc 460-485) picks the index type; num_bins == 1 uses Paxos. *)
Definition idx_width (s : N) : N :=
  let b := N.log2_up (s + 1) in
  if b <=? 8 then 8 else if b <=? 16 then 16 else if b <=? 32 then 32 else 64.
Definition baxos_decode (avx : bool) (nb : nat) (q : okvs_param) (threads : nat) (pp : list N)
  (inputs : list N) : outcome (list N) :=
  let w := idx_width (ok_sparse q) in
  if Nat.eqb nb 1 then paxos_decode avx w 128 q pp inputs
  else
    let T := Nat.max threads 1 in
    do parts <- omapM (fun i => decode_batch avx w nb q pp (par_slice T i inputs)) (seq 0 T);
    Ok (concat parts).
End AES.
