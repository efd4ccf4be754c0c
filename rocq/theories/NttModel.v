(** Model of Spiral's number theoretic transform: psi/algorithm/spiral/arith/ntt_table.cc, ntt.cc
    (the portable and the AVX2 version), and of ToNtt, FromNtt, MultiplyPoly, MultiplyAddPoly, AddPoly
    and Multiply in psi/algorithm/spiral/poly_matrix_utils.cc.

    uint32_t and uint64_t values are numbers, reduced explicitly.  An absl::Span is the part of
    the vector it points to; a subspan that starts behind the end throws, an access behind the end is
    undefined behaviour.  An AVX2 register is four uint64_t lanes, loaded and stored together.  The
    SEAL functions used (reverse_bits, div2_uint_mod, multiply_uint_mod) do what they are named for;
    try_minimal_primitive_root and try_invert_uint_mod are parameters.  Matrices are computed
    polynomial by polynomial, as the code's loops do; every polynomial is written once. *)
From Coq Require Import List Arith NArith ZArith Bool.
From Verif Require Import Base StoreModel PirPackModel SpArithModel SpLoopModel SpGadgetModel.
Import ListNotations.
Local Open Scope N_scope.

Definition sub_u32 (a b : N) : N := u32 (a + 2 ^ 32 - b).

(** * Tables *)

(** seal::util::reverse_bits(x, bits), called by ReverseBits (arith.h 77-82). *)
Fixpoint rev_bits (bits x : nat) : nat :=
  match bits with
  | O => O
  | S b => (x mod 2 * 2 ^ b + rev_bits b (x / 2))%nat
  end.

(** ScalePowersU32 (ntt_table.cc 28-41). *)
Definition scale_powers (modulus : N) (poly_len : nat) (inp : list N) : outcome (list N) :=
  map_out (fun i => do v <- get i inp;
                    if modulus =? 0 then UB else Ok (u32 (u64 (v * 2 ^ 32) / modulus))) (seq 0 poly_len).

(** PowersOfPrimitiveRoot (ntt_table.cc 60-74). *)
Definition powers_of_root (root modulus : N) (lg : nat) : outcome (list N) :=
  do r <- put 0 1 (repeat 0 (2 ^ lg));
  do (r, _) <- loop (2 ^ lg - 1) 1 (fun i '(r, power) =>
                 do r <- put (rev_bits lg i) power r;
                 Ok (r, (power * root) mod modulus)) (r, root);
  Ok r.

(** seal::util::div2_uint_mod, called by Div2UintMod (arith.h 89-92). *)
Definition div2_mod (x modulus : N) : N := if N.odd x then (x + modulus) / 2 else x / 2.

Record ntt_table := NttTable { nt_fwd : list N; nt_fwd' : list N; nt_inv : list N; nt_inv' : list N }.

Section Tables.
(** seal::util::try_minimal_primitive_root(degree, modulus) and try_invert_uint_mod(value, modulus). *)
Variable min_root : N -> N -> option N.
Variable invert : N -> N -> option N.

Definition of_option {A : Type} (o : option A) : outcome A :=
  match o with Some a => Ok a | None => Throw end.

(** The body of the loop in BuildNttTables (ntt_table.cc 127-156). *)
Definition build_table (poly_len : nat) (modulus : N) : outcome ntt_table :=
  let modulus_u32 := u32 modulus in
  let lg := Nat.log2 poly_len in
  do root <- of_option (min_root (2 * N.of_nat poly_len) modulus);
  do inv_root <- enforce (0 <? root) (of_option (invert root modulus));
  do fwd <- powers_of_root root modulus lg;
  do fwd' <- scale_powers modulus_u32 poly_len fwd;
  do inv <- powers_of_root inv_root modulus lg;
  do inv <- map_out (fun j => do v <- get j inv; Ok (div2_mod v modulus)) (seq 0 poly_len);
  do inv' <- scale_powers modulus_u32 poly_len inv;
  Ok (NttTable fwd fwd' inv inv').

(** BuildNttTables (ntt_table.cc 118-159). *)
Definition build_tables (poly_len : nat) (moduli : list N) : outcome (list ntt_table) :=
  enforce (0 <? poly_len)%nat (enforce (0 <? length moduli)%nat (map_out (build_table poly_len) moduli)).

(** What Params keeps (params.cc 26-75): poly_len_, moduli_, ntt_tables_; at most kMaxModuli moduli. *)
Record ntt_params := NttParams { np_len : nat; np_moduli : list N; np_tables : list ntt_table }.
Definition make_params (poly_len : nat) (moduli : list N) : outcome ntt_params :=
  enforce (length moduli <=? 4)%nat (
  do t <- build_tables poly_len moduli; Ok (NttParams poly_len moduli t)).
End Tables.

(** * Butterflies *)

(** NttForward, portable: the innermost loop body (ntt.cc 61-78). *)
Definition fwd_bfly (q w w' x y : N) : N * N :=
  let qs := u32 q in
  let q2 := u32 (2 * qs) in
  let x := u32 x in
  let y := u32 y in
  let cx := sub_u32 x (if q2 <=? x then q2 else 0) in
  let q_tmp := u64 (y * w') / 2 ^ 32 in
  let q_new := sub_u64 (u64 (w * y)) (u64 (q_tmp * qs)) in
  (u64 (cx + q_new), u64 (cx + sub_u64 q2 q_new)).

(** ... and the reduction after each layer (ntt.cc 81-88). *)
Definition fwd_reduce (q v : N) : N :=
  let qs := u32 q in
  let q2 := u32 (2 * qs) in
  let v := sub_u64 v (if q2 <=? v then q2 else 0) in
  sub_u64 v (if qs <=? v then qs else 0).

(** _mm256_cmpgt_epi64 and _mm256_mul_epu32 on one lane. *)
Definition cmpgt_i64 (a b : N) : bool := (to_i64 b <? to_i64 a)%Z.
Definition mul_epu32 (a b : N) : N := u32 a * u32 b.

(** NttForward, AVX2: one lane of the loop for t >= 4 (ntt.cc 145-190). *)
Definition fwd_bfly_avx (q w w' x y : N) : N * N :=
  let qs := u32 q in
  let q2 := u32 (2 * qs) in
  let cx := sub_u64 x (if cmpgt_i64 x q2 then q2 else 0) in
  let q_val := mul_epu32 y w' / 2 ^ 32 in
  let q_final := sub_u64 (mul_epu32 y w) (mul_epu32 q_val qs) in
  (u64 (cx + q_final), u64 (cx + sub_u64 q2 q_final)).

(** ... and the final reduction (ntt.cc 195-212). *)
Definition fwd_reduce_avx (q v : N) : N :=
  let qs := u32 q in
  let q2 := u32 (2 * qs) in
  let v := sub_u64 v (if cmpgt_i64 v q2 then q2 else 0) in
  sub_u64 v (if cmpgt_i64 v qs then qs else 0).

(** NttInverse, portable: the innermost loop body (ntt.cc 238-253). *)
Definition inv_bfly (q w w' x y : N) : N * N :=
  let q2 := u64 (2 * q) in
  let t := u64 (sub_u64 q2 y + x) in
  let cx := sub_u64 (u64 (x + y)) (if t <=? u64 (x * 2) then q2 else 0) in
  let h := u64 (t * w') / 2 ^ 32 in
  (u64 (cx + q * (t mod 2)) / 2, sub_u64 (u64 (w * t)) (u64 (h * q))).

(** ... and the final reduction, the same in both versions (ntt.cc 257-261, 362-366). *)
Definition inv_reduce (q v : N) : N :=
  let q2 := u64 (2 * q) in
  let v := sub_u64 v (if q2 <=? v then q2 else 0) in
  sub_u64 v (if q <=? v then q else 0).

(** NttInverse, AVX2: one lane of the loop for t >= 4 (ntt.cc 306-357). *)
Definition inv_bfly_avx (q w w' x y : N) : N * N :=
  let q2 := u64 (2 * q) in
  let t := u64 (sub_u64 q2 y + x) in
  let cx := sub_u64 (u64 (x + y)) (if cmpgt_i64 (u64 (x * 2)) t then q2 else 0) in
  let h := mul_epu32 t w' / 2 ^ 32 in
  (u64 (cx + (if N.land t 1 =? 1 then q else 0)) / 2, sub_u64 (mul_epu32 t w) (mul_epu32 h q)).

(** * Loops *)

(** for (j = 0; j < t; ++j) on op = operand.subspan(o, 2 * t). *)
Definition pairs (t o : nat) (f : N -> N -> N * N) (v : list N) : outcome (list N) :=
  loop t 0 (fun j v =>
    do x <- get (o + j) v;
    do y <- get (o + t + j) v;
    let '(a, b) := f x y in
    do v <- put (o + j) a v;
    put (o + t + j) b v) v.

(** Four lanes at &v[p]: load, store. *)
Definition load4 (p : nat) (v : list N) : outcome (list N) := map_out (fun i => get (p + i) v) (seq 0 4).
Fixpoint store (p : nat) (xs v : list N) : outcome (list N) :=
  match xs with
  | [] => Ok v
  | x :: r => do v <- put p x v; store (S p) r v
  end.

(** for (j = 0; j < t; j += 4), ended when j + 4 > t if [guard] is set (ntt.cc 145-146). *)
Definition pairs4 (guard : bool) (t o : nat) (f : N -> N -> N * N) (v : list N) : outcome (list N) :=
  loop ((t + 3) / 4) 0 (fun g v =>
    let j := (4 * g)%nat in
    if guard && (t <? j + 4)%nat then Ok v else
    do xs <- load4 (o + j) v;
    do ys <- load4 (o + t + j) v;
    let r := map (fun '(x, y) => f x y) (List.combine xs ys) in
    do v <- store (o + j) (map fst r) v;
    store (o + t + j) (map snd r) v) v.

(** One layer of m groups: w and w' of group i are at m + i in the tables; [run t o w w'] handles
    one group. *)
Definition layer (run : nat -> nat -> N -> N -> list N -> outcome (list N)) (tab tab' : list N) (m t : nat)
    (v : list N) : outcome (list N) :=
  loop m 0 (fun i v =>
    do w <- get (m + i) tab;
    do w' <- get (m + i) tab';
    run t (i * (2 * t))%nat w w' v) v.

(** for (i = 0; i < n; ++i) v[i] = f(v[i]), and in steps of four, ended when i + 4 > n. *)
Definition each (n : nat) (f : N -> N) (v : list N) : outcome (list N) :=
  loop n 0 (fun i v => do x <- get i v; put i (f x) v) v.
Definition each4 (n : nat) (f : N -> N) (v : list N) : outcome (list N) :=
  loop ((n + 3) / 4) 0 (fun g v =>
    let i := (4 * g)%nat in
    if (n <? i + 4)%nat then Ok v else
    do xs <- load4 i v; store i (map f xs) v) v.

(** One modulus of NttForward: the layers mm = 0, 1, ... (ntt.cc 51-89, 112-212). *)
Definition fwd_one (avx : bool) (lg : nat) (q : N) (T : ntt_table) (v : list N) : outcome (list N) :=
  let n := (2 ^ lg)%nat in
  let run t o w w' v :=
    if avx && (4 <=? t)%nat then pairs4 true t o (fwd_bfly_avx q w w') v
    else pairs t o (fwd_bfly q w w') v in
  do v <- loop lg 0 (fun mm v =>
      do v <- layer run (nt_fwd T) (nt_fwd' T) (2 ^ mm) (n / 2 ^ (mm + 1)) v;
      if avx then Ok v else each n (fwd_reduce q) v) v;
  if avx then each4 n (fwd_reduce_avx q) v else Ok v.

(** One modulus of NttInverse: the layers mm = lg - 1, ..., 0 (ntt.cc 228-261, 279-366). *)
Definition inv_one (avx : bool) (n lg : nat) (q : N) (T : ntt_table) (v : list N) : outcome (list N) :=
  let run t o w w' v :=
    if avx && (4 <=? t)%nat then pairs4 false t o (inv_bfly_avx q w w') v
    else pairs t o (inv_bfly q w w') v in
  do v <- loop lg 0 (fun k v =>
      let mm := (lg - 1 - k)%nat in
      layer run (nt_inv T) (nt_inv' T) (2 ^ mm) (n / 2 ^ (mm + 1)) v) v;
  each n (inv_reduce q) v.

(** f on overall.subspan(pos, len). *)
Definition on_span (pos len : nat) (f : list N -> outcome (list N)) (v : list N) : outcome (list N) :=
  enforce (pos <=? length v)%nat (
  let s := firstn len (skipn pos v) in
  do s' <- f s;
  Ok (firstn pos v ++ s' ++ skipn (pos + length s) v)).

Section Transform.
Variable avx : bool.
Variable P : ntt_params.
Let n : nat := np_len P.
Let lg : nat := Nat.log2 (np_len P).
Let crt : nat := length (np_moduli P).

(** Params::Moduli(c), BarrettCr1(c) (params.h 211-213, 371-373; the ratios are SEAL's, 2^128 / modulus)
    and the tables. *)
Definition modulus_at (c : nat) : outcome N := get c (np_moduli P).
Definition cr1_at (c : nat) : outcome N := do m <- modulus_at c; do (_, cr1) <- get_barrett_crs m; Ok cr1.

(** NttForward (ntt.cc 38-91, 96-214). *)
Definition ntt_forward (v : list N) : outcome (list N) :=
  enforce (negb avx || (crt * 2 ^ lg <=? length v)%nat) (
  loop crt 0 (fun c v =>
    do T <- get c (np_tables P);
    do q <- modulus_at c;
    on_span (c * 2 ^ lg) (2 ^ lg) (fwd_one avx lg q T) v) v).

(** NttInverse (ntt.cc 218-263, 267-368). *)
Definition ntt_inverse (v : list N) : outcome (list N) :=
  loop crt 0 (fun c v =>
    do T <- get c (np_tables P);
    do q <- modulus_at c;
    on_span (c * n) n (inv_one avx n lg q T) v) v.

(** ReduceCopy (poly_matrix_utils.cc 145-152). *)
Definition reduce_copy (inp : list N) : outcome (list N) :=
  map_out (fun p => do cr1 <- cr1_at (p / n); do q <- modulus_at (p / n);
                    do v <- get (p mod n) inp; Ok (barrett_raw_u64 v cr1 q)) (seq 0 (crt * n)).

(** MultiplyPoly (poly_matrix_utils.cc 38-47), AddPoly (104-112). *)
Definition multiply_poly (a b : list N) : outcome (list N) :=
  map_out (fun p => do cr1 <- cr1_at (p / n); do q <- modulus_at (p / n);
                    do x <- get p a; do y <- get p b; Ok (multiply_modular x y cr1 q)) (seq 0 (crt * n)).
Definition add_poly (a b : list N) : outcome (list N) :=
  map_out (fun p => do cr1 <- cr1_at (p / n); do q <- modulus_at (p / n);
                    do x <- get p a; do y <- get p b; Ok (add_modular x y cr1 q)) (seq 0 (crt * n)).

(** MultiplyAddPoly (poly_matrix_utils.cc 51-63; AVX2 67-100 with ReducePoly 154-162). *)
Definition multiply_add_poly (res a b : list N) : outcome (list N) :=
  enforce ((length res =? length a) && (length res =? length b) && (length res =? crt * n))%nat (
  map_out (fun p => do cr1 <- cr1_at (p / n); do q <- modulus_at (p / n);
                    do z <- get p res; do x <- get p a; do y <- get p b;
                    Ok (if avx then barrett_raw_u64 (u64 (z + mul_epu32 x y)) cr1 q
                        else multiply_add_modular x y z cr1 q)) (seq 0 (crt * n))).

(** The polynomial of a PolyMatrixRaw or PolyMatrixNtt at (r, c), [words] words long
    (poly_matrix.h 115-117, 267-269). *)
Definition poly_at (words : nat) (m : raw_mat) (r c : nat) : list N :=
  firstn words (skipn ((r * rm_cols m + c) * words) (rm_data m)).

(** A matrix filled polynomial by polynomial. *)
Definition fill_mat (rows cols : nat) (f : nat -> nat -> outcome (list N)) : outcome raw_mat :=
  do ps <- map_out (fun k => f (k / cols)%nat (k mod cols)%nat) (seq 0 (rows * cols));
  Ok (RawMat rows cols (concat ps)).

(** ToNtt (poly_matrix_utils.cc 378-387). *)
Definition to_ntt (m : raw_mat) : outcome raw_mat :=
  fill_mat (rm_rows m) (rm_cols m) (fun r c => do t <- reduce_copy (poly_at n m r c); ntt_forward t).

(** ToNttNoReduce (poly_matrix_utils.cc 396-412). *)
Definition to_ntt_no_reduce (m : raw_mat) : outcome raw_mat :=
  fill_mat (rm_rows m) (rm_cols m) (fun r c =>
    let p := poly_at n m r c in
    do t <- store 0 (p ++ p) (repeat 0 (crt * n)); ntt_forward t).

(** Params::CrtCompose (params.cc 166-173, params.h 303-306). *)
Definition crt_compose (invert : N -> N -> N) (t : list N) (i : nat) : outcome N :=
  if (crt =? 1)%nat then get i t
  else
    do x <- get i t;
    do y <- get (i + n) t;
    enforce (crt =? 2)%nat (
    do m0 <- modulus_at 0;
    do m1 <- modulus_at 1;
    crt_compose2 invert m0 m1 x y).

(** FromNtt (poly_matrix_utils.cc 348-369). *)
Definition from_ntt (invert : N -> N -> N) (m : raw_mat) : outcome raw_mat :=
  fill_mat (rm_rows m) (rm_cols m) (fun r c =>
    do t <- ntt_inverse (poly_at (crt * n) m r c);
    map_out (crt_compose invert t) (seq 0 n)).

(** Multiply (poly_matrix_utils.cc 414-457). *)
Definition multiply_ntt (a b : raw_mat) : outcome raw_mat :=
  enforce (rm_cols a =? rm_rows b)%nat (
  fill_mat (rm_rows a) (rm_cols b) (fun i j =>
    loop (rm_cols a) 0 (fun k res =>
      multiply_add_poly res (poly_at (crt * n) a i k) (poly_at (crt * n) b k j))
      (repeat 0 (crt * n)))).

(** Add (poly_matrix_utils.cc 265-298). *)
Definition add_ntt (a b : raw_mat) : outcome raw_mat :=
  enforce ((rm_rows a =? rm_rows b) && (rm_cols a =? rm_cols b))%nat (
  fill_mat (rm_rows a) (rm_cols a) (fun i j => add_poly (poly_at (crt * n) a i j) (poly_at (crt * n) b i j))).
End Transform.
