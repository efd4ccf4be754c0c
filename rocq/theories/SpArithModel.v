(** Model of psi/algorithm/spiral/arith/arith.h (Barrett reduction, Recenter,
    RecenertMod, Rescale, MultiplyUintMod with precomputed ratios), arith_params.h and the
    CRT composition of psi/algorithm/spiral/params.cc.

    uint64_t and uint128_t values are numbers, reduced explicitly; int64_t and int128_t
    values are integers, overflow of a signed operation is undefined behaviour.  The SEAL
    primitives used (multiply_uint64, multiply_uint64_hw64, add_uint64,
    divide_uint192_inplace) are taken to do exact word arithmetic. *)
From Coq Require Import NArith ZArith Bool.
From Verif Require Import Base.
Local Open Scope N_scope.

(** GetBarrettCrs (arith.h 39-48): the two low words of 2^128 / modulus. *)
Definition get_barrett_crs (m : N) : outcome (N * N) :=
  if m =? 0 then UB
  else let q := 2 ^ 128 / m in Ok (u64 q, u64 (q / 2 ^ 64)).

(** seal::util: high word of a product, both words, sum with carry. *)
Definition mul_hw64 (a b : N) : N := a * b / 2 ^ 64.
Definition mul64 (a b : N) : N * N := (u64 (a * b), a * b / 2 ^ 64).
Definition add64 (a b : N) : N * N := ((a + b) / 2 ^ 64, u64 (a + b)).   (* carry, sum *)
(** a - b in uint64_t. *)
Definition sub_u64 (a b : N) : N := u64 (a + 2 ^ 64 - b).

(** BarrettRawU64 (arith.h 113-123). *)
Definition barrett_raw_u64 (input cr1 m : N) : N :=
  let tmp := mul_hw64 input cr1 in
  let res := sub_u64 input (u64 (tmp * m)) in
  if m <=? res then res - m else res.

(** BarrettRawU128 (arith.h 125-153). *)
Definition barrett_raw_u128 (val cr0 cr1 m : N) : N :=
  let h := val / 2 ^ 64 in
  let l := u64 val in
  let carry := mul_hw64 l cr0 in
  let '(p0, p1) := mul64 l cr1 in
  let '(c, tmp1) := add64 p0 carry in
  let tmp3 := u64 (p1 + c) in
  let '(p0, p1) := mul64 h cr0 in
  let '(c, tmp1) := add64 tmp1 p0 in
  let carry := u64 (p1 + c) in
  let tmp1 := u64 (u64 (u64 (h * cr1) + tmp3) + carry) in
  sub_u64 l (u64 (tmp1 * m)).

(** BarrettReductionU128Raw (arith.h 155-161). *)
Definition barrett_u128 (val cr0 cr1 m : N) : N :=
  let r := barrett_raw_u128 val cr0 cr1 m in
  sub_u64 r (if m <=? r then m else 0).

(** MultiplyUintMod with ratios (arith.h 221-229). *)
Definition multiply_uint_mod (a b m cr0 cr1 : N) : N :=
  let '(z0, z1) := mul64 a b in barrett_u128 (z1 * 2 ^ 64 + z0) cr0 cr1 m.

(** MultiplyModular, MultiplyAddModular, AddModular
    (arith_params.h 40-64); products and sums are uint64_t. *)
Definition multiply_modular (a b cr1 m : N) : N := barrett_raw_u64 (u64 (a * b)) cr1 m.
Definition multiply_add_modular (a b x cr1 m : N) : N := barrett_raw_u64 (u64 (u64 (a * b) + x)) cr1 m.
Definition add_modular (a b cr1 m : N) : N := barrett_raw_u64 (u64 (a + b)) cr1 m.

(** CrtCompose2 (params.cc 151-164) with mod0_inv_mod1_ and mod1_inv_mod0_ as the
    constructor computes them (params.cc 59-66), [inv] being InvertUintMod. *)
Section Crt.
Variable inv : N -> N -> N.
Definition mod0_inv_mod1 (m0 m1 : N) : N := u64 (m0 * inv m0 m1).
Definition mod1_inv_mod0 (m0 m1 : N) : N := u64 (m1 * inv m1 m0).
Definition crt_compose2 (m0 m1 x y : N) : outcome N :=
  let m := u64 (m0 * m1) in
  do (cr0, cr1) <- get_barrett_crs m;
  let val := (x * mod1_inv_mod0 m0 m1 mod 2 ^ 128 + y * mod0_inv_mod1 m0 m1 mod 2 ^ 128) mod 2 ^ 128 in
  Ok (barrett_u128 val cr0 cr1 m).
End Crt.

Local Open Scope Z_scope.
(** static_cast between uint64_t and int64_t; checked signed results. *)
Definition to_i64 (x : N) : Z := if (x <? 2 ^ 63)%N then Z.of_N x else Z.of_N x - 2 ^ 64.
Definition of_i64 (x : Z) : N := Z.to_N (x mod 2 ^ 64).
Definition i64 (x : Z) : outcome Z := if (- 2 ^ 63 <=? x) && (x <? 2 ^ 63) then Ok x else UB.
Definition i128 (x : Z) : outcome Z := if (- 2 ^ 127 <=? x) && (x <? 2 ^ 127) then Ok x else UB.
Definition quot_c (a b : Z) : outcome Z := if b =? 0 then UB else Ok (Z.quot a b).
Definition rem_c (a b : Z) : outcome Z := if b =? 0 then UB else Ok (Z.rem a b).

(** Recenter (arith.h 94-111). *)
Definition recenter (val from_m to_m : N) : outcome N :=
  enforce (to_m <=? from_m)%N (
  let f := to_i64 from_m in
  let t := to_i64 to_m in
  let a := to_i64 val in
  do a <- (if (from_m / 2 <=? val)%N then i64 (a - f) else Ok a);
  do q <- quot_c f t;
  do p <- i64 (q * t);
  do s <- i64 (a + p);
  do d <- i64 (2 * t);
  do s <- i64 (s + d);
  do r <- rem_c s t;
  Ok (of_i64 r)).

(** RecenertMod (arith.h 163-178). *)
Definition recenter_mod (val small large : N) : outcome N :=
  enforce (val <? small)%N (
  let v := to_i64 val in
  let s := to_i64 small in
  let l := to_i64 large in
  do h <- quot_c s 2;
  do v <- (if v >? h then i64 (v - s) else Ok v);
  do v <- (if v <? 0 then i64 (v + l) else Ok v);
  Ok (of_i64 v)).

(** Rescale (arith.h 180-208); the product (in_mod / out_mod) * out_mod is uint64_t. *)
Definition rescale (a in_mod out_mod : N) : outcome N :=
  if (in_mod =? 0)%N || (out_mod =? 0)%N then UB else
  let im := to_i64 in_mod in
  let im128 := Z.of_N in_mod in
  let om128 := Z.of_N out_mod in
  let v := to_i64 (a mod in_mod) in
  do h <- quot_c im 2;
  do v <- (if v >=? h then i64 (v - im) else Ok v);
  let sign := if v >=? 0 then 1 else -1 in
  do val <- i128 (v * om128);
  do sh <- i64 (sign * h);
  do num <- i128 (val + sh);
  do result <- quot_c num im128;
  let tmp := Z.of_N (u64 (in_mod / out_mod * out_mod)) in
  do r1 <- i128 (result + tmp);
  do d <- i128 (2 * om128);
  do r1 <- i128 (r1 + d);
  do result <- rem_c r1 om128;
  enforce (0 <=? result) (
  do r2 <- i128 (result + om128);
  do result <- rem_c r2 om128;
  Ok (Z.to_N (result mod 2 ^ 64))).
