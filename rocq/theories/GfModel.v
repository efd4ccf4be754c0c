(** Model of psi/algorithm/rr22/okvs/galois128.{h,cc}: arithmetic in GF(2^128).

    128-bit values are numbers below 2^128, bit i being the coefficient of x^i.  The
    class keeps either a yacl::block (AVX2 available) or a uint128_t; both hold the
    same 128 bits, and get<uint128_t>(0) reads them back. *)
From Coq Require Import List NArith Bool.
From Verif Require Import Base.
Import ListNotations.
Local Open Scope N_scope.

Definition mask128 (a : N) : N := a mod 2 ^ 128.

(** cc_gf128Mul (galois128.cc 83-105): one step of the loop on (z, v), then the loop
    for i = 0, 1, ... *)
Definition cc_step (b : N) (i : N) (zv : N * N) : N * N :=
  let (z, v) := zv in
  let z' := if N.testbit b i then N.lxor z v else z in
  let v' := if N.testbit v 127 then N.lxor (mask128 (N.shiftl v 1)) 0x87 else mask128 (N.shiftl v 1) in
  (z', v').
Fixpoint cc_loop (b : N) (i : N) (todo : nat) (zv : N * N) : N * N :=
  match todo with
  | O => zv
  | S k => cc_loop b (i + 1) k (cc_step b i zv)
  end.
Definition cc_gf128Mul (a b : N) : N := fst (cc_loop b 0 128 (0, a)).

(** The instruction _mm_clmulepi64_si128: carry-less product of one half of x and one
    half of y, selected by bits 0 and 4 of imm. *)
Fixpoint pos_clmul (a : positive) (b : N) : N :=
  match a with
  | xH => b
  | xO a' => N.double (pos_clmul a' b)
  | xI a' => N.lxor b (N.double (pos_clmul a' b))
  end.
Definition clmul (a b : N) : N := match a with N0 => 0 | Npos p => pos_clmul p b end.
Definition half (hi : bool) (x : N) : N := if hi then N.shiftr x 64 else x mod 2 ^ 64.
Definition mm_clmul (x y : N) (imm : N) : N :=
  clmul (half (N.testbit imm 0) x) (half (N.testbit imm 4) y).
(** _mm_slli_si128(x, 8) and _mm_srli_si128(x, 8). *)
Definition mm_slli8 (x : N) : N := mask128 (N.shiftl x 64).
Definition mm_srli8 (x : N) : N := N.shiftr x 64.

(** mm_gf128Mul (galois128.cc 41-55). *)
Definition mm_gf128Mul (x y : N) : N * N :=
  let t1 := mm_clmul x y 0x00 in
  let t2 := mm_clmul x y 0x10 in
  let t3 := mm_clmul x y 0x01 in
  let t4 := mm_clmul x y 0x11 in
  let t2 := N.lxor t2 t3 in
  let t3 := mm_slli8 t2 in
  let t2 := mm_srli8 t2 in
  (N.lxor t1 t3, N.lxor t4 t2).

(** mm_gf128Reduce (galois128.cc 57-76). *)
Definition mm_gf128Reduce (x x1 : N) : N :=
  let tmp := mm_clmul x1 0x87 0x01 in
  let low := N.lxor x (mm_slli8 tmp) in
  let high := N.lxor x1 (mm_srli8 tmp) in
  let tmp := mm_clmul high 0x87 0x00 in
  N.lxor low tmp.

(** Galois128::Mul (galois128.cc 134-152): the path depends on the CPU. *)
Definition gf_mul (avx2 : bool) (a b : N) : N :=
  if avx2 then let (xy1, xy2) := mm_gf128Mul a b in mm_gf128Reduce xy1 xy2
  else cc_gf128Mul a b.

(** Galois128::Pow (galois128.cc 154-174); i is 64 bits, so 64 rounds suffice. *)
Fixpoint pow_loop (avx2 : bool) (fuel : nat) (i : N) (s pow2 : N) : N :=
  match fuel with
  | O => s
  | S k =>
      if i =? 0 then s
      else pow_loop avx2 k (N.div2 i) (if N.odd i then gf_mul avx2 s pow2 else s) (gf_mul avx2 pow2 pow2)
  end.
Definition gf_pow (avx2 : bool) (a : N) (i : N) : N :=
  if a =? 0 then 0 else pow_loop avx2 64 i 1 a.

(** Galois128::Inv (galois128.cc 176-203): [squares k b] squares b k times (the inner
    loop runs 2^i times), [inv_loop] is the outer loop for the given values of i. *)
Fixpoint squares (avx2 : bool) (k : nat) (b : N) : N :=
  match k with O => b | S k' => squares avx2 k' (gf_mul avx2 b b) end.
Fixpoint inv_loop (avx2 : bool) (is : list nat) (a result : N) : N :=
  match is with
  | [] => result
  | i :: r =>
      let b := squares avx2 (Nat.pow 2 i) a in
      let a' := gf_mul avx2 a b in
      inv_loop avx2 r a' (match i with O => b | _ => gf_mul avx2 result b end)
  end.
Definition gf_inv (avx2 : bool) (a : N) : outcome N :=
  let result := inv_loop avx2 [0; 1; 2; 3; 4; 5; 6]%nat a 0 in
  enforce (gf_mul avx2 a result =? 1) (Ok result).
