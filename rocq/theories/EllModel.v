(** Model of psi/cryptor/hash_to_curve_elligator2.cc: hashing to Curve25519 with Elligator 2 (RFC 9380).

    External: SHA-512 (an argument, a function of everything passed to Update since the last Reset) and
    yacl::math::MPInt, taken to be integers: MulMod, AddMod, SubMod and PowMod return the remainder in
    [0, p) also for negative arguments, Div truncates, comparison is numeric.  InvertMod is an argument, as what it returns
    is determined by what it must satisfy; it throws where there is no inverse.  The functions marked maybe_unused that
    HashToCurveElligator2 does not call are modelled too. *)
From Coq Require Import List Arith NArith ZArith Bool.
From Verif Require Import Base Text EllPrime.
Import ListNotations.
Local Open Scope Z_scope.

(** FromMagBytes and ToMagBytes, big endian (the latter padded by MPIntToBytesWithPad 74-82 to 32 bytes). *)
Definition be_int (b : bytes) : Z := fold_left (fun a x => a * 256 + Z.of_N x) b 0.
Definition le_int (b : bytes) : Z := be_int (rev b).
Fixpoint be_bytes (k : nat) (x : Z) : bytes :=
  match k with O => [] | S k => be_bytes k (x / 256) ++ [Z.to_N (x mod 256)] end.
Definition mp_pad (x : Z) : outcome bytes := enforce (Z.abs x <? 256 ^ 32) (Ok (be_bytes 32 (Z.abs x))).

(** p, c2, sqrt(-1) and c4 (33-62, 84-100), from their little endian bytes. *)
Definition p_bytes : bytes := (237 :: repeat 255 30 ++ [127])%N.
Definition c2_bytes : bytes :=
  [0xb1; 0xa0; 0xe; 0x4a; 0x27; 0x1b; 0xee; 0xc4; 0x78; 0xe4; 0x2f; 0xad; 0x6; 0x18; 0x43; 0x2f; 0xa7; 0xd7; 0xfb; 0x3d; 0x99; 0x0;
   0x4d; 0x2b; 0xb; 0xdf; 0xc1; 0x4f; 0x80; 0x24; 0x83; 0x2b]%N.
Definition sqrtm1_bytes : bytes :=
  [0x3d; 0x5f; 0xf1; 0xb5; 0xd8; 0xe4; 0x11; 0x3b; 0x87; 0x1b; 0xd0; 0x52; 0xf9; 0xe7; 0xbc; 0xd0; 0x58; 0x28; 0x4; 0xc2; 0x66; 0xff;
   0xb2; 0xd4; 0xf4; 0x20; 0x3e; 0xb0; 0x7f; 0xdb; 0x7c; 0x54]%N.
Definition c4_bytes : bytes := (0xfd :: repeat 0xff 30 ++ [0xf])%N.
Definition kP : Z := le_int p_bytes.
Definition kC2 : Z := le_int c2_bytes.
Definition kSqrtm1 : Z := le_int sqrtm1_bytes.
Definition kC4 : Z := le_int c4_bytes.
Definition kJ : Z := 486662.

Definition mulm (a b : Z) : Z := (a * b) mod kP.
Definition addm (a b : Z) : Z := (a + b) mod kP.
Definition subm (a b : Z) : Z := (a - b) mod kP.
Definition powm (a e : Z) : Z := match e with Zpos e => powmod a e kP | _ => 1 mod kP end.

Section Hash.
Variable sha : bytes -> bytes.
Variable inv : Z -> option Z.
Definition invm (a : Z) : outcome Z := match inv a with Some b => Ok b | None => Throw end.

(** * Hashing to the field *)

(** I2OSP (110-122); a size_t has 8 bytes. *)
Definition i2osp (x : N) (xlen : nat) : outcome bytes :=
  enforce (x <? 256 ^ N.of_nat xlen)%N
    (if (8 <? xlen)%nat then UB else
     let ret := firstn xlen (rev (be_bytes 8 (Z.of_N x))) in
     Ok (if (1 <? xlen)%nat then rev ret else ret)).

(** ExpandMessageXmd (125-188): the loop from i = 2, with b_i and ret. *)
Definition xmd_step (b0 dst_prime : bytes) (i : nat) (s : bytes * bytes) : bytes * bytes :=
  let (b, ret) := s in
  let b := sha (map (fun xy => N.lxor (fst xy) (snd xy)) (combine b b0) ++ [(N.of_nat i mod 256)%N] ++ dst_prime) in
  (b, ret ++ b).
Definition expand_message_xmd (msg dst : bytes) (len : nat) : outcome bytes :=
  let ell := ((len + 63) / 64)%nat in
  enforce (ell <=? 255)%nat (enforce (N.of_nat len <=? 65535)%N (enforce (16 <=? length dst)%nat (enforce (length dst <=? 255)%nat (
  do o <- i2osp (N.of_nat (length dst)) 1;
  let dst_prime := dst ++ o in
  do l_i_b <- i2osp (N.of_nat len) 2;
  let b0 := sha (repeat 0%N 128 ++ msg ++ l_i_b ++ [0%N] ++ dst_prime) in
  let b1 := sha (b0 ++ [1%N] ++ dst_prime) in
  let (_, ret) := fold_left (fun s i => xmd_step b0 dst_prime i s) (seq 2 (ell - 1)) (b1, b1) in
  Ok (firstn len ret ++ repeat 0%N (len - length ret)))))).

(** HashToField (191-216). *)
Definition hash_to_field (msg : bytes) (count : nat) (dst : bytes) : outcome (list bytes) :=
  do uniform <- expand_message_xmd msg dst (count * 48);
  fold_right (fun i r => do a <- mp_pad (be_int (firstn 48 (skipn (48 * i) uniform)) mod kP); do r <- r; Ok (a :: r)) (Ok []) (seq 0 count).

(** * Square roots (218-263) *)

Definition is_square (v : Z) : outcome bool :=
  let t1 := (kP - 1) mod kP in
  do t2 <- invm 2;
  let t4 := powm v (mulm t1 t2) in
  Ok ((t4 =? 1) || (t4 =? 0)).
Definition curve_sqrt (v : Z) : Z :=
  let tv1 := powm v ((kP + 3) / 8) in
  let tv2 := mulm tv1 kSqrtm1 in
  if mulm tv1 tv1 =? v then tv1 else tv2.
Definition sgn0 (v : Z) : bool := negb (Z.rem v 2 =? 0).

(** * MapToCurveG2 (267-376), in the code's order of steps *)

Definition map_to_curve_g2 (ubuf : bytes) : outcome (bytes * bytes) :=
  enforce (0 <? length ubuf)%nat (
  let u := be_int ubuf in
  let tv1 := mulm (mulm u u) 2 in
  let xd := addm tv1 1 in
  let x1n := - kJ in
  let tv2 := mulm xd xd in
  let gxd := mulm tv2 xd in
  let gx1 := mulm (addm (mulm (mulm kJ tv1) x1n) tv2) x1n in
  let tv3 := mulm gxd gxd in
  let tv2 := mulm tv3 tv3 in
  let tv3 := mulm (mulm tv3 gxd) gx1 in
  let tv2 := mulm tv2 tv3 in
  let y11 := mulm (powm tv2 kC4) tv3 in
  let y12 := mulm y11 kSqrtm1 in
  let e1 := mulm (mulm y11 y11) gxd =? gx1 in
  let y1 := if e1 then y11 else y12 in
  let x2n := mulm x1n tv1 in
  let y21 := mulm (mulm y11 u) kC2 in
  let y22 := mulm y21 kSqrtm1 in
  let gx2 := mulm gx1 tv1 in
  let e2 := mulm (mulm y21 y21) gxd =? gx2 in
  let y2 := if e2 then y21 else y22 in
  let e3 := mulm (mulm y1 y1) gxd =? gx1 in
  let xn := if e3 then x1n else x2n in
  let y := if e3 then y1 else y2 in
  let e4 := Bool.eqb (sgn0 y) true in
  let y := if xorb e3 e4 then - y else y in
  let y := if y <? 0 then addm y kP else y in
  do xd1 <- invm xd;
  let xn := mulm xn xd1 in
  do xb <- mp_pad xn;
  do yb <- mp_pad y;
  Ok (xb, yb)).

(** * MapToCurveElligator2 (380-462) *)

Definition map_to_curve_elligator2 (ubuf : bytes) : outcome (bytes * bytes) :=
  let c1 := kJ in
  let u := be_int ubuf in
  let tv1 := mulm (mulm u u) 2 in
  let tv1 := if tv1 =? - (1) then 0 else tv1 in
  do x1 <- invm (addm tv1 1);
  let x1 := mulm x1 (- c1) in
  let gx1 := addm x1 c1 in
  let gx1 := mulm gx1 x1 in
  let gx1 := addm gx1 1 in
  let gx1 := mulm gx1 x1 in
  let x2 := addm (- x1) (- c1) in
  let gx2 := mulm gx1 tv1 in
  do e2 <- is_square gx1;
  let xmp := if e2 then x1 else x2 in
  let y2 := if e2 then gx1 else gx2 in
  let ymp := curve_sqrt y2 in
  let e3 := sgn0 ymp in
  let ymp := if xorb e2 e3 then (if - ymp <? 0 then addm (- ymp) kP else - ymp) else ymp in
  do xb <- mp_pad xmp;
  do yb <- mp_pad ymp;
  Ok (xb, yb).

(** * Points: PointAdd (473-523), PointAddX (526-560), PointDbl (563-603), PointDblProjective (609-633), clearing the
    cofactor (635-667), CheckPoint (669-683) *)

Definition beqb (a b : bytes) : bool := if list_eq_dec N.eq_dec a b then true else false.
Definition neg_fix (t : Z) : Z := if t <? 0 then addm t kP else t.
Definition point_add (pxb pyb qxb qyb : bytes) : outcome (bytes * bytes) :=
  enforce (negb (beqb pxb qxb) || negb (beqb pyb qyb)) (
  let px := be_int pxb in let py := be_int pyb in let qx := be_int qxb in let qy := be_int qyb in
  do d <- invm (subm qx px);
  let l := mulm (subm qy py) d in
  let l2 := mulm l l in
  let tx := neg_fix (subm (subm (subm l2 kJ) px) qx) in
  let l3 := mulm l2 l in
  let t1 := addm (addm (mulm px 2) qx) kJ in
  let ty := neg_fix (subm (subm (mulm t1 l) l3) py) in
  do xb <- mp_pad tx;
  do yb <- mp_pad ty;
  Ok (xb, yb)).
Definition point_add_x (pxb pyb qxb qyb : bytes) : outcome bytes :=
  enforce (negb (beqb pxb qxb) || negb (beqb pyb qyb)) (
  let px := be_int pxb in let py := be_int pyb in let qx := be_int qxb in let qy := be_int qyb in
  do d <- invm (subm qx px);
  let l := mulm (subm qy py) d in
  let l2 := mulm l l in
  mp_pad (neg_fix (subm (subm (subm l2 kJ) px) qx))).
Definition point_dbl (pxb pyb : bytes) : outcome (bytes * bytes) :=
  let px := be_int pxb in let py := be_int pyb in
  let num := addm (addm (mulm (mulm px px) 3) (mulm (mulm px kJ) 2)) 1 in
  do d <- invm (mulm py 2);
  let l := mulm num d in
  let l2 := powm l 2 in
  let l3 := powm l 3 in
  let tx := subm (subm l2 kJ) (mulm px 2) in
  let ty := subm (subm (mulm (addm (mulm px 3) kJ) l) l3) py in
  do xb <- mp_pad tx;
  do yb <- mp_pad ty;
  Ok (xb, yb).
Definition point_dbl_projective (pxb : bytes) : outcome bytes :=
  let px := be_int pxb in
  let px2 := mulm px px in
  let px21 := subm px2 1 in
  let px22 := mulm px21 px21 in
  let pxa := mulm px kJ in
  let pz1 := addm (addm px2 pxa) 1 in
  let pz2 := mulm pz1 px in
  do d <- invm (mulm pz2 4);
  mp_pad (mulm px22 d).
Definition clear_cofactor_projective (pxb : bytes) : outcome bytes :=
  do x2 <- point_dbl_projective pxb;
  do x4 <- point_dbl_projective x2;
  point_dbl_projective x4.
Definition clear_cofactor (pxb pyb : bytes) : outcome (bytes * bytes) :=
  do p2 <- point_dbl pxb pyb;
  do p4 <- point_dbl (fst p2) (snd p2);
  point_dbl (fst p4) (snd p4).
Definition check_point (xb yb : bytes) : bool :=
  let x := be_int xb in let y := be_int yb in
  addm (addm (powm x 3) (mulm (powm x 2) kJ)) x =? powm y 2.

(** HashToCurveElligator2 (687-705). *)
Definition hash_to_curve (msg dst : bytes) : outcome bytes :=
  enforce ((16 <=? length dst)%nat && (length dst <=? 255)%nat) (
  do u <- hash_to_field msg 2 dst;
  do q0 <- map_to_curve_g2 (nth 0 u []);
  do q1 <- map_to_curve_g2 (nth 1 u []);
  do px1 <- point_add_x (fst q0) (snd q0) (fst q1) (snd q1);
  clear_cofactor_projective px1).
End Hash.
