(** RFC 9380 for curve25519_XMD:SHA-512_ELL2_RO_, written from the RFC and from the geometry of the curve. *)
From Coq Require Import List NArith ZArith.
From Verif Require Import Text.
Import ListNotations.
Local Open Scope Z_scope.

(** * Octet strings *)

(** The number a big endian string stands for: the sum of octet times 256^position. *)
Fixpoint os2ip (b : bytes) : Z := match b with [] => 0 | x :: r => Z.of_N x * 256 ^ Z.of_nat (length r) + os2ip r end.
(** [b] is [x] on [n] octets. *)
Definition i2os (x : Z) (n : nat) (b : bytes) : Prop := length b = n /\ Forall is_byte b /\ os2ip b = x.

(** 5.3.1: b_0, b_1, ... of expand_message_xmd; the block size of SHA-512 is 128, its output 64 octets. *)
Section Xmd.
Variable H : bytes -> bytes.
Definition xor_os (a b : bytes) : bytes := map (fun i => N.lxor (nth i a 0%N) (nth i b 0%N)) (seq 0 (length b)).
Definition dst_prime (dst : bytes) : bytes := dst ++ [N.of_nat (length dst)].
Definition xmd0 (msg dst : bytes) (len : nat) : bytes :=
  H (repeat 0%N 128 ++ msg ++ [N.of_nat len / 256; N.of_nat len mod 256]%N ++ [0%N] ++ dst_prime dst).
Fixpoint xmd (msg dst : bytes) (len k : nat) : bytes :=   (* b_(k+1) *)
  match k with
  | O => H (xmd0 msg dst len ++ [1%N] ++ dst_prime dst)
  | S k' => H (xor_os (xmd0 msg dst len) (xmd msg dst len k') ++ [N.of_nat (S k)] ++ dst_prime dst)
  end.
(** The first [len] octets of b_1 || b_2 || ... || b_ell, ell the least number with 64 * ell >= len. *)
Definition expanded (msg dst : bytes) (len : nat) (u : bytes) : Prop :=
  exists ell, (len <= 64 * ell)%nat /\ (64 * ell < len + 64)%nat /\ u = firstn len (concat (map (xmd msg dst len) (seq 0 ell))).
End Xmd.

(** * The curve: v^2 = g(u) modulo p *)

Section Curve.
Variables (p J : Z).
Definition cong (a b : Z) : Prop := (p | a - b).
Definition g (x : Z) : Z := x ^ 3 + J * x ^ 2 + x.
Definition on_curve (P : Z * Z) : Prop := cong (snd P ^ 2) (g (fst P)).
Definition reduced (a : Z) : Prop := 0 <= a < p.
Definition square (a : Z) : Prop := exists b, cong (b ^ 2) a.

(** 6.7.1 with Z = 2, K = 1.  inv0, and x1 = -J * inv0(1 + Z * u^2), replaced by -J if 0; x2 = -x1 - J; the root of g(x1) with sign 1
    if there is one, otherwise the root of g(x2) with sign 0. *)
Definition inv0 (a b : Z) : Prop := (cong a 0 /\ b = 0) \/ cong (a * b) 1.
Definition elligator2 (u : Z) (P : Z * Z) : Prop :=
  let (x, y) := P in
  reduced x /\ reduced y /\
  exists i x1, inv0 (1 + 2 * u ^ 2) i
    /\ ((~ cong (- J * i) 0 /\ cong x1 (- J * i)) \/ (cong (- J * i) 0 /\ cong x1 (- J)))
    /\ ((square (g x1) /\ cong x x1 /\ cong (y ^ 2) (g x1) /\ Z.odd y = true)
        \/ (~ square (g x1) /\ cong x (- x1 - J) /\ cong (y ^ 2) (g (- x1 - J)) /\ Z.even y = true)).

(** P + Q = R: a line v = l * u + m meets the curve in P, Q and -R, counted with multiplicity (P = Q: the tangent). *)
Definition sums (P Q R : Z * Z) : Prop :=
  reduced (fst R) /\ reduced (snd R) /\
  exists l m, cong (snd P) (l * fst P + m) /\ cong (snd Q) (l * fst Q + m) /\ cong (- snd R) (l * fst R + m)
    /\ forall x, cong (g x - (l * x + m) ^ 2) ((x - fst P) * (x - fst Q) * (x - fst R)).
(** P is 8 * R, by doublings. *)
Definition times8 (R P : Z * Z) : Prop := exists R2 R4, sums R R R2 /\ sums R2 R2 R4 /\ sums R4 R4 P.
End Curve.

(** What InvertMod must do: the reduced inverse, or failure if there is none. *)
Definition inverter (p : Z) (inv : Z -> option Z) : Prop :=
  forall a, match inv a with Some b => reduced p b /\ cong p (a * b) 1 | None => forall b, ~ cong p (a * b) 1 end.

(** hash_to_curve of curve25519_XMD:SHA-512_ELL2_RO_, where the result is a point of the plane: two field elements of 48 octets
    each, two points, their sum, eight times it. *)
Definition h2c_points (p J : Z) (H : bytes -> bytes) (msg dst : bytes) (Q0 Q1 : Z * Z) : Prop :=
  exists u, expanded H msg dst 96 u /\ elligator2 p J (os2ip (firstn 48 u) mod p) Q0 /\ elligator2 p J (os2ip (skipn 48 u) mod p) Q1.
Definition h2c (p J : Z) (H : bytes -> bytes) (msg dst : bytes) (P : Z * Z) : Prop :=
  exists Q0 Q1 R, h2c_points p J H msg dst Q0 Q1 /\ sums p J Q0 Q1 R /\ times8 p J R P.
(** RFC 7748 section 5: the u-coordinate that X25519 reads from 32 octets, least significant first, the top bit ignored. *)
Definition x25519_u (b : bytes) : Z := os2ip (rev b) mod 2 ^ 255.
