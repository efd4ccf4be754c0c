(** C43: the fast modular reductions of Spiral return the true remainder. *)
From Coq Require Import NArith ZArith Lia.
From Verif Require Import Base SpArithModel SpArithSpec SpArithProofs SpArithProofs2.
Local Open Scope N_scope.

(** Every 64-bit input, every modulus from 2 to 2^63, the precomputed ratios being those
    of GetBarrettCrs. *)
Theorem C43_barrett_u64 : forall m cr0 cr1 x, 2 <= m <= 2 ^ 63 -> x < 2 ^ 64 ->
  get_barrett_crs m = Ok (cr0, cr1) -> barrett_raw_u64 x cr1 m = x mod m.
Proof. exact barrett_u64_exact. Qed.

(** Every 128-bit input. *)
Theorem C43_barrett_u128 : forall m cr0 cr1 x, 2 <= m <= 2 ^ 63 -> x < 2 ^ 128 ->
  get_barrett_crs m = Ok (cr0, cr1) -> barrett_u128 x cr0 cr1 m = x mod m.
Proof. exact barrett_u128_exact. Qed.

(** Modular product of any two 64-bit numbers. *)
Theorem C43_multiply : forall m cr0 cr1 a b, 2 <= m <= 2 ^ 63 -> a < 2 ^ 64 -> b < 2 ^ 64 ->
  get_barrett_crs m = Ok (cr0, cr1) -> multiply_uint_mod a b m cr0 cr1 = (a * b) mod m.
Proof. exact multiply_mod_exact. Qed.

(** The bound on the modulus cannot be dropped: with more than 63 bits the lazy result of
    BarrettRawU128 wraps and a wrong remainder is returned. *)
Theorem C43_large_modulus_refuted : exists m cr0 cr1 x, 2 ^ 63 < m /\ m < 2 ^ 64 /\ x < 2 ^ 128 /\
  get_barrett_crs m = Ok (cr0, cr1) /\ barrett_u128 x cr0 cr1 m <> x mod m.
Proof.
  exists 10938054661249801792.
  exists (u64 (2 ^ 128 / 10938054661249801792)), (u64 (2 ^ 128 / 10938054661249801792 / 2 ^ 64)).
  exists 340282366920938463429888305750157722242.
  split; [reflexivity|]. split; [reflexivity|]. split; [reflexivity|]. split; [reflexivity|].
  vm_compute. discriminate.
Qed.

(** Chinese remaindering of the two residues (inv is any correct modular inverse). *)
Theorem C43_crt : forall inv m0 m1 x y,
  2 <= m0 -> 2 <= m1 -> m0 * m1 <= 2 ^ 63 -> x < m0 -> y < m1 -> N.gcd m0 m1 = 1 ->
  (forall a n, N.gcd a n = 1 -> 1 < n -> inv a n < n /\ (a * inv a n) mod n = 1) ->
  exists v, crt_compose2 inv m0 m1 x y = Ok v /\ v < m0 * m1 /\ v mod m0 = x /\ v mod m1 = y.
Proof. exact crt_exact. Qed.

(** Recenter: the result is the representative around 0, taken modulo the smaller modulus. *)
Theorem C43_recenter : forall val f t, 0 < t -> t <= f -> f <= 2 ^ 60 -> val < f ->
  exists c r, around_zero c val f /\ recenter val f t = Ok r /\ Z.of_N r = (c mod Z.of_N t)%Z.
Proof. exact recenter_exact. Qed.

(** RecenertMod: the same into a larger modulus. *)
Theorem C43_recenter_mod : forall val s l, val < s -> s <= 2 ^ 62 -> s <= l -> l <= 2 ^ 62 ->
  exists c r, around_zero c val s /\ recenter_mod val s l = Ok r /\ r < l /\ ((Z.of_N r - c) mod Z.of_N l = 0)%Z.
Proof. exact recenter_mod_exact. Qed.

(** Rescale: the representative around 0 times out/in, rounded to a nearest integer, modulo
    out; it never throws and never overflows. *)
Theorem C43_rescale : forall a im om, 0 < im -> im <= 2 ^ 62 -> 0 < om -> om <= 2 ^ 62 ->
  exists c y r, around_zero c (a mod im) im /\ nearest y c (Z.of_N im) (Z.of_N om) /\
    rescale a im om = Ok r /\ (Z.of_N r = y mod Z.of_N om)%Z.
Proof. exact rescale_exact. Qed.

(** The moduli of the default parameters (util.cc 48-51). *)
Example C43_example :
  get_barrett_crs (268369921 * 249561089) = Ok (7906011006380390721, 275)
  /\ barrett_u128 340282366920938463463374607431768211455 7906011006380390721 275 (268369921 * 249561089)
     = 340282366920938463463374607431768211455 mod (268369921 * 249561089)
  /\ recenter 66974689739603000 (268369921 * 249561089) 1048577 = Ok 1047608
  /\ rescale 66974689739603000 (268369921 * 249561089) 1024 = Ok 0
  /\ rescale 33974689739603000 (268369921 * 249561089) 1024 = Ok 519.
Proof. vm_compute. repeat split. Qed.

Print Assumptions C43_barrett_u64.
Print Assumptions C43_barrett_u128.
Print Assumptions C43_multiply.
Print Assumptions C43_large_modulus_refuted.
Print Assumptions C43_crt.
Print Assumptions C43_recenter.
Print Assumptions C43_recenter_mod.
Print Assumptions C43_rescale.
