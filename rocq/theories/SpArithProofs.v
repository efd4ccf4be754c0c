(** Lemmas about SpArithModel. *)
From Coq Require Import NArith ZArith Lia Bool.
From Verif Require Import Base SpArithModel.
Local Open Scope N_scope.

Lemma n_of_bounds : forall a q m, q * m <= a -> a < (q + 1) * m -> a / m = q.
Proof.
  intros a q m H1 H2. symmetry.
  apply (N.div_unique a m q (a - q * m)); nia.
Qed.

(** The quotient estimate. *)
Lemma estimate : forall B x m R, 0 < m -> 0 < B -> x < B -> R = B / m ->
  x * R / B * m <= x /\ x < (x * R / B + 2) * m.
Proof.
  intros B x m R Hm HB Hx ->.
  pose proof (N.div_mod B m ltac:(lia)) as D1. pose proof (N.mod_lt B m ltac:(lia)) as L1.
  set (R := B / m) in *. set (e := B mod m) in *.
  pose proof (N.div_mod (x * R) B ltac:(lia)) as D2. pose proof (N.mod_lt (x * R) B ltac:(lia)) as L2.
  set (q := x * R / B) in *. set (f := (x * R) mod B) in *.
  clearbody q f R e.
  (* x R = B q + f, B = m R + e *)
  split.
  - apply (N.mul_le_mono_pos_l _ _ B); [lia|].
    assert (B * (q * m) <= x * R * m) by nia.
    assert (x * R * m <= x * B) by nia. nia.
  - apply (N.mul_lt_mono_pos_l B); [lia|].
    assert (x * B = x * R * m + x * e) as E by nia.
    assert (x * e <= B * m) by nia.
    assert (x * R * m < B * (q + 1) * m) by nia. nia.
Qed.

Lemma u64_mod : forall x, u64 x = x mod 2 ^ 64.
Proof. reflexivity. Qed.
Lemma u64_id : forall x, x < 2 ^ 64 -> u64 x = x.
Proof. intros. unfold u64. apply N.mod_small. exact H. Qed.

Lemma sub_u64_exact : forall a q m, q * m <= a -> a - q * m < 2 ^ 64 ->
  sub_u64 (u64 a) (u64 (u64 q * m)) = a - q * m.
Proof.
  intros a q m H1 H2.
  assert (E1 : u64 (u64 q * m) = (q * m) mod 2 ^ 64)
    by (unfold u64; change 18446744073709551616 with (2 ^ 64); rewrite N.mul_mod_idemp_l by lia; reflexivity).
  rewrite E1. unfold sub_u64, u64. change 18446744073709551616 with (2 ^ 64).
  pose proof (N.div_mod a (2 ^ 64) ltac:(lia)) as Da. pose proof (N.mod_lt a (2 ^ 64) ltac:(lia)).
  pose proof (N.div_mod (q * m) (2 ^ 64) ltac:(lia)) as Db. pose proof (N.mod_lt (q * m) (2 ^ 64) ltac:(lia)).
  set (a1 := a / 2 ^ 64) in *. set (a0 := a mod 2 ^ 64) in *.
  set (b1 := q * m / 2 ^ 64) in *. set (b0 := (q * m) mod 2 ^ 64) in *.
  clearbody a1 a0 b1 b0.
  (* a0 + B - b0 = a - qm + (1 + b1 - a1) B *)
  assert (C : a1 = b1 \/ a1 = b1 + 1) by nia.
  destruct C as [-> | ->].
  - replace (a0 + 2 ^ 64 - b0) with ((a - q * m) + 1 * 2 ^ 64) by nia.
    rewrite N.mod_add by lia. apply N.mod_small; exact H2.
  - replace (a0 + 2 ^ 64 - b0) with (a - q * m) by nia. apply N.mod_small; exact H2.
Qed.

Lemma crs_values : forall m cr0 cr1, 2 <= m -> get_barrett_crs m = Ok (cr0, cr1) ->
  cr0 + cr1 * 2 ^ 64 = 2 ^ 128 / m /\ cr0 < 2 ^ 64 /\ cr1 = 2 ^ 64 / m /\ cr1 < 2 ^ 64.
Proof.
  intros m cr0 cr1 Hm. unfold get_barrett_crs.
  destruct (m =? 0) eqn:E; [apply N.eqb_eq in E; lia|].
  intros H. assert (H1 : cr0 = u64 (2 ^ 128 / m)) by congruence.
  assert (H2 : cr1 = u64 (2 ^ 128 / m / 2 ^ 64)) by congruence. clear H. rewrite H1, H2. clear H1 H2.
  assert (Hq : 2 ^ 128 / m <= 2 ^ 127).
  { change (2 ^ 127) with (2 ^ 128 / 2). apply N.div_le_compat_l. lia. }
  assert (Hh : 2 ^ 128 / m / 2 ^ 64 < 2 ^ 64) by (apply N.div_lt_upper_bound; lia).
  rewrite (u64_id (2 ^ 128 / m / 2 ^ 64)) by exact Hh.
  repeat split; try exact Hh.
  - rewrite u64_mod. pose proof (N.div_mod (2 ^ 128 / m) (2 ^ 64) ltac:(lia)). lia.
  - unfold u64. apply N.mod_lt. lia.
  - rewrite N.div_div by lia. rewrite (N.mul_comm m). rewrite <- N.div_div by lia. reflexivity.
Qed.

Lemma barrett_u64_exact : forall m cr0 cr1 x, 2 <= m <= 2 ^ 63 -> x < 2 ^ 64 ->
  get_barrett_crs m = Ok (cr0, cr1) -> barrett_raw_u64 x cr1 m = x mod m.
Proof.
  intros m cr0 cr1 x Hm Hx H. destruct (crs_values _ _ _ (proj1 Hm) H) as (_ & _ & Hc & _).
  unfold barrett_raw_u64, mul_hw64.
  destruct (estimate (2 ^ 64) x m cr1 ltac:(lia) ltac:(lia) Hx Hc) as [L U].
  set (q := x * cr1 / 2 ^ 64) in *. clearbody q.
  assert (E : sub_u64 x (u64 (q * m)) = x - q * m).
  { rewrite <- (u64_id x Hx) at 1. rewrite <- (u64_id q) at 1 by nia. apply sub_u64_exact; [exact L|lia]. }
  rewrite E. destruct (m <=? x - q * m) eqn:C.
  - apply N.leb_le in C. apply (N.mod_unique x m (q + 1)); nia.
  - apply N.leb_gt in C. apply (N.mod_unique x m q); nia.
Qed.

(** The three words of the product are added up exactly. *)
Lemma raw128_quotient : forall h l r0 r1 B, 0 < B -> l < B -> h < B -> r0 < B -> r1 < B ->
  (l + h * B) * (r0 + r1 * B) / (B * B)
  = h * r1 + (l * r1 + l * r0 / B) / B + (h * r0 + (l * r1 + l * r0 / B) mod B) / B.
Proof.
  intros h l r0 r1 B HB Hl Hh H0 H1.
  pose proof (N.div_mod (l * r0) B ltac:(lia)) as D0. pose proof (N.mod_lt (l * r0) B ltac:(lia)).
  set (a := l * r0 / B) in *. set (a' := (l * r0) mod B) in *.
  pose proof (N.div_mod (l * r1 + a) B ltac:(lia)) as D1. pose proof (N.mod_lt (l * r1 + a) B ltac:(lia)).
  set (b := (l * r1 + a) / B) in *. set (b' := (l * r1 + a) mod B) in *.
  pose proof (N.div_mod (h * r0 + b') B ltac:(lia)) as D2. pose proof (N.mod_lt (h * r0 + b') B ltac:(lia)).
  set (c := (h * r0 + b') / B) in *. set (c' := (h * r0 + b') mod B) in *.
  clearbody a a' b b' c c'.
  symmetry. apply (N.div_unique _ _ _ (c' * B + a')).
  - assert (c' * B <= (B - 1) * B) by (apply N.mul_le_mono_r; lia). nia.
  - nia.
Qed.

Lemma split_sum : forall x y B, 0 < B -> x / B + (x mod B + y) / B = (x + y) / B /\
  (x mod B + y) mod B = (x + y) mod B.
Proof.
  intros x y B HB. split.
  - pose proof (N.div_mod x B ltac:(lia)) as D.
    replace (x + y) with ((x mod B + y) + (x / B) * B) by nia.
    rewrite N.div_add by lia. lia.
  - rewrite N.add_mod_idemp_l by lia. reflexivity.
Qed.

Lemma barrett_raw_u128_lazy : forall m cr0 cr1 x, 2 <= m <= 2 ^ 63 -> x < 2 ^ 128 ->
  get_barrett_crs m = Ok (cr0, cr1) ->
  exists q, barrett_raw_u128 x cr0 cr1 m = x - q * m /\ q * m <= x /\ x < (q + 2) * m.
Proof.
  intros m cr0 cr1 x Hm Hx H. destruct (crs_values _ _ _ (proj1 Hm) H) as (HR & H0 & _ & H1).
  destruct (estimate (2 ^ 128) x m (2 ^ 128 / m) ltac:(lia) ltac:(lia) Hx eq_refl) as [L U].
  exists (x * (2 ^ 128 / m) / 2 ^ 128).
  set (q := x * (2 ^ 128 / m) / 2 ^ 128) in *.
  split; [|split; assumption].
  unfold barrett_raw_u128, mul_hw64, mul64, add64.
  set (h := x / 2 ^ 64). set (l := u64 x).
  assert (Hh : h < 2 ^ 64) by (apply N.div_lt_upper_bound; lia).
  assert (Hl : l < 2 ^ 64) by (unfold l, u64; apply N.mod_lt; lia).
  assert (Ex : x = l + h * 2 ^ 64).
  { unfold l, h. rewrite u64_mod. pose proof (N.div_mod x (2 ^ 64) ltac:(lia)). lia. }
  (* round 1 *)
  set (a := l * cr0 / 2 ^ 64).
  assert (Ha : a < 2 ^ 64) by (unfold a; apply N.div_lt_upper_bound; [lia|nia]).
  destruct (split_sum (l * cr1) a (2 ^ 64) ltac:(lia)) as [S1 S2].
  rewrite (u64_mod (l * cr1)).
  rewrite S1, (u64_mod ((l * cr1) mod 2 ^ 64 + a)), S2.
  assert (T3 : (l * cr1 + a) / 2 ^ 64 < 2 ^ 64) by (apply N.div_lt_upper_bound; [lia|nia]).
  rewrite (u64_id _ T3).
  (* round 2 *)
  set (b := (l * cr1 + a) mod 2 ^ 64).
  assert (Hb : b < 2 ^ 64) by (unfold b; apply N.mod_lt; lia).
  destruct (split_sum (h * cr0) b (2 ^ 64) ltac:(lia)) as [S3 _].
  rewrite (u64_mod (h * cr0)), (N.add_comm b), S3.
  assert (T4 : (h * cr0 + b) / 2 ^ 64 < 2 ^ 64) by (apply N.div_lt_upper_bound; [lia|nia]).
  rewrite (u64_id _ T4).
  assert (Eq : u64 (u64 (u64 (h * cr1) + (l * cr1 + a) / 2 ^ 64) + (h * cr0 + b) / 2 ^ 64) = u64 q).
  { unfold q. rewrite Ex, <- HR. change (2 ^ 128) with (2 ^ 64 * 2 ^ 64).
    rewrite (raw128_quotient h l cr0 cr1 (2 ^ 64)) by lia.
    fold a. fold b. rewrite !u64_mod.
    rewrite N.add_mod_idemp_l by lia. rewrite <- N.add_assoc, N.add_mod_idemp_l by lia.
    rewrite N.add_assoc. reflexivity. }
  rewrite Eq. apply sub_u64_exact; [exact L|]. lia.
Qed.

Lemma barrett_u128_exact : forall m cr0 cr1 x, 2 <= m <= 2 ^ 63 -> x < 2 ^ 128 ->
  get_barrett_crs m = Ok (cr0, cr1) -> barrett_u128 x cr0 cr1 m = x mod m.
Proof.
  intros m cr0 cr1 x Hm Hx H.
  destruct (barrett_raw_u128_lazy m cr0 cr1 x Hm Hx H) as (q & E & L & U).
  unfold barrett_u128. rewrite E. unfold sub_u64.
  destruct (m <=? x - q * m) eqn:C.
  - apply N.leb_le in C.
    replace (x - q * m + 2 ^ 64 - m) with ((x - q * m - m) + 1 * 2 ^ 64) by lia.
    rewrite u64_mod, N.mod_add, N.mod_small by lia.
    apply (N.mod_unique x m (q + 1)); nia.
  - apply N.leb_gt in C.
    replace (x - q * m + 2 ^ 64 - 0) with ((x - q * m) + 1 * 2 ^ 64) by lia.
    rewrite u64_mod, N.mod_add, N.mod_small by lia.
    apply (N.mod_unique x m q); nia.
Qed.

Lemma multiply_mod_exact : forall m cr0 cr1 a b, 2 <= m <= 2 ^ 63 -> a < 2 ^ 64 -> b < 2 ^ 64 ->
  get_barrett_crs m = Ok (cr0, cr1) -> multiply_uint_mod a b m cr0 cr1 = (a * b) mod m.
Proof.
  intros m cr0 cr1 a b Hm Ha Hb H. unfold multiply_uint_mod, mul64.
  replace (a * b / 2 ^ 64 * 2 ^ 64 + u64 (a * b)) with (a * b)
    by (rewrite u64_mod; pose proof (N.div_mod (a * b) (2 ^ 64) ltac:(lia)); lia).
  apply barrett_u128_exact; [exact Hm|nia|exact H].
Qed.

(** ** CRT *)
Lemma crt_exact : forall inv m0 m1 x y,
  2 <= m0 -> 2 <= m1 -> m0 * m1 <= 2 ^ 63 -> x < m0 -> y < m1 ->
  N.gcd m0 m1 = 1 ->
  (forall a n, N.gcd a n = 1 -> 1 < n -> inv a n < n /\ (a * inv a n) mod n = 1) ->
  exists v, crt_compose2 inv m0 m1 x y = Ok v /\ v < m0 * m1 /\ v mod m0 = x /\ v mod m1 = y.
Proof.
  intros inv m0 m1 x y H0 H1 Hm Hx Hy Hg Hinv.
  destruct (Hinv m0 m1 Hg ltac:(lia)) as [B01 I01].
  destruct (Hinv m1 m0 ltac:(rewrite N.gcd_comm; exact Hg) ltac:(lia)) as [B10 I10].
  set (i01 := inv m0 m1) in *. set (i10 := inv m1 m0) in *.
  unfold crt_compose2, mod0_inv_mod1, mod1_inv_mod0. fold i01 i10.
  rewrite (u64_id (m0 * m1)) by lia.
  rewrite (u64_id (m1 * i10)) by nia. rewrite (u64_id (m0 * i01)) by nia.
  destruct (get_barrett_crs (m0 * m1)) as [[cr0 cr1]| | |] eqn:G;
    try (unfold get_barrett_crs in G; destruct (m0 * m1 =? 0) eqn:Z; [apply N.eqb_eq in Z; nia|discriminate]).
  cbn [bind].
  assert (C0 : m0 <= 2 ^ 62) by nia. assert (C1 : m1 <= 2 ^ 62) by nia.
  assert (P10 : m1 * i10 <= 2 ^ 63) by nia. assert (P01 : m0 * i01 <= 2 ^ 63) by nia.
  assert (Bx : x * (m1 * i10) <= 2 ^ 62 * 2 ^ 63) by (apply N.mul_le_mono; lia).
  assert (By : y * (m0 * i01) <= 2 ^ 62 * 2 ^ 63) by (apply N.mul_le_mono; lia).
  rewrite (N.mod_small (x * (m1 * i10)) (2 ^ 128)) by lia.
  rewrite (N.mod_small (y * (m0 * i01)) (2 ^ 128)) by lia.
  rewrite (N.mod_small (_ + _) (2 ^ 128)) by lia.
  rewrite (barrett_u128_exact (m0 * m1) cr0 cr1) by (try exact G; try nia; lia).
  set (V := x * (m1 * i10) + y * (m0 * i01)).
  exists (V mod (m0 * m1)). split; [reflexivity|]. split; [apply N.mod_lt; nia|].
  assert (M0 : (V mod (m0 * m1)) mod m0 = V mod m0).
  { rewrite N.mod_mul_r by lia. rewrite (N.mul_comm m0 (_ mod m1)), N.mod_add by lia. apply N.mod_mod; lia. }
  assert (M1 : (V mod (m0 * m1)) mod m1 = V mod m1).
  { rewrite (N.mul_comm m0 m1), N.mod_mul_r by lia.
    rewrite (N.mul_comm m1 (_ mod m0)), N.mod_add by lia. apply N.mod_mod; lia. }
  rewrite M0, M1. unfold V. split.
  - replace (x * (m1 * i10) + y * (m0 * i01)) with (x * (m1 * i10) + (y * i01) * m0) by lia.
    rewrite N.mod_add by lia. rewrite <- N.mul_mod_idemp_r, I10, N.mul_1_r by lia. apply N.mod_small; lia.
  - replace (x * (m1 * i10) + y * (m0 * i01)) with (y * (m0 * i01) + (x * i10) * m1) by lia.
    rewrite N.mod_add by lia. rewrite <- N.mul_mod_idemp_r, I01, N.mul_1_r by lia. apply N.mod_small; lia.
Qed.
