(** Proofs about SpDecodeModel: one coefficient. *)
From Coq Require Import List Arith NArith ZArith Bool Lia.
From Verif Require Import Base SpArithModel SpArithSpec SpArithProofs SpArithProofs2 SpDecodeModel SpDecodeSpec.
Import ListNotations.
Local Open Scope Z_scope.

Lemma pick_half : forall v m, 0 <= v < m -> m < 2 ^ 62 ->
  exists w k, (if v >=? Z.quot m 2 then i64 (v - m) else Ok v) = Ok w /\ w = v + k * m /\ 2 * Z.abs w <= m + 1.
Proof.
  intros v m Hv Hm. rewrite Z.quot_div_nonneg by lia.
  pose proof (Z.div_mod m 2 ltac:(lia)). pose proof (Z.mod_pos_bound m 2 ltac:(lia)).
  destruct (v >=? m / 2) eqn:E.
  - apply Z.geb_le in E. exists (v - m), (-1). split; [apply i64_ok; lia|]. split; lia.
  - rewrite Z.geb_leb in E. apply Z.leb_gt in E. exists v, 0. split; [reflexivity|]. split; lia.
Qed.

(** Rounded division recovers the multiple nearest to a slightly perturbed one. *)
Lemma round_recovers : forall d h M e r, 0 < h -> d = 2 * h -> r = d * M + e -> Z.abs e < h ->
  Z.quot (r + (if r >=? 0 then 1 else -1) * h) d = M.
Proof.
  intros d h M e r Hh Hd Hr He. destruct (r >=? 0) eqn:E.
  - apply Z.geb_le in E. rewrite Z.quot_div_nonneg by lia. symmetry.
    apply (Z.div_unique _ _ _ (e + h)); lia.
  - rewrite Z.geb_leb in E. apply Z.leb_gt in E.
    replace (r + -1 * h) with (- (- r + h)) by lia. rewrite Z.quot_opp_l by lia.
    rewrite Z.quot_div_nonneg by lia.
    assert ((- r + h) / d = - M); [|lia]. symmetry. apply (Z.div_unique _ _ _ (h - e)); lia.
Qed.

Lemma decode_coeff_exact : forall p q2 a b m e k,
  (1 <= p)%N -> (1 <= q2)%N -> (8 * p * q2 < 2 ^ 62)%N -> (a < q2)%N -> (b < 4 * p)%N ->
  Z.of_N a * (4 * Z.of_N p) + Z.of_N b * Z.of_N q2
    = 4 * Z.of_N q2 * m + e + k * (4 * Z.of_N p * Z.of_N q2) ->
  Z.abs e < 2 * Z.of_N q2 ->
  decode_coeff p q2 a b = Ok (Z.to_N ((m + Z.of_N (4 * q2 / p)) mod Z.of_N p)).
Proof.
  intros p q2 a b m e k Hp Hq Hpq Ha Hb Heq He. unfold decode_coeff.
  assert (Hp60 : (8 * p < 2 ^ 62)%N) by nia. assert (Hq60 : (8 * q2 < 2 ^ 62)%N) by nia.
  change (2 ^ 62)%N with 4611686018427387904%N in *.
  assert (Eq1 : u64 (4 * p) = (4 * p)%N) by (apply u64_id; change (2 ^ 64)%N with 18446744073709551616%N; lia).
  rewrite Eq1. destruct (N.eqb_spec p 0); [lia|].
  rewrite !to_i64_small; try (change (2 ^ 63)%N with 9223372036854775808%N; lia).
  2:{ rewrite N.div_mul by lia. rewrite u64_id by (change (2 ^ 64)%N with 18446744073709551616%N; lia).
      change (2 ^ 63)%N with 9223372036854775808%N; lia. }
  rewrite N.div_mul by lia.
  rewrite u64_id by (change (2 ^ 64)%N with 18446744073709551616%N; lia).
  destruct (pick_half (Z.of_N a) (Z.of_N q2)) as (w1 & k1 & E1 & W1 & B1);
    [lia|change (2 ^ 62) with 4611686018427387904; lia|].
  rewrite E1. cbn [bind].
  destruct (pick_half (Z.of_N b) (Z.of_N (4 * p))) as (w2 & k2 & E2 & W2 & B2);
    [lia|change (2 ^ 62) with 4611686018427387904; lia|].
  rewrite E2. cbn [bind].
  rewrite !N2Z.inj_mul in *. change (Z.of_N 4) with 4 in *.
  assert (Emid : Z.of_N (4 * q2 / p) = Z.quot (Z.of_N q2 * 4) (Z.of_N p)).
  { rewrite N2Z.inj_div, N2Z.inj_mul, Z.quot_div_nonneg by lia. f_equal. change (Z.of_N 4) with 4. lia. }
  rewrite Emid. clear Emid E1 E2 Eq1.
  assert (HpqZ : 8 * Z.of_N p * Z.of_N q2 < 4611686018427387904) by lia.
  assert (HP : 1 <= Z.of_N p) by lia. assert (HQ : 1 <= Z.of_N q2) by lia.
  set (P := Z.of_N p) in *. set (Q := Z.of_N q2) in *. set (A := Z.of_N a) in *. set (B := Z.of_N b) in *.
  assert (HA : 0 <= A < Q) by lia. assert (HB : 0 <= B < 4 * P) by lia.
  clearbody P Q A B. clear Hpq Ha Hb Hp Hq Hp60 Hq60 n p q2 a b.
  assert (Hw1 : - (Q + 1) <= 2 * w1 <= Q + 1) by lia.
  assert (Hw2 : - (4 * P + 1) <= 2 * w2 <= 4 * P + 1) by lia.
  assert (Hw2' : - (2 * P) <= w2 <= 2 * P) by lia. clear Hw2.
  set (r1 := w1 * (4 * P)). set (r2 := w2 * Q).
  assert (R1 : - (2 * P * Q + 2 * P) <= r1 <= 2 * P * Q + 2 * P) by (unfold r1; nia).
  assert (R2 : - (2 * P * Q) <= r2 <= 2 * P * Q).
  { unfold r2. clear - Hw2' HQ. replace (- (2 * P * Q)) with (- (2 * P) * Q) by ring.
    split; apply Z.mul_le_mono_nonneg_r; lia. }
  assert (PQ : P <= P * Q /\ Q <= P * Q) by (clear - HP HQ; nia).
  assert (Er : r1 + r2 = Q * 4 * (m + (k + k1 + k2) * P) + e) by (unfold r1, r2; rewrite W1, W2; clear - Heq; nia).
  set (M := m + (k + k1 + k2) * P) in *.
  replace (2 * P * Q) with (2 * (P * Q)) in * by ring. replace (8 * P * Q) with (8 * (P * Q)) in * by ring.
  assert (RM : - (2 * P) <= M <= 2 * P).
  { assert (- (4 * (P * Q) + 2 * P + 2 * Q) <= Q * 4 * M <= 4 * (P * Q) + 2 * P + 2 * Q) as RQ by lia. clear - HP HQ PQ RQ. nia. }
  change (Z.of_N 4) with 4.
  clearbody r1 r2. set (PQ' := P * Q) in *.
  rewrite (i64_ok r1), (i64_ok r2) by (change (2 ^ 63) with 9223372036854775808; lia).
  cbn [bind]. rewrite (i64_ok (r1 + r2)) by (change (2 ^ 63) with 9223372036854775808; lia). cbn [bind].
  assert (Eh : Z.quot (Q * 4) 2 = 2 * Q).
  { rewrite Z.quot_div_nonneg by lia. replace (Q * 4) with (2 * Q * 2) by ring. apply Z.div_mul. lia. }
  rewrite Eh. set (sg := if r1 + r2 >=? 0 then 1 else -1).
  assert (Hsg : sg = 1 \/ sg = -1) by (unfold sg; destruct (r1 + r2 >=? 0); auto).
  rewrite i64_ok by (change (2 ^ 63) with 9223372036854775808; lia). cbn [bind].
  rewrite i64_ok by (change (2 ^ 63) with 9223372036854775808; lia). cbn [bind].
  rewrite quot_ok by lia. cbn [bind].
  assert (Erd : Z.quot (r1 + r2 + sg * (2 * Q)) (Q * 4) = M).
  { unfold sg. apply (round_recovers (Q * 4) (2 * Q) M e); lia. }
  rewrite Erd. rewrite quot_ok by lia. cbn [bind].
  rewrite (Z.quot_div_nonneg (Q * 4) P) by lia.
  assert (Hmid : 0 <= Q * 4 / P <= Q * 4) by (split; [apply Z.div_pos; lia|apply Z.div_le_upper_bound; [lia|]; clear - HP HQ; nia]).
  set (mid := Q * 4 / P) in *. clearbody mid.
  assert (B127 : 9223372036854775808 < 2 ^ 127) by reflexivity.
  rewrite i128_ok by lia. cbn [bind]. rewrite i128_ok by lia. cbn [bind]. rewrite i128_ok by lia. cbn [bind].
  rewrite rem_ok by lia. cbn [bind]. rewrite Z.rem_mod_nonneg by lia.
  assert (Emod : (M + mid + 2 * P) mod P = (m + mid) mod P).
  { replace (M + mid + 2 * P) with (m + mid + (k + k1 + k2 + 2) * P) by (unfold M; ring).
    apply Z.mod_add. lia. }
  rewrite Emod. pose proof (Z.mod_pos_bound (m + mid) P ltac:(lia)).
  rewrite (Z.mod_small _ (2 ^ 64)); [reflexivity|]. change (2 ^ 64) with 18446744073709551616. lia.
Qed.
