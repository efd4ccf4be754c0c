(** Word level facts about NttModel: bit reversal, the multiplication by a precomputed
    quotient, the butterflies. *)
From Coq Require Import List Arith NArith ZArith Bool Lia.
From Verif Require Import Base SpArithModel SpDecodeSpec SpDecodeProofs2 NttModel.
Import ListNotations.
Local Open Scope N_scope.

(** * Bit reversal *)
Lemma rev_lt : forall k x, (rev_bits k x < 2 ^ k)%nat.
Proof.
  induction k as [|k IH]; intros x; cbn [rev_bits Nat.pow]; [lia|].
  specialize (IH (x / 2)%nat). pose proof (Nat.mod_upper_bound x 2 ltac:(lia)).
  destruct (x mod 2)%nat as [|[|]]; lia.
Qed.

Lemma rev_double : forall k i, rev_bits (S k) (2 * i) = rev_bits k i.
Proof.
  intros k i. cbn [rev_bits]. rewrite (Nat.mul_comm 2 i), Nat.mod_mul, Nat.div_mul by lia. reflexivity.
Qed.

Lemma rev_double_1 : forall k i, rev_bits (S k) (2 * i + 1) = (2 ^ k + rev_bits k i)%nat.
Proof.
  intros k i. cbn [rev_bits].
  replace ((2 * i + 1) mod 2)%nat with 1%nat by (symmetry; rewrite Nat.add_comm, (Nat.mul_comm 2 i), Nat.mod_add by lia; reflexivity).
  replace ((2 * i + 1) / 2)%nat with i by (symmetry; rewrite Nat.add_comm, (Nat.mul_comm 2 i), Nat.div_add by lia; reflexivity).
  lia.
Qed.

Lemma even_odd_split : forall x, exists i, x = (2 * i)%nat \/ x = (2 * i + 1)%nat.
Proof.
  intros x. exists (x / 2)%nat. pose proof (Nat.div_mod x 2 ltac:(lia)). pose proof (Nat.mod_upper_bound x 2 ltac:(lia)). lia.
Qed.

Lemma rev_more : forall k d x, (x < 2 ^ k)%nat -> rev_bits (k + d) x = (2 ^ d * rev_bits k x)%nat.
Proof.
  induction k as [|k IH]; intros d x Hx; cbn [Nat.add].
  - cbn [Nat.pow] in Hx. assert (x = 0)%nat by lia. subst. cbn [rev_bits]. rewrite Nat.mul_0_r.
    induction d as [|d IHd]; [reflexivity|]. cbn [rev_bits]. exact IHd.
  - cbn [rev_bits]. rewrite IH.
    + rewrite Nat.pow_add_r. nia.
    + apply Nat.div_lt_upper_bound; [lia|]. cbn [Nat.pow] in Hx. lia.
Qed.

Lemma rev_top : forall k i, (i < 2 ^ k)%nat -> rev_bits (S k) (2 ^ k + i) = (1 + 2 * rev_bits k i)%nat.
Proof.
  induction k as [|k IH]; intros i Hi.
  - cbn [Nat.pow] in Hi. assert (i = 0)%nat by lia. subst. reflexivity.
  - cbn [Nat.pow] in *. destruct (even_odd_split i) as [j [->| ->]].
    + replace (2 * 2 ^ k + 2 * j)%nat with (2 * (2 ^ k + j))%nat by lia. rewrite !rev_double. apply IH. lia.
    + replace (2 * 2 ^ k + (2 * j + 1))%nat with (2 * (2 ^ k + j) + 1)%nat by lia. rewrite !rev_double_1, IH by lia.
      cbn [Nat.pow]. lia.
Qed.

Lemma rev_rev : forall k x, (x < 2 ^ k)%nat -> rev_bits k (rev_bits k x) = x.
Proof.
  induction k as [|k IH]; intros x Hx; [cbn in *; lia|].
  destruct (even_odd_split x) as [j [->| ->]]; cbn [Nat.pow] in Hx.
  - rewrite rev_double. pose proof (rev_lt k j). replace (S k) with (k + 1)%nat by lia. rewrite rev_more by lia.
    rewrite IH by lia. cbn. lia.
  - rewrite rev_double_1, rev_top by apply rev_lt. rewrite IH by lia. lia.
Qed.

(** * Words *)
Lemma u64_small : forall x, x < 2 ^ 64 -> u64 x = x.
Proof. intros x H. unfold u64. apply N.mod_small. exact H. Qed.
Lemma u32_small : forall x, x < 2 ^ 32 -> u32 x = x.
Proof. intros x H. unfold u32. apply N.mod_small. exact H. Qed.
Lemma sub_u64_small : forall a b, b <= a -> a < 2 ^ 64 -> sub_u64 a b = a - b.
Proof.
  intros a b H1 H2. unfold sub_u64, u64. change 18446744073709551616 with (2 ^ 64).
  replace (a + 2 ^ 64 - b) with (a - b + 1 * 2 ^ 64) by lia. rewrite N.mod_add by discriminate. apply N.mod_small. lia.
Qed.
Lemma sub_u32_small : forall a b, b <= a -> a < 2 ^ 32 -> sub_u32 a b = a - b.
Proof.
  intros a b H1 H2. unfold sub_u32, u32. change 4294967296 with (2 ^ 32).
  replace (a + 2 ^ 32 - b) with (a - b + 1 * 2 ^ 32) by lia. rewrite N.mod_add by discriminate. apply N.mod_small. lia.
Qed.
Lemma cmpgt_small : forall a b, a < 2 ^ 63 -> b < 2 ^ 63 -> cmpgt_i64 a b = (b <? a).
Proof.
  intros a b Ha Hb. unfold cmpgt_i64, to_i64. rewrite (proj2 (N.ltb_lt _ _) Ha), (proj2 (N.ltb_lt _ _) Hb).
  destruct (N.ltb_spec b a); [apply Z.ltb_lt|apply Z.ltb_ge]; lia.
Qed.

(** The precomputed quotient gives the product up to one extra modulus. *)
Lemma shoup : forall q w y, 0 < q -> w < q -> y < 2 ^ 32 ->
  let q_tmp := y * (w * 2 ^ 32 / q) / 2 ^ 32 in
  q_tmp * q <= w * y /\ w * y - q_tmp * q < 2 * q.
Proof.
  intros q w y Hq Hw Hy q_tmp. change (2 ^ 32) with 4294967296 in *.
  set (B := 4294967296) in *.
  pose proof (N.div_mod (w * B) q ltac:(lia)) as D1. pose proof (N.mod_lt (w * B) q ltac:(lia)) as M1.
  set (w' := w * B / q) in *. 
  pose proof (N.div_mod (y * w') B ltac:(discriminate)) as D2. pose proof (N.mod_lt (y * w') B ltac:(discriminate)) as M2.
  fold q_tmp in D2. set (r1 := (w * B) mod q) in *. set (r2 := (y * w') mod B) in *. clearbody w' q_tmp r1 r2.
  assert (E : w * y * B = q_tmp * q * B + (r2 * q + y * r1)).
  { replace (w * y * B) with (y * (w * B)) by lia. rewrite D1. replace (y * (q * w' + r1)) with (q * (y * w') + y * r1) by lia.
    rewrite D2. lia. }
  assert (r2 * q + y * r1 < 2 * q * B).
  { assert (r2 * q < B * q) by (apply N.mul_lt_mono_pos_r; lia).
    assert (y * r1 <= B * q) by (apply N.mul_le_mono; lia). lia. }
  assert (0 < B) by reflexivity. clearbody B. nia.
Qed.

Lemma quotient_lt : forall q w, 0 < q -> w < q -> w * 2 ^ 32 / q < 2 ^ 32.
Proof. intros q w Hq Hw. apply N.div_lt_upper_bound; [lia|]. apply N.mul_lt_mono_pos_r; [reflexivity|exact Hw]. Qed.

Local Notation zn := Z.of_N.

Section Bfly.
Variable q : N.
Hypothesis Hq0 : 0 < q.
Hypothesis Hq30 : q < 2 ^ 30.
Variables (w w' : N).
Hypothesis Hw : w < q.
Hypothesis Hw' : w' = w * 2 ^ 32 / q.

Lemma q_words : u32 q = q /\ u32 (2 * q) = 2 * q /\ u64 (2 * q) = 2 * q.
Proof using Hq30.
  clear - Hq30. change (2 ^ 30) with 1073741824 in Hq30.
  repeat split; [apply u32_small|apply u32_small|apply u64_small];
    lia.
Qed.

Lemma shoup_words : forall y, y <= 4 * q ->
  exists r, r < 2 * q /\ eqm (zn q) (zn r) (zn w * zn y)
    /\ sub_u64 (u64 (w * y)) (u64 (u64 (y * w') / 2 ^ 32 * q)) = r
    /\ sub_u64 (mul_epu32 y w) (mul_epu32 (mul_epu32 y w' / 2 ^ 32) q) = r.
Proof using Hq0 Hq30 Hw Hw'.
  intros y Hy. change (2 ^ 30) with 1073741824 in Hq30.
  assert (Hy32 : y < 2 ^ 32) by (change (2 ^ 32) with 4294967296; lia).
  assert (Hw32 : w' < 2 ^ 32) by (rewrite Hw'; apply quotient_lt; auto).
  destruct (shoup q w y Hq0 Hw Hy32) as [S1 S2]. rewrite <- Hw' in S1, S2.
  assert (Hwy : w * y < 2 ^ 64).
  { apply N.lt_le_trans with (2 ^ 32 * 2 ^ 32); [|discriminate].
    apply N.mul_lt_mono; [change (2 ^ 32) with 4294967296; lia|exact Hy32]. }
  assert (Hyw' : y * w' < 2 ^ 64).
  { apply N.lt_le_trans with (2 ^ 32 * 2 ^ 32); [|discriminate]. apply N.mul_lt_mono; auto. }
  exists (w * y - y * w' / 2 ^ 32 * q). split; [exact S2|]. split.
  { exists (- zn (y * w' / 2 ^ 32))%Z. rewrite N2Z.inj_sub by exact S1. rewrite !N2Z.inj_mul. ring. }
  split.
  - rewrite (u64_small (y * w')), (u64_small (w * y)), u64_small by (auto; lia). apply sub_u64_small; auto.
  - unfold mul_epu32. rewrite (u32_small y), (u32_small w), (u32_small w'), (u32_small q)
      by (auto; change (2 ^ 32) with 4294967296; lia).
    rewrite (u32_small (y * w' / 2 ^ 32)).
    2: { apply N.div_lt_upper_bound; [discriminate|]. change (2 ^ 32 * 2 ^ 32) with (2 ^ 64). exact Hyw'. }
    rewrite sub_u64_small; rewrite ?(N.mul_comm y w); auto.
Qed.

(** What a butterfly has to do, [k] being the bound on its results. *)
Definition fwd_ok (k x y : N) (ab : N * N) : Prop :=
  fst ab < k /\ snd ab < k /\ eqm (zn q) (zn (fst ab)) (zn x + zn w * zn y) /\ eqm (zn q) (zn (snd ab)) (zn x - zn w * zn y).

Lemma fwd_bfly_ok : forall x y, x < 4 * q -> y <= 4 * q -> fwd_ok (4 * q) x y (fwd_bfly q w w' x y).
Proof using Hq0 Hq30 Hw Hw'.
  intros x y Hx Hy. destruct q_words as (E1 & E2 & _). destruct (shoup_words y Hy) as (r & R1 & R2 & R3 & _).
  change (2 ^ 30) with 1073741824 in Hq30.
  unfold fwd_bfly. cbv zeta. rewrite E1, E2.
  rewrite (u32_small x), (u32_small y) by (change (2 ^ 32) with 4294967296; lia). rewrite R3.
  set (c := if 2 * q <=? x then 2 * q else 0).
  assert (Hc : c <= x /\ x - c < 2 * q /\ exists j, c = j * q).
  { unfold c. destruct (N.leb_spec (2 * q) x); (split; [lia|]; split; [lia|]); [exists 2|exists 0]; lia. }
  clearbody c. destruct Hc as (C1 & C2 & j & Cj).
  rewrite sub_u32_small by (auto; change (2 ^ 32) with 4294967296; lia).
  rewrite sub_u64_small by (try (change (2 ^ 64) with 18446744073709551616); lia).
  rewrite !u64_small by (change (2 ^ 64) with 18446744073709551616; lia).
  destruct R2 as [kr R2]. unfold fwd_ok. cbn [fst snd]. split; [lia|]. split; [lia|]. split.
  - exists (kr - zn j)%Z. rewrite N2Z.inj_add, N2Z.inj_sub, R2, Cj, N2Z.inj_mul by exact C1. ring.
  - exists (2 - kr - zn j)%Z. rewrite N2Z.inj_add, !N2Z.inj_sub, R2, Cj, !N2Z.inj_mul by (auto; lia). 
    change (zn 2) with 2%Z. ring.
Qed.

Lemma fwd_bfly_le : forall x y, x <= 4 * q -> y <= 4 * q -> fwd_ok (4 * q + 1) x y (fwd_bfly q w w' x y).
Proof using Hq0 Hq30 Hw Hw'.
  intros x y Hx Hy. destruct q_words as (E1 & E2 & _). destruct (shoup_words y Hy) as (r & R1 & R2 & R3 & _).
  change (2 ^ 30) with 1073741824 in Hq30.
  unfold fwd_bfly. cbv zeta. rewrite E1, E2.
  rewrite (u32_small x), (u32_small y) by (change (2 ^ 32) with 4294967296; lia). rewrite R3.
  set (c := if 2 * q <=? x then 2 * q else 0).
  assert (Hc : c <= x /\ x - c <= 2 * q /\ exists j, c = j * q).
  { unfold c. destruct (N.leb_spec (2 * q) x); (split; [lia|]; split; [lia|]); [exists 2|exists 0]; lia. }
  clearbody c. destruct Hc as (C1 & C2 & j & Cj).
  rewrite sub_u32_small by (auto; change (2 ^ 32) with 4294967296; lia).
  rewrite sub_u64_small by (try (change (2 ^ 64) with 18446744073709551616); lia).
  rewrite !u64_small by (change (2 ^ 64) with 18446744073709551616; lia).
  destruct R2 as [kr R2]. unfold fwd_ok. cbn [fst snd]. split; [lia|]. split; [lia|]. split.
  - exists (kr - zn j)%Z. rewrite N2Z.inj_add, N2Z.inj_sub, R2, Cj, N2Z.inj_mul by exact C1. ring.
  - exists (2 - kr - zn j)%Z. rewrite N2Z.inj_add, !N2Z.inj_sub, R2, Cj, !N2Z.inj_mul by (auto; lia). 
    change (zn 2) with 2%Z. ring.
Qed.

Lemma fwd_bfly_avx_ok : forall x y, x <= 4 * q -> y <= 4 * q -> fwd_ok (4 * q + 1) x y (fwd_bfly_avx q w w' x y).
Proof using Hq0 Hq30 Hw Hw'.
  intros x y Hx Hy. destruct q_words as (E1 & E2 & _). destruct (shoup_words y Hy) as (r & R1 & R2 & _ & R3).
  change (2 ^ 30) with 1073741824 in Hq30.
  unfold fwd_bfly_avx. cbv zeta. rewrite E1, E2. rewrite R3.
  rewrite cmpgt_small by (change (2 ^ 63) with 9223372036854775808; lia).
  set (c := if 2 * q <? x then 2 * q else 0).
  assert (Hc : c <= x /\ x - c <= 2 * q /\ exists j, c = j * q).
  { unfold c. destruct (N.ltb_spec (2 * q) x); (split; [lia|]; split; [lia|]); [exists 2|exists 0]; lia. }
  clearbody c. destruct Hc as (C1 & C2 & j & Cj).
  rewrite (sub_u64_small x c) by (try (change (2 ^ 64) with 18446744073709551616); lia).
  rewrite sub_u64_small by (try (change (2 ^ 64) with 18446744073709551616); lia).
  rewrite !u64_small by (change (2 ^ 64) with 18446744073709551616; lia).
  destruct R2 as [kr R2]. unfold fwd_ok. cbn [fst snd]. split; [lia|]. split; [lia|]. split.
  - exists (kr - zn j)%Z. rewrite N2Z.inj_add, N2Z.inj_sub, R2, Cj, N2Z.inj_mul by exact C1. ring.
  - exists (2 - kr - zn j)%Z. rewrite N2Z.inj_add, !N2Z.inj_sub, R2, Cj, !N2Z.inj_mul by (auto; lia). 
    change (zn 2) with 2%Z. ring.
Qed.

(** The inverse butterfly: (x + y) / 2 and w (x - y), w being already halved. *)
Hypothesis Hodd : N.odd q = true.
Definition inv_ok (x y : N) (ab : N * N) : Prop :=
  fst ab < 2 * q /\ snd ab < 2 * q /\ eqm (zn q) (2 * zn (fst ab)) (zn x + zn y)
  /\ eqm (zn q) (zn (snd ab)) (zn w * (zn x - zn y)).

(** Halving modulo an odd number. *)
Lemma half_ok : forall cx t, cx <= 2 * q -> t mod 2 = cx mod 2 ->
  (cx + q * (t mod 2)) / 2 < 2 * q /\ eqm (zn q) (2 * zn ((cx + q * (t mod 2)) / 2)) (zn cx).
Proof using Hq0 Hodd.
  clear - Hq0 Hodd. intros cx t Hc Ht. rewrite Ht.
  pose proof (N.div_mod (cx + q * (cx mod 2)) 2 ltac:(discriminate)) as D.
  assert (E : (cx + q * (cx mod 2)) mod 2 = 0).
  { rewrite <- N.bit0_mod, N.bit0_odd, N.odd_add, N.odd_mul, Hodd. cbn [andb].
    rewrite <- (N.bit0_mod cx), N.bit0_odd. destruct (N.odd cx); reflexivity. }
  rewrite E, N.add_0_r in D. set (h := (cx + q * (cx mod 2)) / 2) in *.
  pose proof (N.mod_lt cx 2 ltac:(discriminate)) as M. split.
  - assert (q * (cx mod 2) <= q) by nia. lia.
  - exists (zn (cx mod 2)). replace (2 * zn h)%Z with (zn (2 * h)) by lia. rewrite <- D. rewrite N2Z.inj_add, N2Z.inj_mul. ring.
Qed.

Lemma t_parity : forall x y c, y <= 2 * q -> c <= x + y -> (exists j, c = 2 * j) ->
  (2 * q - y + x) mod 2 = (x + y - c) mod 2.
Proof.
  intros x y c Hy Hc [j Hj]. subst c.
  assert (E : 2 * q - y + x + 2 * (y + j) = (x + y - 2 * j) + 2 * (q + 2 * j)) by lia.
  assert (F : forall a k, (a + 2 * k) mod 2 = a mod 2) by (intros a k; rewrite (N.mul_comm 2 k); apply N.mod_add; discriminate).
  rewrite <- (F (2 * q - y + x) (y + j)), E, F. reflexivity.
Qed.

Lemma inv_bfly_ok : forall x y, x <= 2 * q -> y <= 2 * q -> inv_ok x y (inv_bfly q w w' x y).
Proof using Hq0 Hq30 Hw Hw' Hodd.
  intros x y Hx Hy. destruct q_words as (_ & _ & E2).
  pose proof Hq30 as Hq30'. change (2 ^ 30) with 1073741824 in Hq30'.
  destruct (shoup_words (2 * q - y + x)) as (r & R1 & R2 & R3 & _); [lia|].
  unfold inv_bfly. cbv zeta. rewrite E2, (sub_u64_small (2 * q) y) by (try (change (2 ^ 64) with 18446744073709551616); lia).
  rewrite (u64_small (2 * q - y + x)), (u64_small (x + y)), (u64_small (x * 2))
    by (change (2 ^ 64) with 18446744073709551616; lia). rewrite R3.
  set (c := if 2 * q - y + x <=? x * 2 then 2 * q else 0).
  assert (Hc : c <= x + y /\ x + y - c <= 2 * q /\ exists j, c = 2 * j /\ (j = q \/ j = 0)).
  { unfold c. destruct (N.leb_spec (2 * q - y + x) (x * 2)); (split; [lia|]; split; [lia|]); [exists q|exists 0]; auto. }
  clearbody c. destruct Hc as (C1 & C2 & j & Cj & J).
  rewrite sub_u64_small by (try (change (2 ^ 64) with 18446744073709551616); lia).
  pose proof (t_parity x y c Hy C1 (ex_intro _ j Cj)) as Hpar.
  destruct (half_ok (x + y - c) (2 * q - y + x) C2 Hpar) as [H1 H2].
  rewrite u64_small.
  2: { pose proof (N.mod_lt (2 * q - y + x) 2 ltac:(discriminate)). change (2 ^ 64) with 18446744073709551616. nia. }
  unfold inv_ok. cbn [fst snd]. split; [exact H1|]. split; [exact R1|]. split.
  - destruct H2 as [k Hk]. rewrite Hk, N2Z.inj_sub, N2Z.inj_add by exact C1. destruct J as [-> | ->]; subst c.
    + exists (k - 2)%Z. rewrite N2Z.inj_mul. change (zn 2) with 2%Z. ring.
    + exists k. rewrite N2Z.inj_mul. ring.
  - destruct R2 as [k Hk]. exists (k + 2 * zn w)%Z. rewrite Hk, N2Z.inj_add, N2Z.inj_sub, N2Z.inj_mul by exact Hy.
    change (zn 2) with 2%Z. ring.
Qed.

Lemma inv_bfly_avx_ok : forall x y, x <= 2 * q -> y <= 2 * q -> inv_ok x y (inv_bfly_avx q w w' x y).
Proof using Hq0 Hq30 Hw Hw' Hodd.
  intros x y Hx Hy. destruct q_words as (_ & _ & E2).
  pose proof Hq30 as Hq30'. change (2 ^ 30) with 1073741824 in Hq30'.
  destruct (shoup_words (2 * q - y + x)) as (r & R1 & R2 & _ & R3); [lia|].
  unfold inv_bfly_avx. cbv zeta. rewrite E2, (sub_u64_small (2 * q) y) by (try (change (2 ^ 64) with 18446744073709551616); lia).
  rewrite (u64_small (2 * q - y + x)), (u64_small (x + y)), (u64_small (x * 2))
    by (change (2 ^ 64) with 18446744073709551616; lia). rewrite R3.
  rewrite cmpgt_small by (change (2 ^ 63) with 9223372036854775808; lia).
  set (c := if 2 * q - y + x <? x * 2 then 2 * q else 0).
  assert (Hc : c <= x + y /\ x + y - c <= 2 * q /\ exists j, c = 2 * j /\ (j = q \/ j = 0)).
  { unfold c. destruct (N.ltb_spec (2 * q - y + x) (x * 2)); (split; [lia|]; split; [lia|]); [exists q|exists 0]; auto. }
  clearbody c. destruct Hc as (C1 & C2 & j & Cj & J).
  rewrite sub_u64_small by (try (change (2 ^ 64) with 18446744073709551616); lia).
  pose proof (t_parity x y c Hy C1 (ex_intro _ j Cj)) as Hpar.
  destruct (half_ok (x + y - c) (2 * q - y + x) C2 Hpar) as [H1 H2].
  replace (if N.land (2 * q - y + x) 1 =? 1 then q else 0) with (q * ((2 * q - y + x) mod 2)).
  2: { assert (EL : N.land (2 * q - y + x) 1 = (2 * q - y + x) mod 2) by exact (N.land_ones _ 1). rewrite EL.
       pose proof (N.mod_lt (2 * q - y + x) 2 ltac:(discriminate)).
       destruct (N.eqb_spec ((2 * q - y + x) mod 2) 1) as [E|E]; [rewrite E; lia|].
       assert (E0 : (2 * q - y + x) mod 2 = 0) by lia. rewrite E0. lia. }
  rewrite u64_small.
  2: { pose proof (N.mod_lt (2 * q - y + x) 2 ltac:(discriminate)). change (2 ^ 64) with 18446744073709551616. nia. }
  unfold inv_ok. cbn [fst snd]. split; [exact H1|]. split; [exact R1|]. split.
  - destruct H2 as [k Hk]. rewrite Hk, N2Z.inj_sub, N2Z.inj_add by exact C1. destruct J as [-> | ->]; subst c.
    + exists (k - 2)%Z. rewrite N2Z.inj_mul. change (zn 2) with 2%Z. ring.
    + exists k. rewrite N2Z.inj_mul. ring.
  - destruct R2 as [k Hk]. exists (k + 2 * zn w)%Z. rewrite Hk, N2Z.inj_add, N2Z.inj_sub, N2Z.inj_mul by exact Hy.
    change (zn 2) with 2%Z. ring.
Qed.
End Bfly.

(** * Reductions *)
Section Reduce.
Variable q : N.
Hypothesis Hq0 : 0 < q.
Hypothesis Hq30 : q < 2 ^ 30.

Lemma two_steps : forall v c1 c2, (c1 = 0 \/ c1 = 2 * q) -> (c2 = 0 \/ c2 = q) -> c1 <= v -> c2 <= v - c1 ->
  v < 2 ^ 64 -> sub_u64 (sub_u64 v c1) c2 = v - c1 - c2 /\ eqm (zn q) (zn (v - c1 - c2)) (zn v).
Proof using Hq0.
  clear - Hq0. intros v c1 c2 H1 H2 H3 H4 Hv. rewrite (sub_u64_small v c1), sub_u64_small by (auto; lia). split; [reflexivity|].
  exists (- (if N.eqb c1 0 then 0 else 2) - (if N.eqb c2 0 then 0 else 1))%Z.
  rewrite !N2Z.inj_sub by auto.
  destruct (N.eqb_spec c1 0), (N.eqb_spec c2 0); destruct H1 as [H1|H1]; destruct H2 as [H2|H2]; subst; try lia;
    rewrite ?N2Z.inj_mul; change (zn 2) with 2%Z; change (zn 0) with 0%Z; lia.
Qed.

Lemma fwd_reduce_ok : forall v, v < 4 * q -> fwd_reduce q v < q /\ eqm (zn q) (zn (fwd_reduce q v)) (zn v).
Proof using Hq0 Hq30.
  intros v Hv. destruct (q_words q Hq30) as (E1 & E2 & _). unfold fwd_reduce. cbv zeta. rewrite E1, E2.
  change (2 ^ 30) with 1073741824 in Hq30.
  set (c1 := if 2 * q <=? v then 2 * q else 0).
  assert (H1 : (c1 = 0 \/ c1 = 2 * q) /\ c1 <= v /\ v - c1 < 2 * q) by (unfold c1; destruct (N.leb_spec (2 * q) v); lia).
  clearbody c1. rewrite (sub_u64_small v c1) by (try (change (2 ^ 64) with 18446744073709551616); lia).
  set (c2 := if q <=? v - c1 then q else 0).
  assert (H2 : (c2 = 0 \/ c2 = q) /\ c2 <= v - c1 /\ v - c1 - c2 < q) by (unfold c2; destruct (N.leb_spec q (v - c1)); lia).
  clearbody c2. destruct (two_steps v c1 c2) as [E E']; try tauto.
  { change (2 ^ 64) with 18446744073709551616; lia. }
  rewrite (sub_u64_small v c1) in E by (try (change (2 ^ 64) with 18446744073709551616); lia). rewrite E. tauto.
Qed.

Lemma fwd_reduce_avx_ok : forall v, v <= 4 * q -> fwd_reduce_avx q v <= q /\ eqm (zn q) (zn (fwd_reduce_avx q v)) (zn v).
Proof using Hq0 Hq30.
  intros v Hv. destruct (q_words q Hq30) as (E1 & E2 & _). unfold fwd_reduce_avx. cbv zeta. rewrite E1, E2.
  change (2 ^ 30) with 1073741824 in Hq30.
  rewrite (cmpgt_small v (2 * q)) by (change (2 ^ 63) with 9223372036854775808; lia).
  set (c1 := if 2 * q <? v then 2 * q else 0).
  assert (H1 : (c1 = 0 \/ c1 = 2 * q) /\ c1 <= v /\ v - c1 <= 2 * q) by (unfold c1; destruct (N.ltb_spec (2 * q) v); lia).
  clearbody c1. rewrite (sub_u64_small v c1) by (try (change (2 ^ 64) with 18446744073709551616); lia).
  rewrite cmpgt_small by (change (2 ^ 63) with 9223372036854775808; lia).
  set (c2 := if q <? v - c1 then q else 0).
  assert (H2 : (c2 = 0 \/ c2 = q) /\ c2 <= v - c1 /\ v - c1 - c2 <= q) by (unfold c2; destruct (N.ltb_spec q (v - c1)); lia).
  clearbody c2. destruct (two_steps v c1 c2) as [E E']; try tauto.
  { change (2 ^ 64) with 18446744073709551616; lia. }
  rewrite (sub_u64_small v c1) in E by (try (change (2 ^ 64) with 18446744073709551616); lia). rewrite E. tauto.
Qed.

Lemma inv_reduce_ok : forall v, v <= 2 * q -> inv_reduce q v < q /\ eqm (zn q) (zn (inv_reduce q v)) (zn v).
Proof using Hq0 Hq30.
  intros v Hv. destruct (q_words q Hq30) as (_ & _ & E2). unfold inv_reduce. cbv zeta. rewrite E2.
  change (2 ^ 30) with 1073741824 in Hq30.
  set (c1 := if 2 * q <=? v then 2 * q else 0).
  assert (H1 : (c1 = 0 \/ c1 = 2 * q) /\ c1 <= v /\ v - c1 < 2 * q) by (unfold c1; destruct (N.leb_spec (2 * q) v); lia).
  clearbody c1. rewrite (sub_u64_small v c1) by (try (change (2 ^ 64) with 18446744073709551616); lia).
  set (c2 := if q <=? v - c1 then q else 0).
  assert (H2 : (c2 = 0 \/ c2 = q) /\ c2 <= v - c1 /\ v - c1 - c2 < q) by (unfold c2; destruct (N.leb_spec q (v - c1)); lia).
  clearbody c2. destruct (two_steps v c1 c2) as [E E']; try tauto.
  { change (2 ^ 64) with 18446744073709551616; lia. }
  rewrite (sub_u64_small v c1) in E by (try (change (2 ^ 64) with 18446744073709551616); lia). rewrite E. tauto.
Qed.
End Reduce.
