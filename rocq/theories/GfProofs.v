(** Proofs about GF(2^128): carry-less products, reduction, both multiplications. *)
From Coq Require Import List NArith Arith Bool Lia Ndigits.
From Verif Require Import Base GfModel GfSpec.
Import ListNotations.
Local Open Scope N_scope.

Ltac xbits := apply N.bits_inj; intros ?k; rewrite ?N.lxor_spec, ?N.bits_0.
Ltac xsolve := xbits; repeat match goal with |- context [N.testbit ?a ?k] => destruct (N.testbit a k) end; reflexivity.

(** ** Bits and bounds *)
Lemma bits_below : forall a m, a < 2 ^ m <-> (forall k, m <= k -> N.testbit a k = false).
Proof.
  intros a m. split.
  - intros H k K. destruct (N.eq_dec a 0) as [->|NZ]; [apply N.bits_0|].
    apply N.bits_above_log2. apply N.log2_lt_pow2 in H; lia.
  - intros H. destruct (N.eq_dec a 0) as [->|NZ]; [apply N.neq_0_lt_0, N.pow_nonzero; lia|].
    apply N.log2_lt_pow2; [lia|]. destruct (N.lt_ge_cases (N.log2 a) m) as [L|L]; [exact L|].
    pose proof (N.bit_log2 a NZ) as B. rewrite (H _ L) in B. discriminate.
Qed.

Lemma lxor_below : forall a b m, a < 2 ^ m -> b < 2 ^ m -> N.lxor a b < 2 ^ m.
Proof.
  intros a b m A B. apply bits_below. intros k K. rewrite N.lxor_spec.
  rewrite (proj1 (bits_below a m) A k K), (proj1 (bits_below b m) B k K). reflexivity.
Qed.

Lemma double_shiftl : forall a, N.double a = N.shiftl a 1.
Proof. intros a. rewrite N.shiftl_1_l || idtac. rewrite N.double_spec, N.shiftl_mul_pow2, N.pow_1_r. lia. Qed.

Lemma double_lxor : forall a b, N.double (N.lxor a b) = N.lxor (N.double a) (N.double b).
Proof. intros a b. rewrite !double_shiftl. apply N.shiftl_lxor. Qed.

(** [a] split at bit m. *)
Lemma split_bits : forall a m, a = N.lxor (a mod 2 ^ m) (N.shiftl (N.shiftr a m) m).
Proof.
  intros a m. xbits. destruct (N.lt_ge_cases k m) as [L|L].
  - rewrite N.mod_pow2_bits_low, N.shiftl_spec_low by exact L. destruct (N.testbit a k); reflexivity.
  - rewrite N.mod_pow2_bits_high, N.shiftl_spec_high', N.shiftr_spec' by exact L.
    replace (k - m + m) with k by lia. destruct (N.testbit a k); reflexivity.
Qed.

Lemma mod_succ : forall b i,
  b mod 2 ^ (i + 1) = N.lxor (b mod 2 ^ i) (if N.testbit b i then 2 ^ i else 0).
Proof.
  intros b i. xbits. destruct (N.lt_trichotomy k i) as [L|[L|L]].
  - rewrite !N.mod_pow2_bits_low by lia. replace (N.testbit (if N.testbit b i then 2 ^ i else 0) k) with false.
    + destruct (N.testbit b k); reflexivity.
    + symmetry. destruct (N.testbit b i); [apply N.pow2_bits_false; lia|apply N.bits_0].
  - subst k. rewrite N.mod_pow2_bits_low by lia. rewrite N.mod_pow2_bits_high by lia.
    destruct (N.testbit b i); [rewrite N.pow2_bits_true|rewrite N.bits_0]; reflexivity.
  - rewrite !N.mod_pow2_bits_high by lia.
    destruct (N.testbit b i); [rewrite N.pow2_bits_false by lia|rewrite N.bits_0]; reflexivity.
Qed.

Lemma mod_zero_pow : forall b, b mod 2 ^ 0 = 0.
Proof. intros b. rewrite N.pow_0_r. apply N.mod_1_r. Qed.

(** ** Carry-less product *)
Lemma clmul_double_l : forall a b, clmul (N.double a) b = N.double (clmul a b).
Proof. intros [|p] b; reflexivity. Qed.
Lemma clmul_sdouble_l : forall a b, clmul (N.succ_double a) b = N.lxor b (N.double (clmul a b)).
Proof. intros [|p] b; [simpl; rewrite N.lxor_0_r; reflexivity|reflexivity]. Qed.

Lemma bin_ind : forall P : N -> Prop, P 0 -> (forall a, P a -> P (N.double a)) ->
  (forall a, P a -> P (N.succ_double a)) -> forall a, P a.
Proof.
  intros P H0 HD HS [|p]; [exact H0|]. induction p as [p IH|p IH|].
  - exact (HS (Npos p) IH).
  - exact (HD (Npos p) IH).
  - exact (HS 0 H0).
Qed.

Lemma clmul_lxor_r : forall a b c, clmul a (N.lxor b c) = N.lxor (clmul a b) (clmul a c).
Proof.
  intros a b c. induction a as [|a IH|a IH] using bin_ind.
  - reflexivity.
  - rewrite !clmul_double_l, IH. apply double_lxor.
  - rewrite !clmul_sdouble_l, IH, double_lxor. xsolve.
Qed.

Lemma clmul_0_r : forall a, clmul a 0 = 0.
Proof.
  intros a. induction a as [|a IH|a IH] using bin_ind; [reflexivity|..].
  - rewrite clmul_double_l, IH. reflexivity.
  - rewrite clmul_sdouble_l, IH. reflexivity.
Qed.

Lemma clmul_1_r : forall a, clmul a 1 = a.
Proof.
  intros a. induction a as [|a IH|a IH] using bin_ind; [reflexivity|..].
  - rewrite clmul_double_l, IH. reflexivity.
  - rewrite clmul_sdouble_l, IH. destruct a; reflexivity.
Qed.

Lemma clmul_double_r : forall a b, clmul a (N.double b) = N.double (clmul a b).
Proof.
  intros a b. induction a as [|a IH|a IH] using bin_ind; [reflexivity|..].
  - rewrite !clmul_double_l, IH. reflexivity.
  - rewrite !clmul_sdouble_l, IH, double_lxor. reflexivity.
Qed.

Lemma sdouble_lxor : forall b, N.succ_double b = N.lxor (N.double b) 1.
Proof. intros [|p]; reflexivity. Qed.

Lemma clmul_comm : forall a b, clmul a b = clmul b a.
Proof.
  intros a b. induction b as [|b IH|b IH] using bin_ind.
  - rewrite clmul_0_r. reflexivity.
  - rewrite clmul_double_r, clmul_double_l, IH. reflexivity.
  - rewrite clmul_sdouble_l, sdouble_lxor, clmul_lxor_r, clmul_double_r, clmul_1_r, IH. apply N.lxor_comm.
Qed.

Lemma clmul_lxor_l : forall a b c, clmul (N.lxor a b) c = N.lxor (clmul a c) (clmul b c).
Proof. intros a b c. rewrite !(clmul_comm _ c). apply clmul_lxor_r. Qed.

Lemma clmul_assoc : forall a b c, clmul (clmul a b) c = clmul a (clmul b c).
Proof.
  intros a b c. induction a as [|a IH|a IH] using bin_ind; [reflexivity|..].
  - rewrite !clmul_double_l, IH. reflexivity.
  - rewrite !clmul_sdouble_l, clmul_lxor_l, clmul_double_l, IH. reflexivity.
Qed.

Lemma clmul_1_l : forall a, clmul 1 a = a.
Proof. reflexivity. Qed.

Lemma clmul_pow2 : forall n b, clmul (2 ^ n) b = N.shiftl b n.
Proof.
  intros n b. induction n as [|n IH] using N.peano_ind.
  - rewrite N.pow_0_r, N.shiftl_0_r. reflexivity.
  - rewrite N.shiftl_succ_r, <- IH. rewrite <- clmul_double_l. f_equal.
    rewrite N.double_spec. apply N.pow_succ_r'.
Qed.

Lemma shiftl_clmul_l : forall a b n, clmul (N.shiftl a n) b = N.shiftl (clmul a b) n.
Proof. intros a b n. rewrite <- !clmul_pow2. apply clmul_assoc. Qed.
Lemma shiftl_clmul_r : forall a b n, clmul a (N.shiftl b n) = N.shiftl (clmul a b) n.
Proof. intros a b n. rewrite clmul_comm, shiftl_clmul_l, clmul_comm. reflexivity. Qed.

Lemma double_below : forall a m, a < 2 ^ m -> N.double a < 2 ^ (m + 1).
Proof. intros a m H. rewrite N.double_spec, N.add_1_r, N.pow_succ_r'. lia. Qed.

Lemma clmul_below : forall a m b n, a < 2 ^ m -> b < 2 ^ n -> clmul a b < 2 ^ (m + n).
Proof.
  intros a m. revert a. induction m as [|m IH] using N.peano_ind; intros a b n A B.
  - rewrite N.pow_0_r in A. replace a with 0 by lia. simpl. apply N.neq_0_lt_0, N.pow_nonzero. lia.
  - assert (E : a = N.lxor (N.double (N.div2 a)) (if N.testbit a 0 then 1 else 0)).
    { rewrite (N.div2_odd a) at 1. rewrite N.bit0_odd. rewrite <- N.double_spec.
      destruct (N.odd a); simpl N.b2n; destruct (N.div2 a); reflexivity. }
    replace (clmul a b) with (clmul (N.lxor (N.double (N.div2 a)) (if N.testbit a 0 then 1 else 0)) b)
      by (rewrite <- E; reflexivity).
    rewrite clmul_lxor_l. apply lxor_below.
    + rewrite clmul_double_l. replace (N.succ m + n) with (m + n + 1) by lia. apply double_below.
      apply IH; [|exact B]. rewrite N.pow_succ_r' in A. rewrite N.div2_div. apply N.div_lt_upper_bound; lia.
    + assert (2 ^ n <= 2 ^ (N.succ m + n)) by (apply N.pow_le_mono_r; lia).
      destruct (N.testbit a 0); [rewrite clmul_1_l; lia|]. simpl.
      apply N.neq_0_lt_0, N.pow_nonzero. lia.
Qed.

Lemma log2_lxor_big : forall a b, N.log2 a < N.log2 b -> N.log2 (N.lxor a b) = N.log2 b.
Proof.
  intros a b H. apply N.log2_bits_unique.
  - rewrite N.lxor_spec, N.bits_above_log2 by exact H. rewrite N.bit_log2; [reflexivity|].
    intros E. subst b. simpl in H. lia.
  - intros m M. rewrite N.lxor_spec, !N.bits_above_log2 by lia. reflexivity.
Qed.

Lemma clmul_log2 : forall a b, a <> 0 -> b <> 0 ->
  clmul a b <> 0 /\ N.log2 (clmul a b) = N.log2 a + N.log2 b.
Proof.
  intros a b. induction a as [|a IH|a IH] using bin_ind; intros A B.
  - contradiction.
  - assert (A' : a <> 0) by (intros ->; apply A; reflexivity). destruct (IH A' B) as [I1 I2].
    rewrite clmul_double_l. split; [destruct (clmul a b); [contradiction|discriminate]|].
    rewrite !N.double_spec, !N.log2_double by lia. lia.
  - destruct (N.eq_dec a 0) as [->|A'].
    + change (clmul (N.succ_double 0) b) with b. simpl. auto.
    + destruct (IH A' B) as [I1 I2]. rewrite clmul_sdouble_l.
      assert (L : N.log2 (N.lxor b (N.double (clmul a b))) = 1 + N.log2 a + N.log2 b).
      { rewrite log2_lxor_big; rewrite N.double_spec, N.log2_double by lia; lia. }
      rewrite L. rewrite N.succ_double_spec, N.log2_succ_double by lia. split; [|lia].
      intros E. rewrite E in L. change (N.log2 0) with 0 in L. lia.
Qed.

(** ** The convolution *)
Lemma xsum_ext : forall n g h, (forall i, (i < n)%nat -> g i = h i) -> xsum n g = xsum n h.
Proof.
  intros n g h H. induction n as [|n IH]; [reflexivity|]. simpl. rewrite IH, H; [reflexivity|lia|].
  intros i L. apply H. lia.
Qed.
Lemma xsum_S : forall n g, xsum (S n) g = xorb (g O) (xsum n (fun i => g (S i))).
Proof.
  intros n g. induction n as [|n IH]; [simpl; destruct (g O); reflexivity|].
  change (xsum (S (S n)) g) with (xorb (xsum (S n) g) (g (S n))). rewrite IH. simpl.
  destruct (g O), (xsum n (fun i => g (S i))), (g (S n)); reflexivity.
Qed.
Lemma xsum_false : forall n, xsum n (fun _ => false) = false.
Proof. induction n as [|n IH]; [reflexivity|]. simpl. rewrite IH. reflexivity. Qed.

Lemma tb_double_0 : forall a, N.testbit_nat (N.double a) 0 = false.
Proof. intros []; reflexivity. Qed.
Lemma tb_double_S : forall a k, N.testbit_nat (N.double a) (S k) = N.testbit_nat a k.
Proof. intros [] k; reflexivity. Qed.
Lemma tb_sdouble_0 : forall a, N.testbit_nat (N.succ_double a) 0 = true.
Proof. intros []; reflexivity. Qed.
Lemma tb_sdouble_S : forall a k, N.testbit_nat (N.succ_double a) (S k) = N.testbit_nat a k.
Proof. intros [] k; [destruct k|]; reflexivity. Qed.

Lemma clmul_is_product : forall a b, is_product a b (clmul a b).
Proof.
  intros a b. induction a as [|a IH|a IH] using bin_ind; intros k.
  - simpl clmul. rewrite (xsum_ext _ _ (fun _ => false)); [|reflexivity]. rewrite xsum_false. reflexivity.
  - rewrite clmul_double_l, xsum_S, tb_double_0. simpl andb. rewrite xorb_false_l. destruct k as [|k].
    + rewrite tb_double_0. reflexivity.
    + rewrite tb_double_S, IH. apply xsum_ext. intros i _. rewrite tb_double_S. reflexivity.
  - rewrite clmul_sdouble_l, Nxor_semantics, xsum_S, tb_sdouble_0, Nat.sub_0_r. simpl andb.
    f_equal. destruct k as [|k].
    + rewrite tb_double_0. reflexivity.
    + rewrite tb_double_S, IH. apply xsum_ext. intros i _. rewrite tb_sdouble_S. reflexivity.
Qed.

Lemma product_is_clmul : forall a b c, is_product a b c -> c = clmul a b.
Proof.
  intros a b c H. apply Nbit_faithful. intros k. rewrite H. symmetry. apply clmul_is_product.
Qed.

(** ** Congruence modulo the polynomial *)
Definition cong (p q : N) : Prop := exists k, N.lxor p q = clmul k gf_poly.

Lemma cong_refl : forall p, cong p p.
Proof. intros p. exists 0. rewrite N.lxor_nilpotent. reflexivity. Qed.
Lemma cong_sym : forall p q, cong p q -> cong q p.
Proof. intros p q [k H]. exists k. rewrite N.lxor_comm. exact H. Qed.
Lemma cong_trans : forall p q r, cong p q -> cong q r -> cong p r.
Proof.
  intros p q r [k H] [l G]. exists (N.lxor k l). rewrite clmul_lxor_l, <- H, <- G. xsolve.
Qed.
Lemma cong_lxor : forall p p' q q', cong p p' -> cong q q' -> cong (N.lxor p q) (N.lxor p' q').
Proof.
  intros p p' q q' [k H] [l G]. exists (N.lxor k l). rewrite clmul_lxor_l, <- H, <- G. xsolve.
Qed.
Lemma cong_mul_r : forall p q r, cong q r -> cong (clmul p q) (clmul p r).
Proof. intros p q r [k H]. exists (clmul p k). rewrite <- clmul_lxor_r, H, clmul_assoc. reflexivity. Qed.
Lemma cong_mul : forall p p' q q', cong p p' -> cong q q' -> cong (clmul p q) (clmul p' q').
Proof.
  intros p p' q q' H G. eapply cong_trans; [apply cong_mul_r, G|]. rewrite !(clmul_comm _ q').
  apply cong_mul_r, H.
Qed.

Lemma cong_unique : forall p q, p < 2 ^ 128 -> q < 2 ^ 128 -> cong p q -> p = q.
Proof.
  intros p q P Q [k H]. assert (B : N.lxor p q < 2 ^ 128) by (apply lxor_below; assumption).
  destruct (N.eq_dec k 0) as [->|K].
  - simpl in H. apply N.lxor_eq. exact H.
  - exfalso. destruct (clmul_log2 k gf_poly K) as [L1 L2]; [discriminate|]. rewrite <- H in L1, L2.
    apply N.log2_lt_pow2 in B; [|lia]. change (N.log2 gf_poly) with 128 in L2. lia.
Qed.

Lemma poly_split : gf_poly = N.lxor (2 ^ 128) 0x87.
Proof. reflexivity. Qed.

Lemma cong_high : forall h, cong (N.shiftl h 128) (clmul h 0x87).
Proof.
  intros h. exists h. rewrite poly_split, clmul_lxor_r. f_equal.
  rewrite clmul_comm, clmul_pow2. reflexivity.
Qed.

(** A field product is a reduced number congruent to the carry-less product. *)
Lemma field_product_cong : forall a b c, field_product a b c <-> c < 2 ^ 128 /\ cong c (clmul a b).
Proof.
  intros a b c. split.
  - intros [H [ab [q [qf [H1 [H2 H3]]]]]]. split; [exact H|]. exists q.
    rewrite <- (product_is_clmul _ _ _ H1), <- (product_is_clmul _ _ _ H2). exact H3.
  - intros [H [k E]]. split; [exact H|]. exists (clmul a b), k, (clmul k gf_poly).
    split; [apply clmul_is_product|split; [apply clmul_is_product|exact E]].
Qed.

Lemma field_product_unique : forall a b c d, field_product a b c -> field_product a b d -> c = d.
Proof.
  intros a b c d C D. apply field_product_cong in C, D. destruct C as [C1 C2], D as [D1 D2].
  apply cong_unique; auto. eapply cong_trans; [exact C2|apply cong_sym; exact D2].
Qed.

(** ** The portable multiplication *)
Lemma mask_double : forall v, v < 2 ^ 128 ->
  mask128 (N.shiftl v 1) = N.lxor (N.shiftl v 1) (if N.testbit v 127 then 2 ^ 128 else 0).
Proof.
  intros v V. unfold mask128.
  assert (B : N.shiftl v 1 < 2 ^ 129).
  { rewrite <- double_shiftl. apply (double_below v 128). exact V. }
  pose proof (mod_succ (N.shiftl v 1) 128) as M. change (128 + 1) with 129 in M.
  rewrite N.mod_small in M by exact B.
  replace (N.testbit (N.shiftl v 1) 128) with (N.testbit v 127) in M.
  - rewrite M at 2. xsolve.
  - rewrite N.shiftl_spec_high' by lia. reflexivity.
Qed.

Definition cc_inv (a b i : N) (zv : N * N) : Prop :=
  fst zv < 2 ^ 128 /\ snd zv < 2 ^ 128 /\
  cong (fst zv) (clmul a (b mod 2 ^ i)) /\ cong (snd zv) (clmul a (2 ^ i)).

Lemma cc_step_inv : forall a b i zv, cc_inv a b i zv -> cc_inv a b (i + 1) (cc_step b i zv).
Proof.
  intros a b i [z v] [Z [V [CZ CV]]]. simpl in *. unfold cc_inv, cc_step.
  assert (V' : (if N.testbit v 127 then N.lxor (mask128 (N.shiftl v 1)) 135 else mask128 (N.shiftl v 1))
               = N.lxor (N.shiftl v 1) (if N.testbit v 127 then gf_poly else 0)).
  { rewrite mask_double by exact V. destruct (N.testbit v 127); [|reflexivity].
    rewrite poly_split. xsolve. }
  cbn [fst snd]. split; [|split; [|split]].
  - destruct (N.testbit b i); [apply lxor_below|]; assumption.
  - assert (M : mask128 (N.shiftl v 1) < 2 ^ 128) by (unfold mask128; apply N.mod_lt; discriminate).
    destruct (N.testbit v 127); [apply lxor_below|]; auto. reflexivity.
  - rewrite mod_succ, clmul_lxor_r. destruct (N.testbit b i).
    + apply cong_lxor; assumption.
    + rewrite clmul_0_r, N.lxor_0_r. exact CZ.
  - rewrite V'. apply cong_trans with (N.shiftl v 1).
    + exists (if N.testbit v 127 then 1 else 0). destruct (N.testbit v 127); [rewrite clmul_1_l|simpl clmul]; xsolve.
    + rewrite N.add_1_r, N.pow_succ_r', <- N.double_spec, clmul_double_r, !double_shiftl.
      rewrite <- !clmul_pow2. apply cong_mul_r. exact CV.
Qed.

Lemma cc_loop_inv : forall k a b i zv, cc_inv a b i zv -> cc_inv a b (i + N.of_nat k) (cc_loop b i k zv).
Proof.
  induction k as [|k IH]; intros a b i zv I.
  - simpl. rewrite N.add_0_r. exact I.
  - cbn [cc_loop]. replace (i + N.of_nat (S k)) with (i + 1 + N.of_nat k) by lia. apply IH.
    apply cc_step_inv. exact I.
Qed.

Lemma cc_correct : forall a b, a < 2 ^ 128 -> b < 2 ^ 128 -> field_product a b (cc_gf128Mul a b).
Proof.
  intros a b A B. apply field_product_cong. unfold cc_gf128Mul.
  assert (I : cc_inv a b 0 (0, a)).
  { unfold cc_inv. cbn [fst snd]. rewrite mod_zero_pow, clmul_0_r, N.pow_0_r, clmul_1_r.
    repeat split; auto; try apply cong_refl. }
  apply (cc_loop_inv 128) in I. destruct I as [I1 [_ [I2 _]]]. change (0 + N.of_nat 128) with 128 in *.
  rewrite N.mod_small in I2 by exact B. auto.
Qed.

(** ** The AVX2 multiplication *)
Lemma half_low : forall x, half false x < 2 ^ 64.
Proof. intros x. unfold half. apply N.mod_lt. discriminate. Qed.
Lemma half_high : forall x, x < 2 ^ 128 -> half true x < 2 ^ 64.
Proof.
  intros x X. unfold half. rewrite N.shiftr_div_pow2. apply N.div_lt_upper_bound; [discriminate|].
  rewrite <- N.pow_add_r. exact X.
Qed.
Lemma half_split : forall x, x = N.lxor (half false x) (N.shiftl (half true x) 64).
Proof. intros x. apply split_bits. Qed.

Lemma slli_srli : forall t, N.lxor (mm_slli8 t) (N.shiftl (mm_srli8 t) 128) = N.shiftl t 64.
Proof.
  intros t. rewrite (split_bits (N.shiftl t 64) 128) at 1. unfold mm_slli8, mm_srli8, mask128. f_equal.
  f_equal. rewrite N.shiftr_shiftl_r by discriminate. reflexivity.
Qed.

Lemma mm_mul_correct : forall x y, x < 2 ^ 128 -> y < 2 ^ 128 ->
  fst (mm_gf128Mul x y) < 2 ^ 128 /\ snd (mm_gf128Mul x y) < 2 ^ 128 /\
  N.lxor (fst (mm_gf128Mul x y)) (N.shiftl (snd (mm_gf128Mul x y)) 128) = clmul x y.
Proof.
  intros x y X Y. unfold mm_gf128Mul. cbn [fst snd].
  change (mm_clmul x y 0x00) with (clmul (half false x) (half false y)).
  change (mm_clmul x y 0x10) with (clmul (half false x) (half true y)).
  change (mm_clmul x y 0x01) with (clmul (half true x) (half false y)).
  change (mm_clmul x y 0x11) with (clmul (half true x) (half true y)).
  pose proof (half_low x). pose proof (half_low y). pose proof (half_high x X). pose proof (half_high y Y).
  assert (P : forall u v, u < 2 ^ 64 -> v < 2 ^ 64 -> clmul u v < 2 ^ 128).
  { intros u v U V. apply (clmul_below u 64 v 64); assumption. }
  assert (S1 : forall t, mm_slli8 t < 2 ^ 128) by (intros t; unfold mm_slli8, mask128; apply N.mod_lt; discriminate).
  assert (S2 : forall t, t < 2 ^ 128 -> mm_srli8 t < 2 ^ 128).
  { intros t T. apply N.lt_trans with (2 ^ 64); [apply half_high; exact T|reflexivity]. }
  split; [|split].
  - apply lxor_below; auto.
  - apply lxor_below; auto. apply S2. apply lxor_below; auto.
  - transitivity (clmul (N.lxor (half false x) (N.shiftl (half true x) 64)) (N.lxor (half false y) (N.shiftl (half true y) 64)));
      [|rewrite <- !half_split; reflexivity].
    rewrite clmul_lxor_l, !clmul_lxor_r, !shiftl_clmul_l, !shiftl_clmul_r.
    rewrite N.shiftl_shiftl. change (64 + 64) with 128.
    set (t1 := clmul (half false x) (half false y)).
    set (t2 := clmul (half false x) (half true y)). set (t3 := clmul (half true x) (half false y)).
    set (t4 := clmul (half true x) (half true y)).
    rewrite N.shiftl_lxor.
    transitivity (N.lxor (N.lxor t1 (N.shiftl t4 128)) (N.shiftl (N.lxor t2 t3) 64)).
    + rewrite <- (slli_srli (N.lxor t2 t3)). xsolve.
    + rewrite N.shiftl_lxor. xsolve.
Qed.

Lemma mm_reduce_correct : forall x x1, x < 2 ^ 128 -> x1 < 2 ^ 128 ->
  mm_gf128Reduce x x1 < 2 ^ 128 /\ cong (mm_gf128Reduce x x1) (N.lxor x (N.shiftl x1 128)).
Proof.
  intros x x1 X X1. unfold mm_gf128Reduce.
  change (mm_clmul x1 0x87 0x01) with (clmul (half true x1) 0x87).
  set (t := clmul (half true x1) 0x87).
  change (mm_clmul (N.lxor x1 (mm_srli8 t)) 0x87 0x00) with (clmul (half false (N.lxor x1 (mm_srli8 t))) 0x87).
  assert (T : t < 2 ^ 72).
  { apply (clmul_below _ 64 _ 8); [apply half_high; exact X1|reflexivity]. }
  assert (HL : half false (N.lxor x1 (mm_srli8 t)) = N.lxor (half false x1) (mm_srli8 t)).
  { unfold half. xbits. destruct (N.lt_ge_cases k 64) as [L|L].
    - rewrite !N.mod_pow2_bits_low by exact L. rewrite N.lxor_spec. reflexivity.
    - rewrite !N.mod_pow2_bits_high by exact L. unfold mm_srli8. rewrite N.shiftr_spec'.
      rewrite (proj1 (bits_below t 72) T) by lia. reflexivity. }
  split.
  - apply lxor_below; [apply lxor_below; [exact X|unfold mm_slli8, mask128; apply N.mod_lt; discriminate]|].
    apply N.lt_trans with (2 ^ 72); [|reflexivity]. apply (clmul_below _ 64 _ 8); [apply half_low|reflexivity].
  - rewrite HL, clmul_lxor_l.
    rewrite (half_split x1) at 2. rewrite N.shiftl_lxor, N.shiftl_shiftl. change (64 + 128) with 192.
    (* high part: shiftl h 192 ~ shiftl t 64 ~ slli t + shiftl (srli t) 128 *)
    assert (C1 : cong (N.shiftl (half true x1) 192) (N.lxor (mm_slli8 t) (N.shiftl (mm_srli8 t) 128))).
    { rewrite slli_srli. change 192 with (128 + 64). rewrite <- N.shiftl_shiftl, <- !(clmul_pow2 64).
      apply cong_mul_r. apply cong_high. }
    apply cong_sym. eapply cong_trans.
    + apply cong_lxor; [apply cong_refl|]. apply cong_lxor; [apply cong_high|].
      eapply cong_trans; [exact C1|]. apply cong_lxor; [apply cong_refl|apply cong_high].
    + exists 0. change (clmul 0 gf_poly) with 0. xsolve.
Qed.

Lemma mm_correct : forall a b, a < 2 ^ 128 -> b < 2 ^ 128 -> field_product a b (gf_mul true a b).
Proof.
  intros a b A B. apply field_product_cong. unfold gf_mul.
  destruct (mm_mul_correct a b A B) as [M1 [M2 M3]]. destruct (mm_gf128Mul a b) as [x x1]. cbn [fst snd] in *.
  rewrite <- M3. apply mm_reduce_correct; assumption.
Qed.

Lemma gf_mul_correct : forall avx a b, a < 2 ^ 128 -> b < 2 ^ 128 -> field_product a b (gf_mul avx a b).
Proof. intros [] a b A B; [apply mm_correct|apply cc_correct]; assumption. Qed.
