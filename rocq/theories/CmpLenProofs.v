(** Integer bounds standing in for facts about logarithms. *)
From Coq Require Import NArith Lia.
Local Open Scope N_scope.

Lemma bernoulli : forall x y, x ^ y * (x + y) <= (x + 1) ^ y * x.
Proof.
  intros x y. induction y as [|y IH] using N.peano_ind.
  - rewrite !N.pow_0_r. lia.
  - rewrite !N.pow_succ_r'. generalize dependent (x ^ y). generalize ((x + 1) ^ y). intros p q H.
    assert ((x + 1) * (q * (x + y)) <= (x + 1) * (p * x)) by (apply N.mul_le_mono_l; exact H). nia.
Qed.
Lemma succ_pow_self : forall x, 0 < x -> 2 * x ^ x <= (x + 1) ^ x.
Proof.
  intros x Hx. pose proof (bernoulli x x) as B.
  apply (N.mul_le_mono_pos_r _ _ x Hx). lia.
Qed.

(** log2 (2^c + 1) >= c + 2^-c. *)
Lemma log2_gap : forall c k, c <= k -> 2 ^ (c * 2 ^ k + 2 ^ (k - c)) <= (2 ^ c + 1) ^ (2 ^ k).
Proof.
  intros c k H. replace (2 ^ k) with (2 ^ c * 2 ^ (k - c)) by (rewrite <- N.pow_add_r; f_equal; lia).
  rewrite (N.pow_mul_r (2 ^ c + 1)).
  replace (c * (2 ^ c * 2 ^ (k - c)) + 2 ^ (k - c)) with ((c * 2 ^ c + 1) * 2 ^ (k - c)) by lia.
  rewrite (N.pow_mul_r 2 (c * 2 ^ c + 1)). apply N.pow_le_mono_l.
  rewrite N.pow_add_r, (N.pow_mul_r 2 c), N.pow_1_r.
  pose proof (succ_pow_self (2 ^ c)) as B. assert (0 < 2 ^ c) by (apply N.neq_0_lt_0, N.pow_nonzero; lia).
  specialize (B H0). lia.
Qed.

(** (1 + 1/x)^x < 4. *)
Lemma pow_frac_upper : forall x, 0 < x -> (x + 1) ^ x < 4 * x ^ x.
Proof.
  intros x Hx.
  (* (2x-1)^x * 2 >= (2x)^x, by Bernoulli with a decrement *)
  assert (D : forall y z, 0 < z -> y <= z -> z ^ y * (z - y) <= (z - 1) ^ y * z).
  { intros y z Hz. induction y as [|y IH] using N.peano_ind; intros Hy.
    - rewrite !N.pow_0_r. lia.
    - rewrite !N.pow_succ_r'. assert (y <= z) by lia. specialize (IH H).
      generalize dependent (z ^ y). generalize ((z - 1) ^ y). intros p q I.
      assert ((z - 1) * (q * (z - y)) <= (z - 1) * (p * z)) by (apply N.mul_le_mono_l; exact I).
      remember (z - 1) as a. remember (z - y) as b. assert (E1 : z = a + 1) by lia. assert (E2 : z - N.succ y = b - 1) by lia.
      rewrite E2. assert (1 <= b) by lia. assert (b <= z) by lia. remember (b - 1) as c'. assert (b = c' + 1) by lia. subst b.
      rewrite E1 in *. nia. }
  pose proof (D x (2 * x) ltac:(lia) ltac:(lia)) as B.
  replace (2 * x - x) with x in B by lia.
  assert (B' : (2 * x) ^ x <= (2 * x - 1) ^ x * 2).
  { apply (N.mul_le_mono_pos_r _ _ x Hx). lia. }
  (* (x+1) (2x-1)^2 < x (2x)^2 *)
  assert (C : (x + 1) * ((2 * x - 1) * (2 * x - 1)) < x * (2 * x * (2 * x))).
  { remember (2 * x - 1) as a. assert (2 * x = a + 1) by lia. nia. }
  apply (N.pow_lt_mono_l _ _ x) in C; [|lia]. rewrite !N.pow_mul_l in C.
  assert (P : 0 < (2 * x - 1) ^ x) by (apply N.neq_0_lt_0, N.pow_nonzero; lia).
  rewrite N.pow_mul_l in B'.
  generalize dependent ((2 * x - 1) ^ x). generalize dependent ((x + 1) ^ x). generalize dependent (2 ^ x). generalize dependent (x ^ x).
  intros xx t p q B B' C P.
  assert ((t * xx) * (t * xx) <= (q * 2) * (q * 2)) by (apply N.mul_le_mono; exact B').
  assert (xx * (t * xx * (t * xx)) <= xx * (q * 2 * (q * 2))) by (apply N.mul_le_mono_l; exact H).
  assert (p * (q * q) < 4 * xx * (q * q)) by lia.
  apply N.mul_lt_mono_pos_r in H1; [exact H1|nia].
Qed.
