(** The field of integers modulo a prime, for the field tactic, and square roots modulo a prime that is 5 modulo 8. *)
From Coq Require Import ZArith Znumtheory Zpow_facts Lia Setoid Morphisms Ring Field.
From Verif Require Import EllFermat EllPrime EllSpec.
Local Open Scope Z_scope.

Section Fp.
Variable p : Z.
Hypothesis Hp : prime p.
Notation "a == b" := (cong p a b) (at level 70).

Lemma p_ge2 : 2 <= p.
Proof. exact (prime_ge_2 p Hp). Qed.
Lemma cong_mod : forall a b, a == b <-> a mod p = b mod p.
Proof.
  intros a b. pose proof p_ge2 as G. split.
  - intros (k & Hk). replace a with (b + k * p) by lia. apply Z.mod_add. lia.
  - intros H. exists (a / p - b / p). rewrite (Z.div_mod a p), (Z.div_mod b p) at 1 by lia. rewrite H. ring.
Qed.
Lemma mod_cong : forall a, a mod p == a.
Proof. intros a. apply cong_mod. apply Z.mod_mod. pose proof p_ge2. lia. Qed.
Lemma cong_equiv : Equivalence (cong p).
Proof.
  split.
  - intros a. exists 0. ring.
  - intros a b (k & Hk). exists (- k). lia.
  - intros a b c (k & Hk) (j & Hj). exists (k + j). lia.
Qed.
Existing Instance cong_equiv.
Instance add_proper : Proper (cong p ==> cong p ==> cong p) Z.add.
Proof. intros a b (k & Hk) c d (j & Hj). exists (k + j). lia. Qed.
Instance mul_proper : Proper (cong p ==> cong p ==> cong p) Z.mul.
Proof. intros a b (k & Hk) c d (j & Hj). exists (k * c + b * j). replace a with (b + k * p) by lia. replace c with (d + j * p) by lia. ring. Qed.
Instance sub_proper : Proper (cong p ==> cong p ==> cong p) Z.sub.
Proof. intros a b (k & Hk) c d (j & Hj). exists (k - j). lia. Qed.
Instance opp_proper : Proper (cong p ==> cong p) Z.opp.
Proof. intros a b (k & Hk). exists (- k). lia. Qed.
Lemma pow_cong : forall a b n, 0 <= n -> a == b -> a ^ n == b ^ n.
Proof. intros a b n Hn H. apply cong_mod in H. apply cong_mod. rewrite Zpower_mod, H, <- Zpower_mod by (pose proof p_ge2; lia). reflexivity. Qed.

Instance pow_proper : Proper (cong p ==> eq ==> cong p) Z.pow.
Proof. intros a b H n m <-. destruct (Z_le_gt_dec 0 n); [apply pow_cong; assumption|]. rewrite !Z.pow_neg_r by lia. reflexivity. Qed.
Lemma eq_cong : forall a b, a = b -> a == b.
Proof. intros a b ->. reflexivity. Qed.
Lemma cong_reduced : forall a b, reduced p a -> reduced p b -> a == b -> a = b.
Proof. intros a b Ha Hb H. apply cong_mod in H. rewrite !Z.mod_small in H by assumption. exact H. Qed.
Lemma mod_reduced : forall a, reduced p (a mod p).
Proof. intros a. apply Z.mod_pos_bound. pose proof p_ge2. lia. Qed.
Lemma cong_dec : forall a b, {a == b} + {~ a == b}.
Proof. intros a b. destruct (Z.eq_dec (a mod p) (b mod p)) as [E|E]; [left|right]; rewrite cong_mod; exact E. Qed.

Lemma mul_zero : forall a b, a * b == 0 -> a == 0 \/ b == 0.
Proof. intros a b H. unfold cong in *. rewrite !Z.sub_0_r in *. exact (prime_mult p Hp _ _ H). Qed.
Lemma one_zero : ~ 1 == 0.
Proof. intros (k & Hk). pose proof p_ge2. assert (k * p = 1) by lia. assert (p | 1) by (exists k; lia). apply Z.divide_1_r_nonneg in H1; lia. Qed.

Definition finv (a : Z) : Z := a ^ (p - 2).
Definition fdiv (a b : Z) : Z := a * finv b.
Lemma fermat : forall a, ~ a == 0 -> a ^ (p - 1) == 1.
Proof.
  intros a Ha. apply cong_mod. rewrite fermat1; [symmetry; apply Z.mod_1_l; pose proof p_ge2; lia|exact Hp|].
  intros E. apply Ha. apply cong_mod. rewrite E. symmetry. apply Z.mod_0_l. pose proof p_ge2. lia.
Qed.
Lemma finv_l : forall a, ~ a == 0 -> finv a * a == 1.
Proof.
  intros a Ha. unfold finv. pose proof p_ge2. rewrite <- (fermat a Ha). apply eq_cong. replace (p - 1) with (Z.succ (p - 2)) by lia.
  rewrite Z.pow_succ_r by lia. ring.
Qed.
Instance finv_proper : Proper (cong p ==> cong p) finv.
Proof. intros a b H. unfold finv. apply pow_cong; [pose proof p_ge2; lia|exact H]. Qed.

Lemma Fp_rt : ring_theory 0 1 Z.add Z.mul Z.sub Z.opp (cong p).
Proof. constructor; intros; apply eq_cong; ring. Qed.
Lemma Fp_ft : field_theory 0 1 Z.add Z.mul Z.sub Z.opp fdiv finv (cong p).
Proof.
  constructor; [exact Fp_rt|exact one_zero|intros; reflexivity|exact finv_l].
Qed.
Lemma Fp_ext : ring_eq_ext Z.add Z.mul Z.opp (cong p).
Proof. constructor; [exact add_proper|exact mul_proper|exact opp_proper]. Qed.
Lemma Fp_morph : ring_morph 0 1 Z.add Z.mul Z.sub Z.opp (cong p) 0 1 Z.add Z.mul Z.sub Z.opp Z.eqb (fun x => x).
Proof. constructor; intros; try reflexivity. apply eq_cong. apply Z.eqb_eq. assumption. Qed.
Lemma Fp_pow : power_theory 1 Z.mul (cong p) Z.of_N Z.pow.
Proof. constructor. intros. apply eq_cong. destruct Zpower_theory as [H]. exact (H r n). Qed.
Ltac Fp_cst t := match isZcst t with true => t | _ => constr:(NotConstant) end.
Add Field FpField : Fp_ft (morphism Fp_morph, constants [Fp_cst], setoid cong_equiv Fp_ext, power_tac Fp_pow [Zpow_tac]).

Example field_test : forall a b, ~ a == 0 -> fdiv (2 * a * b) a + 3 == 2 * b + 3.
Proof. intros a b H. field. exact H. Qed.

(** * Squares *)

Lemma cong_opp : forall a b, a + b == 0 -> a == - b.
Proof. intros a b (k & Hk). exists k. lia. Qed.
Lemma cong_sub : forall a b, a - b == 0 -> a == b.
Proof. intros a b (k & Hk). exists k. lia. Qed.
Lemma sub_cong : forall a b, a == b -> a - b == 0.
Proof. intros a b (k & Hk). exists k. lia. Qed.
Lemma pow2_zero : forall a, a ^ 2 == 0 -> a == 0.
Proof. intros a H. destruct (mul_zero a a) as [E|E]; [|exact E|exact E]. rewrite <- H. ring. Qed.
Lemma roots_opp : forall a b, a ^ 2 == b ^ 2 -> a == b \/ a == - b.
Proof.
  intros a b H. destruct (mul_zero (a - b) (a + b)) as [E|E].
  - rewrite <- (sub_cong _ _ H). ring.
  - left. apply cong_sub. exact E.
  - right. apply cong_opp. exact E.
Qed.

(** p = 8 k - 3, si a square root of -1. *)
Variables k si : Z.
Hypothesis Hk : p = 8 * k - 3.
Hypothesis Hsi : si ^ 2 == - 1.

Set Default Proof Using "All".

Lemma k_pos : 0 < k.
Proof. pose proof p_ge2. lia. Qed.
Lemma two_zero : ~ 2 == 0.
Proof. intros (j & Hj). assert (D : (p | 2)) by (exists j; lia). apply Z.divide_pos_le in D; [|lia]. pose proof p_ge2. assert (p = 2) by lia. lia. Qed.
Lemma m1_ne : ~ 1 == - 1.
Proof. intros H. apply two_zero. apply sub_cong in H. exact H. Qed.
Lemma si_zero : ~ si == 0.
Proof. intros H. apply one_zero. apply (pow_cong _ _ 2) in H; [|lia]. rewrite Hsi in H. rewrite <- (Z.opp_involutive 1). rewrite H. ring. Qed.
Lemma opp_zero : forall a, ~ a == 0 -> ~ - a == 0.
Proof. intros a Ha H. apply Ha. rewrite <- (Z.opp_involutive a), H. reflexivity. Qed.
Lemma mul_nz : forall a b, ~ a == 0 -> ~ b == 0 -> ~ a * b == 0.
Proof. intros a b Ha Hb H. destruct (mul_zero a b H); contradiction. Qed.
Lemma pow_nz : forall a n, 0 <= n -> ~ a == 0 -> ~ a ^ n == 0.
Proof.
  intros a n Hn Ha. pattern n. apply natlike_ind; [rewrite Z.pow_0_r; exact one_zero| |exact Hn].
  intros m Hm IH. rewrite Z.pow_succ_r by exact Hm. apply mul_nz; assumption.
Qed.

(** The (p-1)/2-th power of w <> 0 is 1 or -1. *)
Lemma euler : forall w, ~ w == 0 -> w ^ (4 * k - 2) == 1 \/ w ^ (4 * k - 2) == - 1.
Proof.
  intros w Hw. pose proof k_pos. destruct (roots_opp (w ^ (4 * k - 2)) 1) as [E|E]; [|left; exact E|right; exact E].
  rewrite <- Z.pow_mul_r by lia. replace ((4 * k - 2) * 2) with (p - 1) by lia. rewrite (fermat w Hw). reflexivity.
Qed.
Lemma square_euler : forall w, ~ w == 0 -> square p w -> w ^ (4 * k - 2) == 1.
Proof.
  intros w Hw (b & Hb). pose proof k_pos. assert (~ b == 0). { intros E. apply Hw. rewrite <- Hb, E. reflexivity. }
  rewrite <- Hb. rewrite <- Z.pow_mul_r by lia. replace (2 * (4 * k - 2)) with (p - 1) by lia. apply fermat. assumption.
Qed.
Lemma root4 : forall w, (w ^ k) ^ 4 = w ^ 2 * w ^ (4 * k - 2).
Proof. intros w. pose proof k_pos. rewrite <- Z.pow_mul_r, <- Z.pow_add_r by lia. f_equal. lia. Qed.
Lemma euler_root : forall w, w ^ (4 * k - 2) == 1 -> (w ^ k) ^ 2 == w \/ (w ^ k) ^ 2 == - w.
Proof.
  intros w H. apply roots_opp. rewrite <- (Z.mul_1_r (w ^ 2)). rewrite <- H, <- root4, <- (Z.pow_mul_r (w ^ k) 2 2) by lia. reflexivity.
Qed.
Lemma euler_square : forall w, w ^ (4 * k - 2) == 1 -> square p w.
Proof.
  intros w H. destruct (euler_root w H) as [E|E]; [exists (w ^ k); exact E|]. exists (si * w ^ k).
  rewrite Z.pow_mul_l, E, Hsi. ring.
Qed.
Lemma root_sq : forall w, ~ w == 0 -> square p w -> (w ^ k) ^ 2 == w \/ (w ^ k) ^ 2 == - w.
Proof. intros w Hw H. apply euler_root. apply square_euler; assumption. Qed.
Lemma root_nsq : forall w, ~ w == 0 -> ~ square p w -> (w ^ k) ^ 2 == si * w \/ (w ^ k) ^ 2 == - (si * w).
Proof.
  intros w Hw H. apply roots_opp. destruct (euler w Hw) as [E|E]; [exfalso; apply H; apply euler_square; exact E|].
  rewrite Z.pow_mul_l, Hsi. rewrite <- (Z.pow_mul_r (w ^ k) 2 2) by lia. change (2 * 2) with 4. rewrite root4, E. ring.
Qed.
Lemma square_dec : forall w, square p w \/ ~ square p w.
Proof.
  intros w. destruct (cong_dec w 0) as [E|E]; [left; exists 0; rewrite E; reflexivity|].
  destruct (euler w E) as [H|H]; [left; apply euler_square; exact H|right]. intros X. apply m1_ne. rewrite <- H. symmetry. apply square_euler; assumption.
Qed.

(** 2 is not a square, as there is no element of order 8. *)
Lemma two_nonsquare : ~ square p 2.
Proof.
  intros (s & Hs). pose proof k_pos. assert (Z0 : ~ s == 0). { intros E. apply two_zero. rewrite <- Hs, E. reflexivity. }
  set (t := fdiv (1 + si) s). assert (T2 : t ^ 2 == si).
  { unfold t. transitivity (fdiv (1 + 2 * si + si ^ 2) (s ^ 2)); [field; exact Z0|]. unfold fdiv. rewrite Hs, Hsi.
    change (1 + 2 * si + -1) with (1 + 2 * si + - (1)). transitivity (fdiv (2 * si) 2); [unfold fdiv; ring|field; exact two_zero]. }
  assert (T4 : t ^ 4 == - 1). { replace 4 with (2 * 2) by lia. rewrite Z.pow_mul_r by lia. rewrite T2. exact Hsi. }
  assert (TZ : ~ t == 0). { intros E. apply si_zero. rewrite <- T2, E. reflexivity. }
  apply m1_ne. rewrite <- (fermat t TZ). replace (p - 1) with (4 * (2 * k - 1)) by lia. rewrite Z.pow_mul_r by lia.
  rewrite T4. change (-1) with (- (1)). rewrite Z.pow_opp_odd by (exists (k - 1); lia). rewrite Z.pow_1_l by lia. reflexivity.
Qed.
End Fp.
