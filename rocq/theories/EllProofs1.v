(** The constants of the code, and the facts about the curve that make the exceptional cases of the map impossible. *)
From Coq Require Import List NArith ZArith Znumtheory Lia Setoid Morphisms Ring Field.
From Verif Require Import Base Text EllPrime EllField EllModel EllSpec.
Import ListNotations.
Local Open Scope Z_scope.

Lemma kP_25519 : kP = p25519.
Proof. vm_compute. reflexivity. Qed.
Lemma kP_prime : prime kP.
Proof. rewrite kP_25519. exact prime_25519. Qed.
Definition kk : Z := (kP + 3) / 8.
Lemma kP_kk : kP = 8 * kk - 3.
Proof. vm_compute. reflexivity. Qed.
Lemma kC4_kk : kC4 = kk - 1.
Proof. vm_compute. reflexivity. Qed.
Lemma by_mod : forall a b, (a - b) mod kP = 0 -> cong kP a b.
Proof. intros a b H. apply Z.mod_divide; [vm_compute; discriminate|exact H]. Qed.
Lemma si_ok : cong kP (kSqrtm1 ^ 2) (- 1).
Proof. apply by_mod. vm_compute. reflexivity. Qed.
Lemma c2_ok : cong kP (kC2 ^ 2) (- (2 * kSqrtm1)).
Proof. apply by_mod. vm_compute. reflexivity. Qed.
Definition kS : Z := 22814608461444720273592656585502654319980708783492843055400821547542719046937.
Lemma disc_ok : cong kP (kJ ^ 2 - 4) (2 * kS ^ 2).
Proof. apply by_mod. vm_compute. reflexivity. Qed.
Lemma nz_by_mod : forall a, a mod kP <> 0 -> ~ cong kP a 0.
Proof. intros a H (q & Hq). apply H. apply Zdivide_mod. exists q. lia. Qed.
Lemma kS_nz : ~ cong kP kS 0.
Proof. apply nz_by_mod. vm_compute. discriminate. Qed.
Lemma kJ_nz : ~ cong kP kJ 0.
Proof. apply nz_by_mod. vm_compute. discriminate. Qed.
Lemma kP_256 : kP < 256 ^ 32.
Proof. vm_compute. reflexivity. Qed.
Lemma kP_odd : Z.odd kP = true.
Proof. vm_compute. reflexivity. Qed.
Lemma kP_big : 1000 < kP.
Proof. vm_compute. reflexivity. Qed.
Lemma kk_pos : 1 < kk.
Proof. pose proof kP_big. pose proof kP_kk. lia. Qed.
Global Opaque kP kC2 kSqrtm1 kC4 kk kJ kS.

Notation "a == b" := (cong kP a b) (at level 70).
#[global] Instance I_equiv : Equivalence (cong kP) := cong_equiv kP.
#[global] Instance I_add : Proper (cong kP ==> cong kP ==> cong kP) Z.add := add_proper kP.
#[global] Instance I_mul : Proper (cong kP ==> cong kP ==> cong kP) Z.mul := mul_proper kP.
#[global] Instance I_sub : Proper (cong kP ==> cong kP ==> cong kP) Z.sub := sub_proper kP.
#[global] Instance I_opp : Proper (cong kP ==> cong kP) Z.opp := opp_proper kP.
#[global] Instance I_pow : Proper (cong kP ==> eq ==> cong kP) Z.pow := pow_proper kP kP_prime.
Definition pinv : Z -> Z := finv kP.
Definition pdiv : Z -> Z -> Z := fdiv kP.
#[global] Instance I_inv : Proper (cong kP ==> cong kP) pinv := finv_proper kP kP_prime.
Lemma P_ft : field_theory 0 1 Z.add Z.mul Z.sub Z.opp pdiv pinv (cong kP).
Proof. exact (Fp_ft kP kP_prime). Qed.
Ltac Fp_cst t := match isZcst t with true => t | _ => constr:(NotConstant) end.
Add Field PField : P_ft (morphism (Fp_morph kP), constants [Fp_cst], setoid I_equiv (Fp_ext kP), power_tac (Fp_pow kP) [Zpow_tac]).

Lemma p_mul_zero : forall a b, a * b == 0 -> a == 0 \/ b == 0.
Proof. exact (mul_zero kP kP_prime). Qed.
Lemma p_mul_nz : forall a b, ~ a == 0 -> ~ b == 0 -> ~ a * b == 0.
Proof. intros a b Ha Hb H. destruct (p_mul_zero a b H); contradiction. Qed.
Lemma p_two : ~ 2 == 0.
Proof. exact (two_zero kP kP_prime kk kSqrtm1 kP_kk si_ok). Qed.
Lemma p_nonsquare : ~ square kP 2.
Proof. exact (two_nonsquare kP kP_prime kk kSqrtm1 kP_kk si_ok). Qed.
Lemma p_cong_sub : forall a b, a - b == 0 -> a == b.
Proof. exact (cong_sub kP). Qed.
Lemma p_sub_cong : forall a b, a == b -> a - b == 0.
Proof. exact (sub_cong kP). Qed.

(** If 2 times the square of something other than 0 is a square, 2 is. *)
Lemma two_times : forall a b, ~ b == 0 -> ~ a ^ 2 == 2 * b ^ 2.
Proof.
  intros a b Hb H. apply p_nonsquare. exists (pdiv a b). transitivity (pdiv (a ^ 2) (b ^ 2)); [field; exact Hb|].
  unfold pdiv, fdiv. fold pinv. rewrite H. transitivity (pdiv (2 * b ^ 2) (b ^ 2)); [reflexivity|]. field. exact Hb.
Qed.
(** 1 + 2 u^2 <> 0. *)
Lemma d_nz : forall u, ~ 1 + 2 * u ^ 2 == 0.
Proof.
  intros u H. assert (U : ~ u == 0). { intros E. apply (one_zero kP kP_prime). rewrite E in H. exact H. }
  apply (two_times kSqrtm1 u U). rewrite si_ok. apply p_cong_sub. change (-1) with (- (1)). transitivity (- (1 + 2 * u ^ 2)); [ring|]. rewrite H. reflexivity.
Qed.
(** The quadratic factor has no root. *)
Lemma quad_nz : forall x, ~ x ^ 2 + kJ * x + 1 == 0.
Proof.
  intros x H. apply (two_times (2 * x + kJ) kS kS_nz). rewrite <- disc_ok. transitivity (4 * (x ^ 2 + kJ * x + 1) + (kJ ^ 2 - 4)); [ring|]. rewrite H. ring.
Qed.
Lemma g_zero : forall x, g kJ x == 0 -> x == 0.
Proof. intros x H. destruct (p_mul_zero x (x ^ 2 + kJ * x + 1)) as [E|E]; [|exact E|destruct (quad_nz x E)]. rewrite <- H. unfold g. ring. Qed.

(** * The operations *)

Lemma mulm_c : forall a b, mulm a b == a * b.
Proof. intros. apply (mod_cong kP kP_prime). Qed.
Lemma addm_c : forall a b, addm a b == a + b.
Proof. intros. apply (mod_cong kP kP_prime). Qed.
Lemma subm_c : forall a b, subm a b == a - b.
Proof. intros. apply (mod_cong kP kP_prime). Qed.
Lemma powm_c : forall a e, 0 < e -> powm a e == a ^ e.
Proof. intros a [|e|e] He; try discriminate. unfold powm. rewrite powmod_ok by (pose proof kP_big; lia). apply (mod_cong kP kP_prime). Qed.
Lemma mulm_r : forall a b, reduced kP (mulm a b).
Proof. intros. apply (mod_reduced kP kP_prime). Qed.
Lemma addm_r : forall a b, reduced kP (addm a b).
Proof. intros. apply (mod_reduced kP kP_prime). Qed.
Lemma subm_r : forall a b, reduced kP (subm a b).
Proof. intros. apply (mod_reduced kP kP_prime). Qed.
Lemma powm_r : forall a e, reduced kP (powm a e).
Proof.
  intros a [|e|e]; unfold powm; [apply (mod_reduced kP kP_prime)| |apply (mod_reduced kP kP_prime)].
  rewrite powmod_ok by (pose proof kP_big; lia). apply (mod_reduced kP kP_prime).
Qed.
Lemma eqb_cong : forall a b, reduced kP a -> reduced kP b -> (a =? b) = true <-> a == b.
Proof.
  intros a b Ha Hb. rewrite Z.eqb_eq. split; [intros ->; reflexivity|]. apply (cong_reduced kP kP_prime); assumption.
Qed.
