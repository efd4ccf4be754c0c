(** The map of RFC 9380 is a function, and MapToCurveElligator2 computes it too. *)
From Coq Require Import List NArith ZArith Znumtheory Lia Setoid Morphisms Ring Field.
From Verif Require Import Base Text EllPrime EllField EllModel EllSpec EllProofs1 EllProofs2.
Import ListNotations.
Local Open Scope Z_scope.

Lemma square_cong : forall a b, a == b -> square kP a -> square kP b.
Proof. intros a b H (c & Hc). exists c. rewrite Hc. exact H. Qed.
Lemma g_cong : forall x y, x == y -> g kJ x == g kJ y.
Proof. intros x y H. unfold g. rewrite H. reflexivity. Qed.
Lemma roots_parity : forall y z, reduced kP y -> reduced kP z -> y ^ 2 == z ^ 2 -> Z.odd y = Z.odd z -> y = z.
Proof.
  intros y z Hy Hz H O. destruct (roots_opp kP kP_prime y z H) as [E|E]; [apply (cong_reduced kP kP_prime); assumption|].
  destruct E as (j & Hj). unfold reduced in *. assert (S : y + z = j * kP) by lia. pose proof kP_big.
  assert (J : j = 0 \/ j = 1) by (assert (0 <= j < 2) by nia; lia). destruct J as [->| ->]; [lia|].
  exfalso. pose proof kP_odd as HO. replace kP with (y + z) in HO by lia. rewrite Z.odd_add, O, Bool.xorb_nilpotent in HO. discriminate.
Qed.
Lemma elligator2_inv : forall u x y, elligator2 kP kJ u (x, y) -> reduced kP x /\ reduced kP y
  /\ ((square kP (g kJ (ex1 u)) /\ x == ex1 u /\ y ^ 2 == g kJ (ex1 u) /\ Z.odd y = true)
      \/ (~ square kP (g kJ (ex1 u)) /\ x == ex2 u /\ y ^ 2 == g kJ (ex2 u) /\ Z.even y = true)).
Proof.
  intros u x y (Hx & Hy & i & x1 & [(D & _)|Hi] & H1 & H2); [exfalso; exact (d_nz u D)|]. split; [exact Hx|]. split; [exact Hy|].
  assert (Ei : i == pinv (1 + 2 * u ^ 2)).
  { transitivity (pdiv ((1 + 2 * u ^ 2) * i) (1 + 2 * u ^ 2)); [field; apply d_nz|]. unfold pdiv, fdiv. fold pinv. rewrite Hi. ring. }
  assert (Ex : x1 == ex1 u).
  { destruct H1 as [(_ & E)|(E & _)]; [rewrite E, Ei; reflexivity|]. exfalso. apply (ex1_nz u). rewrite <- E, Ei. reflexivity. }
  assert (Ex2 : - x1 - kJ == ex2 u) by (rewrite Ex; reflexivity).
  pose proof (g_cong _ _ Ex) as G1. pose proof (g_cong _ _ Ex2) as G2.
  destruct H2 as [(S & A & B & C)|(S & A & B & C)]; [left|right].
  - split; [exact (square_cong _ _ G1 S)|]. split; [rewrite A; exact Ex|]. split; [rewrite B; exact G1|exact C].
  - split; [intros X; apply S; apply (square_cong _ _ (symmetry G1) X)|]. split; [rewrite A; exact Ex2|]. split; [rewrite B; exact G2|exact C].
Qed.
Theorem elligator2_unique : forall u P Q, elligator2 kP kJ u P -> elligator2 kP kJ u Q -> P = Q.
Proof.
  intros u (x, y) (x', y') H H'. apply elligator2_inv in H, H'. destruct H as (Hx & Hy & H), H' as (Hx' & Hy' & H').
  destruct H as [(S & A & B & C)|(S & A & B & C)], H' as [(S' & A' & B' & C')|(S' & A' & B' & C')]; try contradiction; f_equal.
  - apply (cong_reduced kP kP_prime); [assumption|assumption|]. rewrite A, A'. reflexivity.
  - apply roots_parity; [assumption|assumption| |congruence]. rewrite B, B'. reflexivity.
  - apply (cong_reduced kP kP_prime); [assumption|assumption|]. rewrite A, A'. reflexivity.
  - apply roots_parity; [assumption|assumption| |rewrite <- !Z.negb_even, C, C'; reflexivity]. rewrite B, B'. reflexivity.
Qed.
Theorem elligator2_on_curve : forall u P, elligator2 kP kJ u P -> on_curve kP kJ P.
Proof.
  intros u (x, y) H. apply elligator2_inv in H. destruct H as (_ & _ & [(_ & A & B & _)|(_ & A & B & _)]); unfold on_curve; cbn [fst snd];
    rewrite B; symmetry; apply g_cong; exact A.
Qed.

Section Map.
Variable inv : Z -> option Z.
Hypothesis Hinv : inverter kP inv.

Lemma is_square_ok : forall v, exists b, is_square inv v = Ok b /\ (b = true <-> square kP v).
Proof.
  intros v. pose proof kP_kk as K. pose proof kk_pos as KP. unfold is_square, invm.
  destruct (inv_some inv Hinv 2 p_two) as (t2 & -> & _ & E2). cbn [bind]. rewrite Z.mod_small by lia.
  assert (E : mulm (kP - 1) t2 = 4 * kk - 2).
  { apply (cong_reduced kP kP_prime); [apply mulm_r|unfold reduced; lia|]. rewrite mulm_c, E2. replace (kP - 1) with (2 * (4 * kk - 2)) by lia.
    transitivity (pdiv (2 * (4 * kk - 2)) 2); [reflexivity|field; exact p_two]. }
  rewrite E. eexists. split; [reflexivity|]. rewrite Bool.orb_true_iff.
  assert (R0 : reduced kP 0) by (unfold reduced; lia). assert (R1 : reduced kP 1) by (unfold reduced; lia).
  rewrite !eqb_cong by (apply powm_r || assumption). rewrite powm_c by lia.
  destruct (cong_dec kP kP_prime v 0) as [Z|Z].
  - split; [intros _; exists 0; rewrite Z; reflexivity|]. intros _. right. rewrite Z, Z.pow_0_l by lia. reflexivity.
  - split.
    + intros [H|H]; [exact (euler_square kP kP_prime kk kSqrtm1 kP_kk si_ok v H)|].
      exfalso. revert H. apply (pow_nz kP kP_prime kk kSqrtm1 kP_kk si_ok); [lia|exact Z].
    + intros H. left. exact (square_euler kP kP_prime kk kSqrtm1 kP_kk si_ok v Z H).
Qed.
Lemma curve_sqrt_ok : forall v, reduced kP v -> square kP v -> reduced kP (curve_sqrt v) /\ curve_sqrt v ^ 2 == v.
Proof.
  intros v Hv HS. pose proof kk_pos as KP. unfold curve_sqrt. change ((kP + 3) / 8) with kk || fold kk.
  split; [apply red_if; [apply powm_r|apply mulm_r]|]. destruct (_ =? v) eqn:E.
  - apply eqb_cong in E; [|apply mulm_r|exact Hv]. rewrite mulm_c in E. transitivity (powm v kk * powm v kk); [ring|exact E].
  - assert (P : powm v kk == v ^ kk) by (apply powm_c; lia). apply Bool.not_true_iff_false in E. rewrite eqb_cong, mulm_c, P in E by (apply mulm_r || exact Hv).
    rewrite mulm_c, P. apply opp_root. destruct (cong_dec kP kP_prime v 0) as [Z|Z].
    + exfalso. apply E. rewrite Z, Z.pow_0_l by lia. reflexivity.
    + destruct (root_sq' v Z HS) as [H|H]; [exfalso; apply E; transitivity ((v ^ kk) ^ 2); [ring|exact H]|exact H].
Qed.

Lemma g2_square : forall u, ~ square kP (g kJ (ex1 u)) -> square kP (g kJ (ex2 u)).
Proof.
  intros u S. destruct (root_nsq' _ (g1_nz u) S) as [H|H].
  - exists (g kJ (ex1 u) ^ kk * u * kC2). rewrite g2_is. transitivity ((g kJ (ex1 u) ^ kk) ^ 2 * u ^ 2 * kC2 ^ 2); [ring|]. rewrite H, c2_ok.
    transitivity (- (2 * u ^ 2 * g kJ (ex1 u)) * kSqrtm1 ^ 2); [ring|]. rewrite si_ok. ring.
  - exists (g kJ (ex1 u) ^ kk * u * kC2 * kSqrtm1). rewrite g2_is. transitivity ((g kJ (ex1 u) ^ kk) ^ 2 * u ^ 2 * kC2 ^ 2 * kSqrtm1 ^ 2); [ring|]. rewrite H, c2_ok.
    transitivity (2 * u ^ 2 * g kJ (ex1 u) * (kSqrtm1 ^ 2) * (kSqrtm1 ^ 2)); [ring|]. rewrite si_ok. ring.
Qed.

Theorem ell2_ok : forall ub, exists x y, map_to_curve_elligator2 inv ub = Ok (be_bytes 32 x, be_bytes 32 y) /\ elligator2 kP kJ (be_int ub) (x, y).
Proof.
  intros ub. unfold map_to_curve_elligator2. set (u := be_int ub). cbv zeta. set (tv0 := mulm (mulm u u) 2).
  assert (N : (tv0 =? - (1)) = false). { apply Z.eqb_neq. pose proof (mulm_r (mulm u u) 2) as R. fold tv0 in R. unfold reduced in R. lia. }
  rewrite N. assert (E1 : tv0 == 2 * u ^ 2) by (unfold tv0; rewrite !mulm_c; ring).
  assert (Xz : ~ addm tv0 1 == 0). { rewrite addm_c, E1. intros X. apply (d_nz u). rewrite <- X. ring. }
  unfold invm. destruct (inv_some inv Hinv _ Xz) as (xi & -> & _ & Ei). cbn [bind]. set (x1 := mulm xi (- kJ)).
  assert (X1 : x1 == ex1 u).
  { unfold x1. rewrite mulm_c, Ei, addm_c, E1. unfold ex1. transitivity (pdiv (- kJ) (2 * u ^ 2 + 1)); [unfold pdiv, fdiv; fold pinv; ring|]. field.
    intros X. apply (d_nz u). rewrite <- X. ring. }
  set (gx1 := mulm (addm (mulm (addm x1 kJ) x1) 1) x1).
  assert (G1 : gx1 == g kJ (ex1 u)) by (unfold gx1; rewrite mulm_c, addm_c, mulm_c, addm_c, X1; unfold g; ring).
  set (x2 := addm (- x1) (- kJ)). assert (X2 : x2 == ex2 u) by (unfold x2; rewrite addm_c, X1; unfold ex2; ring).
  set (gx2 := mulm gx1 tv0). assert (G2 : gx2 == g kJ (ex2 u)) by (unfold gx2; rewrite mulm_c, G1, E1, g2_is; ring).
  destruct (is_square_ok gx1) as (e2 & Ee & He). rewrite Ee. cbn [bind]. set (v := if e2 then gx1 else gx2).
  assert (Rv : reduced kP v) by (apply red_if; apply mulm_r).
  assert (Sv : square kP v).
  { unfold v. destruct e2; [apply He; reflexivity|]. apply (square_cong _ _ (symmetry G2)). apply g2_square. intros S.
    apply (square_cong _ _ (symmetry G1)) in S. apply He in S. discriminate. }
  destruct (curve_sqrt_ok v Rv Sv) as (Ry & Qy). set (y := curve_sqrt v) in *.
  assert (F : (if xorb e2 (sgn0 y) then if - y <? 0 then addm (- y) kP else - y else y) = sign_fix e2 y).
  { unfold sign_fix. replace (Bool.eqb (sgn0 y) true) with (sgn0 y) by (destruct (sgn0 y); reflexivity). destruct (xorb e2 (sgn0 y)); [reflexivity|].
    unfold reduced in Ry. destruct (Z.ltb_spec y 0); [lia|reflexivity]. }
  rewrite F. destruct (sign_fix_ok e2 y Ry) as (F1 & F2 & F3 & F4).
  assert (Rx : reduced kP (if e2 then x1 else x2)) by (apply red_if; [apply mulm_r|apply addm_r]).
  rewrite (mp_pad_ok _ Rx), (mp_pad_ok _ F1). cbn [bind]. eexists _, _. split; [reflexivity|].
  assert (SQ : sign_fix e2 y ^ 2 == y ^ 2) by (destruct F2 as [X|X]; rewrite X; ring).
  assert (Se : e2 = true <-> square kP (g kJ (ex1 u))).
  { rewrite He. split; apply square_cong; [exact G1|symmetry; exact G1]. }
  apply spec_of; [exact Rx|exact F1| |]; intros S.
  - apply Se in S. split; [rewrite S; exact X1|]. split; [rewrite SQ, Qy; unfold v; rewrite S; exact G1|]. apply F3; [exact S|].
    intros Z. apply (g1_nz u). rewrite <- G1. unfold v in Qy. rewrite S in Qy. rewrite <- Qy, Z. reflexivity.
  - assert (e2 = false) as -> by (destruct e2; [exfalso; apply S, Se; reflexivity|reflexivity]). split; [exact X2|]. split; [rewrite SQ, Qy; exact G2|]. apply F4. reflexivity.
Qed.
End Map.
