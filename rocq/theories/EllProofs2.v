(** MapToCurveG2 is the map of RFC 9380, 6.7.1. *)
From Coq Require Import List NArith ZArith Znumtheory Lia Setoid Morphisms Ring Field.
From Verif Require Import Base Text EllPrime EllField EllModel EllSpec EllProofs1.
Import ListNotations.
Local Open Scope Z_scope.

(** * Octets *)

Lemma be_int_app : forall a b, be_int (a ++ [b]) = be_int a * 256 + Z.of_N b.
Proof. intros. unfold be_int. rewrite fold_left_app. reflexivity. Qed.
Lemma be_bytes_int : forall k x, 0 <= x < 256 ^ Z.of_nat k -> be_int (be_bytes k x) = x.
Proof.
  induction k as [|k IH]; intros x Hx; [change (256 ^ Z.of_nat 0) with 1 in Hx; cbn; lia|].
  cbn [be_bytes]. rewrite be_int_app, IH.
  - rewrite Z2N.id by (apply Z.mod_pos_bound; lia). rewrite (Z.div_mod x 256) at 3 by lia. rewrite Z.mul_comm. reflexivity.
  - rewrite Nat2Z.inj_succ, Z.pow_succ_r in Hx by lia. split; [apply Z.div_pos; lia|]. apply Z.div_lt_upper_bound; lia.
Qed.
Lemma be_bytes_len : forall k x, length (be_bytes k x) = k.
Proof. induction k as [|k IH]; intros x; cbn [be_bytes]; [reflexivity|]. rewrite app_length, IH. cbn. lia. Qed.
Lemma be_bytes_byte : forall k x, Forall is_byte (be_bytes k x).
Proof.
  induction k as [|k IH]; intros x; cbn [be_bytes]; [constructor|]. apply Forall_app. split; [apply IH|]. repeat constructor. unfold is_byte.
  pose proof (Z.mod_pos_bound x 256 ltac:(lia)). lia.
Qed.
Lemma os2ip_app : forall a b, os2ip (a ++ [b]) = os2ip a * 256 + Z.of_N b.
Proof.
  induction a as [|x a IH]; intros b; cbn [os2ip app length]; [cbn; lia|]. rewrite IH, app_length. cbn [length].
  replace (length a + 1)%nat with (S (length a)) by lia. rewrite Nat2Z.inj_succ, Z.pow_succ_r by lia. lia.
Qed.
Lemma os2ip_be : forall a, os2ip a = be_int a.
Proof. intros a. induction a as [|x a IH] using rev_ind; [reflexivity|]. rewrite os2ip_app, be_int_app, IH. reflexivity. Qed.
Lemma be_int_nonneg : forall a, 0 <= be_int a.
Proof. intros a. induction a as [|x a IH] using rev_ind; [reflexivity|]. rewrite be_int_app. lia. Qed.
Lemma mp_pad_ok : forall x, reduced kP x -> mp_pad x = Ok (be_bytes 32 x).
Proof.
  intros x Hx. pose proof kP_256. unfold reduced in Hx. unfold mp_pad, enforce. rewrite Z.abs_eq by lia.
  destruct (Z.ltb_spec x (256 ^ 32)); [reflexivity|lia].
Qed.
Lemma be_bytes_32 : forall x, reduced kP x -> be_int (be_bytes 32 x) = x.
Proof. intros x Hx. apply be_bytes_int. pose proof kP_256. unfold reduced in Hx. change (Z.of_nat 32) with 32. lia. Qed.

(** * Signs *)

Lemma sgn0_odd : forall y, 0 <= y -> sgn0 y = Z.odd y.
Proof. intros y Hy. unfold sgn0. rewrite Z.rem_mod_nonneg by lia. rewrite Zmod_odd. destruct (Z.odd y); reflexivity. Qed.
Definition sign_fix (e : bool) (y : Z) : Z :=
  let y := if xorb e (Bool.eqb (sgn0 y) true) then - y else y in if y <? 0 then addm y kP else y.
Lemma sign_fix_ok : forall e y, reduced kP y ->
  reduced kP (sign_fix e y) /\ (sign_fix e y == y \/ sign_fix e y == - y) /\ (e = true -> ~ y == 0 -> Z.odd (sign_fix e y) = true) /\ (e = false -> Z.even (sign_fix e y) = true).
Proof.
  intros e y Hy. pose proof kP_big as HB. pose proof kP_odd as HO. unfold sign_fix. rewrite (sgn0_odd y) by (unfold reduced in Hy; lia).
  rewrite <- Z.negb_odd in *. unfold reduced in *.
  assert (N : y <> 0 -> (if - y <? 0 then addm (- y) kP else - y) = kP - y).
  { intros Hz. destruct (Z.ltb_spec (- y) 0); [|lia]. unfold addm. replace (- y + kP) with (kP - y) by lia. apply Z.mod_small. lia. }
  assert (Y0 : (if y <? 0 then addm y kP else y) = y) by (destruct (Z.ltb_spec y 0); [lia|reflexivity]).
  assert (OP : Z.odd (kP - y) = negb (Z.odd y)) by (rewrite Z.odd_sub, HO; reflexivity).
  destruct (Z.eq_dec y 0) as [->|Hz].
  - change (Z.odd 0) with false. destruct e; cbn; (split; [lia|]); (split; [left; reflexivity|]); split; intros; try reflexivity; try discriminate.
    exfalso. apply H0. reflexivity.
  - destruct e, (Z.odd y) eqn:EO; cbn [xorb Bool.eqb]; rewrite ?Y0, ?(N Hz), ?OP, ?EO; cbn [negb];
      (split; [lia|]); (split; [first [left; reflexivity|right; exists 1; lia]|]); split; intros; try reflexivity; discriminate.
Qed.

(** * The map *)

Section Map.
Variable inv : Z -> option Z.
Hypothesis Hinv : inverter kP inv.

Lemma inv_some : forall a, ~ a == 0 -> exists b, inv a = Some b /\ reduced kP b /\ b == pinv a.
Proof.
  intros a Ha. pose proof (Hinv a) as H. destruct (inv a) as [b|].
  - destruct H as (Hr & Hb). exists b. split; [reflexivity|]. split; [exact Hr|]. transitivity (pdiv (a * b) a); [field; exact Ha|].
    unfold pdiv, fdiv. fold pinv. rewrite Hb. ring.
  - exfalso. apply (H (pinv a)). transitivity (pinv a * a); [ring|]. apply (finv_l kP kP_prime a Ha).
Qed.
Lemma inv_none : forall a, a == 0 -> inv a = None.
Proof.
  intros a Ha. pose proof (Hinv a) as H. destruct (inv a) as [b|]; [|reflexivity]. destruct H as (_ & H). exfalso.
  apply (one_zero kP kP_prime). rewrite <- H, Ha. ring.
Qed.

(** The point the map must give, with x1 = -J / (1 + 2 u^2). *)
Definition ex1 (u : Z) : Z := pdiv (- kJ) (1 + 2 * u ^ 2).
Definition ex2 (u : Z) : Z := - ex1 u - kJ.
Lemma ex1_nz : forall u, ~ ex1 u == 0.
Proof.
  intros u H. apply kJ_nz. assert (E : ex1 u * (1 + 2 * u ^ 2) == - kJ) by (unfold ex1; field; apply d_nz).
  rewrite H in E. rewrite <- (Z.opp_involutive kJ), <- E. ring.
Qed.
Lemma g1_nz : forall u, ~ g kJ (ex1 u) == 0.
Proof. intros u H. apply (ex1_nz u). apply g_zero. exact H. Qed.
Lemma g2_is : forall u, g kJ (ex2 u) == 2 * u ^ 2 * g kJ (ex1 u).
Proof. intros u. unfold ex2, ex1, g. field. apply d_nz. Qed.

Lemma spec_of : forall u x y, reduced kP x -> reduced kP y ->
  (square kP (g kJ (ex1 u)) -> x == ex1 u /\ y ^ 2 == g kJ (ex1 u) /\ Z.odd y = true) ->
  (~ square kP (g kJ (ex1 u)) -> x == ex2 u /\ y ^ 2 == g kJ (ex2 u) /\ Z.even y = true) ->
  elligator2 kP kJ u (x, y).
Proof.
  intros u x y Hx Hy H1 H2. split; [exact Hx|]. split; [exact Hy|]. exists (pinv (1 + 2 * u ^ 2)), (ex1 u).
  split; [right; transitivity (pinv (1 + 2 * u ^ 2) * (1 + 2 * u ^ 2)); [ring|apply (finv_l kP kP_prime); apply d_nz]|].
  assert (E : ex1 u == - kJ * pinv (1 + 2 * u ^ 2)) by reflexivity.
  split; [left; split; [rewrite <- E; apply ex1_nz|exact E]|].
  destruct (square_dec kP kP_prime kk kSqrtm1 kP_kk si_ok (g kJ (ex1 u))) as [S|S].
  - left. split; [exact S|]. apply H1. exact S.
  - right. split; [exact S|]. apply H2. exact S.
Qed.

(** The values in the middle of MapToCurveG2. *)
Lemma gx1_core : forall u tv1 xd gxd gx1, tv1 == 2 * u ^ 2 -> xd == 1 + 2 * u ^ 2 -> gxd == xd ^ 3 ->
  gx1 == (kJ * tv1 * - kJ + xd ^ 2) * - kJ -> gx1 == g kJ (ex1 u) * gxd.
Proof.
  intros u tv1 xd gxd gx1 E1 E2 E3 E4. rewrite E4, E3, E2, E1. unfold ex1, g. field. apply d_nz.
Qed.
Lemma y11_core : forall w gxd gx1 y, ~ gxd == 0 -> gx1 == w * gxd -> y == (gxd ^ 4 * (gxd ^ 3 * gx1)) ^ (kk - 1) * (gxd ^ 3 * gx1) -> y == w ^ kk.
Proof.
  intros w gxd gx1 y Hz E1 E2. rewrite E2, E1. pose proof kk_pos as K.
  transitivity ((w * gxd ^ 8) ^ (kk - 1) * (w * gxd ^ 4)).
  { apply I_mul; [apply I_pow; [ring|reflexivity]|ring]. }
  rewrite Z.pow_mul_l. rewrite <- Z.pow_mul_r by lia.
  transitivity (w ^ (kk - 1) * w * (gxd ^ (8 * (kk - 1)) * gxd ^ 4)); [ring|].
  rewrite <- Z.pow_add_r by lia. replace (8 * (kk - 1) + 4) with (kP - 1) by (pose proof kP_kk; lia). rewrite (fermat kP kP_prime gxd Hz).
  replace kk with (Z.succ (kk - 1)) at 2 by lia. rewrite Z.pow_succ_r by lia. ring.
Qed.
Lemma cancel_r : forall a b c, ~ c == 0 -> (a * c == b * c <-> a == b).
Proof.
  intros a b c Hc. split; intros H; [|rewrite H; reflexivity]. apply p_cong_sub. apply p_sub_cong in H.
  destruct (p_mul_zero (a - b) c) as [E|E]; [rewrite <- H; ring|exact E|contradiction].
Qed.
Lemma root_sq' : forall w, ~ w == 0 -> square kP w -> (w ^ kk) ^ 2 == w \/ (w ^ kk) ^ 2 == - w.
Proof. exact (root_sq kP kP_prime kk kSqrtm1 kP_kk si_ok). Qed.
Lemma root_nsq' : forall w, ~ w == 0 -> ~ square kP w -> (w ^ kk) ^ 2 == kSqrtm1 * w \/ (w ^ kk) ^ 2 == - (kSqrtm1 * w).
Proof. exact (root_nsq kP kP_prime kk kSqrtm1 kP_kk si_ok). Qed.
Lemma opp_root : forall y w, y ^ 2 == - w -> (y * kSqrtm1) ^ 2 == w.
Proof. intros y w H. transitivity (y ^ 2 * kSqrtm1 ^ 2); [ring|]. rewrite H, si_ok. ring. Qed.

(** A candidate y that is a root of w or of -w is made one of w by the test. *)
Lemma pick : forall w d y b, ~ d == 0 -> reduced kP b -> b == w * d -> y ^ 2 == w \/ y ^ 2 == - w ->
  (if mulm (mulm y y) d =? b then y else mulm y kSqrtm1) ^ 2 == w.
Proof.
  intros w d y b Hd Hb Eb H. destruct (mulm (mulm y y) d =? b) eqn:E.
  - apply eqb_cong in E; [|apply mulm_r|exact Hb]. rewrite !mulm_c, Eb in E. apply cancel_r in E; [|exact Hd]. rewrite <- E. ring.
  - destruct H as [H|H].
    + exfalso. apply Bool.not_true_iff_false in E. apply E. apply eqb_cong; [apply mulm_r|exact Hb|]. rewrite !mulm_c, Eb, <- H. ring.
    + rewrite mulm_c. apply opp_root. exact H.
Qed.

Lemma red_if : forall (b : bool) x y, reduced kP x -> reduced kP y -> reduced kP (if b then x else y).
Proof. intros [] x y Hx Hy; assumption. Qed.
Theorem g2_ok : forall ub, (0 < length ub)%nat -> exists x y, map_to_curve_g2 inv ub = Ok (be_bytes 32 x, be_bytes 32 y) /\ elligator2 kP kJ (be_int ub) (x, y).
Proof.
  intros ub Hl. unfold map_to_curve_g2, enforce. rewrite (proj2 (Nat.ltb_lt _ _) Hl). set (u := be_int ub). cbv zeta.
  set (tv1 := mulm (mulm u u) 2). set (xd := addm tv1 1). set (tv2 := mulm xd xd). set (gxd := mulm tv2 xd).
  set (gx1 := mulm (addm (mulm (mulm kJ tv1) (- kJ)) tv2) (- kJ)). set (tv3 := mulm gxd gxd).
  set (tv3' := mulm (mulm tv3 gxd) gx1). set (tv2' := mulm (mulm tv3 tv3) tv3'). set (y11 := mulm (powm tv2' kC4) tv3').
  set (y1 := if mulm (mulm y11 y11) gxd =? gx1 then y11 else mulm y11 kSqrtm1).
  set (y21 := mulm (mulm y11 u) kC2). set (gx2 := mulm gx1 tv1). set (y2 := if mulm (mulm y21 y21) gxd =? gx2 then y21 else mulm y21 kSqrtm1).
  set (e3 := mulm (mulm y1 y1) gxd =? gx1).
  assert (E1 : tv1 == 2 * u ^ 2) by (unfold tv1; rewrite !mulm_c; ring).
  assert (E2 : xd == 1 + 2 * u ^ 2) by (unfold xd; rewrite addm_c, E1; ring).
  assert (E3 : gxd == xd ^ 3) by (unfold gxd, tv2; rewrite !mulm_c; ring).
  assert (E4 : gx1 == (kJ * tv1 * - kJ + xd ^ 2) * - kJ) by (unfold gx1, tv2; rewrite mulm_c, addm_c, !mulm_c; ring).
  assert (Xz : ~ xd == 0) by (rewrite E2; apply d_nz).
  assert (Gz : ~ gxd == 0). { rewrite E3. intros X. apply Xz. destruct (p_mul_zero xd (xd ^ 2)) as [Y|Y]; [rewrite <- X; ring|exact Y|]. apply (pow2_zero kP kP_prime). exact Y. }
  set (w := g kJ (ex1 u)). assert (Wz : ~ w == 0) by apply g1_nz.
  assert (G1 : gx1 == w * gxd) by (apply (gx1_core u tv1 xd gxd gx1); assumption).
  assert (T3 : tv3' == gxd ^ 3 * gx1) by (unfold tv3', tv3; rewrite !mulm_c; ring).
  assert (Y11 : y11 == w ^ kk).
  { apply (y11_core w gxd gx1 y11 Gz G1). unfold y11. rewrite mulm_c, powm_c by (rewrite kC4_kk; pose proof kk_pos; lia). rewrite kC4_kk.
    apply I_mul; [|exact T3]. apply I_pow; [|reflexivity]. unfold tv2'. rewrite !mulm_c, T3. unfold tv3. rewrite mulm_c. ring. }
  assert (G2 : gx2 == g kJ (ex2 u) * gxd) by (unfold gx2; rewrite mulm_c, G1, E1, g2_is; fold w; ring).
  assert (R11 : reduced kP y11) by apply mulm_r. assert (R21 : reduced kP y21) by apply mulm_r.
  assert (R1 : reduced kP y1) by (apply red_if; [exact R11|apply mulm_r]).
  assert (R2 : reduced kP y2) by (apply red_if; [exact R21|apply mulm_r]).
  assert (E3t : e3 = true <-> y1 ^ 2 == w).
  { unfold e3. rewrite eqb_cong by (apply mulm_r || apply mulm_r). rewrite !mulm_c, G1, cancel_r by exact Gz. split; intros X; [rewrite <- X|rewrite <- X]; ring. }
  assert (S : (square kP w /\ e3 = true /\ y1 ^ 2 == w) \/ (~ square kP w /\ e3 = false /\ y2 ^ 2 == g kJ (ex2 u))).
  { destruct (square_dec kP kP_prime kk kSqrtm1 kP_kk si_ok w) as [S|S]; [left|right]; (split; [exact S|]).
    - assert (Q : y1 ^ 2 == w). { apply (pick w gxd y11 gx1 Gz (mulm_r _ _) G1). rewrite Y11. apply root_sq'; assumption. }
      split; [apply E3t; exact Q|exact Q].
    - split.
      + destruct e3; [|reflexivity]. exfalso. apply S. exists y1. apply E3t. reflexivity.
      + apply (pick (g kJ (ex2 u)) gxd y21 gx2 Gz (mulm_r _ _) G2). rewrite g2_is. fold w. unfold y21. rewrite !mulm_c.
        assert (EQ : (y11 * u * kC2) ^ 2 == y11 ^ 2 * u ^ 2 * (- (2 * kSqrtm1))) by (rewrite <- c2_ok; ring).
        rewrite EQ, Y11. destruct (root_nsq' w Wz S) as [H|H]; rewrite H.
        * left. transitivity (- (2 * u ^ 2 * w) * kSqrtm1 ^ 2); [ring|]. rewrite si_ok. ring.
        * right. transitivity (2 * u ^ 2 * w * kSqrtm1 ^ 2); [ring|]. rewrite si_ok. ring. }
  fold (sign_fix e3 (if e3 then y1 else y2)). set (y := if e3 then y1 else y2). assert (Ry : reduced kP y) by (unfold y; destruct e3; assumption).
  destruct (sign_fix_ok e3 y Ry) as (F1 & F2 & F3 & F4). fold (sign_fix e3 y).
  destruct (inv_some xd Xz) as (xd1 & Ei & _ & Ex). unfold invm. rewrite Ei. cbn [bind].
  rewrite (mp_pad_ok _ (mulm_r _ _)), (mp_pad_ok _ F1). cbn [bind]. eexists _, _. split; [reflexivity|].
  assert (SQ : sign_fix e3 y ^ 2 == y ^ 2) by (destruct F2 as [X|X]; rewrite X; ring).
  apply spec_of; [apply mulm_r|exact F1| |]; fold w; intros HS; destruct S as [(S1 & S2 & S3)|(S1 & S2 & S3)]; try contradiction.
  - assert (Yv : y = y1) by (unfold y; rewrite S2; reflexivity). split; [rewrite S2, mulm_c, Ex, E2; reflexivity|]. split; [rewrite SQ, Yv; exact S3|].
    apply F3; [exact S2|]. intros X. apply Wz. rewrite <- S3, <- Yv, X. reflexivity.
  - assert (Yv : y = y2) by (unfold y; rewrite S2; reflexivity). split; [|split; [rewrite SQ, Yv; exact S3|apply F4; exact S2]]. rewrite S2, mulm_c, mulm_c, Ex, E2, E1. unfold ex2, ex1. fold (pdiv (- kJ * (2 * u ^ 2)) (1 + 2 * u ^ 2)). field. apply d_nz.
Qed.
End Map.
