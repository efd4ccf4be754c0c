(** Chord and tangent: the point additions and doublings of the code against the line that meets the curve. *)
From Coq Require Import List NArith ZArith Znumtheory Lia Setoid Morphisms Ring Field.
From Verif Require Import Base Text EllPrime EllField EllModel EllSpec EllProofs1 EllProofs2 EllProofs3.
Import ListNotations.
Local Open Scope Z_scope.

Definition enc (P : Z * Z) : bytes * bytes := (be_bytes 32 (fst P), be_bytes 32 (snd P)).
Definition red2 (P : Z * Z) : Prop := reduced kP (fst P) /\ reduced kP (snd P).
Lemma red_cong : forall x y, reduced kP x -> reduced kP y -> x == y -> x = y.
Proof. exact (cong_reduced kP kP_prime). Qed.
Lemma p_dec : forall a b, {a == b} + {~ a == b}.
Proof. exact (cong_dec kP kP_prime). Qed.
Lemma one_nz : ~ 1 == 0.
Proof. exact (one_zero kP kP_prime). Qed.
Lemma sq_zero : forall a, a ^ 2 == 0 -> a == 0.
Proof. exact (pow2_zero kP kP_prime). Qed.

(** * Sums as a relation *)

Lemma sums_on_curve : forall P Q R, sums kP kJ P Q R -> on_curve kP kJ P /\ on_curve kP kJ Q /\ on_curve kP kJ R.
Proof.
  intros (px, py) (qx, qy) (rx, ry) (_ & _ & l & m & H1 & H2 & H3 & H). unfold on_curve in *; cbn [fst snd] in *. repeat split; apply p_cong_sub.
  - rewrite H1. transitivity (- (g kJ px - (l * px + m) ^ 2)); [ring|]. rewrite H. ring.
  - rewrite H2. transitivity (- (g kJ qx - (l * qx + m) ^ 2)); [ring|]. rewrite H. ring.
  - transitivity ((- ry) ^ 2 - g kJ rx); [ring|]. rewrite H3. transitivity (- (g kJ rx - (l * rx + m) ^ 2)); [ring|]. rewrite H. ring.
Qed.
Lemma half : forall a, 2 * a == 0 -> a == 0.
Proof. intros a H. destruct (p_mul_zero _ _ H) as [X|X]; [exfalso; exact (p_two X)|exact X]. Qed.
(** The coefficients of the identity. *)
Lemma coeffs : forall l m a b c, (forall x, g kJ x - (l * x + m) ^ 2 == (x - a) * (x - b) * (x - c)) ->
  c == l ^ 2 - kJ - a - b /\ 1 - 2 * l * m == a * b + a * c + b * c.
Proof.
  intros l m a b c H. pose proof (H 0) as H0. pose proof (H 1) as H1. pose proof (H (-1)) as H2. unfold g in *.
  apply p_sub_cong in H0, H1, H2.
  set (h0 := 0 ^ 3 + kJ * 0 ^ 2 + 0 - (l * 0 + m) ^ 2 - (0 - a) * (0 - b) * (0 - c)) in *.
  set (h1 := 1 ^ 3 + kJ * 1 ^ 2 + 1 - (l * 1 + m) ^ 2 - (1 - a) * (1 - b) * (1 - c)) in *.
  set (h2 := (-1) ^ 3 + kJ * (-1) ^ 2 + -1 - (l * -1 + m) ^ 2 - (-1 - a) * (-1 - b) * (-1 - c)) in *.
  split; apply p_cong_sub, half.
  - transitivity (h1 + h2 - 2 * h0); [unfold h0, h1, h2; ring|]. rewrite H0, H1, H2. ring.
  - transitivity (h1 - h2); [unfold h1, h2; ring|]. rewrite H1, H2. ring.
Qed.
(** A tangent: its slope. *)
Lemma tangent : forall (P R : Z * Z) l m, snd P == l * fst P + m ->
  (forall x, g kJ x - (l * x + m) ^ 2 == (x - fst P) * (x - fst P) * (x - fst R)) -> 2 * l * snd P == 3 * fst P ^ 2 + 2 * kJ * fst P + 1.
Proof.
  intros (px, py) (rx, ry) l m; cbn [fst snd]. intros H1 H. destruct (coeffs _ _ _ _ _ H) as (A & B). apply p_sub_cong in A, B, H1.
  apply p_cong_sub. transitivity (- (1 - 2 * l * m - (px * px + px * rx + px * rx)) + 2 * l * (py - (l * px + m)) - 2 * px * (rx - (l ^ 2 - kJ - px - px))); [ring|].
  rewrite A, B, H1. ring.
Qed.
Lemma tangent_nz : forall x y, on_curve kP kJ (x, y) -> y == 0 -> 3 * x ^ 2 + 2 * kJ * x + 1 == 0 -> False.
Proof.
  intros x y HC Hy H. unfold on_curve in HC; cbn [fst snd] in HC. assert (X : x == 0) by (apply g_zero; rewrite <- HC, Hy; reflexivity).
  rewrite X in H. apply one_nz. rewrite <- H. ring.
Qed.
Lemma double_nz : forall P R, sums kP kJ P P R -> ~ snd P == 0.
Proof.
  intros P R HS Hy. pose proof (sums_on_curve _ _ _ HS) as (HC & _). destruct HS as (_ & _ & l & m & H1 & _ & _ & H).
  pose proof (tangent P R l m H1 H) as T. destruct P as (x, y); cbn [fst snd] in *. apply (tangent_nz x y HC Hy). rewrite <- T, Hy. ring.
Qed.
Lemma third : forall (P Q R R' : Z * Z) l l' m m', sums kP kJ P Q R -> sums kP kJ P Q R' -> l == l' ->
  snd P == l * fst P + m -> snd P == l' * fst P + m' ->
  (forall x, g kJ x - (l * x + m) ^ 2 == (x - fst P) * (x - fst Q) * (x - fst R)) ->
  (forall x, g kJ x - (l' * x + m') ^ 2 == (x - fst P) * (x - fst Q) * (x - fst R')) ->
  - snd R == l * fst R + m -> - snd R' == l' * fst R' + m' -> R = R'.
Proof.
  intros (px, py) (qx, qy) (rx, ry) (rx', ry') l l' m m' (A1 & A2 & _) (B1 & B2 & _) HL HP HP' H H' HR HR'; cbn [fst snd] in *.
  destruct (coeffs _ _ _ _ _ H) as (C & _), (coeffs _ _ _ _ _ H') as (C' & _).
  assert (HM : m == m').
  { apply p_sub_cong in HP, HP'. apply p_cong_sub. transitivity ((py - (l' * px + m')) - (py - (l * px + m)) + (l' - l) * px); [ring|]. rewrite HP, HP', HL. ring. }
  assert (X : rx == rx') by (rewrite C, C', HL; reflexivity). f_equal; apply red_cong; try assumption.
  transitivity (- - ry); [ring|]. rewrite HR, HL, X, HM, <- HR'. ring.
Qed.
Theorem sums_unique : forall P Q R R', red2 P -> red2 Q -> sums kP kJ P Q R -> sums kP kJ P Q R' -> R = R'.
Proof.
  intros P Q R R' RP RQ S S'. pose proof S as (_ & _ & l & m & H1 & H2 & H3 & H). pose proof S' as (_ & _ & l' & m' & H1' & H2' & H3' & H').
  apply (third P Q R R' l l' m m' S S'); try assumption. clear H3 H3'.
  destruct P as (px, py), Q as (qx, qy), RP as (P1 & P2), RQ as (Q1 & Q2); cbn [fst snd] in *.
  destruct (Z.eq_dec px qx) as [E|E].
  - subst qx. assert (py = qy) as <- by (apply red_cong; [assumption|assumption|]; rewrite H1, H2; reflexivity).
    pose proof (double_nz _ _ S) as N; cbn [fst snd] in N.
    pose proof (tangent (px, py) R l m H1 H) as T. pose proof (tangent (px, py) R' l' m' H1' H') as T'. cbn [fst snd] in T, T'.
    apply p_cong_sub. assert (X : (2 * py) * (l - l') == 0). { transitivity (2 * l * py - 2 * l' * py); [ring|]. rewrite T, T'. ring. }
    destruct (p_mul_zero _ _ X) as [Y|Y]; [exfalso; apply (p_mul_nz _ _ p_two N); exact Y|exact Y].
  - assert (N : ~ px - qx == 0) by (intros X; apply E, red_cong; [assumption|assumption|apply p_cong_sub; exact X]).
    apply p_cong_sub. assert (X : (px - qx) * (l - l') == 0).
    { transitivity ((l * px + m) - (l * qx + m) - ((l' * px + m') - (l' * qx + m'))); [ring|]. rewrite <- H1, <- H2, <- H1', <- H2'. ring. }
    destruct (p_mul_zero _ _ X) as [Y|Y]; [contradiction|exact Y].
Qed.
(** Two points on a vertical line have no sum in the plane, unless they coincide. *)
Lemma vertical : forall px py qx qy R, px == qx -> sums kP kJ (px, py) (qx, qy) R -> py == qy.
Proof. intros px py qx qy R E (_ & _ & l & m & H1 & H2 & _); cbn [fst snd] in *. rewrite H1, H2, E. reflexivity. Qed.

(** * The formulas *)

Lemma chord_sum : forall px py qx qy l rx ry, on_curve kP kJ (px, py) -> on_curve kP kJ (qx, qy) -> ~ qx - px == 0 ->
  l * (qx - px) == qy - py -> rx == l ^ 2 - kJ - px - qx -> ry == (2 * px + qx + kJ) * l - l ^ 3 - py -> reduced kP rx -> reduced kP ry ->
  sums kP kJ (px, py) (qx, qy) (rx, ry).
Proof.
  intros px py qx qy l rx ry HP HQ N HL HX HY R1 R2. unfold on_curve in HP, HQ; cbn [fst snd] in *.
  split; [exact R1|]. split; [exact R2|]. cbn [fst snd]. exists l, (py - l * px).
  assert (L2 : qy == l * qx + (py - l * px)). { apply p_sub_cong in HL. apply p_cong_sub. transitivity (- (l * (qx - px) - (qy - py))); [ring|]. rewrite HL. ring. }
  split; [ring|]. split; [exact L2|]. split; [rewrite HY, HX; ring|]. intros x. apply p_cong_sub.
  assert (E1 : g kJ px - py ^ 2 == 0) by (rewrite HP; ring).
  assert (E2 : g kJ qx - (l * qx + (py - l * px)) ^ 2 == 0) by (rewrite <- L2, HQ; ring).
  set (h := g kJ x - (l * x + (py - l * px)) ^ 2 - (x - px) * (x - qx) * (x - rx)).
  assert (H : (qx - px) * h == 0).
  { transitivity ((g kJ px - py ^ 2) * (qx - x) + (g kJ qx - (l * qx + (py - l * px)) ^ 2) * (x - px)
      + (qx - px) * (x - px) * (x - qx) * (rx - (l ^ 2 - kJ - px - qx))).
    - unfold h, g. ring.
    - apply p_sub_cong in HX. rewrite E1, E2, HX. ring. }
  destruct (p_mul_zero _ _ H) as [X|X]; [contradiction|exact X].
Qed.
Lemma tangent_sum : forall px py l rx ry, on_curve kP kJ (px, py) ->
  l * (2 * py) == 3 * px ^ 2 + 2 * kJ * px + 1 -> rx == l ^ 2 - kJ - 2 * px -> ry == (3 * px + kJ) * l - l ^ 3 - py -> reduced kP rx -> reduced kP ry ->
  sums kP kJ (px, py) (px, py) (rx, ry).
Proof.
  intros px py l rx ry HP HL HX HY R1 R2. unfold on_curve in HP; cbn [fst snd] in *.
  split; [exact R1|]. split; [exact R2|]. cbn [fst snd]. exists l, (py - l * px).
  split; [ring|]. split; [ring|]. split; [rewrite HY, HX; ring|]. intros x. apply p_cong_sub.
  assert (E1 : g kJ px - py ^ 2 == 0) by (rewrite HP; ring). apply p_sub_cong in HL, HX.
  transitivity ((g kJ px - py ^ 2) - (x - px) * (l * (2 * py) - (3 * px ^ 2 + 2 * kJ * px + 1)) + (x - px) ^ 2 * (rx - (l ^ 2 - kJ - 2 * px))).
  - unfold g. ring.
  - rewrite E1, HL, HX. ring.
Qed.

Section Points.
Variable inv : Z -> option Z.
Hypothesis Hinv : inverter kP inv.

Lemma neg_fix_id : forall x, reduced kP x -> neg_fix x = x.
Proof. intros x (H & _). unfold neg_fix. destruct (Z.ltb_spec x 0); [lia|reflexivity]. Qed.
Lemma beqb_refl : forall a, beqb a a = true.
Proof. intros a. unfold beqb. destruct (list_eq_dec N.eq_dec a a); [reflexivity|congruence]. Qed.
Lemma beqb_ne : forall x y, reduced kP x -> reduced kP y -> x <> y -> beqb (be_bytes 32 x) (be_bytes 32 y) = false.
Proof.
  intros x y Hx Hy N. unfold beqb. destruct (list_eq_dec N.eq_dec _ _) as [E|E]; [|reflexivity]. exfalso. apply N.
  rewrite <- (be_bytes_32 x Hx), <- (be_bytes_32 y Hy), E. reflexivity.
Qed.
Lemma sub_nz : forall x y, reduced kP x -> reduced kP y -> x <> y -> ~ x - y == 0.
Proof. intros x y Hx Hy N X. apply N, red_cong; [assumption|assumption|apply p_cong_sub; exact X]. Qed.

Theorem add_ok : forall P Q, red2 P -> red2 Q -> on_curve kP kJ P -> on_curve kP kJ Q -> fst P <> fst Q ->
  exists R, point_add inv (fst (enc P)) (snd (enc P)) (fst (enc Q)) (snd (enc Q)) = Ok (enc R)
    /\ point_add_x inv (fst (enc P)) (snd (enc P)) (fst (enc Q)) (snd (enc Q)) = Ok (fst (enc R)) /\ sums kP kJ P Q R.
Proof.
  intros (px, py) (qx, qy) (P1 & P2) (Q1 & Q2) HP HQ N. unfold enc, point_add, point_add_x; cbn [fst snd] in *.
  rewrite (beqb_ne px qx P1 Q1 N). cbn [negb orb]. unfold enforce. rewrite !be_bytes_32 by assumption. cbv zeta.
  assert (Z1 : ~ qx - px == 0) by (apply sub_nz; congruence || assumption).
  assert (Z2 : ~ subm qx px == 0) by (rewrite subm_c; exact Z1).
  unfold invm. destruct (inv_some inv Hinv _ Z2) as (d & -> & _ & Ed). cbn [bind]. set (l := mulm (subm qy py) d). set (l2 := mulm l l).
  rewrite !neg_fix_id by apply subm_r. rewrite !mp_pad_ok by apply subm_r. cbn [bind].
  match goal with |- exists R, Ok (be_bytes 32 ?a, be_bytes 32 ?b) = _ /\ _ => exists (a, b) end. split; [reflexivity|]. split; [reflexivity|].
  apply (chord_sum px py qx qy l); try assumption; try apply subm_r.
  - unfold l. rewrite mulm_c, Ed, !subm_c. transitivity (pdiv ((qy - py) * (qx - px)) (qx - px)); [unfold pdiv, fdiv; fold pinv; ring|field; exact Z1].
  - unfold l2. rewrite !subm_c, mulm_c. ring.
  - unfold l2. rewrite !subm_c, !mulm_c, !addm_c, !mulm_c. ring.
Qed.
Theorem add_throw : forall P Q, red2 P -> red2 Q -> fst P = fst Q ->
  point_add inv (fst (enc P)) (snd (enc P)) (fst (enc Q)) (snd (enc Q)) = Throw
  /\ point_add_x inv (fst (enc P)) (snd (enc P)) (fst (enc Q)) (snd (enc Q)) = Throw.
Proof.
  intros (px, py) (qx, qy) (P1 & P2) (Q1 & Q2) E; cbn [fst snd] in *. subst qx. unfold enc, point_add, point_add_x; cbn [fst snd].
  rewrite beqb_refl. cbn [negb orb]. unfold enforce. destruct (negb _); [|split; reflexivity]. rewrite !be_bytes_32 by assumption. cbv zeta.
  unfold invm. rewrite (inv_none inv Hinv); [split; reflexivity|]. rewrite subm_c. ring.
Qed.

Theorem dbl_ok : forall P, red2 P -> on_curve kP kJ P -> snd P <> 0 ->
  exists R, point_dbl inv (fst (enc P)) (snd (enc P)) = Ok (enc R) /\ sums kP kJ P P R.
Proof.
  intros (px, py) (P1 & P2) HP N; cbn [fst snd] in *. unfold enc, point_dbl; cbn [fst snd]. rewrite !be_bytes_32 by assumption. cbv zeta.
  assert (Z0 : ~ py == 0) by (intros X; apply N, red_cong; [assumption|unfold reduced; pose proof kP_big; lia|exact X]).
  assert (Z2 : ~ mulm py 2 == 0) by (rewrite mulm_c; apply p_mul_nz; [exact Z0|exact p_two]).
  unfold invm. destruct (inv_some inv Hinv _ Z2) as (d & -> & _ & Ed). cbn [bind].
  match goal with |- context [powm ?x 2] => set (l := x) end.
  rewrite !mp_pad_ok by apply subm_r. cbn [bind]. match goal with |- exists R, Ok (be_bytes 32 ?a, be_bytes 32 ?b) = _ /\ _ => exists (a, b) end. split; [reflexivity|].
  apply (tangent_sum px py l); try assumption; try apply subm_r.
  - unfold l. rewrite mulm_c, Ed, !addm_c, !mulm_c. transitivity (pdiv ((3 * px ^ 2 + 2 * kJ * px + 1) * (2 * py)) (2 * py)).
    + unfold pdiv, fdiv. fold pinv. rewrite (Z.mul_comm 2 py). ring.
    + field. split; [exact Z0|exact p_two].
  - rewrite !subm_c, mulm_c, powm_c by lia. ring.
  - rewrite !subm_c, !mulm_c, !addm_c, mulm_c, powm_c by lia. ring.
Qed.
Theorem dbl_throw : forall P, red2 P -> snd P = 0 -> point_dbl inv (fst (enc P)) (snd (enc P)) = Throw.
Proof.
  intros (px, py) (P1 & P2) N; cbn [fst snd] in *. subst py. unfold enc, point_dbl; cbn [fst snd]. rewrite !be_bytes_32 by assumption. cbv zeta.
  unfold invm. rewrite (inv_none inv Hinv); [reflexivity|]. rewrite mulm_c. ring.
Qed.
(** The doubling on x alone, for any point of the curve above x. *)
Theorem proj_ok : forall P R, red2 P -> sums kP kJ P P R -> point_dbl_projective inv (be_bytes 32 (fst P)) = Ok (be_bytes 32 (fst R)).
Proof.
  intros P R (P1 & P2) HS. pose proof (sums_on_curve _ _ _ HS) as (HC & _). pose proof (double_nz _ _ HS) as NZ.
  pose proof HS as (R1 & _ & l & m & H1 & _ & _ & H). pose proof (tangent P R l m H1 H) as T. destruct (coeffs _ _ _ _ _ H) as (A & _). clear H H1.
  destruct P as (x, y), R as (rx, ry); cbn [fst snd] in *. unfold on_curve in HC; cbn [fst snd] in HC.
  unfold point_dbl_projective. rewrite be_bytes_32 by assumption. cbv zeta.
  set (z := mulm (mulm (addm (addm (mulm x x) (mulm x kJ)) 1) x) 4).
  assert (Ez : z == 4 * y ^ 2) by (unfold z; rewrite !mulm_c, !addm_c, !mulm_c, HC; unfold g; ring).
  assert (Zz : ~ z == 0).
  { rewrite Ez. intros X. apply NZ, sq_zero. apply half, half. rewrite <- X. ring. }
  unfold invm. destruct (inv_some inv Hinv _ Zz) as (d & -> & _ & Ed). cbn [bind]. rewrite mp_pad_ok by apply mulm_r. do 2 f_equal.
  apply red_cong; [apply mulm_r|exact R1|]. rewrite mulm_c, Ed, mulm_c, !subm_c, mulm_c. transitivity (pdiv ((x * x - 1) * (x * x - 1)) (4 * y ^ 2)).
  - unfold pdiv, fdiv. fold pinv. rewrite Ez. reflexivity.
  - assert (F : (x * x - 1) * (x * x - 1) == rx * (4 * y ^ 2)).
    { apply p_sub_cong in HC, T, A. apply p_cong_sub.
      transitivity ((2 * l * y - (3 * x ^ 2 + 2 * kJ * x + 1)) * - (2 * l * y + (3 * x ^ 2 + 2 * kJ * x + 1)) - 4 * y ^ 2 * (rx - (l ^ 2 - kJ - x - x))
        + 4 * (kJ + 2 * x) * (y ^ 2 - g kJ x)); [unfold g; ring|]. rewrite HC, T, A. ring. }
    transitivity (pdiv (rx * (4 * y ^ 2)) (4 * y ^ 2)); [unfold pdiv, fdiv; fold pinv; rewrite F; reflexivity|].
    field. split; [exact NZ|]. intros X. apply p_two. apply half. rewrite <- X. ring.
Qed.
Theorem proj_throw : forall P, red2 P -> on_curve kP kJ P -> snd P = 0 -> point_dbl_projective inv (be_bytes 32 (fst P)) = Throw.
Proof.
  intros (x, y) (P1 & _) HC E; cbn [fst snd] in *. subst y. unfold on_curve in HC; cbn [fst snd] in HC. unfold point_dbl_projective. rewrite be_bytes_32 by assumption. cbv zeta.
  unfold invm. rewrite (inv_none inv Hinv); [reflexivity|]. rewrite !mulm_c, !addm_c, !mulm_c. transitivity (4 * g kJ x); [unfold g; ring|]. rewrite <- HC. ring.
Qed.

Lemma sums_red : forall P Q R, sums kP kJ P Q R -> red2 R.
Proof. intros P Q R (A & B & _). split; assumption. Qed.
(** Clearing the cofactor: the eightfold where there is one, an exception where there is none; both functions. *)
Lemma dbl_cases : forall P, red2 P -> on_curve kP kJ P ->
  (exists R, sums kP kJ P P R /\ red2 R /\ on_curve kP kJ R /\ point_dbl inv (fst (enc P)) (snd (enc P)) = Ok (enc R)
      /\ point_dbl_projective inv (fst (enc P)) = Ok (fst (enc R)))
  \/ ((forall R, ~ sums kP kJ P P R) /\ point_dbl inv (fst (enc P)) (snd (enc P)) = Throw /\ point_dbl_projective inv (fst (enc P)) = Throw).
Proof.
  intros P HP HC. destruct (Z.eq_dec (snd P) 0) as [E|E].
  - right. split; [|split; [apply dbl_throw; assumption|apply proj_throw; assumption]]. intros R HS. apply (double_nz _ _ HS). rewrite E. reflexivity.
  - left. destruct (dbl_ok P HP HC E) as (R & H1 & H2). exists R. split; [exact H2|]. split; [exact (sums_red _ _ _ H2)|].
    split; [exact (proj2 (proj2 (sums_on_curve _ _ _ H2)))|]. split; [exact H1|]. apply proj_ok; assumption.
Qed.
Theorem clear_cases : forall P, red2 P -> on_curve kP kJ P ->
  (exists R, times8 kP kJ P R /\ red2 R /\ clear_cofactor inv (fst (enc P)) (snd (enc P)) = Ok (enc R)
      /\ clear_cofactor_projective inv (fst (enc P)) = Ok (fst (enc R)))
  \/ ((forall R, ~ times8 kP kJ P R) /\ clear_cofactor inv (fst (enc P)) (snd (enc P)) = Throw /\ clear_cofactor_projective inv (fst (enc P)) = Throw).
Proof.
  intros P HP HC. unfold clear_cofactor, clear_cofactor_projective.
  destruct (dbl_cases P HP HC) as [(R2 & S2 & D2 & C2 & E2 & F2)|(N & E & F)]; [|right; rewrite E, F; split; [intros R (A & B & H & _); exact (N _ H)|split; reflexivity]].
  rewrite E2, F2. cbn [bind].
  destruct (dbl_cases R2 D2 C2) as [(R4 & S4 & D4 & C4 & E4 & F4)|(N & E & F)].
  2:{ right. rewrite E, F. split; [|split; reflexivity]. intros R (A & B & H & H' & _). rewrite <- (sums_unique _ _ _ _ HP HP S2 H) in H'. exact (N _ H'). }
  rewrite E4, F4. cbn [bind].
  destruct (dbl_cases R4 D4 C4) as [(R8 & S8 & D8 & C8 & E8 & F8)|(N & E & F)].
  2:{ right. rewrite E, F. split; [|split; reflexivity]. intros R (A & B & H & H' & H''). rewrite <- (sums_unique _ _ _ _ HP HP S2 H) in H'.
      rewrite <- (sums_unique _ _ _ _ D2 D2 S4 H') in H''. exact (N _ H''). }
  left. exists R8. split; [exists R2, R4; auto|]. split; [exact D8|]. split; assumption.
Qed.
Theorem check_point_ok : forall xb yb, check_point xb yb = true <-> on_curve kP kJ (be_int xb, be_int yb).
Proof.
  intros xb yb. unfold check_point, on_curve; cbn [fst snd]. rewrite eqb_cong by (apply addm_r || apply powm_r).
  rewrite !addm_c, mulm_c, !powm_c by lia. unfold g. split; intros H.
  - rewrite <- H. ring.
  - rewrite H. ring.
Qed.
Theorem times8_unique : forall P R R', red2 P -> times8 kP kJ P R -> times8 kP kJ P R' -> R = R'.
Proof.
  intros P R R' HP (A & B & H1 & H2 & H3) (A' & B' & H1' & H2' & H3'). pose proof (sums_red _ _ _ H1) as DA. pose proof (sums_red _ _ _ H2) as DB.
  rewrite <- (sums_unique _ _ _ _ HP HP H1 H1') in H2'. rewrite <- (sums_unique _ _ _ _ DA DA H2 H2') in H3'. exact (sums_unique _ _ _ _ DB DB H3 H3').
Qed.
End Points.
