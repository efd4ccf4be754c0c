(** Theorems about the calibration of differential privacy. *)
From Coq Require Import Reals Bool Lra Lia.
From Verif Require Import Base BaseProofs DpCalModel DpCalSpec DpCalProofs.
Local Open Scope R_scope.

(** ComputeEpsilon2: what it returns shares the budget to within 1e-12, unless the first part is not a
    number at all. *)
Theorem C104_share : forall fuel n epsilon r, epsilon2 fuel n epsilon = Ok r ->
  5 / 2 <= r <= 4 /\ (epsilon1 n r = None \/ exists e1, epsilon1 n r = Some e1 /\ Rabs (epsilon - (e1 + r)) <= 1 / 1000000000000).
Proof.
  intros fuel n epsilon r. unfold epsilon2, k_epsilon. assert (H : 5 / 2 <= 4) by lra. revert H. generalize (5 / 2) as lo, 4 as hi.
  induction fuel as [|k IH]; intros lo hi H E; cbn [epsilon2_loop] in E; [discriminate|].
  set (mid := lo + (hi - lo) / 2) in *. assert (M : lo <= mid <= hi) by (unfold mid; lra). clearbody mid.
  destruct (epsilon1 n mid) as [e1|] eqn:E1; [|injection E as <-; auto].
  destruct (rltb k_rate (Rabs (epsilon - e1 - mid))) eqn:L.
  - destruct (rltb 0 (epsilon - e1 - mid)); apply IH in E; try lra; destruct E as (X & Y); split; try exact Y; lra.
  - injection E as <-. split; [exact M|]. right. exists e1. split; [exact E1|]. apply rltb_false in L.
    replace (epsilon - (e1 + mid)) with (epsilon - e1 - mid) by ring. exact L.
Qed.
(** From a hundred rows on it returns whenever the budget lies between what its bounds need. *)
Theorem C104_returns : forall n epsilon, (100 <= n)%nat ->
  5 / 2 + epsilon1_value n (5 / 2) <= epsilon <= 4 + epsilon1_value n 4 ->
  exists fuel r e1, epsilon2 fuel n epsilon = Ok r /\ epsilon1 n r = Some e1 /\ Rabs (epsilon - (e1 + r)) <= 1 / 1000000000000.
Proof.
  intros n epsilon Hn He.
  assert (P : forall x, 5 / 2 <= x <= 4 -> 0 < sampled n x) by (intros x Hx; apply sampled_pos; [exact Hn|lra]).
  destruct (binary_ends (gap n epsilon) (fun x => rleb (Rabs (gap n epsilon x)) k_rate) (fun x => rltb 0 (gap n epsilon x)) (5 / 2) 4 k_rate) as (fuel & r & E).
  - lra.
  - unfold k_rate. lra.
  - intros x Hx. unfold gap. apply (continuity_pt_minus (fun y => y + epsilon1_value n y) (fun _ => epsilon)).
    + apply (continuity_pt_plus (fun y => y) (epsilon1_value n)); [apply derivable_continuous_pt; apply derivable_pt_id|].
      apply cont_epsilon1. apply P. exact Hx.
    + apply continuity_pt_const. intros u v. reflexivity.
  - reflexivity.
  - reflexivity.
  - unfold gap. lra.
  - unfold gap. lra.
  - assert (E2 : epsilon2 fuel n epsilon = Ok r) by (unfold epsilon2, k_epsilon; rewrite loop_is_search; [exact E|exact P|lra]).
    exists fuel, r. destruct (C104_share fuel n epsilon r E2) as (X & [Y | (e1 & Y1 & Y2)]).
    + rewrite epsilon1_some in Y by (apply P; exact X). discriminate Y.
    + exists e1. auto.
Qed.
(** The default budget works from a thousand rows on. *)
Theorem C104_default : forall n, (1000 <= n)%nat ->
  exists fuel r e1, epsilon2 fuel n 4 = Ok r /\ epsilon1 n r = Some e1 /\ Rabs (4 - (e1 + r)) <= 1 / 1000000000000.
Proof.
  intros n Hn. apply C104_returns; [lia|]. assert (Hr : 1000 <= INR n).
  { replace 1000 with (INR 1000) by (rewrite INR_IZR_INZ; reflexivity). apply le_INR. exact Hn. }
  split.
  - assert (P := sampled_pos n (5 / 2) ltac:(lia) ltac:(lra)). destruct (factor_range n (5 / 2) ltac:(lia) ltac:(lra) P) as (F1 & F2).
    destruct (keep_range (5 / 2) ltac:(lra)) as (K1 & K2). unfold epsilon1_value.
    assert (L : forall c, 0 < c <= 4 -> ln (10 * c * INR n) <= 12 + INR n / 1000).
    { intros c Hc. apply ln_below; [apply Rmult_lt_0_compat; lra|].
      pose proof (exp_t 12 (INR n / 1000) 40000 exp12 ltac:(lra) ltac:(lra)). nra. }
    assert (M : INR n / 4 <= sampled n (5 / 2)).
    { unfold sampled. rewrite delta1_inv by lia. set (x := INR n * sub_keep (5 / 2)). assert (X : INR n / 2 <= x) by (unfold x; nra).
      replace (2 * INR n * sub_keep (5 / 2) * ln (10 * 2 * INR n)) with (2 * x * ln (10 * 2 * INR n)) by (unfold x; ring).
      pose proof (L 2 ltac:(lra)) as L2. assert (Q : 0 <= ln (10 * 2 * INR n)) by (left; rewrite <- ln_1; apply ln_increasing; lra).
      set (y := ln (10 * 2 * INR n)) in *. clearbody x y.
      assert (S : sqrt (2 * x * y) <= sqrt ((x / 2) * (x / 2))) by (apply sqrt_le_1; nra). rewrite sqrt_square in S by lra. lra. }
    assert (S : sqrt (32 * ln (4 / delta1 n) / sampled n (5 / 2)) <= 3 / 2).
    { rewrite <- (sqrt_square (3 / 2)) by lra. apply sqrt_le_1_alt. rewrite delta1_inv by lia. pose proof (L 4 ltac:(lra)) as L4.
      apply (Rmult_le_reg_r (sampled n (5 / 2))); [exact P|]. unfold Rdiv at 1. rewrite Rmult_assoc, Rinv_l by lra. nra. }
    pose proof (sqrt_pos (32 * ln (4 / delta1 n) / sampled n (5 / 2))). nra.
  - pose proof (epsilon1_nonneg n 4 ltac:(lia) ltac:(lra) (sampled_pos n 4 ltac:(lia) ltac:(lra))). lra.
Qed.
(** A budget below 2.5, 1 for instance, is never shared out: the loop does not end. *)
Theorem C104_small_budget_refuted : forall n epsilon, (100 <= n)%nat -> epsilon <= 2 -> forall fuel, epsilon2 fuel n epsilon = Diverge.
Proof.
  intros n epsilon Hn He fuel.
  assert (P : forall x, 5 / 2 <= x <= 4 -> 0 < sampled n x) by (intros x Hx; apply sampled_pos; [exact Hn|lra]).
  unfold epsilon2, k_epsilon. rewrite loop_is_search; [|exact P|lra]. apply binary_stuck; [lra|]. intros x Hx. apply rleb_false.
  pose proof (epsilon1_nonneg n x ltac:(lia) ltac:(lra) (P x Hx)). unfold gap. rewrite Rabs_pos_eq by lra. unfold k_rate. lra.
Qed.
(** Nor is a large one. *)
Theorem C104_large_budget_refuted : forall n, (100 <= n)%nat -> exists bound, forall epsilon, bound <= epsilon ->
  forall fuel, epsilon2 fuel n epsilon = Diverge.
Proof.
  intros n Hn. assert (P : forall x, 5 / 2 <= x <= 4 -> 0 < sampled n x) by (intros x Hx; apply sampled_pos; [exact Hn|lra]).
  destruct (continuity_ab_maj (epsilon1_value n) (5 / 2) 4) as (top & Ht & _); [lra|intros x Hx; apply cont_epsilon1; apply P; exact Hx|].
  exists (epsilon1_value n top + 5). intros epsilon He fuel.
  unfold epsilon2, k_epsilon. rewrite loop_is_search; [|exact P|lra]. apply binary_stuck; [lra|]. intros x Hx. apply rleb_false.
  specialize (Ht x Hx). unfold gap. rewrite Rabs_left1 by lra. unfold k_rate. lra.
Qed.
(** With up to five rows the first part is no number and 3.25 is returned for every budget. *)
Theorem C104_few_rows_refuted : forall n epsilon fuel, (1 <= n <= 5)%nat ->
  epsilon2 (S fuel) n epsilon = Ok (13 / 4) /\ epsilon1 n (13 / 4) = None.
Proof.
  intros n epsilon fuel (H1 & H5). assert (R1 : 1 <= INR n) by (change 1 with (INR 1); apply le_INR; exact H1).
  assert (R5 : INR n <= 5). { replace 5 with (INR 5) by (rewrite INR_IZR_INZ; reflexivity). apply le_INR. exact H5. }
  assert (N : epsilon1 n (13 / 4) = None).
  { unfold epsilon1. rewrite (proj2 (rltb_false _ _)); [reflexivity|]. unfold sampled. rewrite delta1_inv by lia.
    destruct (keep_range (13 / 4) ltac:(lra)) as (K1 & K2). set (x := INR n * sub_keep (13 / 4)). assert (X : 0 <= x <= 5) by (unfold x; nra).
    replace (2 * INR n * sub_keep (13 / 4) * ln (10 * 2 * INR n)) with (2 * x * ln (10 * 2 * INR n)) by (unfold x; ring).
    assert (L : 5 / 2 <= ln (10 * 2 * INR n)).
    { rewrite <- (ln_exp (5 / 2)). assert (E : exp (5 / 2) < 20).
      { replace (5 / 2) with (1 / 2 + (1 + 1)) by lra. rewrite !exp_plus. pose proof exp_le_3 as E3.
        assert (S : exp (1 / 2) * exp (1 / 2) <= 3) by (rewrite <- exp_plus; replace (1 / 2 + 1 / 2) with 1 by lra; exact E3).
        pose proof (exp_pos (1 / 2)). pose proof (exp_pos 1). assert (exp (1 / 2) < 2) by nra. nra. }
      left. apply ln_increasing; [apply exp_pos|]. lra. }
    set (y := ln (10 * 2 * INR n)) in *. clearbody x y.
    assert (S : sqrt (x * x) <= sqrt (2 * x * y)) by (apply sqrt_le_1; nra). rewrite sqrt_square in S by lra. lra. }
  split; [|exact N]. unfold epsilon2, k_epsilon. cbn [epsilon2_loop].
  replace (5 / 2 + (4 - 5 / 2) / 2) with (13 / 4) by lra. rewrite N. reflexivity.
Qed.

(** Noise: the formula of the mechanism at the deviation computed. *)
Lemma gauss_at : forall Phi e gs a b, 0 < e -> 0 < gs -> 0 < a -> a * b = 1 ->
  gauss_delta Phi e gs (a * gs / sqrt (2 * e)) =
  Phi (sqrt (2 * e) / 2 * (b - a)) - exp e * Phi (- (sqrt (2 * e) / 2 * (a + b))).
Proof.
  intros Phi e gs a b He Hg Ha Hab. unfold gauss_delta.
  assert (Q : 0 < sqrt (2 * e)) by (apply sqrt_lt_R0; lra). assert (QQ : sqrt (2 * e) * sqrt (2 * e) = 2 * e) by (apply sqrt_sqrt; lra).
  set (q := sqrt (2 * e)) in *. clearbody q. assert (Eb : b = / a) by (apply (Rmult_eq_reg_l a); [rewrite Hab, Rinv_r; lra|lra]).
  assert (Ee : e = q * q / 2) by lra. 
  replace (gs / (2 * (a * gs / q)) - e * (a * gs / q) / gs) with (q / 2 * (b - a)) by (rewrite Eb, Ee; field; lra).
  replace (- gs / (2 * (a * gs / q)) - e * (a * gs / q) / gs) with (- (q / 2 * (a + b))) by (rewrite Eb, Ee; field; lra).
  reflexivity.
Qed.
Lemma conj_roots : forall u, 0 <= u -> 0 < sqrt (1 + u) - sqrt u /\ (sqrt (1 + u) - sqrt u) * (sqrt (1 + u) + sqrt u) = 1.
Proof.
  intros u Hu. assert (sqrt u < sqrt (1 + u)) by (apply sqrt_lt_1; lra). split; [lra|].
  replace ((sqrt (1 + u) - sqrt u) * (sqrt (1 + u) + sqrt u)) with (sqrt (1 + u) * sqrt (1 + u) - sqrt u * sqrt u) by ring.
  rewrite !sqrt_sqrt by lra. lra.
Qed.
Lemma root_parts : forall e s, 0 < e -> 0 <= s -> sqrt (2 * e) * sqrt (s / 2) = sqrt (e * s) /\ sqrt (2 * e) * sqrt (1 + s / 2) = sqrt (e * (s + 2)).
Proof. intros e s He Hs. rewrite <- !sqrt_mult by lra. split; f_equal; field. Qed.
Lemma gauss_a : forall Phi e gs s, 0 < e -> 0 < gs -> 0 <= s ->
  gauss_delta Phi e gs ((sqrt (1 + s / 2) - sqrt (s / 2)) * gs / sqrt (2 * e)) = case_a Phi e s.
Proof.
  intros Phi e gs s He Hg Hs. destruct (conj_roots (s / 2) ltac:(lra)) as (A & B). rewrite (gauss_at Phi e gs _ _ He Hg A B).
  destruct (root_parts e s He Hs) as (R1 & R2). unfold case_a. f_equal; [f_equal; lra|]. do 3 f_equal. lra.
Qed.
Lemma gauss_b : forall Phi e gs s, 0 < e -> 0 < gs -> 0 <= s ->
  gauss_delta Phi e gs ((sqrt (1 + s / 2) + sqrt (s / 2)) * gs / sqrt (2 * e)) = case_b Phi e s.
Proof.
  intros Phi e gs s He Hg Hs. destruct (conj_roots (s / 2) ltac:(lra)) as (A & B).
  assert (A' : 0 < sqrt (1 + s / 2) + sqrt (s / 2)) by (pose proof (sqrt_pos (s / 2)); lra). rewrite Rmult_comm in B.
  rewrite (gauss_at Phi e gs _ _ He Hg A' B).
  destruct (root_parts e s He Hs) as (R1 & R2). unfold case_b. f_equal; [f_equal; lra|]. do 3 f_equal. lra.
Qed.

(** The deviation returned leaves the delta asked for to within the tolerance, or to within 1e-5 if
    that of deviation gs / sqrt (2 epsilon) already is so near. *)
Theorem C104_sigma : forall Phi fuel epsilon delta gs tol r, 0 < epsilon -> 0 < gs -> sigma Phi fuel epsilon delta gs tol = Ok r ->
  Rabs (gauss_delta Phi epsilon gs r - delta) <= tol \/
  (r = gs / sqrt (2 * epsilon) /\ Rabs (gauss_delta Phi epsilon gs r - delta) < 1 / 100000).
Proof.
  intros Phi fuel epsilon delta gs tol r He Hg. unfold sigma, alpha.
  assert (Z : gauss_delta Phi epsilon gs (1 * gs / sqrt (2 * epsilon)) = case_a Phi epsilon 0).
  { rewrite <- (gauss_a Phi epsilon gs 0 He Hg ltac:(lra)). f_equal. replace (0 / 2) with 0 by lra. rewrite Rplus_0_r, sqrt_1, sqrt_0. lra. }
  destruct (rltb (Rabs (delta - case_a Phi epsilon 0)) (1 / 100000)) eqn:T.
  - cbn [bind]. intros E. injection E as <-. right. rewrite Z. apply rltb_spec in T. rewrite Rabs_minus_sym. split; [lra|exact T].
  - destruct (rltb (case_a Phi epsilon 0) delta) eqn:D.
    + destruct (doubling fuel _ 0 1) as [[l h]| | |] eqn:E1; try discriminate. cbn [bind fst snd].
      destruct (binary fuel _ _ l h) as [s| | |] eqn:E2; try discriminate. cbn [bind]. intros E. injection E as <-.
      apply doubling_sound in E1; [|lra]. destruct E1 as (_ & R & _). apply binary_sound in E2; [|lra]. destruct E2 as (S & B).
      left. rewrite gauss_a by lra. apply rleb_spec in S. exact S.
    + destruct (doubling fuel _ 0 1) as [[l h]| | |] eqn:E1; try discriminate. cbn [bind fst snd].
      destruct (binary fuel _ _ l h) as [s| | |] eqn:E2; try discriminate. cbn [bind]. intros E. injection E as <-.
      apply doubling_sound in E1; [|lra]. destruct E1 as (_ & R & _). apply binary_sound in E2; [|lra]. destruct E2 as (S & B).
      left. rewrite gauss_b by lra. apply rleb_spec in S. exact S.
Qed.

Lemma cont_tail : forall Phi e c x, continuity Phi -> continuity_pt (fun s => Phi (- sqrt (e * (s + c)))) x.
Proof.
  intros Phi e c x H. apply (continuity_pt_comp (fun s => - sqrt (e * (s + c))) Phi); [|apply H].
  apply (continuity_pt_opp (fun s => sqrt (e * (s + c)))). apply (continuity_pt_comp (fun s => e * (s + c)) sqrt); [|apply sqrt_cont].
  apply cont_scale. apply (continuity_pt_plus (fun s => s) (fun _ => c)).
  - apply derivable_continuous_pt. apply derivable_pt_id.
  - apply continuity_pt_const. intros u v. reflexivity.
Qed.
Lemma cont_head : forall Phi e x, continuity Phi -> continuity_pt (fun s => Phi (sqrt (e * s))) x /\ continuity_pt (fun s => Phi (- sqrt (e * s))) x.
Proof.
  intros Phi e x H. assert (S : continuity_pt (fun s => sqrt (e * s)) x).
  { apply (continuity_pt_comp (fun s => e * s) sqrt); [|apply sqrt_cont]. apply (cont_scale (fun s => s)).
    apply derivable_continuous_pt. apply derivable_pt_id. }
  split; [apply (continuity_pt_comp (fun s => sqrt (e * s)) Phi); [exact S|apply H]|].
  apply (continuity_pt_comp (fun s => - sqrt (e * s)) Phi); [apply (continuity_pt_opp (fun s => sqrt (e * s))); exact S|apply H].
Qed.
Lemma cont_cases : forall Phi e x, continuity Phi -> continuity_pt (case_a Phi e) x /\ continuity_pt (case_b Phi e) x.
Proof.
  intros Phi e x H. destruct (cont_head Phi e x H) as (A & B). pose proof (cont_scale _ (exp e) x (cont_tail Phi e 2 x H)) as C.
  split; [apply (continuity_pt_minus (fun s => Phi (sqrt (e * s))) _ x A C)|apply (continuity_pt_minus (fun s => Phi (- sqrt (e * s))) _ x B C)].
Qed.
(** For large s the first function is near 1 and the second near 0. *)
Lemma limits : forall Phi e eta, distribution Phi -> 0 < e -> 0 < eta ->
  exists s0, forall s, s0 <= s -> 1 - eta <= case_a Phi e s /\ case_b Phi e s <= eta.
Proof.
  intros Phi e eta (_ & P01 & Sy & Li) He Hn. pose proof (exp_pos e) as Ex.
  assert (H2 : 0 < eta / (2 * (1 + exp e))) by (apply Rdiv_lt_0_compat; lra).
  destruct (Li _ H2) as (T & HT). set (U := Rmax T 0). exists (U * U / e). intros s Hs.
  assert (U0 : 0 <= U) by apply Rmax_r.
  assert (Q : U * U <= e * s). { apply (Rmult_le_compat_l e) in Hs; [|lra]. replace (e * (U * U / e)) with (U * U) in Hs by (field; lra). exact Hs. }
  assert (R1 : U <= sqrt (e * s)) by (rewrite <- (sqrt_square U) by exact U0; apply sqrt_le_1_alt; exact Q).
  assert (R2 : U <= sqrt (e * (s + 2))) by (rewrite <- (sqrt_square U) by exact U0; apply sqrt_le_1_alt; nra).
  assert (TU : T <= U) by apply Rmax_l.
  pose proof (HT (sqrt (e * s)) ltac:(lra)) as X1. pose proof (HT (sqrt (e * (s + 2))) ltac:(lra)) as X2.
  unfold case_a, case_b. rewrite !Sy. pose proof (P01 (sqrt (e * s))) as B1. pose proof (P01 (sqrt (e * (s + 2)))) as B2.
  set (p1 := Phi (sqrt (e * s))) in *. set (p2 := Phi (sqrt (e * (s + 2)))) in *. clearbody p1 p2.
  assert (W : eta / (2 * (1 + exp e)) * (1 + exp e) = eta / 2) by (field; lra).
  set (w := eta / (2 * (1 + exp e))) in *. clearbody w. nra.
Qed.
(** For a distribution function every proper delta gets its noise. *)
Theorem C104_sigma_found : forall Phi epsilon delta gs tol, distribution Phi -> 0 < epsilon -> 0 < delta < 1 -> 0 < tol ->
  exists fuel r, sigma Phi fuel epsilon delta gs tol = Ok r.
Proof.
  intros Phi epsilon delta gs tol D He Hd Ht. assert (Ph := D). destruct Ph as (C & P01 & Sy & _).
  assert (A : exists fuel a, alpha Phi fuel epsilon delta tol = Ok a).
  { unfold alpha. destruct (rltb (Rabs (delta - case_a Phi epsilon 0)) (1 / 100000)) eqn:T; [exists 0%nat; eauto|].
    destruct (limits Phi epsilon (Rmin delta (1 - delta)) D He) as (s0 & H0). { apply Rmin_case; lra. }
    pose proof (Rmin_l delta (1 - delta)) as M1. pose proof (Rmin_r delta (1 - delta)) as M2.
    destruct (rltb (case_a Phi epsilon 0) delta) eqn:Q.
    - destruct (doubling_ends (fun s => rleb delta (case_a Phi epsilon s)) s0) as (f1 & (l, h) & E1).
      { intros s Hs. apply rleb_spec. destruct (H0 s Hs). lra. }
      assert (E1' := E1). apply doubling_sound in E1'; [|lra]. destruct E1' as (S1 & R & S2). apply rltb_spec in Q. apply rleb_spec in S1.
      destruct (binary_ends (fun s => case_a Phi epsilon s - delta) (fun s => rleb (Rabs (case_a Phi epsilon s - delta)) tol)
                  (fun s => rltb delta (case_a Phi epsilon s)) l h tol) as (f2 & r & E2).
      + lra.
      + exact Ht.
      + intros x _. apply (continuity_pt_minus (case_a Phi epsilon) (fun _ => delta)); [apply cont_cases; exact C|].
        apply continuity_pt_const. intros u v. reflexivity.
      + reflexivity.
      + intros x. unfold rltb. destruct (Rlt_dec delta (case_a Phi epsilon x)), (Rlt_dec 0 (case_a Phi epsilon x - delta)); try reflexivity; lra.
      + destruct S2 as [-> | S2]; [lra|]. apply rleb_false in S2. lra.
      + lra.
      + exists (f1 + f2)%nat. rewrite (doubling_more f1 (f1 + f2) _ _ _ _ ltac:(lia) E1). cbn [bind fst snd].
        rewrite (binary_more f2 (f1 + f2) _ _ _ _ _ ltac:(lia) E2). cbn [bind]. eauto.
    - assert (Z : case_b Phi epsilon 0 = case_a Phi epsilon 0).
      { unfold case_a, case_b. rewrite Rmult_0_r, sqrt_0, Ropp_0. reflexivity. }
      destruct (doubling_ends (fun s => rleb (case_b Phi epsilon s) delta) s0) as (f1 & (l, h) & E1).
      { intros s Hs. apply rleb_spec. destruct (H0 s Hs). lra. }
      assert (E1' := E1). apply doubling_sound in E1'; [|lra]. destruct E1' as (S1 & R & S2). apply rltb_false in Q. apply rleb_spec in S1.
      destruct (binary_ends (fun s => delta - case_b Phi epsilon s) (fun s => rleb (Rabs (case_b Phi epsilon s - delta)) tol)
                  (fun s => rltb (case_b Phi epsilon s) delta) l h tol) as (f2 & r & E2).
      + lra.
      + exact Ht.
      + intros x _. apply (continuity_pt_minus (fun _ => delta) (case_b Phi epsilon)); [|apply cont_cases; exact C].
        apply continuity_pt_const. intros u v. reflexivity.
      + intros x. rewrite Rabs_minus_sym. reflexivity.
      + intros x. unfold rltb. destruct (Rlt_dec (case_b Phi epsilon x) delta), (Rlt_dec 0 (delta - case_b Phi epsilon x)); try reflexivity; lra.
      + destruct S2 as [-> | S2]; [lra|]. apply rleb_false in S2. lra.
      + lra.
      + exists (f1 + f2)%nat. rewrite (doubling_more f1 (f1 + f2) _ _ _ _ ltac:(lia) E1). cbn [bind fst snd].
        rewrite (binary_more f2 (f1 + f2) _ _ _ _ _ ltac:(lia) E2). cbn [bind]. eauto. }
  destruct A as (fuel & a & E). exists fuel, (a * gs / sqrt (2 * epsilon)). unfold sigma. rewrite E. reflexivity.
Qed.

(** A distribution function: t / (1 + |t|) moved to [0, 1]. *)
Definition ex_phi (t : R) : R := 1 / 2 + t / (1 + Rabs t) / 2.
Example C104_example : distribution ex_phi /\
  (exists fuel r, sigma ex_phi fuel 1 (1 / 100) 1 k_rate = Ok r /\ 0 < r) /\
  epsilon2 1 3 1 = Ok (13 / 4) /\ epsilon2 50 100 1 = Diverge.
Proof.
  assert (D : distribution ex_phi).
  { split; [|split; [|split]].
    - intros x. unfold ex_phi. apply (continuity_pt_plus (fun _ => 1 / 2) (fun t => t / (1 + Rabs t) / 2)).
      + apply continuity_pt_const. intros u v. reflexivity.
      + unfold Rdiv at 1. apply (continuity_pt_mult (fun t => t / (1 + Rabs t)) (fun _ => / 2)).
        * apply (continuity_pt_div (fun t => t) (fun t => 1 + Rabs t)).
          -- apply derivable_continuous_pt. apply derivable_pt_id.
          -- apply (continuity_pt_plus (fun _ => 1) Rabs); [apply continuity_pt_const; intros u v; reflexivity|apply Rcontinuity_abs].
          -- pose proof (Rabs_pos x). lra.
        * apply continuity_pt_const. intros u v. reflexivity.
    - intros t. unfold ex_phi. pose proof (Rabs_pos t) as P. assert (B : -1 <= t / (1 + Rabs t) <= 1).
      { pose proof (Rle_abs t). pose proof (Rle_abs (- t)). rewrite Rabs_Ropp in *.
        split; apply (Rmult_le_reg_r (1 + Rabs t)); try lra; unfold Rdiv; rewrite Rmult_assoc, Rinv_l by lra; lra. }
      lra.
    - intros t. unfold ex_phi. rewrite Rabs_Ropp. pose proof (Rabs_pos t). field. lra.
    - intros eta He. exists (/ eta). intros t Ht. assert (0 < / eta) by (apply Rinv_0_lt_compat; exact He). unfold ex_phi.
      rewrite Rabs_pos_eq by lra. assert (B : 1 - eta <= t / (1 + t)).
      { apply (Rmult_le_reg_r (1 + t)); [lra|]. unfold Rdiv. rewrite Rmult_assoc, Rinv_l by lra.
        assert (1 <= t * eta). { apply (Rmult_le_compat_r eta) in Ht; [|lra]. rewrite Rinv_l in Ht by lra. exact Ht. } nra. }
      lra. }
  split; [exact D|]. split; [|split].
  - destruct (C104_sigma_found ex_phi 1 (1 / 100) 1 k_rate D ltac:(lra) ltac:(lra) ltac:(unfold k_rate; lra)) as (fuel & r & E).
    exists fuel, r. split; [exact E|]. unfold sigma in E. destruct (alpha ex_phi fuel 1 (1 / 100) k_rate) as [a| | |] eqn:A; try discriminate.
    cbn [bind] in E. injection E as <-. assert (0 < a); [|apply Rdiv_lt_0_compat; [lra|apply sqrt_lt_R0; lra]].
    unfold alpha in A. destruct (rltb (Rabs (1 / 100 - case_a ex_phi 1 0)) (1 / 100000)); [injection A as <-; lra|].
    assert (G : forall stop st lf, (do p <- doubling fuel stop 0 1; do s <- binary fuel st lf (fst p) (snd p); Ok s) = Ok a -> True) by auto. clear G.
    destruct (rltb (case_a ex_phi 1 0) (1 / 100)).
    + destruct (doubling fuel _ 0 1) as [[l h]| | |] eqn:E1; try discriminate. cbn [bind fst snd] in A.
      destruct (binary fuel _ _ l h) as [s| | |] eqn:E2; try discriminate. cbn [bind] in A. injection A as <-.
      apply doubling_sound in E1; [|lra]. destruct E1 as (_ & R & _). apply binary_sound in E2; [|lra]. apply (conj_roots (s / 2)). lra.
    + destruct (doubling fuel _ 0 1) as [[l h]| | |] eqn:E1; try discriminate. cbn [bind fst snd] in A.
      destruct (binary fuel _ _ l h) as [s| | |] eqn:E2; try discriminate. cbn [bind] in A. injection A as <-.
      apply doubling_sound in E1; [|lra]. destruct E1 as (_ & R & _). apply binary_sound in E2; [|lra].
      pose proof (sqrt_pos (s / 2)). pose proof (conj_roots (s / 2) ltac:(lra)). lra.
  - apply (C104_few_rows_refuted 3 1 0). lia.
  - apply C104_small_budget_refuted; [lia|lra].
Qed.

Print Assumptions C104_share.
Print Assumptions C104_returns.
Print Assumptions C104_default.
Print Assumptions C104_small_budget_refuted.
Print Assumptions C104_large_budget_refuted.
Print Assumptions C104_few_rows_refuted.
Print Assumptions C104_sigma.
Print Assumptions C104_sigma_found.
