(** Proofs about the loops of the calibration in real arithmetic. *)
From Coq Require Import Reals Bool Lra Lia.
From Verif Require Import Base BaseProofs DpCalModel DpCalSpec.
Local Open Scope R_scope.

Lemma rltb_spec : forall x y, rltb x y = true <-> x < y.
Proof. intros x y. unfold rltb. destruct (Rlt_dec x y); split; intros; try assumption; try reflexivity; [discriminate|contradiction]. Qed.
Lemma rltb_false : forall x y, rltb x y = false <-> y <= x.
Proof. intros x y. unfold rltb. destruct (Rlt_dec x y); split; intros; try reflexivity; try discriminate; lra. Qed.
Lemma rleb_spec : forall x y, rleb x y = true <-> x <= y.
Proof. intros x y. unfold rleb. destruct (Rle_dec x y); split; intros; try assumption; try reflexivity; [discriminate|contradiction]. Qed.
Lemma rleb_false : forall x y, rleb x y = false <-> y < x.
Proof. intros x y. unfold rleb. destruct (Rle_dec x y); split; intros; try reflexivity; try discriminate; lra. Qed.

Lemma sqrt_cont : forall x, continuity_pt sqrt x.
Proof.
  intros x. destruct (Rlt_dec 0 x) as [H|H]; [apply sqrt_continuity_pt; exact H|].
  unfold continuity_pt, continue_in, limit1_in, limit_in. cbn [dist Base R_met]. intros eps He.
  exists (eps * eps). split; [apply Rmult_lt_0_compat; lra|]. intros y (_ & Hy). unfold R_dist in *.
  rewrite (sqrt_neg_0 x) by lra. rewrite Rminus_0_r. rewrite Rabs_pos_eq by apply sqrt_pos.
  assert (y < eps * eps). { apply Rabs_def2 in Hy. lra. }
  destruct (Rle_dec y 0) as [H1|H1]; [rewrite sqrt_neg_0 by lra; lra|].
  rewrite <- (sqrt_square eps) by lra. apply sqrt_lt_1; lra.
Qed.

(** The search over an interval. *)
Lemma binary_sound : forall fuel stop left lo hi r, lo <= hi -> binary fuel stop left lo hi = Ok r -> stop r = true /\ lo <= r <= hi.
Proof.
  induction fuel as [|k IH]; intros stop left lo hi r H E; cbn [binary] in E; [discriminate|].
  destruct (stop (lo + (hi - lo) / 2)) eqn:Es; [injection E as <-; split; [exact Es|lra]|].
  destruct (left (lo + (hi - lo) / 2)); apply IH in E; try lra; destruct E as (E1 & E2); split; try exact E1; lra.
Qed.
Lemma binary_stuck : forall fuel stop left lo hi, lo <= hi -> (forall x, lo <= x <= hi -> stop x = false) ->
  binary fuel stop left lo hi = Diverge.
Proof.
  induction fuel as [|k IH]; intros stop left lo hi H Hs; cbn [binary]; [reflexivity|].
  rewrite Hs by lra. destruct (left _); apply IH; try lra; intros x Hx; apply Hs; lra.
Qed.
Lemma binary_ok_or : forall fuel stop left lo hi, binary fuel stop left lo hi = Diverge \/ exists r, binary fuel stop left lo hi = Ok r.
Proof.
  induction fuel as [|k IH]; intros; cbn [binary]; [left; reflexivity|]. destruct (stop _); [right; eauto|]. destruct (left _); apply IH.
Qed.
Lemma binary_more : forall f f' stop left lo hi r, (f <= f')%nat -> binary f stop left lo hi = Ok r -> binary f' stop left lo hi = Ok r.
Proof.
  induction f as [|k IH]; intros f' stop left lo hi r Hf E; [discriminate E|]. destruct f' as [|k']; [lia|]. cbn [binary] in *.
  destruct (stop _); [exact E|]. destruct (left _); apply IH; try exact E; lia.
Qed.
Lemma halves : forall d a, 0 < d -> exists N, a / 2 ^ N <= d.
Proof.
  intros d a Hd. destruct (Rle_dec a d) as [H|H]; [exists 0%nat; cbn; lra|].
  destruct (Pow_x_infinity 2) with (b := a / d) as (N & HN).
  { rewrite Rabs_pos_eq; lra. }
  exists N. specialize (HN N (le_n N)). rewrite Rabs_pos_eq in HN by (apply pow_le; lra).
  assert (0 < 2 ^ N) by (apply pow_lt; lra). apply (Rmult_le_reg_r (2 ^ N)); [assumption|].
  replace (a / 2 ^ N * 2 ^ N) with a by (field; lra). apply Rge_le in HN.
  apply (Rmult_le_compat_l d) in HN; [|lra]. replace (d * (a / d)) with a in HN by (field; lra). exact HN.
Qed.
Lemma binary_ends : forall g stop left a b tol, a <= b -> 0 < tol -> (forall x, a <= x <= b -> continuity_pt g x) ->
  (forall x, stop x = rleb (Rabs (g x)) tol) -> (forall x, left x = rltb 0 (g x)) -> g a <= 0 -> 0 <= g b ->
  exists fuel r, binary fuel stop left a b = Ok r.
Proof.
  intros g stop left a b tol Hab Ht C Hs Hl Ha Hb.
  destruct (@Heine_cor2 g a b C (mkposreal tol Ht)) as (d & Hd). cbn [pos] in Hd.
  assert (d2 : 0 < pos d / 2) by (destruct d; cbn; lra).
  destruct (halves (pos d / 2) (b - a) d2) as (N & HN).
  assert (G : forall N lo hi, a <= lo -> lo <= hi -> hi <= b -> (hi - lo) / 2 ^ N <= pos d / 2 -> g lo <= 0 -> 0 <= g hi ->
              exists r, binary (S N) stop left lo hi = Ok r).
  { clear N HN. induction N as [|N IH]; intros lo hi H1 H2 H3 H4 H5 H6.
    - cbn [binary]. cbn [pow] in H4. set (mid := lo + (hi - lo) / 2).
      assert (M : lo <= mid <= hi) by (unfold mid; lra).
      assert (S : stop mid = true).
      { rewrite Hs. apply rleb_spec. apply Rlt_le. destruct (Rle_dec 0 (g mid)) as [P|P].
        - assert (X : Rabs (g mid - g lo) < tol) by (apply Hd; try lra; rewrite Rabs_pos_eq; lra).
          apply Rabs_def2 in X. apply Rabs_def1; lra.
        - assert (X : Rabs (g mid - g hi) < tol) by (apply Hd; try lra; rewrite Rabs_left1; lra).
          apply Rabs_def2 in X. apply Rabs_def1; lra. }
      rewrite S. eauto.
    - cbn [binary]. set (mid := lo + (hi - lo) / 2). assert (M : lo <= mid <= hi) by (unfold mid; lra).
      destruct (stop mid) eqn:S; [eauto|]. assert (P2 : 0 < 2 ^ N) by (apply pow_lt; lra).
      assert (W : (mid - lo) / 2 ^ N <= pos d / 2 /\ (hi - mid) / 2 ^ N <= pos d / 2).
      { cbn [pow] in H4. unfold mid. replace ((lo + (hi - lo) / 2 - lo) / 2 ^ N) with ((hi - lo) / (2 * 2 ^ N)) by (field; lra).
        replace ((hi - (lo + (hi - lo) / 2)) / 2 ^ N) with ((hi - lo) / (2 * 2 ^ N)) by (field; lra). split; exact H4. }
      rewrite Hl. destruct (rltb 0 (g mid)) eqn:E.
      + apply rltb_spec in E. apply IH; try lra; apply W.
      + apply rltb_false in E. apply IH; try lra; apply W. }
  exists (S N). apply G; try lra.
Qed.

Lemma doubling_sound : forall fuel stop lo hi l h, 0 <= lo <= hi -> doubling fuel stop lo hi = Ok (l, h) ->
  stop h = true /\ 0 <= l <= h /\ (l = lo \/ stop l = false).
Proof.
  induction fuel as [|k IH]; intros stop lo hi l h H E; cbn [doubling] in E; [discriminate|].
  destruct (stop hi) eqn:S; [injection E as <- <-; auto|].
  apply IH in E; [|lra]. destruct E as (E1 & E2 & E3). split; [exact E1|]. split; [exact E2|]. right. destruct E3 as [-> | E3]; assumption.
Qed.
Lemma doubling_more : forall f f' stop lo hi p, (f <= f')%nat -> doubling f stop lo hi = Ok p -> doubling f' stop lo hi = Ok p.
Proof.
  induction f as [|k IH]; intros f' stop lo hi p Hf E; [discriminate E|]. destruct f' as [|k']; [lia|]. cbn [doubling] in *.
  destruct (stop hi); [exact E|]. apply IH; [lia|exact E].
Qed.
Lemma doubling_ends : forall stop s0, (forall s, s0 <= s -> stop s = true) -> exists fuel p, doubling fuel stop 0 1 = Ok p.
Proof.
  intros stop s0 H.
  destruct (Pow_x_infinity 2) with (b := s0) as (N & HN). { rewrite Rabs_pos_eq; lra. }
  specialize (HN N (le_n N)). rewrite Rabs_pos_eq in HN by (apply pow_le; lra).
  assert (G : forall N lo hi, s0 <= 2 ^ N * hi -> exists fuel p, doubling fuel stop lo hi = Ok p).
  { clear N HN. induction N as [|N IH]; intros lo hi Hh.
    - exists 1%nat. cbn [doubling]. rewrite H by (cbn [pow] in Hh; lra). eauto.
    - destruct (IH hi (2 * hi)) as (fuel & p & E); [cbn [pow] in Hh; lra|].
      destruct (stop hi) eqn:S; [exists 1%nat; cbn [doubling]; rewrite S; eauto|]. exists (Datatypes.S fuel), p. cbn [doubling]. rewrite S. exact E. }
  apply (G N). lra.
Qed.

(** Numbers. *)
Lemma exp_from : forall k b, (1 <= k)%nat -> (1 + / INR k) ^ b <= exp (INR b / INR k).
Proof.
  intros k b Hk. assert (0 < INR k) by (apply lt_0_INR; lia).
  assert (E : exp (INR b / INR k) = exp (/ INR k) ^ b).
  { clear Hk. induction b as [|b IH]; [cbn [pow INR]; unfold Rdiv; rewrite Rmult_0_l, exp_0; reflexivity|].
    rewrite S_INR. cbn [pow]. rewrite <- IH, <- exp_plus. f_equal. field. lra. }
  rewrite E. apply pow_incr. split; [assert (0 < / INR k) by (apply Rinv_0_lt_compat; assumption); lra|].
  assert (0 < / INR k) by (apply Rinv_0_lt_compat; assumption). left. apply exp_ineq1. lra.
Qed.
Lemma exp9 : 2000 <= exp 9.
Proof. pose proof (exp_from 4 36 ltac:(lia)) as H. replace (INR 36 / INR 4) with 9 in H by (cbn [INR]; lra). cbn [INR] in H. lra. Qed.
Lemma exp12 : 40000 <= exp 12.
Proof. pose proof (exp_from 4 48 ltac:(lia)) as H. replace (INR 48 / INR 4) with 12 in H by (cbn [INR]; lra). cbn [INR] in H. lra. Qed.
Lemma ln_below : forall x y, 0 < x -> x <= exp y -> ln x <= y.
Proof. intros x y H1 H2. rewrite <- (ln_exp y). destruct (Rle_lt_or_eq_dec _ _ H2) as [H | ->]; [left; apply ln_increasing; assumption|right; reflexivity]. Qed.
Lemma exp_t : forall a t c, c <= exp a -> 0 <= c -> 0 <= t -> c * t <= exp (a + t).
Proof.
  intros a t c H1 H2 H3. rewrite exp_plus. apply Rmult_le_compat; try assumption.
  destruct (Req_dec t 0) as [-> | N]; [rewrite exp_0; lra|]. pose proof (exp_ineq1 t N). lra.
Qed.

Lemma keep_range : forall e, 0 <= e -> 1 / 2 <= sub_keep e < 1.
Proof.
  intros e He. unfold sub_keep. assert (1 <= exp e).
  { destruct (Req_dec e 0) as [-> | N]; [rewrite exp_0; lra|]. pose proof (exp_ineq1 e N). lra. }
  split.
  - apply (Rmult_le_reg_r (1 + exp e)); [lra|]. unfold Rdiv at 2. rewrite Rmult_assoc, Rinv_l by lra. lra.
  - apply (Rmult_lt_reg_r (1 + exp e)); [lra|]. unfold Rdiv. rewrite Rmult_assoc, Rinv_l by lra. lra.
Qed.
Lemma delta1_inv : forall n c, (1 <= n)%nat -> c / delta1 n = 10 * c * INR n.
Proof. intros n c Hn. assert (0 < INR n) by (apply lt_0_INR; lia). unfold delta1. field. lra. Qed.

Lemma sampled_le : forall n e, sampled n e <= INR n * sub_keep e.
Proof. intros n e. unfold sampled. pose proof (sqrt_pos (2 * INR n * sub_keep e * ln (2 / delta1 n))). lra. Qed.
Lemma sampled_pos : forall n e, (100 <= n)%nat -> 0 <= e -> 0 < sampled n e.
Proof.
  intros n e Hn He. assert (Hr : 100 <= INR n). { replace 100 with (INR 100) by (rewrite INR_IZR_INZ; reflexivity). apply le_INR. exact Hn. }
  destruct (keep_range e He) as (K1 & K2). unfold sampled. rewrite delta1_inv by lia.
  assert (L : ln (10 * 2 * INR n) <= 9 + INR n / 100).
  { apply ln_below; [lra|]. pose proof (exp_t 9 (INR n / 100) 2000 exp9 ltac:(lra) ltac:(lra)). lra. }
  set (x := INR n * sub_keep e) in *. assert (X : INR n / 2 <= x) by (unfold x; nra).
  replace (2 * INR n * sub_keep e * ln (10 * 2 * INR n)) with (2 * x * ln (10 * 2 * INR n)) by (unfold x; ring).
  assert (P : 0 <= ln (10 * 2 * INR n)). { left. rewrite <- ln_1. apply ln_increasing; lra. }
  set (y := ln (10 * 2 * INR n)) in *. clearbody y. clearbody x.
  assert (2 * x * y < x * x) by nra.
  assert (S : sqrt (2 * x * y) < sqrt (x * x)) by (apply sqrt_lt_1; nra). rewrite sqrt_square in S by lra. lra.
Qed.
Lemma factor_range : forall n e, (1 <= n)%nat -> 0 <= e -> 0 < sampled n e ->
  0 <= 1 - (INR n * sub_keep e - sampled n e) / INR n <= 1.
Proof.
  intros n e Hn He Hm. assert (0 < INR n) by (apply lt_0_INR; lia). destruct (keep_range e He) as (K1 & K2).
  pose proof (sampled_le n e) as SL. set (m := sampled n e) in *. clearbody m.
  assert (A : 0 <= (INR n * sub_keep e - m) / INR n).
  { unfold Rdiv. apply Rmult_le_pos; [lra|]. left. apply Rinv_0_lt_compat. assumption. }
  assert (B : (INR n * sub_keep e - m) / INR n <= 1).
  { apply (Rmult_le_reg_r (INR n)); [assumption|]. unfold Rdiv. rewrite Rmult_assoc, Rinv_l by lra. nra. }
  lra.
Qed.
Lemma epsilon1_nonneg : forall n e, (1 <= n)%nat -> 0 <= e -> 0 < sampled n e -> 0 <= epsilon1_value n e.
Proof.
  intros n e Hn He Hm. unfold epsilon1_value. apply Rmult_le_pos; [apply sqrt_pos|]. apply factor_range; assumption.
Qed.
Lemma epsilon1_some : forall n e, 0 < sampled n e -> epsilon1 n e = Some (epsilon1_value n e).
Proof. intros n e H. unfold epsilon1. rewrite (proj2 (rltb_spec _ _) H). reflexivity. Qed.

(** Continuity. *)
Lemma cont_keep : forall x, continuity_pt sub_keep x.
Proof.
  intros x. unfold sub_keep. apply (continuity_pt_div exp (fun e => 1 + exp e)).
  - apply derivable_continuous_pt. apply derivable_pt_exp.
  - apply (continuity_pt_plus (fun _ => 1) exp); [apply continuity_pt_const; intros u v; reflexivity|].
    apply derivable_continuous_pt. apply derivable_pt_exp.
  - pose proof (exp_pos x). lra.
Qed.
Lemma cont_scale : forall f c x, continuity_pt f x -> continuity_pt (fun y => c * f y) x.
Proof. intros f c x H. apply (continuity_pt_mult (fun _ => c) f); [apply continuity_pt_const; intros u v; reflexivity|exact H]. Qed.
Lemma cont_sampled : forall n x, continuity_pt (sampled n) x.
Proof.
  intros n x. unfold sampled. apply (continuity_pt_minus (fun e => INR n * sub_keep e) (fun e => sqrt (2 * INR n * sub_keep e * ln (2 / delta1 n)))).
  - apply cont_scale. apply cont_keep.
  - apply (continuity_pt_comp (fun e => 2 * INR n * sub_keep e * ln (2 / delta1 n)) sqrt); [|apply sqrt_cont].
    apply (continuity_pt_mult (fun e => 2 * INR n * sub_keep e) (fun _ => ln (2 / delta1 n))).
    + apply cont_scale. apply cont_keep.
    + apply continuity_pt_const. intros u v. reflexivity.
Qed.
Lemma cont_epsilon1 : forall n x, 0 < sampled n x -> continuity_pt (epsilon1_value n) x.
Proof.
  intros n x H. unfold epsilon1_value.
  apply (continuity_pt_mult (fun e => sqrt (32 * ln (4 / delta1 n) / sampled n e)) (fun e => 1 - (INR n * sub_keep e - sampled n e) / INR n)).
  - apply (continuity_pt_comp (fun e => 32 * ln (4 / delta1 n) / sampled n e) sqrt); [|apply sqrt_cont].
    apply (continuity_pt_div (fun _ => 32 * ln (4 / delta1 n)) (sampled n)).
    + apply continuity_pt_const. intros u v. reflexivity.
    + apply cont_sampled.
    + lra.
  - apply (continuity_pt_minus (fun _ => 1) (fun e => (INR n * sub_keep e - sampled n e) / INR n)).
    + apply continuity_pt_const. intros u v. reflexivity.
    + unfold Rdiv. apply (continuity_pt_mult (fun e => INR n * sub_keep e - sampled n e) (fun _ => / INR n)).
      * apply (continuity_pt_minus (fun e => INR n * sub_keep e) (sampled n)); [apply cont_scale; apply cont_keep|apply cont_sampled].
      * apply continuity_pt_const. intros u v. reflexivity.
Qed.

(** The first loop as a search. *)
Definition gap (n : nat) (epsilon x : R) : R := x + epsilon1_value n x - epsilon.
Lemma loop_is_search : forall fuel n epsilon lo hi, (forall x, lo <= x <= hi -> 0 < sampled n x) -> lo <= hi ->
  epsilon2_loop fuel n epsilon lo hi =
  binary fuel (fun x => rleb (Rabs (gap n epsilon x)) k_rate) (fun x => rltb 0 (gap n epsilon x)) lo hi.
Proof.
  induction fuel as [|k IH]; intros n epsilon lo hi Hs H; [reflexivity|]. cbn [epsilon2_loop binary].
  set (mid := lo + (hi - lo) / 2). assert (M : lo <= mid <= hi) by (unfold mid; lra).
  rewrite epsilon1_some by (apply Hs; exact M).
  set (st := fun x => rleb (Rabs (gap n epsilon x)) k_rate) in *. set (lf := fun x => rltb 0 (gap n epsilon x)) in *.
  change (gap n epsilon mid) with (mid + epsilon1_value n mid - epsilon).
  assert (A : Rabs (epsilon - epsilon1_value n mid - mid) = Rabs (mid + epsilon1_value n mid - epsilon)).
  { rewrite <- Rabs_Ropp. f_equal. ring. }
  rewrite A. destruct (rleb (Rabs (mid + epsilon1_value n mid - epsilon)) k_rate) eqn:E.
  - apply rleb_spec in E. rewrite (proj2 (rltb_false _ _) E). reflexivity.
  - apply rleb_false in E. rewrite (proj2 (rltb_spec _ _) E). assert (0 < k_rate) by (unfold k_rate; lra).
    destruct (rltb 0 (mid + epsilon1_value n mid - epsilon)) eqn:F.
    + apply rltb_spec in F. rewrite (proj2 (rltb_false 0 (epsilon - epsilon1_value n mid - mid))) by lra.
      apply IH; [intros x Hx; apply Hs; lra|lra].
    + apply rltb_false in F. assert (epsilon1_value n mid + mid - epsilon <> 0).
      { intros Z. replace (mid + epsilon1_value n mid - epsilon) with 0 in E by lra. rewrite Rabs_R0 in E. lra. }
      rewrite (proj2 (rltb_spec 0 (epsilon - epsilon1_value n mid - mid))) by lra.
      apply IH; [intros x Hx; apply Hs; lra|lra].
Qed.
