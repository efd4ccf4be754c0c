(** Pocklington's criterion, and the primality of 2^255 - 19. *)
From Coq Require Import ZArith Znumtheory Zpow_facts List Lia.
From Verif Require Import EllFermat.
Import ListNotations.
Local Open Scope Z_scope.

(** * Powers modulo n *)

Fixpoint powmod (a : Z) (e : positive) (n : Z) : Z :=
  match e with
  | xH => a mod n
  | xO e => let r := powmod a e n in r * r mod n
  | xI e => let r := powmod a e n in (r * r mod n) * a mod n
  end.
(** With any function that keeps the residue in place of the remainder. *)
Fixpoint powred (red : Z -> Z) (a : Z) (e : positive) : Z :=
  match e with
  | xH => a
  | xO e => let r := powred red a e in red (r * r)
  | xI e => let r := powred red a e in red (red (r * r) * a)
  end.
Lemma powred_ok : forall red n a e, 0 < n -> (forall x, red x mod n = x mod n) -> powred red a e mod n = a ^ Zpos e mod n.
Proof.
  intros red n a e Hn R. induction e as [e IH|e IH|]; cbn [powred]; rewrite ?R.
  - rewrite Zmult_mod, R, (Zmult_mod (powred red a e)), IH, <- !Zmult_mod. replace (Zpos e~1) with (Zpos e + Zpos e + 1) by lia. rewrite !Z.pow_add_r, Z.pow_1_r by lia.
    rewrite <- (Zmult_mod_idemp_l (_ * _) a), <- Zmult_mod, Zmult_mod_idemp_l. reflexivity.
  - rewrite Zmult_mod, IH, <- Zmult_mod, <- Z.pow_add_r by lia. f_equal. f_equal. lia.
  - rewrite Z.pow_1_r. reflexivity.
Qed.
Lemma powmod_ok : forall a n e, 0 < n -> powmod a e n = a ^ Zpos e mod n.
Proof.
  intros a n e Hn. rewrite <- (powred_ok (fun x => x mod n) n a e Hn) by (intros x; apply Z.mod_mod; lia).
  induction e as [e IH|e IH|]; cbn [powmod powred]; rewrite ?IH, ?Z.mod_mod by lia; [|rewrite <- Zmult_mod; reflexivity|reflexivity].
  rewrite <- (Zmult_mod (powred _ a e) (powred _ a e)). reflexivity.
Qed.

(** * Prime divisors *)

Lemma prime_divisor : forall n, 1 < n -> exists r, prime r /\ (r | n).
Proof.
  intros n. remember (Z.to_nat n) as k eqn:Ek. revert n Ek. induction k as [k IH] using lt_wf_ind. intros n -> Hn.
  destruct (prime_dec n) as [P|P]; [exists n; split; [exact P|apply Z.divide_refl]|].
  destruct (not_prime_divide n Hn P) as (m & Hm & Hd).
  destruct (IH (Z.to_nat m) ltac:(lia) m eq_refl ltac:(lia)) as (r & Pr & Dr). exists r. split; [exact Pr|]. exact (Z.divide_trans _ _ _ Dr Hd).
Qed.
(** A composite number has a prime divisor up to its root. *)
Lemma small_divisor : forall n, 1 < n -> ~ prime n -> exists r, prime r /\ (r | n) /\ r * r <= n.
Proof.
  intros n Hn P. destruct (not_prime_divide n Hn P) as (m & Hm & (k & Hk)).
  assert (H : exists d, 1 < d /\ d * d <= n /\ (d | n)).
  { destruct (Z_le_gt_dec m k) as [L|L].
    - exists m. split; [lia|]. split; [nia|]. exists k. exact Hk.
    - exists k. split; [nia|]. split; [nia|]. exists m. lia. }
  destruct H as (d & H1 & H2 & H3). destruct (prime_divisor d H1) as (r & Pr & Dr). exists r. split; [exact Pr|].
  split; [exact (Z.divide_trans _ _ _ Dr H3)|]. assert (r <= d) by (apply Z.divide_pos_le; [lia|exact Dr]).
  destruct Pr as [Pr _]. nia.
Qed.

Definition trial (n : Z) : bool := forallb (fun d => negb (n mod Z.of_nat d =? 0)) (seq 2 (Z.to_nat (Z.sqrt n) - 1)).
Lemma trial_ok : forall n, 1 < n -> trial n = true -> prime n.
Proof.
  intros n Hn H. destruct (prime_dec n) as [P|P]; [exact P|exfalso].
  destruct (small_divisor n Hn P) as (r & (Pr & _) & Dr & Hr). unfold trial in H. rewrite forallb_forall in H.
  specialize (H (Z.to_nat r)). rewrite Z2Nat.id in H by lia. rewrite (Zdivide_mod _ _ Dr) in H. cbn in H. discriminate H.
  apply in_seq. assert (r <= Z.sqrt n) by (apply Z.sqrt_le_square; lia). lia.
Qed.

(** * Fermat modulo a prime *)

Lemma fermat1 : forall r a, prime r -> a mod r <> 0 -> a ^ (r - 1) mod r = 1.
Proof.
  intros r a Pr Ha. pose proof (fermat_Z r a Pr) as F. pose proof (prime_ge_2 r Pr) as G.
  replace r with (Z.succ (r - 1)) in F at 1 by lia. rewrite Z.pow_succ_r in F by lia.
  assert (D : (r | a * (a ^ (r - 1) - 1))).
  { apply Z.mod_divide; [lia|]. rewrite Z.mul_sub_distr_l, Z.mul_1_r. rewrite Zminus_mod, F, Z.sub_diag. apply Z.mod_0_l. lia. }
  destruct (prime_mult r Pr _ _ D) as [D'|D']; [exfalso; apply Ha; apply Zdivide_mod; exact D'|].
  destruct D' as (k & Hk). replace (a ^ (r - 1)) with (1 + k * r) by lia. rewrite Z.mod_add by lia. apply Z.mod_small. lia.
Qed.

(** A number whose q-th power and (r-1)-th power are 1 modulo r is 1 modulo r if q does not divide r - 1. *)
Lemma pow_1_mod : forall b k r, 1 < r -> 0 <= k -> b mod r = 1 -> b ^ k mod r = 1.
Proof. intros b k r Hr Hk H. rewrite Zpower_mod by lia. rewrite H, Z.pow_1_l by lia. apply Z.mod_small. lia. Qed.
Lemma order_prime : forall q r b, prime q -> 1 < r -> b ^ q mod r = 1 -> b ^ (r - 1) mod r = 1 -> b mod r <> 1 -> (q | r - 1).
Proof.
  intros q r b Pq Hr Hq H1 Hb. destruct (Zdivide_dec q (r - 1)) as [D|D]; [exact D|exfalso].
  pose proof (prime_ge_2 q Pq) as Gq.
  destruct (rel_prime_bezout q (r - 1) (prime_rel_prime q Pq (r - 1) D)) as [u v E].
  (* make both coefficients of one sign *)
  set (t := Z.abs u + Z.abs v). set (u' := u + t * (r - 1)). set (v' := t * q - v).
  assert (E' : u' * q = v' * (r - 1) + 1) by (unfold u', v'; nia).
  assert (T0 : 0 <= t) by (unfold t; lia).
  assert (0 <= u') by (assert (t * 1 <= t * (r - 1)) by (apply Z.mul_le_mono_nonneg_l; lia); unfold u', t in *; lia).
  assert (0 <= v') by (assert (t * 1 <= t * q) by (apply Z.mul_le_mono_nonneg_l; lia); unfold v', t in *; lia). clearbody u' v'. clear T0 t.
  apply Hb. assert (X : b ^ (u' * q) mod r = 1) by (rewrite Z.mul_comm, Z.pow_mul_r by lia; apply pow_1_mod; lia).
  rewrite E' in X. rewrite Z.pow_add_r, Z.pow_1_r in X by nia. rewrite Zmult_mod in X.
  rewrite (Z.mul_comm v'), Z.pow_mul_r, (pow_1_mod (b ^ (r - 1))) in X by lia. rewrite Z.mul_1_l, Z.mod_mod in X by lia. exact X.
Qed.

(** * Pocklington: n - 1 has the prime factor q, and no small 1 + k q divides n *)

Theorem pocklington : forall n q a K, 1 < n -> prime q -> (q | n - 1) -> a ^ (n - 1) mod n = 1 -> Z.gcd (a ^ ((n - 1) / q) - 1) n = 1 ->
  0 <= K -> n < (K * q + 1) * (K * q + 1) -> (forall k, 0 < k < K -> n mod (k * q + 1) <> 0) -> prime n.
Proof.
  intros n q a K Hn P Dq W1 W2 HK B N. destruct (prime_dec n) as [X|X]; [exact X|exfalso].
  destruct (small_divisor n Hn X) as (r & Pr & Dr & Hr). pose proof (prime_ge_2 r Pr) as Gr. pose proof (prime_ge_2 q P) as Gq.
  assert (M : forall x, x mod n = 1 -> x mod r = 1).
  { intros x E. destruct Dr as (k & Hk). rewrite (Z.div_mod x n) by lia. rewrite E, Hk.
    replace (k * r * (x / (k * r)) + 1) with (1 + k * (x / (k * r)) * r) by ring. rewrite Z.mod_add by lia. apply Z.mod_small. lia. }
  assert (A : (q | r - 1)).
  { destruct Dq as (m & Hm). assert (Em : (n - 1) / q = m) by (rewrite Hm; apply Z.div_mul; lia). rewrite Em in W2.
    assert (0 < m) by (clear - Hm Hn Gq; nia). apply (order_prime q r (a ^ m) P ltac:(lia)).
    - rewrite <- Z.pow_mul_r by lia. rewrite <- Hm. apply M. exact W1.
    - apply fermat1; [exact Pr|]. intros E. assert (Y : a ^ (n - 1) mod r = 1) by (apply M; exact W1).
      rewrite Hm, Z.pow_mul_r, Zpower_mod, E, Z.pow_0_l, Z.mod_0_l in Y by lia. discriminate.
    - intros E. assert (G : (r | Z.gcd (a ^ m - 1) n)).
      { apply Z.gcd_greatest; [|exact Dr]. apply Z.mod_divide; [lia|]. rewrite Zminus_mod, E, Z.mod_1_l by lia. reflexivity. }
      rewrite W2 in G. apply Z.divide_1_r_nonneg in G; lia. }
  destruct A as (k & Hk). assert (E : r = k * q + 1) by lia. assert (0 < k) by (clear - E Gr Gq; nia).
  destruct (Z_lt_le_dec k K) as [L|L].
  - apply (N k); [lia|]. rewrite <- E. apply Zdivide_mod. exact Dr.
  - assert (K * q <= k * q) by (apply Z.mul_le_mono_nonneg_r; lia). subst r.
    assert (0 <= K * q) by (apply Z.mul_nonneg_nonneg; lia). assert ((K * q + 1) * (K * q + 1) <= (k * q + 1) * (k * q + 1)) by (apply Z.mul_le_mono_nonneg; lia). lia.
Qed.

(** The hypotheses, computed with base 2: b = 2^((n-1)/q), b^q = 1, and b - 1 coprime to n. *)
Definition pock_check (red : Z -> Z) (n q : Z) (K : nat) : bool :=
  match (n - 1) / q, q with
  | Zpos m, Zpos q' =>
    let b := powred red 2 m in
    (powred red b q' mod n =? 1) && (Z.gcd ((b - 1) mod n) n =? 1) && ((n - 1) mod q =? 0) && (n <? (Z.of_nat K * q + 1) * (Z.of_nat K * q + 1))
    && forallb (fun k => negb (n mod (Z.of_nat k * q + 1) =? 0)) (seq 1 (K - 1))
  | _, _ => false
  end%bool.
Lemma gcd_mod' : forall a n, 0 < n -> Z.gcd (a mod n) n = Z.gcd a n.
Proof. intros a n Hn. rewrite Z.gcd_mod by lia. apply Z.gcd_comm. Qed.
Lemma pock_check_ok : forall red n q K, 1 < n -> prime q -> (forall x, red x mod n = x mod n) -> pock_check red n q K = true -> prime n.
Proof.
  intros red n q K Hn P R H. unfold pock_check in H. destruct ((n - 1) / q) as [|m|m] eqn:Em; try discriminate. destruct q as [|q|q]; try discriminate.
  rewrite !Bool.andb_true_iff, !Z.eqb_eq, Z.ltb_lt, forallb_forall in H. destruct H as ((((H1 & H2) & H3) & H4) & H5).
  assert (D : (Zpos q | n - 1)) by (apply Z.mod_divide; [lia|exact H3]).
  assert (E : n - 1 = Zpos m * Zpos q) by (rewrite <- Em; rewrite Z.mul_comm; apply Z_div_exact_2; [lia|exact H3]).
  apply (pocklington n (Zpos q) 2 (Z.of_nat K) Hn P D).
  - rewrite E, Z.pow_mul_r, Zpower_mod by lia. rewrite <- (powred_ok red n 2 m) by (lia || exact R). rewrite <- Zpower_mod by lia.
    rewrite <- (powred_ok red n _ q) by (lia || exact R). exact H1.
  - rewrite Em. transitivity (Z.gcd ((powred red 2 m - 1) mod n) n); [|exact H2]. rewrite <- (gcd_mod' (2 ^ Z.pos m - 1)) by lia. f_equal.
    rewrite Zminus_mod, (Zminus_mod (powred red 2 m)), (powred_ok red n 2 m) by (lia || exact R). reflexivity.
  - lia.
  - exact H4.
  - intros k Hk X. specialize (H5 (Z.to_nat k)). rewrite Z2Nat.id in H5 by lia. rewrite X in H5. discriminate H5. apply in_seq. lia.
Qed.

(** * 2^255 - 19 *)

Definition p25519 : Z := 2 ^ 255 - 19.
(** 2^255 is 19 modulo p. *)
Definition fold19 (x : Z) : Z := Z.land x (2 ^ 255 - 1) + 19 * Z.shiftr x 255.
Lemma fold19_ok : forall x, fold19 x mod p25519 = x mod p25519.
Proof.
  intros x. unfold fold19, p25519. change (2 ^ 255 - 1) with (Z.ones 255). rewrite Z.land_ones, Z.shiftr_div_pow2 by lia.
  rewrite (Z.div_mod x (2 ^ 255)) at 3 by discriminate. replace (2 ^ 255 * (x / 2 ^ 255) + x mod 2 ^ 255) with (x mod 2 ^ 255 + 19 * (x / 2 ^ 255) + x / 2 ^ 255 * (2 ^ 255 - 19)) by ring.
  rewrite Z.mod_add by discriminate. reflexivity.
Qed.

Lemma prime_a : prime 1919519569386763.
Proof. apply (pock_check_ok (fun x => x mod 1919519569386763) _ 8574133 6); [reflexivity|apply trial_ok; vm_compute; reflexivity|intros; apply Z.mod_mod; discriminate|vm_compute; reflexivity]. Qed.
Lemma prime_b : prime 75445702479781427272750846543864801.
Proof. apply (pock_check_ok (fun x => x mod 75445702479781427272750846543864801) _ 1919519569386763 144); [reflexivity|exact prime_a|intros; apply Z.mod_mod; discriminate|vm_compute; reflexivity]. Qed.
Lemma prime_c : prime 74058212732561358302231226437062788676166966415465897661863160754340907.
Proof.
  apply (pock_check_ok (fun x => x mod 74058212732561358302231226437062788676166966415465897661863160754340907) _ 75445702479781427272750846543864801 4);
    [reflexivity|exact prime_b|intros; apply Z.mod_mod; discriminate|vm_compute; reflexivity].
Qed.
Theorem prime_25519 : prime p25519.
Proof.
  apply (pock_check_ok (fun x => fold19 (fold19 x)) _ 74058212732561358302231226437062788676166966415465897661863160754340907 1);
    [reflexivity|exact prime_c|intros; rewrite !fold19_ok; reflexivity|vm_compute; reflexivity].
Qed.
Print Assumptions prime_25519.
