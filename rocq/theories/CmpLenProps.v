(** C50: comparison lengths. *)
From Coq Require Import NArith Bool Lia.
From Verif Require Import Base CmpLenModel CmpLenSpec CmpLenProofs.
Local Open Scope N_scope.

Lemma ceil_log2_covers : forall lg n, 0 < n -> n <= 2 ^ 47 -> close_log2 32 n (lg n) ->
  exists l, ceil_log2 lg n = Ok l /\ n <= 2 ^ l.
Proof.
  intros lg n Hn Hb Hc. unfold ceil_log2. destruct (N.eqb_spec n 0); [lia|].
  eexists. split; [reflexivity|]. set (c := (lg n + (log_unit - 1)) / log_unit).
  assert (Ha : lg n <= c * 2 ^ 52).
  { unfold c, log_unit. change (2 ^ 52) with 4503599627370496. generalize (lg n). intros v.
    pose proof (N.div_mod (v + (4503599627370496 - 1)) 4503599627370496 ltac:(lia)).
    pose proof (N.mod_lt (v + (4503599627370496 - 1)) 4503599627370496 ltac:(lia)).
    generalize dependent ((v + (4503599627370496 - 1)) / 4503599627370496).
    generalize dependent ((v + (4503599627370496 - 1)) mod 4503599627370496). intros. lia. }
  clearbody c. destruct (N.le_gt_cases n (2 ^ c)) as [H|H]; [exact H|exfalso].
  assert (Hcc : c < 47).
  { apply (N.pow_lt_mono_r_iff 2); [lia|]. lia. }
  assert (G : 32 <= 2 ^ (52 - c)) by (change 32 with (2 ^ 5); apply N.pow_le_mono_r; lia).
  assert (A : 2 ^ (c * 2 ^ 52 + 2 ^ (52 - c)) <= n ^ (2 ^ 52)).
  { eapply N.le_trans; [apply log2_gap; lia|]. apply N.pow_le_mono_l. lia. }
  destruct Hc as [Hc _].
  apply (N.lt_irrefl (n ^ (2 ^ 52))). eapply N.lt_le_trans; [exact Hc|].
  eapply N.le_trans; [|exact A]. clear A Hc. apply N.pow_le_mono_r; [discriminate|]. lia.
Qed.

Lemma bytes_cover : forall bits, bits <= 8 * ((bits + 7) / 8).
Proof.
  intros bits. pose proof (N.div_mod (bits + 7) 8 ltac:(lia)). pose proof (N.mod_lt (bits + 7) 8 ltac:(lia)).
  generalize dependent ((bits + 7) / 8). generalize dependent ((bits + 7) mod 8). intros. lia.
Qed.

(** With a log2 accurate to one unit in the last place, GetCompareBytesLength meets the
    union bound for all sizes up to 2^47. *)
Theorem C50_compare_bytes : forall lg a b stats,
  1 <= a <= 2 ^ 47 -> 1 <= b <= 2 ^ 47 -> close_log2 32 a (lg a) -> close_log2 32 b (lg b) ->
  exists len, get_compare_bytes_length lg a b stats = Ok len /\ collision_bound a b stats len.
Proof.
  intros lg a b s Ha Hb Ca Cb.
  destruct (ceil_log2_covers lg a) as (la & Ea & La); [lia|lia|exact Ca|].
  destruct (ceil_log2_covers lg b) as (lb & Eb & Lb); [lia|lia|exact Cb|].
  unfold get_compare_bytes_length. rewrite Ea. cbn [bind]. rewrite Eb. cbn [bind].
  eexists. split; [reflexivity|]. unfold collision_bound.
  eapply N.le_trans; [|apply N.pow_le_mono_r; [lia|apply bytes_cover]].
  rewrite !N.pow_add_r. apply N.mul_le_mono_r. apply N.mul_le_mono; assumption.
Qed.
Print Assumptions C50_compare_bytes.

(** The same for RR22's truncation (any statistical parameter up to 80); both parties
    compute the same length, between 1 and 16, and malicious mode never truncates. *)
Theorem C50_truncate_size : forall lg a b ssp malicious compress,
  1 <= a -> 1 <= b -> a * b <= 2 ^ 47 -> 1 <= ssp <= 80 -> close_log2 32 (a * b) (lg (a * b)) ->
  exists len, exchange_truncate_size lg a b ssp malicious compress = Ok len /\
    exchange_truncate_size lg b a ssp malicious compress = Ok len /\
    1 <= len <= 16 /\ collision_bound a b ssp len /\ (malicious = true -> len = 16).
Proof.
  intros lg a b ssp mal comp Ha Hb Hp Hs Hc. unfold exchange_truncate_size, compute_truncate_size.
  rewrite (N.mul_comm b a).
  assert (Big : collision_bound a b ssp 16).
  { unfold collision_bound. eapply N.le_trans with (2 ^ 47 * 2 ^ 80).
    - apply N.mul_le_mono; [exact Hp|]. apply N.pow_le_mono_r; lia.
    - rewrite <- N.pow_add_r. apply N.pow_le_mono_r; lia. }
  destruct comp; [|exists 16; repeat split; auto; lia].
  destruct mal; [exists 16; repeat split; auto; lia|].
  assert (W : u64 (a * b) = a * b).
  { unfold u64. apply N.mod_small. eapply N.le_lt_trans; [exact Hp|reflexivity]. }
  rewrite W. destruct (ceil_log2_covers lg (a * b)) as (l & E & L); [nia|exact Hp|exact Hc|].
  rewrite E. cbn [bind]. eexists. split; [reflexivity|]. split; [reflexivity|].
  assert (X : 1 <= (ssp + l + 7) / 8) by (apply N.div_le_lower_bound; lia).
  split; [lia|]. split; [|discriminate].
  destruct (N.min_spec ((ssp + l + 7) / 8) 16) as [[_ ->]|[_ ->]]; [|exact Big].
  unfold collision_bound. eapply N.le_trans; [|apply N.pow_le_mono_r; [lia|apply bytes_cover]].
  rewrite N.pow_add_r, N.mul_comm. apply N.mul_le_mono_l. exact L.
Qed.
Print Assumptions C50_truncate_size.

(** ECDH PSI compares 12 bytes: enough exactly as long as |A| |B| <= 2^56. *)
Theorem C50_final_compare_bytes : forall a b,
  collision_bound a b 40 final_compare_bytes <-> a * b <= 2 ^ 56.
Proof.
  intros a b. unfold collision_bound, final_compare_bytes. change (2 ^ (8 * 12)) with (2 ^ 56 * 2 ^ 40).
  symmetry. apply N.mul_le_mono_pos_r. reflexivity.
Qed.
Print Assumptions C50_final_compare_bytes.

(** exact logarithms of powers of two meet the accuracy hypothesis *)
Lemma close_pow2 : forall err k, 0 < err -> close_log2 err (2 ^ k) (k * 2 ^ 52).
Proof.
  intros err k He. unfold close_log2. rewrite <- N.pow_mul_r. split.
  - apply N.pow_lt_mono_r; [lia|]. lia.
  - rewrite <- N.pow_add_r. apply N.pow_lt_mono_r; [lia|]. lia.
Qed.
Lemma close_49 : close_log2 16 (2 ^ 49 + 1) (49 * 2 ^ 52).
Proof.
  unfold close_log2. assert (E : 2 ^ 52 = 2 ^ 49 * 8) by reflexivity.
  assert (P : 0 < 2 ^ 49) by reflexivity.
  assert (Q : forall x z, 0 < x -> x = 2 ^ 49 -> z = x * 8 -> (x + 1) ^ z < 2 ^ (49 * z + 16)).
  { intros x z Hx Ex Ez. rewrite N.pow_add_r, N.pow_mul_r, <- Ex. subst z. clear Ex.
    rewrite !(N.pow_mul_r _ x 8). change (2 ^ 16) with (4 ^ 8). rewrite <- N.pow_mul_l.
    apply N.pow_lt_mono_l; [lia|]. rewrite N.mul_comm. apply pow_frac_upper. exact Hx. }
  split.
  - apply (Q (2 ^ 49) (2 ^ 52)); [reflexivity|reflexivity|exact E].
  - assert (R : forall x z, x = 2 ^ 49 -> 2 ^ (49 * z) < (x + 1) ^ z * 2 ^ 16).
    { intros x z Ex. rewrite N.pow_mul_r, <- Ex.
      assert (x ^ z <= (x + 1) ^ z) by (apply N.pow_le_mono_l; lia).
      assert (0 < x ^ z) by (apply N.neq_0_lt_0, N.pow_nonzero; subst x; discriminate).
      change (2 ^ 16) with 65536. nia. }
    apply (R (2 ^ 49) (2 ^ 52)). reflexivity.
Qed.

Example C50_example :
  let lg n := N.log2 n * 2 ^ 52 in
  close_log2 32 (2 ^ 20) (lg (2 ^ 20)) /\
  get_compare_bytes_length lg (2 ^ 20) (2 ^ 20) 40 = Ok 10 /\
  exchange_truncate_size lg (2 ^ 20) (2 ^ 20) 40 false true = Ok 10.
Proof. cbv zeta. split; [apply close_pow2; lia|]. split; reflexivity. Qed.

(** Beyond that range the rounding of log2 loses the bound: log2 (2^49 + 1) correctly
    rounded (error below half a unit in the last place) is 49. *)
Theorem C50_large_sizes_refuted : exists lg a b len,
  close_log2 16 a (lg a) /\ close_log2 16 b (lg b) /\ a < 2 ^ 53 /\
  get_compare_bytes_length lg a b 40 = Ok len /\ ~ collision_bound a b 40 len.
Proof.
  exists (fun n => N.log2 n * 2 ^ 52), (2 ^ 49 + 1), (2 ^ 7), 12.
  split; [exact close_49|]. split; [apply close_pow2; lia|]. split; [reflexivity|].
  split; [reflexivity|]. unfold collision_bound. intros H. vm_compute in H. apply H. reflexivity.
Qed.
Print Assumptions C50_large_sizes_refuted.

(** The product of the sizes can wrap, and an empty side reaches log2 (0). *)
Theorem C50_truncate_wrap_refuted : exists lg a b len,
  close_log2 16 (u64 (a * b)) (lg (u64 (a * b))) /\
  exchange_truncate_size lg a b 40 false true = Ok len /\ len < 16 /\ ~ collision_bound a b 40 len.
Proof.
  exists (fun n => N.log2 n * 2 ^ 52), (2 ^ 32), (2 ^ 32 + 1), 9.
  split; [apply (close_pow2 16 32); lia|]. split; [reflexivity|]. split; [reflexivity|].
  unfold collision_bound. intros H. vm_compute in H. apply H. reflexivity.
Qed.
Print Assumptions C50_truncate_wrap_refuted.
Theorem C50_empty_side_refuted : exists n ssp, forall lg, exchange_truncate_size lg 0 n ssp false true = UB.
Proof. exists 1000, 40. reflexivity. Qed.
Print Assumptions C50_empty_side_refuted.
