(** expand_message_xmd, hash_to_field and the whole of HashToCurveElligator2. *)
From Coq Require Import List Arith NArith ZArith Znumtheory Lia Setoid Morphisms.
From Verif Require Import Base Text EllPrime EllField EllModel EllSpec EllProofs1 EllProofs2 EllProofs3 EllProofs4.
Import ListNotations.
Local Open Scope Z_scope.

Section H2c.
Variable sha : bytes -> bytes.
Hypothesis sha_len : forall m, length (sha m) = 64%nat.

Lemma i2osp_1 : forall x, (x < 256)%nat -> i2osp (N.of_nat x) 1 = Ok [N.of_nat x].
Proof.
  intros x H. unfold i2osp. replace (_ <? _)%N with true by (symmetry; apply N.ltb_lt; change (256 ^ N.of_nat 1)%N with 256%N; lia).
  unfold enforce. cbn [Nat.ltb Nat.leb]. cbn [be_bytes]. rewrite !rev_app_distr. cbn [rev app firstn]. f_equal. f_equal.
  rewrite Z.mod_small by lia. lia.
Qed.
Lemma i2osp_2 : forall x, (N.of_nat x < 65536)%N -> i2osp (N.of_nat x) 2 = Ok [N.of_nat x / 256; N.of_nat x mod 256]%N.
Proof.
  intros x H. unfold i2osp. replace (_ <? _)%N with true by (symmetry; apply N.ltb_lt; change (256 ^ N.of_nat 2)%N with 65536%N; lia).
  unfold enforce. cbn [Nat.ltb Nat.leb]. cbn [be_bytes]. rewrite !rev_app_distr. cbn [rev app firstn]. f_equal.
  rewrite nat_N_Z. f_equal; [|f_equal].
  - rewrite Z.mod_small.
    + rewrite Z2N.inj_div by lia. f_equal. lia.
    + split; [apply Z.div_pos; lia|]. apply Z.div_lt_upper_bound; lia.
  - rewrite Z2N.inj_mod by lia. f_equal. lia.
Qed.
Lemma xor_ok : forall b b0, length b = length b0 -> map (fun xy => N.lxor (fst xy) (snd xy)) (combine b b0) = xor_os b0 b.
Proof.
  unfold xor_os. induction b as [|x b IH]; intros [|y b0] H; try discriminate; [reflexivity|].
  cbn [combine map length seq]. f_equal; [cbn; apply N.lxor_comm|]. rewrite IH by (cbn in H; lia). rewrite <- seq_shift, map_map. reflexivity.
Qed.
Lemma xmd_len : forall msg dst len k, length (xmd sha msg dst len k) = 64%nat.
Proof. intros msg dst len [|k]; cbn [xmd]; apply sha_len. Qed.
Lemma xmd_loop : forall msg dst len n, (n < 255)%nat ->
  fold_left (fun s i => xmd_step sha (xmd0 sha msg dst len) (dst_prime dst) i s) (seq 2 n) (xmd sha msg dst len 0, xmd sha msg dst len 0)
  = (xmd sha msg dst len n, concat (map (xmd sha msg dst len) (seq 0 (S n)))).
Proof.
  intros msg dst len. induction n as [|n IH]; intros H; [cbn [seq fold_left map concat]; rewrite app_nil_r; reflexivity|].
  rewrite seq_S, fold_left_app, IH by lia. cbn [fold_left]. unfold xmd_step. rewrite (seq_S (S n)), map_app, concat_app. cbn [map concat plus].
  rewrite app_nil_r. rewrite xor_ok by (rewrite xmd_len; unfold xmd0; rewrite sha_len; reflexivity).
  change (xmd sha msg dst len (S n)) with (sha (xor_os (xmd0 sha msg dst len) (xmd sha msg dst len n) ++ [N.of_nat (S (S n))] ++ dst_prime dst)).
  rewrite N.mod_small by lia. reflexivity.
Qed.
Lemma concat_len : forall msg dst len l, length (concat (map (xmd sha msg dst len) l)) = (64 * length l)%nat.
Proof. intros msg dst len. induction l as [|a l IH]; [reflexivity|]. cbn [map concat length]. rewrite app_length, xmd_len, IH. lia. Qed.
Theorem expand_ok : forall msg dst len, (16 <= length dst <= 255)%nat -> (len <= 255 * 64)%nat ->
  exists u, expand_message_xmd sha msg dst len = Ok u /\ expanded sha msg dst len u /\ length u = len.
Proof.
  intros msg dst len HD HL. unfold expand_message_xmd. set (ell := ((len + 63) / 64)%nat).
  assert (HE : (len <= 64 * ell /\ 64 * ell < len + 64)%nat).
  { pose proof (Nat.div_mod (len + 63) 64 ltac:(lia)) as D. pose proof (Nat.mod_upper_bound (len + 63) 64 ltac:(lia)) as D'. fold ell in D. lia. }
  assert (HE' : (ell <= 255)%nat) by lia.
  replace (ell <=? 255)%nat with true by (symmetry; apply Nat.leb_le; exact HE').
  replace (N.of_nat len <=? 65535)%N with true by (symmetry; apply N.leb_le; lia).
  replace (16 <=? length dst)%nat with true by (symmetry; apply Nat.leb_le; lia).
  replace (length dst <=? 255)%nat with true by (symmetry; apply Nat.leb_le; lia).
  unfold enforce at 1 2 3 4. rewrite i2osp_1 by lia. cbn [bind]. rewrite i2osp_2 by lia. cbn [bind]. fold (dst_prime dst). cbv zeta. fold (xmd0 sha msg dst len).
  change (sha (xmd0 sha msg dst len ++ [1%N] ++ dst_prime dst)) with (xmd sha msg dst len 0).
  rewrite xmd_loop by lia. eexists. split; [reflexivity|].
  assert (E : firstn len (concat (map (xmd sha msg dst len) (seq 0 (S (ell - 1))))) = firstn len (concat (map (xmd sha msg dst len) (seq 0 ell)))).
  { destruct ell as [|e]; [|replace (S (S e - 1)) with (S e) by lia; reflexivity]. replace len with 0%nat by lia. reflexivity. }
  rewrite E, concat_len, seq_length. replace (len - _)%nat with 0%nat by lia. cbn [repeat]. rewrite app_nil_r. split.
  - exists ell. split; [lia|]. split; [lia|reflexivity].
  - rewrite firstn_length, concat_len, seq_length. lia.
Qed.
Theorem expand_reject : forall msg dst len, ~ (16 <= length dst <= 255)%nat -> expand_message_xmd sha msg dst len = Throw.
Proof.
  intros msg dst len H. unfold expand_message_xmd, enforce. destruct (_ <=? 255)%nat; [|reflexivity]. destruct (_ <=? 65535)%N; [|reflexivity].
  destruct (Nat.leb_spec 16 (length dst)); [|reflexivity]. destruct (Nat.leb_spec (length dst) 255); [lia|reflexivity].
Qed.
Lemma expanded_unique : forall msg dst len u v, expanded sha msg dst len u -> expanded sha msg dst len v -> u = v.
Proof. intros msg dst len u v (a & A1 & A2 & ->) (b & B1 & B2 & ->). replace b with a by lia. reflexivity. Qed.

Theorem field_ok : forall msg dst, (16 <= length dst <= 255)%nat ->
  exists u, expanded sha msg dst 96 u /\ hash_to_field sha msg 2 dst
    = Ok [be_bytes 32 (os2ip (firstn 48 u) mod kP); be_bytes 32 (os2ip (skipn 48 u) mod kP)].
Proof.
  intros msg dst HD. destruct (expand_ok msg dst 96 HD ltac:(lia)) as (u & E & X & L). exists u. split; [exact X|]. unfold hash_to_field.
  change (2 * 48)%nat with 96%nat. rewrite E. cbn [bind seq fold_right]. change (48 * 0)%nat with 0%nat. change (48 * 1)%nat with 48%nat. cbn [skipn].
  rewrite !mp_pad_ok by (apply (mod_reduced kP kP_prime)). cbn [bind]. rewrite !os2ip_be.
  rewrite (firstn_all2 (skipn 48 u)) by (rewrite skipn_length; lia). reflexivity.
Qed.

Variable inv : Z -> option Z.
Hypothesis Hinv : inverter kP inv.

Lemma h2c_points_unique : forall msg dst Q0 Q1 R0 R1, h2c_points kP kJ sha msg dst Q0 Q1 -> h2c_points kP kJ sha msg dst R0 R1 -> Q0 = R0 /\ Q1 = R1.
Proof.
  intros msg dst Q0 Q1 R0 R1 (u & A & B & C) (v & A' & B' & C'). rewrite <- (expanded_unique _ _ _ _ _ A A') in B', C'.
  split; [exact (elligator2_unique _ _ _ B B')|exact (elligator2_unique _ _ _ C C')].
Qed.
Lemma elligator2_red : forall u P, elligator2 kP kJ u P -> red2 P.
Proof. intros u (x, y) (A & B & _). split; assumption. Qed.
Theorem h2c_unique : forall msg dst P P', h2c kP kJ sha msg dst P -> h2c kP kJ sha msg dst P' -> P = P'.
Proof.
  intros msg dst P P' (Q0 & Q1 & R & A & B & C) (Q0' & Q1' & R' & A' & B' & C').
  destruct (h2c_points_unique _ _ _ _ _ _ A A') as (<- & <-). destruct A as (u & _ & A0 & A1). apply elligator2_red in A0, A1.
  rewrite <- (sums_unique _ _ _ _ A0 A1 B B') in C'. exact (times8_unique _ _ _ (sums_red _ _ _ B) C C').
Qed.

Theorem hash_cases : forall msg dst, (16 <= length dst <= 255)%nat ->
  exists Q0 Q1, h2c_points kP kJ sha msg dst Q0 Q1
  /\ ((fst Q0 <> fst Q1 /\ exists P, h2c kP kJ sha msg dst P /\ hash_to_curve sha inv msg dst = Ok (be_bytes 32 (fst P)))
      \/ (fst Q0 <> fst Q1 /\ (forall P, ~ h2c kP kJ sha msg dst P) /\ hash_to_curve sha inv msg dst = Throw)
      \/ (fst Q0 = fst Q1 /\ hash_to_curve sha inv msg dst = Throw)).
Proof.
  intros msg dst HD. unfold hash_to_curve.
  replace ((16 <=? length dst)%nat && (length dst <=? 255)%nat)%bool with true by (symmetry; apply Bool.andb_true_iff; split; apply Nat.leb_le; lia).
  unfold enforce. destruct (field_ok msg dst HD) as (u & X & ->). cbn [bind nth].
  set (a := os2ip (firstn 48 u) mod kP). set (b := os2ip (skipn 48 u) mod kP).
  destruct (g2_ok inv Hinv (be_bytes 32 a) ltac:(rewrite be_bytes_len; lia)) as (x0 & y0 & -> & S0).
  destruct (g2_ok inv Hinv (be_bytes 32 b) ltac:(rewrite be_bytes_len; lia)) as (x1 & y1 & -> & S1).
  rewrite be_bytes_32 in S0, S1 by (apply (mod_reduced kP kP_prime)). cbn [bind fst snd].
  assert (HQ : h2c_points kP kJ sha msg dst (x0, y0) (x1, y1)) by (exists u; split; [exact X|split; assumption]).
  exists (x0, y0), (x1, y1). split; [exact HQ|].
  pose proof (elligator2_red _ _ S0) as R0. pose proof (elligator2_red _ _ S1) as R1.
  destruct (Z.eq_dec x0 x1) as [E|E].
  - right. right. split; [exact E|]. pose proof (proj2 (add_throw inv Hinv (x0, y0) (x1, y1) R0 R1 E)) as HA. cbn [enc fst snd] in HA. rewrite HA. reflexivity.
  - destruct (add_ok inv Hinv (x0, y0) (x1, y1) R0 R1 (elligator2_on_curve _ _ S0) (elligator2_on_curve _ _ S1) E) as (R & _ & HA & HS).
    cbn [enc fst snd] in HA. rewrite HA. cbn [bind].
    destruct (clear_cases inv Hinv R (sums_red _ _ _ HS) (proj2 (proj2 (sums_on_curve _ _ _ HS)))) as [(P & T & _ & _ & HP)|(N & _ & HP)]; cbn [enc fst snd] in HP; rewrite HP.
    + left. split; [exact E|]. exists P. split; [exists (x0, y0), (x1, y1), R; auto|reflexivity].
    + right. left. split; [exact E|]. split; [|reflexivity]. intros P (Q0' & Q1' & R' & A & B & C).
      destruct (h2c_points_unique _ _ _ _ _ _ HQ A) as (<- & <-). rewrite <- (sums_unique _ _ _ _ R0 R1 HS B) in C. exact (N _ C).
Qed.
Theorem hash_reject : forall msg dst, ~ (16 <= length dst <= 255)%nat -> hash_to_curve sha inv msg dst = Throw.
Proof.
  intros msg dst H. unfold hash_to_curve, enforce. destruct (Nat.leb_spec 16 (length dst)); [|reflexivity]. destruct (Nat.leb_spec (length dst) 255); [lia|reflexivity].
Qed.
End H2c.
