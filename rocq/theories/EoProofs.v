(** Proofs about the OPRF over OpenSSL curves. *)
From Coq Require Import List Arith NArith ZArith Znumtheory Bool Lia Permutation.
From Verif Require Import Base Text EllModel EllSpec EllProofs2 EllFermat EoModel EoSpec.
Import ListNotations.
Local Open Scope Z_scope.

Lemma be_round : forall b, Forall is_byte b -> be_bytes (length b) (be_int b) = b.
Proof.
  intros b. induction b as [|x b IH] using rev_ind; intros H; [reflexivity|].
  apply Forall_app in H. destruct H as [H Hx]. inversion Hx; subst. unfold is_byte in *.
  rewrite app_length, Nat.add_comm. cbn [length Nat.add be_bytes]. rewrite be_int_app.
  replace ((be_int b * 256 + Z.of_N x) / 256) with (be_int b) by (apply Z.div_unique with (Z.of_N x); lia).
  replace ((be_int b * 256 + Z.of_N x) mod 256) with (Z.of_N x) by (apply Z.mod_unique with (be_int b); lia).
  rewrite N2Z.id, IH by exact H. reflexivity.
Qed.
Lemma word_be : forall x b, i2os x 32 b -> b = be_bytes 32 x.
Proof. intros x b (L & B & E). rewrite os2ip_be in E. rewrite <- E, <- L. symmetry. apply be_round, B. Qed.
Lemma be_word : forall x, 0 <= x < 256 ^ 32 -> i2os x 32 (be_bytes 32 x).
Proof. intros x H. split; [apply be_bytes_len|]. split; [apply be_bytes_byte|]. rewrite os2ip_be. apply be_bytes_int. exact H. Qed.

Section Oprf.
Variable Pt : Type.
Variable infty : Pt.
Variable smul : Z -> Pt -> Pt.
Variable lift : Z -> option Pt.
Variable oct : Pt -> bytes.
Variable unoct : bytes -> option Pt.
Variables p n : Z.
Variable minv : Z -> Z.
Variables sha hash : bytes -> bytes.
Hypothesis CO : curve_ok Pt infty smul lift oct unoct p n minv.

(** ** Hash to curve *)
Definition nxt (x : Z) : Z := be_int (sha (be_bytes 32 x)) mod p.
Lemma cand_range : forall m i x, candidate p sha m i x -> 0 <= x < 256 ^ 32.
Proof. intros m i x H. pose proof (co_p _ _ _ _ _ _ _ _ _ CO). destruct H; match goal with |- _ <= ?a mod p < _ => pose proof (Z.mod_pos_bound a p) end; lia. Qed.
Lemma cand_step : forall m i x, candidate p sha m i x -> candidate p sha m (S i) (nxt x).
Proof. intros m i x H. unfold nxt. rewrite <- os2ip_be. apply (cand_next p sha m i x); [exact H|]. apply be_word. eapply cand_range; eauto. Qed.
Lemma cand_fun : forall m i x y, candidate p sha m i x -> candidate p sha m i y -> x = y.
Proof.
  intros m i. induction i as [|i IH]; intros x y H1 H2; inversion H1; inversion H2; subst; [reflexivity|].
  match goal with A : candidate _ _ _ i ?a, B : candidate _ _ _ i ?b |- _ => assert (a = b) by (apply IH; assumption); subst end.
  match goal with A : i2os ?a 32 ?b, B : i2os ?a 32 ?c |- _ => apply word_be in A; apply word_be in B; subst end. reflexivity.
Qed.

Lemma try_ok : forall m k i x P fuel, candidate p sha m i x -> maps_to Pt lift p sha m (i + k) P -> (i + k < 100)%nat -> (k <= fuel)%nat ->
  eo_try Pt lift p sha fuel i x = Ok P.
Proof.
  intros m k. induction k as [|k IH]; intros i x P fuel Hc Hm Hi Hf.
  - rewrite Nat.add_0_r in Hm. destruct Hm as ((y & Hy & HL) & _). rewrite (cand_fun _ _ _ _ Hc Hy).
    destruct fuel; cbn [eo_try]; rewrite HL; reflexivity.
  - destruct fuel as [|fuel]; [lia|]. cbn [eo_try].
    assert (E : lift x = None) by (destruct Hm as (_ & H); apply (H i); [lia|exact Hc]). rewrite E.
    cbv zeta. unfold enforce. replace (Nat.ltb (S i) eo_guard) with true by (symmetry; apply Nat.ltb_lt; unfold eo_guard; lia).
    apply IH; [apply cand_step, Hc| |lia|lia]. replace (S i + k)%nat with (i + S k)%nat by lia. exact Hm.
Qed.
Lemma try_throw : forall m i x fuel, candidate p sha m i x -> (forall j y, (i <= j < 100)%nat -> candidate p sha m j y -> lift y = None) -> (i < 100)%nat ->
  (99 <= i + fuel)%nat -> eo_try Pt lift p sha fuel i x = Throw.
Proof.
  intros m i x fuel. revert i x. induction fuel as [|fuel IH]; intros i x Hc Hn Hi Hf; cbn [eo_try]; rewrite (Hn i x) by (assumption || lia); cbv zeta; unfold enforce.
  - replace (Nat.ltb (S i) eo_guard) with false by (symmetry; apply Nat.ltb_ge; unfold eo_guard; lia). reflexivity.
  - destruct (Nat.ltb (S i) eo_guard) eqn:E; [|reflexivity]. apply Nat.ltb_lt in E. unfold eo_guard in E.
    apply IH; [apply cand_step, Hc| |lia|lia]. intros j y Hj. apply Hn. lia.
Qed.
Lemma h2c_ok : forall m i P, maps_to Pt lift p sha m i P -> (i < 100)%nat -> eo_hash_to_curve Pt lift p sha m = Ok P.
Proof.
  intros m i P H Hi. unfold eo_hash_to_curve. apply (try_ok m i 0); [|exact H|lia|unfold eo_guard; lia].
  unfold eo_bn. rewrite <- os2ip_be. constructor.
Qed.
Lemma h2c_throw : forall m, (forall i P, maps_to Pt lift p sha m i P -> (100 <= i)%nat) -> eo_hash_to_curve Pt lift p sha m = Throw.
Proof.
  intros m H. unfold eo_hash_to_curve. apply (try_throw m).
  - unfold eo_bn. rewrite <- os2ip_be. constructor.
  - assert (A : forall i, (i <= 100)%nat -> forall j y, (j < i)%nat -> candidate p sha m j y -> lift y = None).
    { induction i as [|i IH]; intros Hi j y Hj Hc; [lia|]. destruct (Nat.eq_dec j i) as [->|]; [|apply (IH ltac:(lia) j); [lia|exact Hc]].
      destruct (lift y) as [P|] eqn:E; [|reflexivity]. exfalso.
      assert (100 <= i)%nat; [|lia]. apply (H i P). split; [exists y; split; assumption|]. intros j z Hjz. apply (IH ltac:(lia)). exact Hjz. }
    intros j y Hj. apply (A 100%nat); lia.
  - unfold eo_guard; lia.
  - unfold eo_guard; lia.
Qed.
Lemma maps_fin : forall m i P, maps_to Pt lift p sha m i P -> P <> infty.
Proof. intros m i P ((x & _ & H) & _). eapply (co_lift _ _ _ _ _ _ _ _ _ CO), H. Qed.

Lemma maps_before : forall item m, (exists i P, maps_to Pt lift p sha item i P /\ (i < m)%nat) \/ forall i P, maps_to Pt lift p sha item i P -> (m <= i)%nat.
Proof.
  intros item. induction m as [|m [IH|IH]]; [right; intros; lia| |].
  - left. destruct IH as (i & P & A & B). exists i, P. split; [exact A|lia].
  - assert (X : exists x, candidate p sha item m x).
    { clear IH. induction m as [|m (x & IH)]; [eexists; constructor|]. eexists. apply cand_step, IH. }
    destruct X as (x & X). destruct (lift x) as [P|] eqn:E.
    + left. exists m, P. split; [|lia]. split; [exists x; split; assumption|]. intros j y Hj HC.
      assert (forall t, (t <= j)%nat -> forall y, candidate p sha item t y -> lift y = None) as Q; [|exact (Q j ltac:(lia) y HC)].
      clear HC y. induction t as [t IHt] using lt_wf_ind; intros Ht y HC. destruct (lift y) as [Q|] eqn:EQ; [|reflexivity]. exfalso.
      assert (m <= t)%nat; [|lia]. apply (IH t Q). split; [exists y; split; assumption|]. intros u z Hu. apply IHt; lia.
    + right. intros i P HM. pose proof (IH i P HM). destruct (Nat.eq_dec i m) as [->|]; [|lia].
      destruct HM as ((y & Y & EY) & _). rewrite (cand_fun _ _ _ _ Y X) in EY. congruence.
Qed.
(** ** Multiplication *)
Lemma n_pos : 1 < n. Proof. pose proof (prime_ge_2 n (co_n _ _ _ _ _ _ _ _ _ CO)). lia. Qed.
Lemma mul_fin : forall a P, 0 < a < n -> P <> infty -> smul a P <> infty.
Proof.
  intros a P Ha HP E. pose proof n_pos. rewrite <- (co_zero _ _ _ _ _ _ _ _ _ CO P) in E.
  apply (co_faithful _ _ _ _ _ _ _ _ _ CO) in E; lia || exact HP.
Qed.
Lemma mul_fin_inv : forall a P, smul a P <> infty -> P <> infty.
Proof. intros a P H E. apply H. rewrite E. apply (co_infty _ _ _ _ _ _ _ _ _ CO). Qed.
Lemma to_bytes_ok : forall P, P <> infty -> eo_to_bytes Pt oct P = Ok (oct P).
Proof. intros P H. unfold eo_to_bytes, enforce. rewrite (co_oct _ _ _ _ _ _ _ _ _ CO P H). reflexivity. Qed.
Lemma to_bytes_throw : eo_to_bytes Pt oct infty = Throw.
Proof. unfold eo_to_bytes, enforce. rewrite (co_oct_infty _ _ _ _ _ _ _ _ _ CO). reflexivity. Qed.
Lemma oct_inj : forall P Q, oct P = oct Q -> P = Q.
Proof.
  intros P Q E. pose proof (co_unoct _ _ _ _ _ _ _ _ _ CO P) as A. rewrite E, (co_unoct _ _ _ _ _ _ _ _ _ CO) in A. congruence.
Qed.
Lemma key_range : forall k, key_ok n k -> 0 < os2ip k mod n < n.
Proof. intros k (_ & H). pose proof n_pos. pose proof (Z.mod_pos_bound (os2ip k) n). lia. Qed.
Lemma bn_key : forall k, eo_bn k n = os2ip k mod n. Proof. intro k. unfold eo_bn. rewrite os2ip_be. reflexivity. Qed.

Lemma point_mul_ok : forall sk P, key_ok n sk -> P <> infty -> eo_point_mul Pt infty smul oct unoct n sk (oct P) = Ok (oct (smul (os2ip sk mod n) P)).
Proof.
  intros sk P K HP. unfold eo_point_mul, enforce. destruct K as (L & K). rewrite L. change (Nat.eqb 32 eo_key_size) with true. cbv iota zeta.
  rewrite (co_unoct _ _ _ _ _ _ _ _ _ CO), bn_key. apply to_bytes_ok. apply mul_fin; [apply key_range; split; assumption|exact HP].
Qed.
Lemma item_mul_ok : forall sk m i P, key_ok n sk -> maps_to Pt lift p sha m i P -> (i < 100)%nat ->
  eo_item_mul Pt smul lift oct p n sha sk m = Ok (oct (smul (os2ip sk mod n) P)).
Proof.
  intros sk m i P K HM Hi. unfold eo_item_mul, enforce. destruct K as (L & K). rewrite L. change (Nat.eqb 32 eo_key_size) with true. cbv iota.
  rewrite (h2c_ok m i P HM Hi). cbn [bind]. rewrite bn_key. apply to_bytes_ok. apply mul_fin; [apply key_range; split; assumption|]. eapply maps_fin, HM.
Qed.
Lemma inv_key : forall k, key_ok n k -> key_ok n (eo_key_inv n minv k) /\ (os2ip k mod n * (os2ip (eo_key_inv n minv k) mod n)) mod n = 1.
Proof.
  intros k K. pose proof (key_range k K) as R. pose proof n_pos. destruct (co_inv _ _ _ _ _ _ _ _ _ CO _ R) as (A & B).
  pose proof (co_n_small _ _ _ _ _ _ _ _ _ CO).
  unfold eo_key_inv, eo_bytes. rewrite bn_key.
  assert (E : os2ip (be_bytes eo_key_size (minv (os2ip k mod n))) mod n = minv (os2ip k mod n)).
  { rewrite os2ip_be, be_bytes_int; [apply Z.mod_small, A|]. change (Z.of_nat eo_key_size) with 32. lia. }
  unfold key_ok. rewrite E. split; [split; [apply be_bytes_len|]|exact B].
  intros Z0. rewrite Z0, Z.mul_0_r, Z.mod_0_l in B by lia. lia.
Qed.
Lemma unblind_point : forall a k P, key_ok n a -> 0 <= k < n ->
  smul (os2ip (eo_key_inv n minv a) mod n) (smul k (smul (os2ip a mod n) P)) = smul k P.
Proof.
  intros a k P K Hk. pose proof n_pos. destruct (inv_key a K) as (K' & E). pose proof (key_range a K). pose proof (key_range _ K').
  rewrite !(co_mul _ _ _ _ _ _ _ _ _ CO) by (lia || apply Z.mod_pos_bound; lia). f_equal.
  set (x := os2ip a mod n) in *. set (y := os2ip (eo_key_inv n minv a) mod n) in *.
  rewrite Z.mul_mod_idemp_l by lia. replace (y * k * x) with (k * (x * y)) by ring. rewrite <- Z.mul_mod_idemp_r, E, Z.mul_1_r by lia. apply Z.mod_small, Hk.
Qed.
Lemma hash_item_ok : forall item b len, (len <= length (hash (item ++ b)))%nat -> eo_hash_item hash item b len = Ok (firstn len (hash (item ++ b))).
Proof. intros item b len H. unfold eo_hash_item, enforce. cbv zeta. replace (Nat.leb _ _) with true by (symmetry; apply Nat.leb_le, H). reflexivity. Qed.
End Oprf.
