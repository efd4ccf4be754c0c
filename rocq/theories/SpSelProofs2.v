(** Key switching and products with GSW ciphertexts. *)
From Coq Require Import List Arith NArith ZArith Lia Setoid Morphisms Ring Bool.
From Verif Require Import Base SpGadgetModel SpDecodeSpec SpDecodeProofs2 SpRingModel SpRingSpec SpRingProofs SpRingProofs2
  SpSelModel SpSelSpec SpSelProofs.
Import ListNotations.
Local Open Scope Z_scope.

(** Digits with base 2^bits reach the modulus. *)
Lemma bits_reach2 : forall P dim, (1 <= dim)%nat -> 2 ^ Z.of_nat (sp_ml P) <= 2 ^ Z.of_nat (bits_for P dim * dim).
Proof.
  intros P dim Hd. apply Z.pow_le_mono_r; [lia|].
  unfold bits_for, get_bits_per. destruct (Nat.eqb_spec dim (sp_ml P)) as [->|]; [lia|].
  destruct (Nat.eqb_spec dim 0); [lia|]. pose proof (Nat.div_mod (sp_ml P) dim ltac:(lia)).
  pose proof (Nat.mod_upper_bound (sp_ml P) dim ltac:(lia)). nia.
Qed.
Lemma bits_reach : forall P dim, (1 <= dim)%nat -> sp_q P <= 2 ^ Z.of_nat (sp_ml P) ->
  sp_q P <= 2 ^ Z.of_nat (bits_for P dim * dim).
Proof. intros P dim Hd Hq. eapply Z.le_trans; [exact Hq|]. apply bits_reach2, Hd. Qed.

Lemma even_2 : forall k, Nat.even (2 * k) = true.
Proof. intros k. apply Nat.even_spec. exists k. reflexivity. Qed.
Lemma even_2_1 : forall k, Nat.even (2 * k + 1) = false.
Proof. intros k. rewrite Nat.even_add, even_2. reflexivity. Qed.
Lemma div_2 : forall k, (2 * k / 2 = k)%nat.
Proof. intros k. rewrite Nat.mul_comm. apply Nat.div_mul. lia. Qed.
Lemma div_2_1 : forall k, ((2 * k + 1) / 2 = k)%nat.
Proof. intros k. rewrite Nat.mul_comm, Nat.div_add_l by lia. cbn. lia. Qed.


Section K.
Variable P : sel_params.
Local Notation n := (sp_len P).
Local Notation q := (sp_q P).
Hypothesis Hn : (0 < n)%nat.
Hypothesis Hq0 : 0 < q.
Hypothesis Hqm : q < 2 ^ Z.of_nat (sp_ml P).
Hypothesis Hml : (sp_ml P <= 64)%nat.
Local Notation "a == b" := (peq n q a b) (at level 70).
Local Notation NZ := (Z.of_nat n).
Local Infix "*p" := (pmul n) (at level 40).
Local Infix "+p" := padd (at level 50).
Local Notation phase := (ph n).
Local Notation nr := (near n q).
Add Ring rg : (pring n q Hn) (setoid (peq_equiv n q) (peq_eqe n q Hn)).

Lemma phase_add : forall s a b, phase s (ct_add a b) == phase s a +p phase s b.
Proof using Hn Hq0 Hqm Hml. intros s a b. unfold ph, ct_add. cbn [fst snd]. ring. Qed.
Lemma phase_opp : forall s a, phase s (ct_opp a) == popp (phase s a).
Proof using Hn Hq0 Hqm Hml. intros s a. unfold ph, ct_opp. cbn [fst snd]. ring. Qed.
Lemma phase_scale : forall s p a, phase s (ct_scale P p a) == p *p phase s a.
Proof using Hn Hq0 Hqm Hml. intros s p a. unfold ph, ct_scale. cbn [fst snd]. ring. Qed.
Lemma phase_lincomb : forall s m w d, phase s (lincomb P m w d) == psum m (fun k => d k *p phase s (w k)).
Proof using Hn Hq0 Hqm Hml.
  intros s m w d. unfold ph, lincomb. cbn [fst snd]. rewrite (psum_comm n q Hn), <- (psum_add n q Hn).
  apply (psum_ext n q Hn). intros k _. ring.
Qed.
Lemma phase_regev : forall s a e m, phase s (regev P s a e m) == m +p e.
Proof using Hn Hq0 Hqm Hml. intros s a e m. unfold ph, regev. cbn [fst snd]. ring. Qed.

(** Gadget times digits. *)
Lemma gad_digits : forall m a, (1 <= m)%nat ->
  psum m (fun k => pdigit q (bits_for P m) k a *p pconst (gad (bits_for P m) k)) == a.
Proof using Hn Hq0 Hqm Hml.
  intros m a Hm. etransitivity; [|exact (recompose_poly n q Hn (bits_for P m) m a Hq0 (bits_reach P m Hm (Z.lt_le_incl _ _ Hqm)))].
  apply (psum_ext n q Hn). intros k _. rewrite (Rmul_comm (pring n q Hn)). unfold gad.
  destruct (Nat.leb_spec 64 (bits_for P m * k)) as [L|L]; [|reflexivity].
  assert (E : pdigit q (bits_for P m) k a == pzero).
  { apply peq_pt. intros z _. unfold pdigit, pzero. rewrite Z.div_small; [apply Z.mod_0_l; pose proof (Z.pow_pos_nonneg 2 (Z.of_nat (bits_for P m)) ltac:(lia) ltac:(lia)); lia|].
    pose proof (Z.mod_pos_bound (a z) q Hq0). split; [lia|].
    assert (2 ^ Z.of_nat (sp_ml P) <= 2 ^ Z.of_nat (bits_for P m * k)) by (apply Z.pow_le_mono_r; lia). lia. }
  rewrite E. ring.
Qed.

(** Keys whose column k decrypts to M times the gadget entry. *)
Lemma key_switch : forall s w M m Be a, (1 <= m)%nat ->
  (forall k, (k < m)%nat -> nr Be (phase s (w k)) (M *p pconst (gad (bits_for P m) k))) ->
  nr (switch_noise n m (bits_for P m) Be) (phase s (lincomb P m w (ginv1 P (bits_for P m) a))) (M *p a).
Proof using Hn Hq0 Hqm Hml.
  intros s w M m Be a Hm H. rewrite phase_lincomb. unfold ginv1.
  assert (E : M *p a == psum m (fun k => pdigit q (bits_for P m) k a *p (M *p pconst (gad (bits_for P m) k)))).
  { transitivity (M *p psum m (fun k => pdigit q (bits_for P m) k a *p pconst (gad (bits_for P m) k)));
      [rewrite (gad_digits m a Hm); reflexivity|]. rewrite <- (psum_mul n q Hn). apply (psum_ext n q Hn). intros k _. ring. }
  rewrite E. apply (near_sum n q Hn). intros k Hk. apply (near_mul n q Hn); [apply small_digit; exact Hn|apply H, Hk].
Qed.

(** The same for the digits of unreduced words. *)
Lemma gad_rdigits : forall m a, (1 <= m)%nat -> (forall z, 0 <= a z <= q) ->
  psum m (fun k => rdigit (bits_for P m) k a *p pconst (gad (bits_for P m) k)) == a.
Proof using Hn Hq0 Hqm Hml.
  intros m a Hm Ha. etransitivity; [|apply (recompose_raw n q Hn (bits_for P m) m a)].
  - apply (psum_ext n q Hn). intros k _. rewrite (Rmul_comm (pring n q Hn)). unfold gad.
    destruct (Nat.leb_spec 64 (bits_for P m * k)) as [L|L]; [|reflexivity].
    assert (E : rdigit (bits_for P m) k a == pzero).
    { apply peq_pt. intros z _. unfold rdigit, pzero. rewrite Z.div_small; [apply Z.mod_0_l; pose proof (Z.pow_pos_nonneg 2 (Z.of_nat (bits_for P m)) ltac:(lia) ltac:(lia)); lia|].
      specialize (Ha z). assert (2 ^ Z.of_nat (sp_ml P) <= 2 ^ Z.of_nat (bits_for P m * k)) by (apply Z.pow_le_mono_r; lia). lia. }
    rewrite E. ring.
  - intros z _. specialize (Ha z). pose proof (bits_reach2 P m Hm). lia.
Qed.
Lemma key_switch_raw : forall s w M m Be a, (1 <= m)%nat -> (forall z, 0 <= a z <= q) ->
  (forall k, (k < m)%nat -> nr Be (phase s (w k)) (M *p pconst (gad (bits_for P m) k))) ->
  nr (switch_noise n m (bits_for P m) Be) (phase s (lincomb P m w (fun k => rdigit (bits_for P m) k a))) (M *p a).
Proof using Hn Hq0 Hqm Hml.
  intros s w M m Be a Hm Ha H. rewrite phase_lincomb.
  assert (E : M *p a == psum m (fun k => rdigit (bits_for P m) k a *p (M *p pconst (gad (bits_for P m) k)))).
  { transitivity (M *p psum m (fun k => rdigit (bits_for P m) k a *p pconst (gad (bits_for P m) k)));
      [rewrite (gad_rdigits m a Hm Ha); reflexivity|]. rewrite <- (psum_mul n q Hn). apply (psum_ext n q Hn). intros k _. ring. }
  rewrite E. apply (near_sum n q Hn). intros k Hk. apply (near_mul n q Hn); [apply small_rdigit; exact Hn|apply H, Hk].
Qed.

Lemma psum_pairs : forall m f, psum (2 * m) f == psum m (fun k => f (2 * k)%nat +p f (2 * k + 1)%nat).
Proof using Hn Hq0 Hqm Hml.
  induction m as [|m IH]; intros f; [reflexivity|].
  replace (2 * S m)%nat with (S (S (2 * m))) by lia.
  change (psum (S (S (2 * m))) f) with ((psum (2 * m) f +p f (2 * m)%nat) +p f (S (2 * m))).
  change (psum (S m) (fun k => f (2 * k)%nat +p f (2 * k + 1)%nat))
    with (psum m (fun k => f (2 * k)%nat +p f (2 * k + 1)%nat) +p (f (2 * m)%nat +p f (2 * m + 1)%nat)).
  rewrite IH. replace (2 * m + 1)%nat with (S (2 * m)) by lia. ring.
Qed.

Lemma gadget2_digits : forall s m c, (1 <= m)%nat ->
  psum (2 * m) (fun x => ginv2 P (bits_for P m) c x *p phase s (gadget2 (bits_for P m) x)) == phase s c.
Proof using Hn Hq0 Hqm Hml.
  intros s m c Hm. rewrite psum_pairs.
  transitivity (s *p psum m (fun k => pdigit q (bits_for P m) k (fst c) *p pconst (gad (bits_for P m) k))
                +p psum m (fun k => pdigit q (bits_for P m) k (snd c) *p pconst (gad (bits_for P m) k)));
    [|rewrite !gad_digits by exact Hm; reflexivity].
  rewrite <- (psum_mul n q Hn), <- (psum_add n q Hn). apply (psum_ext n q Hn). intros k _.
  unfold ginv2, gadget2. rewrite even_2, even_2_1, div_2, div_2_1. unfold ph. cbn [fst snd]. ring.
Qed.

(** A GSW encryption of M times a ciphertext. *)
Lemma gsw_mul : forall s w M m Be c, (1 <= m)%nat ->
  (forall x, (x < 2 * m)%nat -> nr Be (phase s (w x)) (M *p phase s (gadget2 (bits_for P m) x))) ->
  nr (switch_noise n (2 * m) (bits_for P m) Be) (phase s (lincomb P (2 * m) w (ginv2 P (bits_for P m) c))) (M *p phase s c).
Proof using Hn Hq0 Hqm Hml.
  intros s w M m Be c Hm H. rewrite phase_lincomb.
  assert (E : M *p phase s c == psum (2 * m) (fun x => ginv2 P (bits_for P m) c x *p (M *p phase s (gadget2 (bits_for P m) x)))).
  { transitivity (M *p psum (2 * m) (fun x => ginv2 P (bits_for P m) c x *p phase s (gadget2 (bits_for P m) x)));
      [rewrite (gadget2_digits s m c Hm); reflexivity|]. rewrite <- (psum_mul n q Hn). apply (psum_ext n q Hn). intros k _. ring. }
  rewrite E. apply (near_sum n q Hn). intros x Hx. apply (near_mul n q Hn); [apply small_digit; exact Hn|apply H, Hx].
Qed.

Lemma folding_neg_gsw : forall s w M Be x,
  nr Be (phase s (w x)) (M *p phase s (gadget2 (bits_for P (sp_gsw P)) x)) ->
  nr Be (phase s (folding_neg P w x)) (psub (pconst 1) M *p phase s (gadget2 (bits_for P (sp_gsw P)) x)).
Proof using Hn Hq0 Hqm Hml.
  intros s w M Be x H. unfold folding_neg. rewrite phase_add, phase_opp.
  set (G := phase s (gadget2 (bits_for P (sp_gsw P)) x)) in *.
  assert (E : psub (pconst 1) M *p G == G +p popp (M *p G)) by ring. rewrite E.
  replace Be with (0 + Be) by lia. apply (near_add n q Hn); [apply (near_of_eq n q Hn); reflexivity|]. apply (near_opp n q Hn), H.
Qed.

(** * Folding *)
Definition bitp (b : bool) : poly := pconst (if b then 1 else 0).

Lemma bit_choose : forall b (x y : poly), (bitp b *p x) +p (psub (pconst 1) (bitp b) *p y) == if b then x else y.
Proof using Hn Hq0 Hqm Hml.
  intros b x y. unfold bitp. destruct b; [|rewrite (const_zero n q Hn)]; ring.
Qed.

Lemma fold_near : forall s Bc (folding : nat -> nat -> ct) (f : nat), (1 <= sp_gsw P)%nat ->
  forall l, (forall j, (j < l)%nat -> forall x, (x < 2 * sp_gsw P)%nat ->
     nr Bc (phase s (folding j x)) (bitp (Nat.testbit f j) *p phase s (gadget2 (bits_for P (sp_gsw P)) x))) ->
  forall v (target : nat -> poly) B, (forall i, (i < 2 ^ l)%nat -> nr B (phase s (v i)) (target i)) ->
  nr (B + Z.of_nat l * (2 * switch_noise n (2 * sp_gsw P) (bits_for P (sp_gsw P)) Bc))
     (phase s (fold_cts P l folding v 0%nat)) (target (f mod 2 ^ l)%nat).
Proof using Hn Hq0 Hqm Hml.
  intros s Bc folding f Hg. set (K := switch_noise n (2 * sp_gsw P) (bits_for P (sp_gsw P)) Bc).
  induction l as [|l IH]; intros H v target B Hv.
  - cbn [fold_cts]. rewrite Nat.pow_0_r, Nat.mod_1_r. replace (B + _) with B by lia. apply Hv. cbn. lia.
  - cbn [fold_cts].
    match goal with |- nr _ (phase s (fold_cts P l folding ?w 0%nat)) _ => set (v' := w) end.
    set (b := Nat.testbit f l) in *.
    assert (E : (f mod 2 ^ S l = (if b then 2 ^ l else 0) + f mod 2 ^ l)%nat).
    { rewrite Nat.pow_succ_r', (Nat.mul_comm 2), Nat.mod_mul_r by (try lia; apply Nat.pow_nonzero; lia).
      unfold b. pose proof (Nat.testbit_spec' f l) as T. unfold Nat.b2n in T. destruct (Nat.testbit f l); rewrite <- T; lia. }
    rewrite E.
    replace (B + Z.of_nat (S l) * (2 * K)) with ((B + 2 * K) + Z.of_nat l * (2 * K)) by lia.
    apply (IH (fun j Hj => H j ltac:(lia)) v' (fun i => target ((if b then 2 ^ l else 0) + i)%nat) (B + 2 * K)).
    intros i Hi. unfold v'. destruct (Nat.ltb_spec i (2 ^ l)) as [_|]; [|lia].
    rewrite phase_add.
    pose proof (gsw_mul s (folding l) (bitp b) (sp_gsw P) Bc (v (2 ^ l + i)%nat) Hg (H l ltac:(lia))) as G1.
    pose proof (gsw_mul s (folding_neg P (folding l)) (psub (pconst 1) (bitp b)) (sp_gsw P) Bc (v i) Hg
                  (fun x Hx => folding_neg_gsw s (folding l) (bitp b) Bc x (H l ltac:(lia) x Hx))) as G2.
    fold K in G1, G2. pose proof (near_add n q Hn _ _ _ _ _ _ G1 G2) as G3.
    rewrite (bit_choose b (phase s (v (2 ^ l + i)%nat)) (phase s (v i))) in G3.
    replace (B + 2 * K) with ((K + K) + B) by lia. refine (near_trans n q Hn _ _ _ _ _ G3 _).
    assert (Hp : (2 ^ S l = 2 ^ l + 2 ^ l)%nat) by (rewrite Nat.pow_succ_r'; lia).
    destruct b; apply Hv; lia.
Qed.
End K.
