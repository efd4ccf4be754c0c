(** CoefficientExpansion. *)
From Coq Require Import List Arith NArith ZArith Lia Setoid Morphisms Ring Bool.
From Verif Require Import Base SpGadgetModel SpDecodeSpec SpDecodeProofs2 SpRingModel SpRingSpec SpRingProofs SpRingProofs2
  SpSelModel SpSelSpec SpSelProofs SpSelProofs2.
Import ListNotations.
Local Open Scope Z_scope.

Lemma odd_inverse : forall t k, Nat.odd t = true -> exists t', ((t * t') mod 2 ^ S k = 1)%nat.
Proof.
  intros t k Ht. assert (H : exists t' c, (t * t' = 1 + c * 2 ^ S k)%nat).
  { apply Nat.odd_spec in Ht as [m ->]. induction k as [|k (t' & c & E)].
    - exists 1%nat, m. rewrite Nat.pow_1_r. lia.
    - destruct (Nat.even c) eqn:Ec.
      + apply Nat.even_spec in Ec as [d ->]. exists t', d. rewrite E, (Nat.pow_succ_r' 2 (S k)). lia.
      + rewrite <- Nat.negb_odd in Ec. apply Bool.negb_false_iff, Nat.odd_spec in Ec as [d ->].
        exists (t' + 2 ^ S k)%nat, (d + m + 1)%nat.
        rewrite (Nat.pow_succ_r' 2 (S k)). nia. }
  destruct H as (t' & c & E). exists t'. rewrite E, Nat.mod_add by (apply Nat.pow_nonzero; lia).
  apply Nat.mod_small. rewrite Nat.pow_succ_r'. pose proof (Nat.pow_nonzero 2 k ltac:(lia)). lia.
Qed.

(** The part of sigma that entry x holds after i rounds. *)
Definition sel (i x : nat) (sigma : poly) : poly :=
  fun z => if (z mod 2 ^ i =? 0)%nat then 2 ^ Z.of_nat i * sigma (x + z)%nat else 0.

Lemma mod_pow_0 : forall z i, (z mod 2 ^ i =? 0)%nat = true -> exists m, z = (m * 2 ^ i)%nat.
Proof. intros z i H. apply Nat.eqb_eq in H. apply Nat.mod_divide in H; [|apply Nat.pow_nonzero; lia]. exact H. Qed.

Lemma mod_pow_S : forall m i, ((m * 2 ^ i) mod 2 ^ (i + 1) =? 0)%nat = Nat.even m.
Proof.
  intros m i. replace (i + 1)%nat with (S i) by lia. rewrite Nat.pow_succ_r', Nat.mul_mod_distr_r by (try lia; apply Nat.pow_nonzero; lia).
  pose proof (Nat.pow_nonzero 2 i ltac:(lia)) as Hp. destruct (Nat.even m) eqn:E.
  - apply Nat.even_spec in E as [d ->]. rewrite (Nat.mul_comm 2), Nat.mod_mul by lia. apply Nat.eqb_eq. lia.
  - rewrite <- Nat.negb_odd in E. apply Bool.negb_false_iff, Nat.odd_spec in E as [d ->].
    rewrite Nat.add_comm, (Nat.mul_comm 2), Nat.mod_add by lia. apply Nat.eqb_neq. cbn. lia.
Qed.

Lemma sel_first : forall i x sigma z, (if (z mod 2 ^ (i + 1) =? 0)%nat then 2 * sel i x sigma z else 0) = sel (i + 1) x sigma z.
Proof.
  intros i x sigma z. unfold sel. destruct (z mod 2 ^ (i + 1) =? 0)%nat eqn:E; [|reflexivity].
  destruct (mod_pow_0 z _ E) as [m ->]. replace (m * 2 ^ (i + 1))%nat with (2 * m * 2 ^ i)%nat by (rewrite Nat.pow_add_r, Nat.pow_1_r; lia).
  rewrite Nat.mod_mul by (apply Nat.pow_nonzero; lia). cbn [Nat.eqb].
  replace (Z.of_nat (i + 1)) with (Z.of_nat i + 1) by lia. rewrite Z.pow_add_r by lia. lia.
Qed.

Lemma sel_support : forall i x sigma z, (z mod 2 ^ i =? 0)%nat = false -> sel i x sigma z = 0.
Proof. intros i x sigma z H. unfold sel. rewrite H. reflexivity. Qed.

Lemma mod_shift : forall z i, ((z + 2 ^ i) mod 2 ^ i = z mod 2 ^ i)%nat.
Proof. intros z i. rewrite <- (Nat.mul_1_l (2 ^ i)) at 1. apply Nat.mod_add. apply Nat.pow_nonzero. lia. Qed.

Section X.
Variable P : sel_params.
Local Notation n := (sp_len P).
Local Notation q := (sp_q P).
Variable L : nat.
Hypothesis HL : sp_len P = (2 ^ L)%nat.

Lemma n_pos : (0 < n)%nat.
Proof using HL. rewrite HL. pose proof (Nat.pow_nonzero 2 L ltac:(lia)). lia. Qed.

Lemma n_split : forall i, (i < L)%nat -> n = (2 * 2 ^ (L - i - 1) * 2 ^ i)%nat.
Proof using HL.
  intros i Hi. rewrite HL. replace (2 * 2 ^ (L - i - 1))%nat with (2 ^ S (L - i - 1))%nat by apply Nat.pow_succ_r'.
  rewrite <- Nat.pow_add_r. f_equal. lia.
Qed.

Lemma round_t_val : forall i, (i < L)%nat -> round_t P i = (2 * 2 ^ (L - i - 1) + 1)%nat.
Proof using HL.
  intros i Hi. unfold round_t. f_equal. rewrite (n_split i Hi) at 1. apply Nat.div_mul. apply Nat.pow_nonzero. lia.
Qed.

Lemma round_inverse : forall i, (i < L)%nat -> exists t', ((round_t P i * t') mod (2 * n) = 1)%nat.
Proof using HL.
  intros i Hi. rewrite HL, <- Nat.pow_succ_r'. apply odd_inverse. rewrite (round_t_val i Hi).
  rewrite <- Nat.negb_even, even_2_1. reflexivity.
Qed.

Lemma ext_support : forall D f, Nat.divide D n -> (0 < D)%nat ->
  (forall z, (z < n)%nat -> (z mod D =? 0)%nat = false -> f z = 0) ->
  forall i, ~ (Z.of_nat D | i) -> ext n f i = 0.
Proof using HL.
  intros D f [k E] HD H i Hi. pose proof n_pos as Hn. unfold ext. cbv zeta.
  pose proof (Z.mod_pos_bound i (2 * Z.of_nat n) ltac:(lia)) as B.
  pose proof (Z.div_mod i (2 * Z.of_nat n) ltac:(lia)) as M.
  set (r := i mod (2 * Z.of_nat n)) in *. set (u := i / (2 * Z.of_nat n)) in *. clearbody r u.
  assert (G : forall w : nat, (w < n)%nat -> (Z.of_nat w = r \/ Z.of_nat w = r - Z.of_nat n) -> f w = 0).
  { intros w Hw Hr. apply H; [exact Hw|]. apply Nat.eqb_neq. intros Z0. apply Hi.
    apply Nat.mod_divide in Z0; [|lia]. destruct Z0 as [v ->].
    destruct Hr as [Hr|Hr].
    - exists (Z.of_nat v + 2 * Z.of_nat k * u). rewrite M, <- Hr, E. lia.
    - exists (Z.of_nat v + Z.of_nat k + 2 * Z.of_nat k * u). replace r with (Z.of_nat (v * D) + Z.of_nat n) in M by lia. rewrite M, E. lia. }
  destruct (Z.ltb_spec r (Z.of_nat n)); [apply G; lia|]. rewrite G; lia.
Qed.

Lemma half_sum : forall i f, (i < L)%nat -> (forall z, (z < n)%nat -> (z mod 2 ^ i =? 0)%nat = false -> f z = 0) ->
  forall z, (z < n)%nat -> padd f (paut n (round_t P i) f) z = if (z mod 2 ^ (i + 1) =? 0)%nat then 2 * f z else 0.
Proof using HL.
  intros i f Hi Hf z Hz. pose proof n_pos as Hn. destruct (round_inverse i Hi) as [t' Ht]. unfold padd.
  destruct (z mod 2 ^ i =? 0)%nat eqn:E0.
  - destruct (mod_pow_0 z i E0) as [m ->]. rewrite mod_pow_S.
    assert (A : ext n (paut n (round_t P i) f) (Z.of_nat (round_t P i) * Z.of_nat (m * 2 ^ i)) = f (m * 2 ^ i)%nat).
    { rewrite (aut_ext n Hn _ t' Ht). apply ext_nat; assumption. }
    replace (Z.of_nat (round_t P i) * Z.of_nat (m * 2 ^ i)) with (Z.of_nat (m * 2 ^ i) + Z.of_nat m * Z.of_nat n) in A
      by (rewrite (round_t_val i Hi), (n_split i Hi) at 1; lia).
    rewrite (anti_nat n Hn _ (ext_anti n Hn (paut n (round_t P i) f))) in A. rewrite ext_nat in A by assumption.
    destruct (Nat.even m); lia.
  - rewrite (Hf z Hz E0).
    assert (A : ext n (paut n (round_t P i) f) (Z.of_nat z) = 0).
    { rewrite (aut_ext_inv n Hn _ t' Ht). apply (ext_support (2 ^ i) f).
      - exists (2 * 2 ^ (L - i - 1))%nat. apply n_split, Hi.
      - pose proof (Nat.pow_nonzero 2 i ltac:(lia)). lia.
      - exact Hf.
      - intros [k Ek]. destruct (t_inv n Hn _ t' Ht (Z.of_nat z)) as [w W]. rewrite Ek in W.
        apply Nat.eqb_neq in E0. apply E0. apply Nat.mod_divide; [apply Nat.pow_nonzero; lia|].
        pose proof (n_split i Hi) as Sp.
        assert (Dv : (Z.of_nat (2 ^ i) | Z.of_nat z)).
        { exists (Z.of_nat (round_t P i) * k - 2 * w * Z.of_nat (2 * 2 ^ (L - i - 1))).
          assert (NN : Z.of_nat n = Z.of_nat (2 * 2 ^ (L - i - 1)) * Z.of_nat (2 ^ i)) by (rewrite <- Nat2Z.inj_mul; f_equal; exact Sp).
          rewrite NN in W. lia. }
        destruct Dv as [d Ed]. exists (Z.to_nat d). pose proof (Nat.pow_nonzero 2 i ltac:(lia)). nia. }
    rewrite ext_nat in A by assumption. rewrite A.
    destruct (z mod 2 ^ (i + 1) =? 0)%nat; reflexivity.
Qed.

(** Multiplication by neg1. *)
Lemma neg1_mul : forall i a z, (i < L)%nat -> (z < n)%nat ->
  pmul n (neg1 P i) a z = if (z + 2 ^ i <? n)%nat then a (z + 2 ^ i)%nat else - a (z + 2 ^ i - n)%nat.
Proof using HL.
  intros i a z Hi Hz. pose proof n_pos as Hn. pose proof (Nat.pow_nonzero 2 i ltac:(lia)) as Hp.
  assert (Hle : (2 ^ i <= n)%nat) by (rewrite HL; apply Nat.pow_le_mono_r; lia).
  unfold neg1.
  assert (E : pmul n (popp (pmono (n - 2 ^ i))) a z = - pmul n (pmono (n - 2 ^ i)) a z).
  { unfold pmul, negacyclic.
    match goal with |- _ = - ?X => replace (- X) with ((-(1)) * X) by lia end.
    rewrite <- zsum_scale. apply zsum_ext. intros k _. unfold popp. destruct (k <=? z)%nat; lia. }
  rewrite E. rewrite <- (ext_nat n Hn (pmul n (pmono (n - 2 ^ i)) a) z Hz), (mono_mul n Hn) by lia.
  rewrite <- (ext_anti n Hn). replace (Z.of_nat z - Z.of_nat (n - 2 ^ i) + Z.of_nat n) with (Z.of_nat (z + 2 ^ i)) by lia.
  destruct (Nat.ltb_spec (z + 2 ^ i) n) as [Lt|Ge]; [apply ext_nat; assumption|].
  replace (Z.of_nat (z + 2 ^ i)) with (Z.of_nat (z + 2 ^ i - n) + Z.of_nat n) by lia.
  rewrite (ext_anti n Hn), ext_nat by lia. reflexivity.
Qed.

Lemma neg1_support : forall i x sigma, (i < L)%nat -> forall z, (z < n)%nat -> (z mod 2 ^ i =? 0)%nat = false ->
  pmul n (neg1 P i) (sel i x sigma) z = 0.
Proof using HL.
  intros i x sigma Hi z Hz H. rewrite (neg1_mul i _ z Hi Hz). destruct (Nat.ltb_spec (z + 2 ^ i) n) as [Lt|Ge].
  - apply sel_support. rewrite mod_shift. exact H.
  - rewrite sel_support; [reflexivity|]. rewrite <- H. f_equal. rewrite <- (mod_shift z i).
    replace (z + 2 ^ i)%nat with ((z + 2 ^ i - n) + (2 * 2 ^ (L - i - 1)) * 2 ^ i)%nat at 2 by (rewrite <- (n_split i Hi); lia).
    symmetry. apply Nat.mod_add. apply Nat.pow_nonzero. lia.
Qed.

Lemma sel_second : forall i j sigma z, (i < L)%nat -> (z < n)%nat ->
  (if (z mod 2 ^ (i + 1) =? 0)%nat then 2 * pmul n (neg1 P i) (sel i j sigma) z else 0) = sel (i + 1) (j + 2 ^ i) sigma z.
Proof using HL.
  intros i j sigma z Hi Hz. rewrite <- sel_first. destruct (z mod 2 ^ (i + 1) =? 0)%nat eqn:E; [|reflexivity].
  destruct (mod_pow_0 z _ E) as [m ->]. rewrite (neg1_mul i _ _ Hi Hz).
  assert (Ep : (2 ^ (i + 1) = 2 * 2 ^ i)%nat) by (rewrite Nat.pow_add_r, Nat.pow_1_r; lia).
  pose proof (Nat.pow_nonzero 2 i ltac:(lia)) as Hp. pose proof (n_split i Hi) as Sp.
  destruct (Nat.ltb_spec (m * 2 ^ (i + 1) + 2 ^ i) n) as [Lt|Ge].
  - unfold sel. rewrite mod_shift, Ep. replace (m * (2 * 2 ^ i))%nat with (2 * m * 2 ^ i)%nat by lia.
    rewrite Nat.mod_mul by lia. cbn [Nat.eqb]. do 3 f_equal. lia.
  - exfalso. clear E. rewrite Ep in Hz, Ge. rewrite Sp in Hz, Ge. clear - Hz Ge Hp.
    set (u := (2 ^ (L - i - 1))%nat) in *. set (p := (2 ^ i)%nat) in *. clearbody u p. assert (m < u)%nat by nia. nia.
Qed.

Hypothesis Hq0 : 0 < q.
Hypothesis Hqm : q < 2 ^ Z.of_nat (sp_ml P).
Hypothesis Hml : (sp_ml P <= 64)%nat.
Local Notation Hn := n_pos.
Local Notation "a == b" := (peq n q a b) (at level 70).
Local Infix "*p" := (pmul n) (at level 40).
Local Infix "+p" := padd (at level 50).
Local Notation phase := (ph n).
Local Notation nr := (near n q).
Add Ring rg : (pring n q Hn) (setoid (peq_equiv n q) (peq_eqe n q Hn)).

(** An expansion key of round i with m digits. *)
Definition key_ok (s : poly) (Be : Z) (i m : nat) (w : nat -> ct) : Prop :=
  forall k, (k < m)%nat -> nr Be (phase s (w k)) (paut n (round_t P i) s *p pconst (gad (bits_for P m) k)).

Lemma expand_one_near : forall s Be i m w c f b, (i < L)%nat -> (1 <= m)%nat -> key_ok s Be i m w ->
  (forall z, (z < n)%nat -> (z mod 2 ^ i =? 0)%nat = false -> f z = 0) -> nr b (phase s c) f ->
  nr (2 * b + switch_noise n m (bits_for P m) Be) (phase s (expand_one P i m w c))
     (fun z => if (z mod 2 ^ (i + 1) =? 0)%nat then 2 * f z else 0).
Proof using HL Hq0 Hqm Hml.
  intros s Be i m w c f b Hi Hm Hk Hf Hc. destruct (round_inverse i Hi) as [t' Ht]. set (t := round_t P i) in *.
  assert (E : peq n q (fun z => if (z mod 2 ^ (i + 1) =? 0)%nat then 2 * f z else 0) (f +p paut n t f)).
  { apply peq_pt. intros z Hz. symmetry. apply half_sum; assumption. }
  rewrite E. unfold expand_one. fold t. rewrite !(phase_add P Hn Hq0 Hqm Hml).
  pose proof (key_switch_raw P Hn Hq0 Hqm Hml s w (paut n t s) m Be (praut n q t (fst c)) Hm
    (fun z => praut_range n q Hn t (fst c) z Hq0) Hk) as G.
  rewrite (praut_paut n q Hn t (fst c) Hq0) in G.
  set (X := phase s (lincomb P m w (fun k => rdigit (bits_for P m) k (praut n q t (fst c))))) in *.
  assert (F : (phase s c +p X) +p phase s (pzero, praut n q t (snd c)) == phase s c +p (X +p paut n t (snd c))).
  { unfold ph at 2. cbn [fst snd]. rewrite (praut_paut n q Hn t (snd c) Hq0). ring. }
  rewrite F. replace (2 * b + switch_noise n m (bits_for P m) Be) with (b + (switch_noise n m (bits_for P m) Be + b)) by lia.
  apply (near_add n q Hn); [exact Hc|].
  apply (near_trans n q Hn _ _ _ (paut n t (phase s c))); [|apply (near_aut n q Hn t t' _ _ _ Ht Hc)].
  assert (A : paut n t (phase s c) == paut n t s *p paut n t (fst c) +p paut n t (snd c)).
  { unfold ph. rewrite (aut_add n q Hn t t' Ht), (aut_mul n q Hn t t' Ht). reflexivity. }
  rewrite A. replace (switch_noise n m (bits_for P m) Be) with (switch_noise n m (bits_for P m) Be + 0) by lia.
  apply (near_add n q Hn); [exact G|apply (near_of_eq n q Hn); reflexivity].
Qed.

Lemma near_neg1 : forall i b a f, (i < L)%nat -> nr b a f -> nr b (neg1 P i *p a) (neg1 P i *p f).
Proof using HL Hq0 Hqm Hml.
  intros i b a f Hi H. unfold neg1.
  assert (E : forall x, popp (pmono (n - 2 ^ i)) *p x == popp (pmono (n - 2 ^ i) *p x)) by (intros x; ring).
  rewrite !E. apply (near_opp n q Hn), (near_mono n q Hn); [|exact H].
  pose proof n_pos. pose proof (Nat.pow_nonzero 2 i ltac:(lia)). lia.
Qed.
End X.
