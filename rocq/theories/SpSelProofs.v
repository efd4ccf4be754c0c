(** Phases, key switching and products with GSW ciphertexts. *)
From Coq Require Import List Arith NArith ZArith Lia Setoid Morphisms Ring.
From Verif Require Import Base SpGadgetModel SpDecodeSpec SpDecodeProofs2 SpRingModel SpRingSpec SpRingProofs SpRingProofs2
  SpSelModel SpSelSpec.
Import ListNotations.
Local Open Scope Z_scope.

Section G.
Variable n : nat.
Variable q : Z.
Hypothesis Hn : (0 < n)%nat.
Local Notation "a == b" := (peq n q a b) (at level 70).
Local Notation NZ := (Z.of_nat n).
Local Infix "*p" := (pmul n) (at level 40).
Local Infix "+p" := padd (at level 50).

Lemma peq_eqe : ring_eq_ext padd (pmul n) popp (peq n q).
Proof using Hn. split; [intros a b H c d J; rewrite H, J; reflexivity|intros a b H c d J; rewrite H, J; reflexivity|intros a b H; rewrite H; reflexivity]. Qed.
Add Ring rg : (pring n q Hn) (setoid (peq_equiv n q) peq_eqe).

Lemma near_psub : forall B a b, near n q B a b <-> small n q B (psub a b).
Proof using. clear Hn. intros B a b. apply small_proper; [reflexivity|]. apply peq_pt. intros z _. unfold psub, padd, popp. lia. Qed.
Global Instance near_proper : Proper (eq ==> peq n q ==> peq n q ==> iff) (near n q).
Proof using. intros B ? <- a a' H b b' J. rewrite !near_psub. apply small_proper; [reflexivity|]. rewrite H, J. reflexivity. Qed.
Lemma near_weaken : forall A B a b, near n q A a b -> A <= B -> near n q B a b.
Proof using Hn. intros A B a b H L. exact (small_weaken n q Hn A B _ H L). Qed.
Lemma near_pos : forall B a b, near n q B a b -> 0 <= B.
Proof using Hn. intros B a b H. exact (small_pos n q Hn B _ H). Qed.
Lemma near_of_eq : forall a b, a == b -> near n q 0 a b.
Proof using Hn. intros a b H. rewrite H, near_psub. assert (E : psub b b == pzero) by ring. rewrite E. apply small_zero. exact Hn. Qed.
Lemma near_err : forall B a e, small n q B e -> near n q B (a +p e) a.
Proof using Hn. intros B a e H. rewrite near_psub. assert (E : psub (a +p e) a == e) by ring. rewrite E. exact H. Qed.
Lemma near_trans : forall A B a b c, near n q A a b -> near n q B b c -> near n q (A + B) a c.
Proof using Hn.
  intros A B a b c H J. rewrite near_psub in *. assert (E : psub a c == psub a b +p psub b c) by ring. rewrite E.
  apply small_add; assumption.
Qed.
Lemma near_add : forall A B a b c d, near n q A a b -> near n q B c d -> near n q (A + B) (a +p c) (b +p d).
Proof using Hn.
  intros A B a b c d H J. rewrite near_psub in *. assert (E : psub (a +p c) (b +p d) == psub a b +p psub c d) by ring. rewrite E.
  apply small_add; assumption.
Qed.
Lemma near_opp : forall A a b, near n q A a b -> near n q A (popp a) (popp b).
Proof using Hn.
  intros A a b H. rewrite near_psub in *. assert (E : psub (popp a) (popp b) == popp (psub a b)) by ring. rewrite E.
  apply small_opp; assumption.
Qed.
Lemma near_mul : forall D B d a b, small n q D d -> near n q B a b -> near n q (NZ * D * B) (d *p a) (d *p b).
Proof using Hn.
  intros D B d a b H J. rewrite near_psub in *. assert (E : psub (d *p a) (d *p b) == d *p (psub a b)) by ring. rewrite E.
  apply small_mul; assumption.
Qed.
Lemma near_mono : forall k B a b, (k < n)%nat -> near n q B a b -> near n q B (pmono k *p a) (pmono k *p b).
Proof using Hn.
  intros k B a b Hk J. rewrite near_psub in *. assert (E : psub (pmono k *p a) (pmono k *p b) == pmono k *p (psub a b)) by ring. rewrite E.
  apply small_mono; assumption.
Qed.
Lemma aut_sub : forall t t' a b, ((t * t') mod (2 * n) = 1)%nat -> paut n t (psub a b) == psub (paut n t a) (paut n t b).
Proof using Hn.
  intros t t' a b Ht.
  assert (Z0 : paut n t pzero == pzero).
  { apply (peq_ext n q Hn). intros i. rewrite (aut_ext_inv n Hn t t' Ht), !(ext_zero n Hn). reflexivity. }
  assert (O : paut n t (popp b) == popp (paut n t b)).
  { assert (E : paut n t (popp b) +p paut n t b == pzero).
    { rewrite <- (aut_add n q Hn t t' Ht). assert (F : popp b +p b == pzero) by ring.
      rewrite (paut_proper n q Hn t t' Ht _ _ F). exact Z0. }
    assert (F : paut n t (popp b) == (paut n t (popp b) +p paut n t b) +p popp (paut n t b)) by ring.
    rewrite F, E. ring. }
  unfold psub. rewrite (aut_add n q Hn t t' Ht), O. reflexivity.
Qed.
Lemma near_aut : forall t t' B a b, ((t * t') mod (2 * n) = 1)%nat -> near n q B a b -> near n q B (paut n t a) (paut n t b).
Proof using Hn.
  intros t t' B a b Ht H. rewrite near_psub in *. rewrite <- (aut_sub t t' a b Ht). apply (small_aut n q Hn t t' B _ Ht H).
Qed.
Lemma near_sum : forall k f g B, (forall i, (i < k)%nat -> near n q B (f i) (g i)) -> near n q (Z.of_nat k * B) (psum k f) (psum k g).
Proof using Hn.
  induction k as [|k IH]; intros f g B H; [apply near_of_eq; reflexivity|].
  replace (Z.of_nat (S k) * B) with (Z.of_nat k * B + B) by lia.
  change (psum (S k) f) with (psum k f +p f k). change (psum (S k) g) with (psum k g +p g k).
  apply near_add; [apply IH; intros i Hi; apply H; lia|apply H; lia].
Qed.

(** * Phases *)
Definition ph (s : poly) (c : ct) : poly := s *p fst c +p snd c.

Lemma psum_comm : forall k (f : nat -> poly) (d : nat -> poly) a,
  a *p psum k (fun i => f i *p d i) == psum k (fun i => d i *p (a *p f i)).
Proof using Hn.
  intros k f d a. rewrite <- (psum_mul n q Hn). apply (psum_ext n q Hn). intros i _. ring.
Qed.
End G.
