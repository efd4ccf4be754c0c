(** Proofs about keys, types of curves and the text of a configuration. *)
From Coq Require Import List NArith Arith Bool Lia.
From Verif Require Import Base BaseProofs Text TextProofs StoreModel CuckooProofs CrypModel CrypSpec CrypProofs.
Import ListNotations.
Local Open Scope N_scope.

Lemma scalar_app : forall a b, scalar (a ++ b) = scalar a + 256 ^ N.of_nat (length a) * scalar b.
Proof.
  induction a as [|x a IH]; intros b; [cbn [app scalar length N.of_nat]; rewrite N.pow_0_r; lia|].
  cbn [app scalar length]. rewrite IH, Nat2N.inj_succ, N.pow_succ_r'. lia.
Qed.
Lemma scalar_bound : forall k, Forall is_byte k -> scalar k < 256 ^ N.of_nat (length k).
Proof.
  induction 1 as [|x k Hx _ IH]; [cbn; lia|]. cbn [scalar length]. rewrite Nat2N.inj_succ, N.pow_succ_r'.
  unfold is_byte in Hx. lia.
Qed.

Lemma byte_cases : forall P : N -> bool, forallb (fun n => P (N.of_nat n)) (seq 0 256) = true -> forall b, b < 256 -> P b = true.
Proof.
  intros P H b Hb. rewrite forallb_forall in H. specialize (H (N.to_nat b)). rewrite N2Nat.id in H. apply H.
  apply in_seq. lia.
Qed.
Lemma low_bits : forall b, b < 256 -> exists a, a < 32 /\ N.land b 248 = 8 * a.
Proof.
  intros b Hb. exists (N.land b 248 / 8).
  pose proof (byte_cases (fun b => (N.land b 248 / 8 <? 32) && (N.land b 248 =? 8 * (N.land b 248 / 8))) eq_refl b Hb) as H.
  apply andb_true_iff in H. destruct H as (H1 & H2). apply N.ltb_lt in H1. apply N.eqb_eq in H2. auto.
Qed.
Lemma high_bits : forall b, b < 256 -> exists a, a < 64 /\ N.lor (N.land b 127) 64 = 64 + a.
Proof.
  intros b Hb. exists (N.lor (N.land b 127) 64 - 64).
  pose proof (byte_cases (fun b => (N.lor (N.land b 127) 64 - 64 <? 64) && (N.lor (N.land b 127) 64 =? 64 + (N.lor (N.land b 127) 64 - 64))) eq_refl b Hb) as H.
  apply andb_true_iff in H. destruct H as (H1 & H2). apply N.ltb_lt in H1. apply N.eqb_eq in H2. auto.
Qed.

Lemma key_shape : forall k : bytes, length k = 32%nat -> exists x mid y, k = x :: mid ++ [y] /\ length mid = 30%nat.
Proof.
  intros [|x k] L; [discriminate|]. exists x. destruct (exists_last (l := k)) as (mid & y & E); [intros ->; discriminate|].
  exists mid, y. split; [congruence|]. subst k. cbn [length] in L. rewrite app_length in L. cbn [length] in L. lia.
Qed.
Lemma upd_end : forall (A : Type) (f : A -> A) x mid y, length mid = 30%nat -> upd 31 f (x :: mid ++ [y]) = x :: mid ++ [f y].
Proof.
  intros A f x mid y L. replace 31%nat with (S (length mid)) by lia. change (upd (S (length mid)) f (x :: mid ++ [y]) = x :: mid ++ [f y]).
  cbn [upd]. f_equal. clear. induction mid as [|z mid IH]; cbn; [reflexivity|]. rewrite IH. reflexivity.
Qed.
Lemma clamp_shape : forall x mid y, length mid = 30%nat ->
  clamp (x :: mid ++ [y]) = N.land x 248 :: mid ++ [N.lor (N.land y 127) 64].
Proof.
  intros x mid y L. unfold clamp. change (upd 0 (fun b => N.land b 248) (x :: mid ++ [y])) with (N.land x 248 :: mid ++ [y]).
  rewrite !upd_end by exact L. reflexivity.
Qed.

Lemma clamp_range : forall k, length k = 32%nat -> Forall is_byte k -> x25519_key (scalar (clamp k)).
Proof.
  intros k L B. destruct (key_shape k L) as (x & mid & y & -> & Lm). rewrite clamp_shape by exact Lm.
  inversion B as [|? ? Bx B2]; subst. apply Forall_app in B2. destruct B2 as (Bm & By). inversion By as [|? ? By' _]; subst.
  destruct (low_bits x Bx) as (a & Ha & ->). destruct (high_bits y By') as (b & Hb & ->).
  cbn [scalar]. rewrite scalar_app, Lm. cbn [scalar]. pose proof (scalar_bound mid Bm) as Hm. rewrite Lm in Hm.
  change (N.of_nat 30) with 30 in *. exists (a + 32 * (scalar mid + 256 ^ 30 * b)).
  change (2 ^ 251) with (32 * 256 ^ 30 * 64). change (2 ^ 254) with (256 * 256 ^ 30 * 64).
  set (q := 256 ^ 30) in *. split; nia.
Qed.
Lemma clamp_twice : forall k, length k = 32%nat -> clamp (clamp k) = clamp k.
Proof.
  intros k L. destruct (key_shape k L) as (x & mid & y & -> & Lm). rewrite !clamp_shape by exact Lm.
  f_equal; [rewrite <- N.land_assoc; reflexivity|]. do 2 f_equal.
  apply N.bits_inj. intros n. rewrite !N.lor_spec, !N.land_spec, !N.lor_spec, !N.land_spec.
  destruct (N.testbit y n), (N.testbit 127 n), (N.testbit 64 n); reflexivity.
Qed.
Lemma clamp_len : forall k, length (clamp k) = length k.
Proof. intros k. unfold clamp. rewrite !upd_len. reflexivity. Qed.

(** The text of a configuration. *)
Lemma dec_inj : forall a b, dec a = dec b -> a = b.
Proof.
  intros a b E. destruct (dec_spec a) as (_ & _ & Ha). destruct (dec_spec b) as (_ & _ & Hb). congruence.
Qed.
Lemma digits_comma : forall a b s t, forallb is_digit a = true -> forallb is_digit b = true -> a ++ 44 :: s = b ++ 44 :: t -> a = b /\ s = t.
Proof.
  induction a as [|x a IH]; intros [|y b] s t Ha Hb E; cbn in *.
  - injection E as ->. auto.
  - injection E as <- _. discriminate Hb.
  - injection E as -> _. discriminate Ha.
  - injection E as -> E. apply andb_true_iff in Ha, Hb. destruct (IH _ _ _ (proj2 Ha) (proj2 Hb) E) as (-> & ->). auto.
Qed.
Lemma config_text_inj : forall r c r' c', config_text r c = config_text r' c' <-> r = r' /\ c_reports c = c_reports c'.
Proof.
  intros r c r' c'. split; [|intros (-> & E); unfold config_text; rewrite E; reflexivity].
  unfold config_text. intros E. apply app_inv_head in E.
  apply digits_comma in E; [|apply dec_spec|apply dec_spec]. destruct E as (E1 & E2).
  injection E2 as E2. split; apply dec_inj; assumption.
Qed.
Lemma check_config_iff : forall r c r' c', check_config r c (config_text r' c') = Ok tt <-> r = r' /\ c_reports c = c_reports c'.
Proof.
  intros r c r' c'. unfold check_config, enforce. destruct (beqb _ _) eqn:E.
  - apply beqb_spec in E. apply config_text_inj in E. tauto.
  - split; [discriminate|]. intros H. apply config_text_inj in H. apply beqb_spec in H. congruence.
Qed.

(** The cryptor of every type. *)
Ltac type_cases t := destruct t as [|[[[?p|?p|]|[?p|?p|]|]|[[?p|?p|]|[?p|?p|]|]|]].
Lemma create_cases : forall m t c, create_cryptor m t = Ok c ->
  (t = 1 \/ t = 5) /\ c_group c = GCurve25519 /\ c_hash c = (if t =? 1 then HSha256 else HElligator2) /\ c_reports c = 1 /\ c_lib c = (if x86 m && ifma m then LIpp else LSodium) \/
  t = 2 /\ c = mk_cryptor LFourQ GFourQ HAutonomous 2 /\ x86 m && negb (avx2 m) = false \/
  (t = 3 \/ t = 4) /\ c = mk_cryptor LOpenSsl GSm2 HTryAndRehash t.
Proof.
  intros m t c H. unfold create_cryptor, ipp_cryptor, fourq_cryptor, sodium_cryptor, sm2_cryptor in H. type_cases t; try discriminate H;
  repeat match type of H with context [if ?b then _ else _] => destruct b eqn:? end; try discriminate H; injection H as <-; cbn; auto 10.
Qed.
