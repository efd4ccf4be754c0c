(** Constants, monomials, automorphisms, digits and norms. *)
From Coq Require Import List Arith NArith ZArith Lia Setoid Morphisms Ring Permutation.
From Verif Require Import SpDecodeSpec SpDecodeProofs2 SpRingModel SpRingSpec SpRingProofs.
Import ListNotations.
Local Open Scope Z_scope.

Lemma zsum_delta : forall n k f, (k < n)%nat -> zsum n (fun i => (if Nat.eqb i k then 1 else 0) * f i) = f k.
Proof.
  induction n as [|n IH]; intros k f H; [lia|]. rewrite zsum_S. destruct (Nat.eqb_spec n k) as [->|E].
  - rewrite (zsum_ext k _ (fun _ => 0)).
    + assert (Z0 : zsum k (fun _ => 0) = 0) by (clear; induction k as [|k IH]; [reflexivity|rewrite zsum_S, IH; reflexivity]). lia.
    + intros i Hi. destruct (Nat.eqb_spec i k); lia.
  - rewrite IH by lia. lia.
Qed.

Section R2.
Variable n : nat.
Variable q : Z.
Hypothesis Hn : (0 < n)%nat.
Local Notation "a == b" := (peq n q a b) (at level 70).
Local Notation NZ := (Z.of_nat n).

Lemma peq_ext_iff : forall a b, a == b <-> forall i, eqm q (ext n a i) (ext n b i).
Proof using Hn.
  intros a b. split; [apply peq_ext_eqm; exact Hn|]. intros H z Hz. specialize (H (Z.of_nat z)).
  rewrite !(ext_nat n Hn) in H by exact Hz. exact H.
Qed.

Lemma const_mul : forall c a z, (z < n)%nat -> pmul n (pconst c) a z = c * a z.
Proof using Hn.
  intros c a z Hz. unfold pmul, negacyclic.
  rewrite (zsum_ext n _ (fun i => (if Nat.eqb i 0 then 1 else 0) * (c * a z))).
  - rewrite (zsum_delta n 0 (fun _ => c * a z) Hn). reflexivity.
  - intros i Hi. destruct i as [|i]; cbn [pconst Nat.eqb].
    + replace (0 <=? z)%nat with true by reflexivity. rewrite Nat.sub_0_r. lia.
    + destruct (S i <=? z)%nat; ring.
Qed.

Lemma const_add : forall a b, pconst (a + b) == padd (pconst a) (pconst b).
Proof using Hn. intros a b. apply peq_pt. intros [|z] _; unfold padd; cbn [pconst]; lia. Qed.
Lemma const_opp : forall a, pconst (- a) == popp (pconst a).
Proof using Hn. intros a. apply peq_pt. intros [|z] _; unfold popp; cbn [pconst]; lia. Qed.
Lemma const_times : forall a b, pconst (a * b) == pmul n (pconst a) (pconst b).
Proof using Hn. intros a b. apply peq_pt. intros z Hz. rewrite const_mul by exact Hz. destruct z; cbn [pconst]; lia. Qed.
Lemma const_zero : pconst 0 == pzero.
Proof using Hn. apply peq_pt. intros [|z] _; reflexivity. Qed.
Lemma const_eqm : forall a b, eqm q a b -> pconst a == pconst b.
Proof using Hn. intros a b H [|z] _; cbn [pconst]; [exact H|apply eqm_refl]. Qed.

(** * Multiplication by monomials *)
Lemma mono_mul : forall k a i, (k < n)%nat -> ext n (pmul n (pmono k) a) i = ext n a (i - Z.of_nat k).
Proof using Hn.
  intros k a i Hk. rewrite (ext_mul n Hn). unfold per.
  rewrite (zsum_ext n _ (fun j => (if Nat.eqb j k then 1 else 0) * ext n a (i - Z.of_nat j))).
  - rewrite (zsum_delta n k (fun j => ext n a (i - Z.of_nat j)) Hk). reflexivity.
  - intros j Hj. rewrite (ext_nat n Hn) by exact Hj. reflexivity.
Qed.

(** * Automorphisms *)
Section Aut.
Variable t t' : nat.
Hypothesis Ht : ((t * t') mod (2 * n) = 1)%nat.

Lemma t_inv : forall i : Z, exists k, Z.of_nat t * (Z.of_nat t' * i) = i + k * (2 * NZ).
Proof using Ht Hn.
  intros i. pose proof (Nat.div_mod (t * t') (2 * n) ltac:(lia)) as D. rewrite Ht in D.
  exists (Z.of_nat (t * t' / (2 * n)) * i). set (u := (t * t' / (2 * n))%nat) in *. clearbody u.
  assert (E : Z.of_nat t * Z.of_nat t' = 2 * NZ * Z.of_nat u + 1) by nia. rewrite Z.mul_assoc, E. nia.
Qed.

Lemma t_inj : forall i j, (i < n)%nat -> (j < n)%nat -> ((i * t) mod n = (j * t) mod n)%nat -> i = j.
Proof using Ht Hn.
  intros i j Hi Hj E.
  assert (G : forall x, (((x * t) * t') mod n = x mod n)%nat).
  { intros x. replace (x * t * t')%nat with (x * (t * t'))%nat by lia.
    rewrite (Nat.div_mod (t * t') (2 * n)) by lia. rewrite Ht.
    replace (x * (2 * n * (t * t' / (2 * n)) + 1))%nat with (x + (2 * x * (t * t' / (2 * n))) * n)%nat by nia.
    apply Nat.mod_add. lia. }
  rewrite <- (Nat.mod_small i n Hi), <- (Nat.mod_small j n Hj), <- (G i), <- (G j).
  rewrite <- Nat.mul_mod_idemp_l, E, Nat.mul_mod_idemp_l by lia. reflexivity.
Qed.

Lemma t_odd : Nat.odd t = true.
Proof using Ht Hn.
  destruct (Nat.odd t) eqn:E; [reflexivity|]. exfalso. rewrite <- Nat.negb_even in E. apply Bool.negb_false_iff in E.
  apply Nat.even_spec in E as [m ->]. rewrite <- (Nat.mul_assoc 2), Nat.mul_mod_distr_l in Ht by lia. lia.
Qed.

Lemma aut_at : forall a i, (i < n)%nat ->
  paut n t a ((i * t) mod n)%nat = if Nat.even ((i * t) / n)%nat then a i else - a i.
Proof using Ht Hn.
  intros a. unfold paut.
  assert (G : forall l res, (forall x, In x l -> (x < n)%nat) -> NoDup l -> forall i, In i l ->
    fold_left (fun (res : poly) i => fun z => if Nat.eqb z ((i * t) mod n)%nat then (if Nat.even (i * t / n)%nat then a i else - a i) else res z)
      l res ((i * t) mod n)%nat = if Nat.even ((i * t) / n)%nat then a i else - a i).
  { assert (K : forall l res, (forall x, In x l -> (x < n)%nat) -> forall j, (j < n)%nat -> ~ In j l ->
      fold_left (fun (res : poly) i => fun z => if Nat.eqb z ((i * t) mod n)%nat then (if Nat.even (i * t / n)%nat then a i else - a i) else res z)
        l res ((j * t) mod n)%nat = res ((j * t) mod n)%nat).
    { induction l as [|x l IH]; intros res B j Hj Nj; [reflexivity|]. cbn [fold_left].
      rewrite IH; [|intros y Hy; apply B; right; exact Hy|exact Hj|intros I; apply Nj; right; exact I].
      destruct (Nat.eqb_spec ((j * t) mod n)%nat ((x * t) mod n)%nat) as [E|E]; [|reflexivity].
      exfalso. apply Nj. left. apply t_inj; [apply B; left; reflexivity|exact Hj|symmetry; exact E]. }
    induction l as [|x l IH]; intros res B ND i I; [destruct I|]. cbn [fold_left]. inversion ND as [|? ? N1 N2]; subst.
    destruct I as [<-|I].
    - rewrite K; [rewrite Nat.eqb_refl; reflexivity|intros y Hy; apply B; right; exact Hy|apply B; left; reflexivity|exact N1].
    - apply IH; [intros y Hy; apply B; right; exact Hy|exact N2|exact I]. }
  intros i Hi. apply G; [intros x Hx; apply in_seq in Hx; lia|apply seq_NoDup|apply in_seq; lia].
Qed.

Lemma anti_nat : forall (F : Z -> Z), (forall i, F (i + NZ) = - F i) -> forall k i,
  F (i + Z.of_nat k * NZ) = if Nat.even k then F i else - F i.
Proof using Hn.
  clear t t' Ht. intros F A. induction k as [|k IH]; intros i; [cbn [Nat.even]; f_equal; lia|].
  replace (i + Z.of_nat (S k) * NZ) with ((i + Z.of_nat k * NZ) + NZ) by lia. rewrite A, IH.
  rewrite Nat.even_succ, <- Nat.negb_even. destruct (Nat.even k); cbn [negb]; lia.
Qed.

Lemma aut_ext : forall a i, ext n (paut n t a) (Z.of_nat t * i) = ext n a i.
Proof using Ht Hn.
  intros a. apply (anti_ext n Hn (fun i => ext n (paut n t a) (Z.of_nat t * i))).
  - intros i. replace (Z.of_nat t * (i + NZ)) with (Z.of_nat t * i + Z.of_nat t * NZ) by lia.
    rewrite (anti_nat _ (ext_anti n Hn (paut n t a))). rewrite <- Nat.negb_odd, t_odd. reflexivity.
  - intros z Hz. cbn beta. pose proof (Nat.div_mod (z * t) n ltac:(lia)) as D.
    replace (Z.of_nat t * Z.of_nat z) with (Z.of_nat ((z * t) mod n) + Z.of_nat (z * t / n) * NZ) by nia.
    rewrite (anti_nat _ (ext_anti n Hn (paut n t a))). rewrite (ext_nat n Hn) by (apply Nat.mod_upper_bound; lia).
    rewrite aut_at by exact Hz. destruct (Nat.even _); lia.
Qed.

Lemma aut_ext_inv : forall a j, ext n (paut n t a) j = ext n a (Z.of_nat t' * j).
Proof using Ht Hn.
  intros a j. rewrite <- (aut_ext a (Z.of_nat t' * j)). destruct (t_inv j) as [k E]. rewrite E.
  symmetry. apply (anti_mul n Hn (ext n (paut n t a)) (ext_anti n Hn _)).
Qed.

Lemma aut_add : forall a b, paut n t (padd a b) == padd (paut n t a) (paut n t b).
Proof using Ht Hn. intros a b. apply (peq_ext n q Hn). intros i. rewrite (ext_add n Hn), !aut_ext_inv, (ext_add n Hn). reflexivity. Qed.

Lemma aut_mul : forall a b, paut n t (pmul n a b) == pmul n (paut n t a) (paut n t b).
Proof using Ht Hn.
  intros a b. apply (peq_ext n q Hn). intros j. rewrite aut_ext_inv, !(ext_mul n Hn). symmetry.
  rewrite <- (per_reindex n Hn (fun i => ext n a i * ext n b (Z.of_nat t' * j - i)) (fun i => Z.of_nat t' * i) (fun i => Z.of_nat t * i)).
  - apply (per_ext n Hn). intros i. rewrite !aut_ext_inv. f_equal. f_equal. lia.
  - apply (prod_periodic n Hn).
  - intros i k E. apply Z.mod_divide in E; [|lia]. destruct E as [u E]. apply Z.mod_divide; [lia|].
    destruct (t_inv (i - k)) as [w W]. exists (Z.of_nat t * u - 2 * w). nia.
  - intros i. destruct (t_inv i) as [w W]. replace (Z.of_nat t' * (Z.of_nat t * i)) with (i + (2 * w) * NZ) by nia.
    apply Z.mod_add. lia.
Qed.

Lemma paut_proper : Proper (peq n q ==> peq n q) (paut n t).
Proof using Ht Hn.
  intros a b H. apply peq_ext_iff. intros i. rewrite !aut_ext_inv. apply (peq_ext_eqm n q Hn). exact H.
Qed.
End Aut.

(** * Norms *)
Lemma small_weaken : forall A B a, small n q A a -> A <= B -> small n q B a.
Proof using Hn. intros A B a (r & E & H) L. exists r. split; [exact E|]. intros z Hz. specialize (H z Hz). lia. Qed.
Lemma small_pos : forall B a, small n q B a -> 0 <= B.
Proof using Hn. intros B a (r & _ & H). specialize (H 0%nat Hn). lia. Qed.
Global Instance small_proper : Proper (eq ==> peq n q ==> iff) (small n q).
Proof using.
  intros B B' <- a b H. split; intros (r & E & J); exists r; (split; [|exact J]); [rewrite <- H|rewrite H]; exact E.
Qed.
Lemma small_zero : small n q 0 pzero.
Proof using Hn. exists pzero. split; [reflexivity|]. intros z _. cbn. lia. Qed.
Lemma small_add : forall A B a b, small n q A a -> small n q B b -> small n q (A + B) (padd a b).
Proof using Hn.
  intros A B a b (r & E & H) (s & F & J). exists (padd r s). split; [rewrite E, F; reflexivity|].
  intros z Hz. unfold padd. specialize (H z Hz). specialize (J z Hz). lia.
Qed.
Lemma small_opp : forall A a, small n q A a -> small n q A (popp a).
Proof using Hn.
  intros A a (r & E & H). exists (popp r). split; [rewrite E; reflexivity|].
  intros z Hz. unfold popp. specialize (H z Hz). lia.
Qed.
Lemma small_sub : forall A B a b, small n q A a -> small n q B b -> small n q (A + B) (psub a b).
Proof using Hn. intros A B a b H J. apply small_add; [exact H|apply small_opp, J]. Qed.
Lemma zsum_const : forall k c, zsum k (fun _ => c) = Z.of_nat k * c.
Proof using Hn. induction k as [|k IH]; intros c; [reflexivity|]. rewrite zsum_S, IH. lia. Qed.
Lemma small_mul : forall A B a b, small n q A a -> small n q B b -> small n q (NZ * A * B) (pmul n a b).
Proof using Hn.
  intros A B a b (r & E & H) (s & F & J). exists (pmul n r s). split; [rewrite E, F; reflexivity|].
  intros z Hz. unfold pmul, negacyclic.
  replace (NZ * A * B) with (zsum n (fun _ => A * B)) by (rewrite zsum_const; lia).
  apply zsum_abs. intros i Hi. pose proof (H i Hi) as H1.
  assert (G : forall k, (k < n)%nat -> Z.abs (r i * s k) <= A * B).
  { intros k Hk. specialize (J k Hk). rewrite Z.abs_mul. nia. }
  destruct (Nat.leb_spec i z); [|rewrite Z.abs_opp]; apply G; lia.
Qed.
Lemma small_scale : forall c B a, small n q B a -> small n q (Z.abs c * B) (pmul n (pconst c) a).
Proof using Hn.
  intros c B a (r & E & H). exists (pmul n (pconst c) r). split; [rewrite E; reflexivity|].
  intros z Hz. rewrite const_mul by exact Hz. specialize (H z Hz). rewrite Z.abs_mul. nia.
Qed.
Lemma small_ext : forall B a, (forall z, (z < n)%nat -> Z.abs (a z) <= B) -> forall i, Z.abs (ext n a i) <= B.
Proof using Hn.
  intros B a H i. unfold ext. cbv zeta. pose proof (Z.mod_pos_bound i (2 * NZ) ltac:(lia)).
  destruct (Z.ltb_spec (i mod (2 * NZ)) NZ); [|rewrite Z.abs_opp]; apply H; lia.
Qed.
Lemma small_mono : forall k B a, (k < n)%nat -> small n q B a -> small n q B (pmul n (pmono k) a).
Proof using Hn.
  intros k B a Hk (r & E & H). exists (pmul n (pmono k) r). split; [rewrite E; reflexivity|].
  intros z Hz. rewrite <- (ext_nat n Hn (pmul n (pmono k) r) z Hz), mono_mul by exact Hk. apply small_ext. exact H.
Qed.
Lemma small_aut : forall t t' B a, ((t * t') mod (2 * n) = 1)%nat -> small n q B a -> small n q B (paut n t a).
Proof using Hn.
  intros t t' B a Ht (r & E & H). exists (paut n t r). split; [apply (paut_proper t t' Ht), E|].
  intros z Hz. rewrite <- (ext_nat n Hn (paut n t r) z Hz), (aut_ext_inv t t' Ht). apply small_ext. exact H.
Qed.

(** * Sums *)
Lemma psum_ext : forall k f g, (forall i, (i < k)%nat -> f i == g i) -> psum k f == psum k g.
Proof using Hn.
  induction k as [|k IH]; intros f g H; [reflexivity|]. cbn [psum].
  change (padd (psum k f) (f k) == padd (psum k g) (g k)). rewrite (IH f g), (H k); [reflexivity|lia|]. intros i Hi. apply H. lia.
Qed.
Lemma psum_add : forall k f g, psum k (fun i => padd (f i) (g i)) == padd (psum k f) (psum k g).
Proof using Hn.
  induction k as [|k IH]; intros f g; [intros z Hz; apply eqm_refl|].
  intros z Hz. specialize (IH f g z Hz). unfold padd in *. cbn [psum]. destruct IH as [u E]. exists u. lia.
Qed.
Lemma psum_mul : forall k f a, psum k (fun i => pmul n a (f i)) == pmul n a (psum k f).
Proof using Hn.
  induction k as [|k IH]; intros f a.
  - cbn [psum]. apply peq_pt. intros z Hz. unfold pmul, negacyclic.
    rewrite (zsum_ext n _ (fun _ => 0)); [rewrite zsum_const; lia|]. intros i _. destruct (_ <=? _)%nat; lia.
  - change (padd (psum k (fun i => pmul n a (f i))) (pmul n a (f k)) == pmul n a (padd (psum k f) (f k))).
    rewrite IH. rewrite (Rmul_comm (pring n q Hn) a (padd _ _)), (Rdistr_l (pring n q Hn)).
    rewrite (Rmul_comm (pring n q Hn) a (psum k f)), (Rmul_comm (pring n q Hn) a (f k)). reflexivity.
Qed.
Lemma psum_aut : forall t t' k f, ((t * t') mod (2 * n) = 1)%nat -> paut n t (psum k f) == psum k (fun i => paut n t (f i)).
Proof using Hn.
  intros t t' k f Ht. induction k as [|k IH].
  - apply (peq_ext n q Hn). intros i. rewrite (aut_ext_inv t t' Ht). cbn [psum].
    change (fun _ : nat => 0) with pzero. rewrite !(ext_zero n Hn). reflexivity.
  - change (paut n t (padd (psum k f) (f k)) == padd (psum k (fun i => paut n t (f i))) (paut n t (f k))).
    rewrite (aut_add t t' Ht), IH. reflexivity.
Qed.
Lemma small_sum : forall k f B, (forall i, (i < k)%nat -> small n q B (f i)) -> small n q (Z.of_nat k * B) (psum k f).
Proof using Hn.
  induction k as [|k IH]; intros f B H; [exact small_zero|].
  replace (Z.of_nat (S k) * B) with (Z.of_nat k * B + B) by lia.
  change (psum (S k) f) with (padd (psum k f) (f k)). apply small_add; [apply IH; intros i Hi; apply H; lia|apply H; lia].
Qed.

(** * Digits *)
Lemma digits_sum : forall bits t x, 0 <= x -> zsum t (fun k => 2 ^ Z.of_nat (bits * k) * (x / 2 ^ Z.of_nat (bits * k) mod 2 ^ Z.of_nat bits))
  = x mod 2 ^ Z.of_nat (bits * t).
Proof using Hn.
  intros bits t x Hx. induction t as [|t IH].
  - rewrite Nat.mul_0_r. cbn. rewrite Z.mod_1_r. reflexivity.
  - rewrite zsum_S, IH. replace (bits * S t)%nat with (bits * t + bits)%nat by lia.
    rewrite (Nat2Z.inj_add (bits * t)), Z.pow_add_r by lia.
    set (P := 2 ^ Z.of_nat (bits * t)). set (Q := 2 ^ Z.of_nat bits).
    assert (0 < P) by (apply Z.pow_pos_nonneg; lia). assert (0 < Q) by (apply Z.pow_pos_nonneg; lia).
    rewrite Z.rem_mul_r by lia. lia.
Qed.

Lemma recompose_poly : forall bits t a, 0 < q -> q <= 2 ^ Z.of_nat (bits * t) ->
  psum t (fun k => pmul n (pconst (2 ^ Z.of_nat (bits * k))) (pdigit q bits k a)) == a.
Proof using Hn.
  intros bits t a Hq Hb z Hz.
  assert (E : forall k, psum k (fun k => pmul n (pconst (2 ^ Z.of_nat (bits * k))) (pdigit q bits k a)) z =
              zsum k (fun k => 2 ^ Z.of_nat (bits * k) * ((a z mod q) / 2 ^ Z.of_nat (bits * k) mod 2 ^ Z.of_nat bits))).
  { induction k as [|k IH]; [reflexivity|]. rewrite zsum_S. cbn [psum]. rewrite IH, const_mul by exact Hz. reflexivity. }
  rewrite E. pose proof (Z.mod_pos_bound (a z) q Hq). rewrite digits_sum by lia. rewrite Z.mod_small by lia.
  exists (- (a z / q)). pose proof (Z.div_mod (a z) q ltac:(lia)). lia.
Qed.

Lemma recompose_raw : forall bits t a, (forall z, (z < n)%nat -> 0 <= a z < 2 ^ Z.of_nat (bits * t)) ->
  psum t (fun k => pmul n (pconst (2 ^ Z.of_nat (bits * k))) (rdigit bits k a)) == a.
Proof using Hn.
  intros bits t a Hb z Hz.
  assert (E : forall k, psum k (fun k => pmul n (pconst (2 ^ Z.of_nat (bits * k))) (rdigit bits k a)) z =
              zsum k (fun k => 2 ^ Z.of_nat (bits * k) * (a z / 2 ^ Z.of_nat (bits * k) mod 2 ^ Z.of_nat bits))).
  { induction k as [|k IH]; [reflexivity|]. rewrite zsum_S. cbn [psum]. rewrite IH, const_mul by exact Hz. reflexivity. }
  rewrite E. specialize (Hb z Hz). rewrite digits_sum by lia. rewrite Z.mod_small by lia. apply eqm_refl.
Qed.

Lemma small_rdigit : forall bits k a, small n q (2 ^ Z.of_nat bits - 1) (rdigit bits k a).
Proof using Hn.
  intros bits k a. exists (rdigit bits k a). split; [reflexivity|]. intros z _. unfold rdigit.
  assert (0 < 2 ^ Z.of_nat bits) by (apply Z.pow_pos_nonneg; lia).
  pose proof (Z.mod_pos_bound (a z / 2 ^ Z.of_nat (bits * k)) (2 ^ Z.of_nat bits) ltac:(lia)). lia.
Qed.

(** The words of the automorphism: the same polynomial modulo q, no word above q. *)
Lemma praut_paut : forall t a, 0 < q -> praut n q t a == paut n t a.
Proof using Hn.
  intros t a Hq. unfold praut, paut.
  assert (G : forall l (r r' : poly), (forall z, eqm q (r z) (r' z)) -> forall z,
    eqm q (fold_left (fun res i => fun z => if Nat.eqb z ((i * t) mod n) then (if Nat.even ((i * t) / n) then a i mod q else q - a i mod q) else res z) l r z)
          (fold_left (fun res i => fun z => if Nat.eqb z ((i * t) mod n) then (if Nat.even ((i * t) / n) then a i else - a i) else res z) l r' z)).
  { induction l as [|i l IH]; intros r r' Hr z; cbn [fold_left]; [apply Hr|]. apply IH. intros y.
    destruct (Nat.eqb y ((i * t) mod n)); [|apply Hr].
    pose proof (Z.div_mod (a i) q ltac:(lia)) as E. destruct (Nat.even ((i * t) / n)).
    - exists (- (a i / q)). lia.
    - exists (1 + a i / q). lia. }
  intros z _. apply G. intros y. apply eqm_refl.
Qed.
Lemma praut_range : forall t a z, 0 < q -> 0 <= praut n q t a z <= q.
Proof using Hn.
  intros t a z Hq. unfold praut. match goal with |- 0 <= fold_left ?g _ _ _ <= q => set (f := g) end.
  assert (G : forall l (r : poly), (forall y, 0 <= r y <= q) -> forall y, 0 <= fold_left f l r y <= q).
  { induction l as [|i l IH]; intros r Hr y; cbn [fold_left]; [apply Hr|]. apply IH. intros x. unfold f.
    destruct (Nat.eqb x ((i * t) mod n)); [|apply Hr]. pose proof (Z.mod_pos_bound (a i) q Hq).
    destruct (Nat.even ((i * t) / n)); lia. }
  apply G. intros y. unfold pzero. lia.
Qed.

Lemma small_digit : forall bits k a, small n q (2 ^ Z.of_nat bits - 1) (pdigit q bits k a).
Proof using Hn.
  intros bits k a. exists (pdigit q bits k a). split; [reflexivity|]. intros z _. unfold pdigit.
  assert (0 < 2 ^ Z.of_nat bits) by (apply Z.pow_pos_nonneg; lia).
  pose proof (Z.mod_pos_bound (a z mod q / 2 ^ Z.of_nat (bits * k)) (2 ^ Z.of_nat bits) ltac:(lia)). lia.
Qed.
End R2.
