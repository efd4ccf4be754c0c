(** Z[X]/(X^n + 1) modulo q is a commutative ring; automorphisms, monomials and norms in it. *)
From Coq Require Import List Arith NArith ZArith Lia Setoid Morphisms Ring Permutation.
From Verif Require Import SpDecodeSpec SpDecodeProofs2 SpRingModel SpRingSpec.
Import ListNotations.
Local Open Scope Z_scope.

(** * Sums over one period *)
Lemma zsum_perm : forall n f (s : nat -> nat), Permutation (map s (seq 0 n)) (seq 0 n) ->
  zsum n (fun i => f (s i)) = zsum n f.
Proof.
  intros n f s P. unfold zsum. rewrite <- (map_map s f). apply (Permutation_map f) in P.
  induction P; cbn [fold_right]; lia.
Qed.

Lemma zsum_swap : forall n m (f : nat -> nat -> Z), zsum n (fun i => zsum m (f i)) = zsum m (fun j => zsum n (fun i => f i j)).
Proof.
  induction n as [|n IH]; intros m f.
  - symmetry. cbn. induction m as [|m IHm]; [reflexivity|]. rewrite zsum_S, IHm. reflexivity.
  - rewrite zsum_S, IH, <- zsum_add. apply zsum_ext. intros j _. rewrite zsum_S. reflexivity.
Qed.

Lemma zsum_front : forall n f, zsum (S n) f = f 0%nat + zsum n (fun i => f (S i)).
Proof. intros n f. unfold zsum. cbn [seq map fold_right]. rewrite <- seq_shift, map_map. reflexivity. Qed.

Section Per.
Variable n : nat.
Hypothesis Hn : (0 < n)%nat.
Local Notation N := (Z.of_nat n).

Definition per (f : Z -> Z) : Z := zsum n (fun i => f (Z.of_nat i)).
Definition periodic (f : Z -> Z) : Prop := forall i, f (i + N) = f i.

Lemma periodic_mul : forall f k i, periodic f -> f (i + k * N) = f i.
Proof using Hn.
  intros f k i P. revert i. induction k using Z.peano_ind; intros i.
  - f_equal. lia.
  - replace (i + Z.succ k * N) with ((i + k * N) + N) by lia. rewrite P. apply IHk.
  - rewrite <- (IHk i). replace (i + k * N) with ((i + Z.pred k * N) + N) by lia. symmetry. apply P.
Qed.

Lemma periodic_mod : forall f i, periodic f -> f i = f (i mod N).
Proof using Hn.
  intros f i P. destruct (Z.eq_dec N 0) as [E|E].
  - rewrite E. rewrite Zmod_0_r. reflexivity.
  - rewrite (Z.div_mod i N E) at 1. rewrite (Z.add_comm (N * _)), (Z.mul_comm N). apply periodic_mul. exact P.
Qed.

Lemma per_ext : forall f g, (forall i, f i = g i) -> per f = per g.
Proof using Hn. intros f g H. apply zsum_ext. intros i _. apply H. Qed.

(** A map of the residues that can be undone does not change the sum. *)
Lemma per_reindex : forall f s u, periodic f ->
  (forall i j, (s i - s j) mod N = 0 -> (i - j) mod N = 0) -> (forall j, s (u j) mod N = j mod N) ->
  per (fun i => f (s i)) = per f.
Proof using Hn.
  intros f s u P I S. unfold per.
  assert (HN : 0 < N) by (lia).
  transitivity (zsum n (fun i => (fun k => f (Z.of_nat k)) (Z.to_nat (s (Z.of_nat i) mod N)))).
  - apply zsum_ext. intros i _. rewrite (periodic_mod f _ P).
    rewrite Z2Nat.id by (apply Z.mod_pos_bound; exact HN). reflexivity.
  - apply (zsum_perm n (fun k => f (Z.of_nat k)) (fun i => Z.to_nat (s (Z.of_nat i) mod N))).
    apply NoDup_Permutation_bis; [|rewrite map_length; lia|].
    +
      assert (G : forall l, NoDup l -> (forall i, In i l -> (i < n)%nat) ->
                  NoDup (map (fun i => Z.to_nat (s (Z.of_nat i) mod N)) l)).
      { induction l as [|x l IHl]; intros ND B; [constructor|]. inversion ND as [|? ? N1 N2]; subst. cbn [map]. constructor.
        - intros J. apply in_map_iff in J as (y & E & Iy). apply N1.
          assert (X : s (Z.of_nat y) mod N = s (Z.of_nat x) mod N).
          { apply Z2Nat.inj in E; [exact E| |]; apply Z.mod_pos_bound; exact HN. }
          assert (Y : (s (Z.of_nat y) - s (Z.of_nat x)) mod N = 0) by (rewrite Zminus_mod, X, Z.sub_diag; apply Z.mod_0_l; lia).
          apply I in Y. pose proof (B x (or_introl eq_refl)). pose proof (B y (or_intror Iy)).
          apply Z.mod_divide in Y; [|lia]. destruct Y as [k Hk]. assert (k = 0) by nia. subst k.
          assert (y = x) by lia. subst y. exact Iy.
        - apply IHl; [exact N2|]. intros i Hi. apply B. right. exact Hi. }
      apply G; [apply seq_NoDup|]. intros i Hi. apply in_seq in Hi. lia.
    + intros k Hk. apply in_map_iff in Hk as (i & <- & Hi). apply in_seq.
      pose proof (Z.mod_pos_bound (s (Z.of_nat i)) N HN). lia.
Qed.

Lemma per_shift : forall f k, periodic f -> per (fun i => f (i + k)) = per f.
Proof using Hn.
  intros f k P. apply (per_reindex f (fun i => i + k) (fun j => j - k) P).
  - intros i j H. replace (i + k - (j + k)) with (i - j) in H by lia. exact H.
  - intros j. f_equal. lia.
Qed.

Lemma per_flip : forall f k, periodic f -> per (fun i => f (k - i)) = per f.
Proof using Hn.
  intros f k P. apply (per_reindex f (fun i => k - i) (fun j => k - j) P).
  - intros i j H. replace (k - i - (k - j)) with (-(i - j)) in H by lia.
    apply Z_mod_zero_opp_full in H. rewrite Z.opp_involutive in H. exact H.
  - intros j. f_equal. lia.
Qed.

(** * Antiperiodic extension *)
Definition ext (a : poly) (i : Z) : Z :=
  let m := i mod (2 * N) in if m <? N then a (Z.to_nat m) else - a (Z.to_nat (m - N)).

Lemma ext_anti : forall a i, ext a (i + N) = - ext a i.
Proof using Hn.
  intros a i. assert (HN : 0 < N) by (lia). unfold ext. cbv zeta.
  pose proof (Z.mod_pos_bound i (2 * N) ltac:(lia)) as B. rewrite <- Z.add_mod_idemp_l by lia.
  set (m := i mod (2 * N)) in *. clearbody m. destruct (Z.ltb_spec m N) as [L|L].
  - rewrite (Z.mod_small (m + N)) by lia. destruct (Z.ltb_spec (m + N) N); [lia|]. do 3 f_equal. lia.
  - replace (m + N) with ((m - N) + 1 * (2 * N)) by lia. rewrite Z.mod_add by lia. rewrite Z.mod_small by lia.
    destruct (Z.ltb_spec (m - N) N); [|lia]. rewrite Z.opp_involutive. reflexivity.
Qed.

Lemma ext_nat : forall a z, (z < n)%nat -> ext a (Z.of_nat z) = a z.
Proof using Hn.
  intros a z H. unfold ext. cbv zeta. rewrite Z.mod_small by (lia).
  destruct (Z.ltb_spec (Z.of_nat z) N); [|lia]. f_equal. lia.
Qed.

Lemma anti_mul : forall (F : Z -> Z), (forall i, F (i + N) = - F i) -> forall k i, F (i + k * (2 * N)) = F i.
Proof using Hn.
  intros F A k. induction k using Z.peano_ind; intros i.
  - f_equal. lia.
  - replace (i + Z.succ k * (2 * N)) with (((i + k * (2 * N)) + N) + N) by lia. rewrite !A, Z.opp_involutive. apply IHk.
  - rewrite <- (IHk i). replace (i + k * (2 * N)) with (((i + Z.pred k * (2 * N)) + N) + N) by lia. rewrite !A. lia.
Qed.

Lemma anti_ext : forall (F : Z -> Z) a, (forall i, F (i + N) = - F i) ->
  (forall z, (z < n)%nat -> F (Z.of_nat z) = a z) -> forall i, F i = ext a i.
Proof using Hn.
  intros F a A H i. assert (HN : 0 < N) by (lia).
  rewrite (Z.div_mod i (2 * N)) by lia. rewrite (Z.add_comm (2 * N * _)), (Z.mul_comm (2 * N)).
  rewrite (anti_mul F A), (anti_mul (ext a) (ext_anti a)).
  pose proof (Z.mod_pos_bound i (2 * N) ltac:(lia)) as B. set (m := i mod (2 * N)) in *. clearbody m.
  destruct (Z.lt_ge_cases m N) as [L|L].
  - replace m with (Z.of_nat (Z.to_nat m)) by lia. rewrite H, ext_nat by (lia). reflexivity.
  - replace m with ((m - N) + N) by lia. rewrite A, ext_anti. f_equal.
    replace (m - N) with (Z.of_nat (Z.to_nat (m - N))) by lia. rewrite H, ext_nat by (lia). reflexivity.
Qed.

Lemma prod_periodic : forall a b k, periodic (fun i => ext a i * ext b (k - i)).
Proof using Hn.
  intros a b k i. cbn beta. rewrite ext_anti. replace (k - i) with (k - (i + N) + N) by lia. rewrite ext_anti. lia.
Qed.

Lemma ext_mul : forall a b k, ext (pmul n a b) k = per (fun i => ext a i * ext b (k - i)).
Proof using Hn.
  intros a b k. symmetry. revert k. apply anti_ext.
  - intros k. unfold per. rewrite <- (Z.mul_1_l (zsum n (fun i => ext a (Z.of_nat i) * ext b (k - Z.of_nat i)))).
    rewrite <- Z.mul_opp_l, <- zsum_scale. apply zsum_ext. intros i _.
    replace (k + N - Z.of_nat i) with (k - Z.of_nat i + N) by lia. rewrite ext_anti. lia.
  - intros z Hz. unfold per, pmul, negacyclic. apply zsum_ext. intros i Hi. rewrite ext_nat by exact Hi.
    destruct (Nat.leb_spec i z).
    + replace (Z.of_nat z - Z.of_nat i) with (Z.of_nat (z - i)) by lia. rewrite ext_nat by lia. reflexivity.
    + rewrite <- (Z.opp_involutive (ext b (Z.of_nat z - Z.of_nat i))), <- ext_anti.
      replace (Z.of_nat z - Z.of_nat i + N) with (Z.of_nat (n + z - i)) by (lia). rewrite ext_nat by lia. lia.
Qed.

Lemma ext_fun : forall a (F : Z -> Z), (forall i, F (i + N) = - F i) -> (forall i, ext a i = F i) ->
  forall z, (z < n)%nat -> a z = F (Z.of_nat z).
Proof using Hn. intros a F A H z Hz. rewrite <- H. symmetry. apply ext_nat. exact Hz. Qed.

(** Exact equality of the polynomials. *)
Lemma ext_inj : forall a b, (forall i, ext a i = ext b i) -> forall z, (z < n)%nat -> a z = b z.
Proof using Hn. intros a b H z Hz. rewrite <- (ext_nat a), <- (ext_nat b), H by exact Hz. reflexivity. Qed.

Lemma mul_comm_ext : forall a b k, ext (pmul n a b) k = ext (pmul n b a) k.
Proof using Hn.
  intros a b k. rewrite !ext_mul. rewrite <- (per_flip (fun i => ext a i * ext b (k - i)) k (prod_periodic a b k)).
  apply per_ext. intros i. cbn beta. replace (k - (k - i)) with i by lia. lia.
Qed.

Lemma per_scale : forall f c, per (fun i => c * f i) = c * per f.
Proof using Hn. intros f c. apply zsum_scale. Qed.
Lemma per_swap : forall (f : Z -> Z -> Z), per (fun i => per (f i)) = per (fun j => per (fun i => f i j)).
Proof using Hn. intros f. unfold per. apply (zsum_swap n n (fun i j => f (Z.of_nat i) (Z.of_nat j))). Qed.

Lemma mul_assoc_ext : forall a b c k, ext (pmul n (pmul n a b) c) k = ext (pmul n a (pmul n b c)) k.
Proof using Hn.
  intros a b c k. rewrite !ext_mul.
  transitivity (per (fun j => per (fun i => ext a i * (ext b (j - i) * ext c (k - j))))).
  { apply per_ext. intros j. rewrite ext_mul, Z.mul_comm, <- per_scale. apply per_ext. intros i. lia. }
  rewrite per_swap. apply per_ext. intros i. rewrite per_scale. f_equal.
  rewrite ext_mul. rewrite <- (per_shift (fun j => ext b (j - i) * ext c (k - j)) i).
  - apply per_ext. intros j. f_equal; f_equal; lia.
  - intros j. replace (j + N - i) with ((j - i) + N) by lia. rewrite ext_anti.
    replace (k - j) with (k - (j + N) + N) by lia. rewrite ext_anti. lia.
Qed.

Lemma ext_add : forall a b k, ext (padd a b) k = ext a k + ext b k.
Proof using Hn. intros a b k. unfold ext, padd. cbv zeta. destruct (_ <? _); lia. Qed.
Lemma ext_opp : forall a k, ext (popp a) k = - ext a k.
Proof using Hn. intros a k. unfold ext, popp. cbv zeta. destruct (_ <? _); lia. Qed.
Lemma ext_zero : forall k, ext pzero k = 0.
Proof using Hn. intros k. unfold ext, pzero. cbv zeta. destruct (_ <? _); reflexivity. Qed.

Lemma per_one : forall f, per (fun i => ext (pconst 1) i * f i) = f 0.
Proof using Hn.
  intros f. unfold per.
  assert (Z0 : forall m, zsum m (fun _ => 0) = 0) by (clear; induction m as [|m IH]; [reflexivity|rewrite zsum_S, IH; reflexivity]).
  replace (zsum n (fun i => ext (pconst 1) (Z.of_nat i) * f (Z.of_nat i)))
    with (zsum (S (pred n)) (fun i => ext (pconst 1) (Z.of_nat i) * f (Z.of_nat i))) by (f_equal; lia).
  rewrite zsum_front, ext_nat by exact Hn. rewrite (zsum_ext (pred n) _ (fun _ => 0)).
  - rewrite Z0. cbn [pconst]. change (Z.of_nat 0) with 0. lia.
  - intros i Hi. rewrite ext_nat by lia. reflexivity.
Qed.
End Per.

(** * The ring *)
Lemma eqm_refl : forall q a, eqm q a a.
Proof. intros q a. exists 0. lia. Qed.
Lemma eqm_sym : forall q a b, eqm q a b -> eqm q b a.
Proof. intros q a b [k H]. exists (- k). lia. Qed.
Lemma eqm_trans : forall q a b c, eqm q a b -> eqm q b c -> eqm q a c.
Proof. intros q a b c [k H] [l J]. exists (k + l). lia. Qed.
Lemma eqm_add : forall q a b c d, eqm q a b -> eqm q c d -> eqm q (a + c) (b + d).
Proof. intros q a b c d [k H] [l J]. exists (k + l). lia. Qed.
Lemma eqm_opp : forall q a b, eqm q a b -> eqm q (- a) (- b).
Proof. intros q a b [k H]. exists (- k). lia. Qed.
Lemma eqm_eq : forall q a b, a = b -> eqm q a b.
Proof. intros q a b ->. apply eqm_refl. Qed.

Section Rg.
Variable n : nat.
Variable q : Z.
Hypothesis Hn : (0 < n)%nat.
Local Notation "a == b" := (peq n q a b) (at level 70).

Lemma peq_refl : forall a, a == a.
Proof using. intros a z _. apply eqm_refl. Qed.
Lemma peq_sym : forall a b, a == b -> b == a.
Proof using. intros a b H z Hz. apply eqm_sym, H, Hz. Qed.
Lemma peq_trans : forall a b c, a == b -> b == c -> a == c.
Proof using. intros a b c H J z Hz. eapply eqm_trans; [apply H|apply J]; exact Hz. Qed.
Lemma peq_pt : forall a b, (forall z, (z < n)%nat -> a z = b z) -> a == b.
Proof using. intros a b H z Hz. apply eqm_eq, H, Hz. Qed.
Lemma peq_ext : forall a b, (forall i, ext n a i = ext n b i) -> a == b.
Proof using Hn. intros a b H. apply peq_pt. apply (ext_inj n Hn). exact H. Qed.
Lemma peq_ext_eqm : forall a b, a == b -> forall i, eqm q (ext n a i) (ext n b i).
Proof using Hn.
  intros a b H i. unfold ext. cbv zeta. pose proof (Z.mod_pos_bound i (2 * Z.of_nat n) ltac:(lia)).
  destruct (Z.ltb_spec (i mod (2 * Z.of_nat n)) (Z.of_nat n)); [|apply eqm_opp]; apply H; lia.
Qed.

Global Instance peq_equiv : Equivalence (peq n q).
Proof using. split; [exact peq_refl|exact peq_sym|exact peq_trans]. Qed.
Global Instance padd_proper : Proper (peq n q ==> peq n q ==> peq n q) padd.
Proof using. intros a b H c d J z Hz. apply eqm_add; [apply H|apply J]; exact Hz. Qed.
Global Instance popp_proper : Proper (peq n q ==> peq n q) popp.
Proof using. intros a b H z Hz. apply eqm_opp, H, Hz. Qed.
Global Instance psub_proper : Proper (peq n q ==> peq n q ==> peq n q) psub.
Proof using. intros a b H c d J. unfold psub. rewrite H, J. reflexivity. Qed.
Global Instance pmul_proper : Proper (peq n q ==> peq n q ==> peq n q) (pmul n).
Proof using. intros a b H c d J z Hz. apply negacyclic_eqm; [exact Hz|exact H|exact J]. Qed.

Lemma pring : ring_theory pzero (pconst 1) padd (pmul n) psub popp (peq n q).
Proof using Hn.
  split.
  - intros x. apply peq_pt. intros z _. unfold padd, pzero. lia.
  - intros x y. apply peq_pt. intros z _. unfold padd. lia.
  - intros x y w. apply peq_pt. intros z _. unfold padd. lia.
  - intros x. apply peq_ext. intros k. rewrite (ext_mul n Hn), (per_one n Hn (fun i => ext n x (k - i))). f_equal. lia.
  - intros x y. apply peq_ext. intros k. apply (mul_comm_ext n Hn).
  - intros x y w. apply peq_ext. intros k. symmetry. apply (mul_assoc_ext n Hn).
  - intros x y w. apply peq_ext. intros k. rewrite (ext_add n Hn), !(ext_mul n Hn). unfold per. rewrite <- zsum_add.
    apply zsum_ext. intros i _. rewrite (ext_add n Hn). lia.
  - intros x y. reflexivity.
  - intros x. apply peq_pt. intros z _. unfold padd, popp, pzero. lia.
Qed.
End Rg.
