(** Fermat's little theorem over Z: multiplication by a permutes the residues other than 0. *)
From Coq Require Import ZArith Znumtheory Zpow_facts List Permutation Lia.
Import ListNotations.
Local Open Scope Z_scope.

Definition residues (p : Z) : list Z := map Z.of_nat (seq 1 (Z.to_nat (p - 1))).
Definition zprod (l : list Z) : Z := fold_right Z.mul 1 l.

Lemma residues_in : forall p x, 1 < p -> (In x (residues p) <-> 0 < x < p).
Proof.
  intros p x P. unfold residues. rewrite in_map_iff. split.
  - intros (n & <- & H). apply in_seq in H. lia.
  - intros H. exists (Z.to_nat x). split; [lia|]. apply in_seq. lia.
Qed.
Lemma residues_nodup : forall p, NoDup (residues p).
Proof.
  intros p. apply FinFun.Injective_map_NoDup; [|apply seq_NoDup]. intros a b H. apply Nat2Z.inj, H.
Qed.
Lemma zprod_perm : forall l l', Permutation l l' -> zprod l = zprod l'.
Proof. intros l l' P. unfold zprod. induction P; cbn [fold_right]; [reflexivity|congruence|ring|congruence]. Qed.

Lemma mul_residue : forall p a x, prime p -> ~ (p | a) -> 0 < x < p -> 0 < (a * x) mod p < p.
Proof.
  intros p a x P A X. pose proof (prime_ge_2 p P). pose proof (Z.mod_pos_bound (a * x) p ltac:(lia)) as B.
  assert ((a * x) mod p <> 0); [|lia]. intros Z. apply Z.mod_divide in Z; [|lia].
  apply prime_mult in Z; [|exact P]. destruct Z as [Z|Z]; [contradiction|]. apply Z.divide_pos_le in Z; lia.
Qed.

Lemma mul_perm : forall p a, prime p -> ~ (p | a) -> Permutation (map (fun x => (a * x) mod p) (residues p)) (residues p).
Proof.
  intros p a P A. pose proof (prime_ge_2 p P). apply NoDup_Permutation_bis.
  - assert (G : forall l, NoDup l -> (forall x, In x l -> 0 < x < p) -> NoDup (map (fun x => (a * x) mod p) l)).
    { intros l N. induction N as [|x l Hx N IH]; intros R; [constructor|]. cbn [map]. constructor.
      - rewrite in_map_iff. intros (y & E & Hy). apply Hx. replace x with y; [exact Hy|].
        assert (RX : 0 < x < p) by (apply R; left; reflexivity). assert (RY : 0 < y < p) by (apply R; right; exact Hy).
        assert (D : (p | a * (y - x))).
        { apply Z.mod_divide; [lia|]. replace (a * (y - x)) with (a * y - a * x) by ring. rewrite Zminus_mod, E, Z.sub_diag. apply Z.mod_0_l. lia. }
        apply prime_mult in D; [|exact P]. destruct D as [D|[k D]]; [contradiction|].
        assert (k < 1) by nia. assert (-1 < k) by nia. assert (k = 0) by lia. subst k. lia.
      - apply IH. intros y Hy. apply R. right. exact Hy. }
    apply G; [apply residues_nodup|]. intros x Hx. apply residues_in; [lia|exact Hx].
  - rewrite map_length. apply Nat.le_refl.
  - intros y Hy. apply in_map_iff in Hy. destruct Hy as (x & <- & Hx). apply residues_in in Hx; [|lia].
    apply residues_in; [lia|]. apply mul_residue; assumption.
Qed.

Lemma zprod_mul : forall p a l, p <> 0 ->
  zprod (map (fun x => (a * x) mod p) l) mod p = (a ^ Z.of_nat (length l) * zprod l) mod p.
Proof.
  intros p a l P. induction l as [|x l IH]; [reflexivity|]. unfold zprod in *. cbn [map fold_right length].
  rewrite Zmult_mod, IH, Zmod_mod, <- Zmult_mod, Nat2Z.inj_succ, Z.pow_succ_r by lia. f_equal. ring.
Qed.
Lemma zprod_coprime : forall p l, prime p -> (forall x, In x l -> 0 < x < p) -> ~ (p | zprod l).
Proof.
  intros p l P. pose proof (prime_ge_2 p P). induction l as [|x l IH]; intros R D; unfold zprod in *; cbn [fold_right] in D.
  - apply Z.divide_pos_le in D; lia.
  - apply prime_mult in D; [|exact P]. destruct D as [D|D].
    + specialize (R x (or_introl eq_refl)). apply Z.divide_pos_le in D; lia.
    + apply IH; [|exact D]. intros y Hy. apply R. right. exact Hy.
Qed.

Theorem fermat_Z : forall p a : Z, Znumtheory.prime p -> (a ^ p mod p = a mod p)%Z.
Proof.
  intros p a P. pose proof (prime_ge_2 p P) as P2.
  destruct (Zdivide_dec p a) as [[k K]|A].
  - subst a. rewrite Z.pow_mul_l. replace (p ^ p) with (p ^ (p - 1) * p) by (rewrite <- (Z.pow_1_r p) at 3; rewrite <- Z.pow_add_r by lia; f_equal; lia).
    rewrite Z.mul_assoc, !Z.mod_mul by lia. reflexivity.
  - set (l := residues p). assert (LL : Z.of_nat (length l) = p - 1) by (unfold l, residues; rewrite map_length, seq_length; lia).
    pose proof (zprod_mul p a l ltac:(lia)) as E. rewrite LL in E. unfold l in E at 1. rewrite (zprod_perm _ _ (mul_perm p a P A)) in E. fold l in E.
    assert (D : (p | (a ^ (p - 1) - 1) * zprod l)).
    { apply Z.mod_divide; [lia|]. replace ((a ^ (p - 1) - 1) * zprod l) with (a ^ (p - 1) * zprod l - zprod l) by ring.
      rewrite Zminus_mod, <- E, Z.sub_diag. apply Z.mod_0_l. lia. }
    apply prime_mult in D; [|exact P]. destruct D as [[k D]|D].
    2:{ exfalso. revert D. apply zprod_coprime; [exact P|]. intros x Hx. apply residues_in; [lia|exact Hx]. }
    replace (a ^ p) with (a * a ^ (p - 1)) by (rewrite <- Z.pow_succ_r by lia; f_equal; lia).
    replace (a * a ^ (p - 1)) with (a + (a * k) * p) by nia. apply Z.mod_add. lia.
Qed.
Print Assumptions fermat_Z.
