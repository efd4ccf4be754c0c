(** The algebra of the transform: n = 2^L, layers of butterflies, evaluation at the roots of
    X^n + 1, and products modulo X^n + 1. *)
From Coq Require Import List Arith NArith ZArith Bool Lia.
From Verif Require Import SpDecodeSpec SpDecodeProofs2 SpRingProofs NttModel NttProofs NttSpec.
Import ListNotations.
Local Open Scope Z_scope.

Lemma bit_reverse_rev : forall k i, bit_reverse k i = rev_bits k i.
Proof.
  intros k. unfold bit_reverse. induction k as [|k IH]; intros i; [reflexivity|].
  cbn [seq map fold_right rev_bits]. rewrite <- seq_shift, map_map. f_equal.
  - replace (S k - 1 - 0)%nat with k by lia. rewrite <- (Nat.bit0_mod i).
    destruct (Nat.testbit i 0); cbn [Nat.b2n]; lia.
  - rewrite <- IH. f_equal. apply map_ext. intros b.
    replace (S k - 1 - S b)%nat with (k - 1 - b)%nat by lia.
    rewrite <- Nat.div2_div. reflexivity.
Qed.

Notation zn := Z.of_nat.

Lemma zpow_add : forall x a b, x ^ zn (a + b) = x ^ zn a * x ^ zn b.
Proof. intros x a b. rewrite Nat2Z.inj_add. apply Z.pow_add_r; lia. Qed.
Lemma zpow_mul : forall x a b, x ^ zn (a * b) = (x ^ zn a) ^ zn b.
Proof. intros x a b. rewrite Nat2Z.inj_mul. apply Z.pow_mul_r; lia. Qed.
Lemma eqm_pow : forall m a b k, eqm m a b -> eqm m (a ^ zn k) (b ^ zn k).
Proof.
  intros m a b k H. induction k as [|k IH]; [apply eqm_refl|].
  rewrite Nat2Z.inj_succ, !Z.pow_succ_r by lia. apply eqm_mul; assumption.
Qed.
Lemma eqm_eq : forall m a b, a = b -> eqm m a b.
Proof. intros m a b ->. apply eqm_refl. Qed.

Lemma zsum_split : forall a b f, zsum (a + b) f = zsum a f + zsum b (fun j => f (a + j)%nat).
Proof.
  intros a b f. induction b as [|b IH]; [rewrite Nat.add_0_r; cbn; lia|].
  rewrite Nat.add_succ_r, !zsum_S, IH. lia.
Qed.

(** * Products modulo X^n + 1 *)
Lemma peval_negacyclic : forall m n a b x, eqm m (x ^ zn n) (-1) ->
  eqm m (peval n (negacyclic n a b) x) (peval n a x * peval n b x).
Proof.
  intros m n a b x Hx. unfold peval, negacyclic.
  assert (E1 : zsum n (fun z => zsum n (fun i => if (i <=? z)%nat then a i * b (z - i)%nat else - (a i * b (n + z - i)%nat)) * x ^ zn z)
    = zsum n (fun i => a i * zsum n (fun z => (if (i <=? z)%nat then b (z - i)%nat else - b (n + z - i)%nat) * x ^ zn z))).
  { transitivity (zsum n (fun z => zsum n (fun i => a i * ((if (i <=? z)%nat then b (z - i)%nat else - b (n + z - i)%nat) * x ^ zn z)))).
    - apply zsum_ext. intros z _. rewrite Z.mul_comm, <- zsum_scale. apply zsum_ext. intros i _. destruct (i <=? z)%nat; ring.
    - rewrite zsum_swap. apply zsum_ext. intros i _. apply zsum_scale. }
  rewrite E1. clear E1. rewrite (Z.mul_comm (zsum n (fun j => a j * _))), <- zsum_scale.
  apply zsum_eqm. intros i Hi.
  assert (E2 : eqm m (zsum n (fun z => (if (i <=? z)%nat then b (z - i)%nat else - b (n + z - i)%nat) * x ^ zn z))
      (x ^ zn i * zsum n (fun j => b j * x ^ zn j))).
  { replace (zsum n (fun z => (if (i <=? z)%nat then b (z - i)%nat else - b (n + z - i)%nat) * x ^ zn z))
      with (zsum (i + (n - i)) (fun z => (if (i <=? z)%nat then b (z - i)%nat else - b (n + z - i)%nat) * x ^ zn z))
      by (f_equal; lia).
    replace (zsum n (fun j => b j * x ^ zn j)) with (zsum ((n - i) + i) (fun j => b j * x ^ zn j)) by (f_equal; lia).
    rewrite !zsum_split, Z.mul_add_distr_l, (Z.add_comm (x ^ zn i * _)). apply eqm_add.
    - rewrite <- zsum_scale. apply zsum_eqm. intros z Hz. rewrite (proj2 (Nat.leb_gt i z)) by lia.
      replace (n + z - i)%nat with (n - i + z)%nat by lia.
      replace (x ^ zn i * (b (n - i + z)%nat * x ^ zn (n - i + z))) with (b (n - i + z)%nat * x ^ zn z * x ^ zn n).
      2: { replace n with (i + (n - i))%nat at 2 by lia. rewrite !zpow_add. ring. }
      replace (- b (n - i + z)%nat * x ^ zn z) with (b (n - i + z)%nat * x ^ zn z * -1) by ring.
      apply eqm_mul; [apply eqm_refl|]. apply eqm_sym, Hx.
    - apply eqm_eq. rewrite <- zsum_scale. apply zsum_ext. intros z Hz. rewrite (proj2 (Nat.leb_le i (i + z))) by lia.
      replace (i + z - i)%nat with z by lia. rewrite zpow_add. ring. }
  eapply eqm_trans; [apply eqm_mul; [apply eqm_refl|exact E2]|]. apply eqm_eq. ring.
Qed.

Lemma peval_add : forall n a b x, peval n (fun j => a j + b j) x = peval n a x + peval n b x.
Proof. intros n a b x. unfold peval. rewrite <- zsum_add. apply zsum_ext. intros. ring. Qed.
Lemma peval_eqm : forall m n a b x, (forall j, (j < n)%nat -> eqm m (a j) (b j)) -> eqm m (peval n a x) (peval n b x).
Proof. intros m n a b x H. apply zsum_eqm. intros j Hj. apply eqm_mul; [apply H, Hj|apply eqm_refl]. Qed.

Lemma peval_zsum : forall n K (F : nat -> nat -> Z) x, peval n (fun j => zsum K (fun k => F k j)) x = zsum K (fun k => peval n (F k) x).
Proof.
  intros n K F x. induction K as [|K IH].
  - unfold peval. cbn. induction n as [|n IHn]; [reflexivity|]. rewrite zsum_S, IHn. ring.
  - rewrite zsum_S, <- IH, <- peval_add. unfold peval. apply zsum_ext. intros j _. rewrite zsum_S. reflexivity.
Qed.

(** * Layers *)
Section Layers.
Variable M : Z.
Variable L : nat.
Variable psi : Z.

Definition half (mm : nat) : nat := (2 ^ (L - 1 - mm))%nat.
Definition wt (mm i : nat) : Z := psi ^ zn (rev_bits L (2 ^ mm + i)).

(** [A'] is [A] after the butterflies of layer [mm]. *)
Definition fwd_rel (mm : nat) (A A' : nat -> Z) : Prop :=
  forall i j, (i < 2 ^ mm)%nat -> (j < half mm)%nat ->
    eqm M (A' (i * (2 * half mm) + j)%nat) (A (i * (2 * half mm) + j)%nat + wt mm i * A (i * (2 * half mm) + half mm + j)%nat)
    /\ eqm M (A' (i * (2 * half mm) + half mm + j)%nat)
             (A (i * (2 * half mm) + j)%nat - wt mm i * A (i * (2 * half mm) + half mm + j)%nat).

Definition inv_rel (mm : nat) (A A' : nat -> Z) : Prop :=
  forall i j, (i < 2 ^ mm)%nat -> (j < half mm)%nat ->
    eqm M (2 * A' (i * (2 * half mm) + j)%nat) (A (i * (2 * half mm) + j)%nat + A (i * (2 * half mm) + half mm + j)%nat)
    /\ exists w', eqm M (2 * w' * wt mm i) 1
       /\ eqm M (A' (i * (2 * half mm) + half mm + j)%nat)
                (w' * (A (i * (2 * half mm) + j)%nat - A (i * (2 * half mm) + half mm + j)%nat)).

Definition zeq (A B : nat -> Z) : Prop := forall k, (k < 2 ^ L)%nat -> eqm M (A k) (B k).

Lemma half_split : forall mm, (mm < L)%nat -> (2 ^ mm * (2 * half mm) = 2 ^ L)%nat.
Proof.
  intros mm H. unfold half. replace L with (mm + S (L - 1 - mm))%nat at 2 by lia. rewrite Nat.pow_add_r, Nat.pow_succ_r' by lia. lia.
Qed.
Lemma half_pos : forall mm, (0 < half mm)%nat.
Proof. intros mm. unfold half. apply Nat.neq_0_lt_0, Nat.pow_nonzero. lia. Qed.

(** Every index belongs to one pair of a layer. *)
Lemma half_index : forall mm k, (mm < L)%nat -> (k < 2 ^ L)%nat ->
  exists i j, (i < 2 ^ mm)%nat /\ (j < half mm)%nat
    /\ (k = i * (2 * half mm) + j \/ k = i * (2 * half mm) + half mm + j)%nat.
Proof.
  intros mm k Hm Hk. pose proof (half_pos mm) as Hp. pose proof (half_split mm Hm) as Hs.
  pose proof (Nat.div_mod k (2 * half mm) ltac:(lia)) as D.
  pose proof (Nat.mod_upper_bound k (2 * half mm) ltac:(lia)) as B.
  exists (k / (2 * half mm))%nat. set (r := (k mod (2 * half mm))%nat) in *. set (d := (k / (2 * half mm))%nat) in *.
  assert (Hd : (d < 2 ^ mm)%nat) by (apply Nat.div_lt_upper_bound; lia).
  destruct (le_lt_dec (half mm) r).
  - exists (r - half mm)%nat. lia.
  - exists r. lia.
Qed.

Lemma fwd_rel_ext : forall mm A A1 B B1, (mm < L)%nat -> zeq A A1 -> fwd_rel mm A B -> fwd_rel mm A1 B1 -> zeq B B1.
Proof.
  intros mm A A1 B B1 Hm HA HB HB1 k Hk. destruct (half_index mm k Hm Hk) as (i & j & Hi & Hj & Hor).
  destruct (HB i j Hi Hj) as [B_1 B_2]. destruct (HB1 i j Hi Hj) as [C_1 C_2].
  pose proof (half_split mm Hm) as Hs.
  assert (Hb : (i * (2 * half mm) + 2 * half mm <= 2 ^ L)%nat).
  { rewrite <- Hs. replace (i * (2 * half mm) + 2 * half mm)%nat with (S i * (2 * half mm))%nat by lia. apply Nat.mul_le_mono_r. lia. }
  assert (E1 := HA (i * (2 * half mm) + j)%nat ltac:(lia)). assert (E2 := HA (i * (2 * half mm) + half mm + j)%nat ltac:(lia)).
  destruct Hor as [-> | ->].
  - eapply eqm_trans; [exact B_1|]. eapply eqm_trans; [|apply eqm_sym, C_1].
    apply eqm_add; [exact E1|]. apply eqm_mul; [apply eqm_refl|exact E2].
  - eapply eqm_trans; [exact B_2|]. eapply eqm_trans; [|apply eqm_sym, C_2].
    apply eqm_add; [exact E1|]. apply eqm_opp, eqm_mul; [apply eqm_refl|exact E2].
Qed.

(** The layers over the integers. *)
Definition lay (mm : nat) (A : nat -> Z) (k : nat) : Z :=
  if (k mod (2 * half mm) <? half mm)%nat then A k + wt mm (k / (2 * half mm)) * A (k + half mm)%nat
  else A (k - half mm)%nat - wt mm (k / (2 * half mm)) * A k.
Fixpoint ref (m : nat) (A : nat -> Z) {struct m} : nat -> Z :=
  match m with O => A | S m => lay m (ref m A) end.

Lemma lay_rel : forall mm A, fwd_rel mm A (lay mm A).
Proof.
  intros mm A i j Hi Hj. pose proof (half_pos mm) as Hp. unfold lay. set (h := half mm) in *. split; apply eqm_eq.
  - replace ((i * (2 * h) + j) mod (2 * h))%nat with j.
    2: { rewrite Nat.add_comm, Nat.mod_add, Nat.mod_small by lia. reflexivity. }
    replace ((i * (2 * h) + j) / (2 * h))%nat with i.
    2: { rewrite Nat.add_comm, Nat.div_add, Nat.div_small by lia. reflexivity. }
    rewrite (proj2 (Nat.ltb_lt _ _) Hj). do 3 f_equal. lia.
  - replace (i * (2 * h) + h + j)%nat with ((h + j) + i * (2 * h))%nat by lia.
    rewrite Nat.mod_add, Nat.div_add, (Nat.mod_small (h + j)), (Nat.div_small (h + j)) by lia.
    rewrite (proj2 (Nat.ltb_ge _ _)) by lia. cbn [Nat.add]. do 2 f_equal. lia.
Qed.

Lemma zeq_refl : forall A, zeq A A. Proof. intros A k _. apply eqm_refl. Qed.
Lemma zeq_sym : forall A B, zeq A B -> zeq B A. Proof. intros A B H k Hk. apply eqm_sym, H, Hk. Qed.
Lemma zeq_trans : forall A B C, zeq A B -> zeq B C -> zeq A C.
Proof. intros A B C H1 H2 k Hk. eapply eqm_trans; [apply H1, Hk|apply H2, Hk]. Qed.

Lemma ref_step : forall mm a A A', (mm < L)%nat -> zeq A (ref mm a) -> fwd_rel mm A A' -> zeq A' (ref (S mm) a).
Proof. intros mm a A A' Hm H H'. cbn [ref]. eapply fwd_rel_ext; [exact Hm|exact H|exact H'|apply lay_rel]. Qed.

Lemma ref_ext : forall mm a b, (mm <= L)%nat -> zeq a b -> zeq (ref mm a) (ref mm b).
Proof.
  induction mm as [|mm IH]; intros a b Hm H; [exact H|]. cbn [ref].
  eapply fwd_rel_ext; [|apply (IH a b); [lia|exact H]|apply lay_rel|apply lay_rel]. lia.
Qed.

(** 2 can be cancelled. *)
Hypothesis Hodd : exists h, M = 2 * h + 1.

Lemma cancel2 : forall a b, eqm M (2 * a) (2 * b) -> eqm M a b.
Proof using Hodd.
  intros a b [k Hk]. destruct Hodd as [h Hh]. exists (a - b - k * h). nia.
Qed.

Lemma inv_fwd : forall mm A A', inv_rel mm A A' -> fwd_rel mm A' A.
Proof using Hodd.
  intros mm A A' H i j Hi Hj. destruct (H i j Hi Hj) as (H1 & w' & Hw & H2). clear H.
  set (x := A (i * (2 * half mm) + j)%nat) in *. set (y := A (i * (2 * half mm) + half mm + j)%nat) in *.
  set (x' := A' (i * (2 * half mm) + j)%nat) in *. set (y' := A' (i * (2 * half mm) + half mm + j)%nat) in *.
  assert (E : eqm M (2 * (wt mm i * y')) (x - y)).
  { eapply eqm_trans.
    - apply eqm_mul; [apply (eqm_refl M 2)|]. apply eqm_mul; [apply (eqm_refl M (wt mm i))|exact H2].
    - replace (2 * (wt mm i * (w' * (x - y)))) with (2 * w' * wt mm i * (x - y)) by ring.
      eapply eqm_trans; [apply eqm_mul; [exact Hw|apply eqm_refl]|]. apply eqm_eq. ring. }
  destruct H1 as [k1 H1]. destruct E as [k2 E]. split; apply cancel2.
  - exists (- k1 - k2). lia.
  - exists (k2 - k1). lia.
Qed.

(** A layer can be undone. *)
Hypothesis Hunit : forall mm i, (i < 2 ^ mm)%nat -> (mm < L)%nat -> exists w', eqm M (2 * w' * wt mm i) 1.

Lemma fwd_rel_inj : forall mm A A1 B B1, (mm < L)%nat -> fwd_rel mm A B -> fwd_rel mm A1 B1 -> zeq B B1 -> zeq A A1.
Proof using Hodd Hunit.
  intros mm A A1 B B1 Hm HB HB1 HE k Hk. destruct (half_index mm k Hm Hk) as (i & j & Hi & Hj & Hor).
  destruct (HB i j Hi Hj) as [[b1 B_1] [b2 B_2]]. destruct (HB1 i j Hi Hj) as [[c1 C_1] [c2 C_2]].
  pose proof (half_split mm Hm) as Hs.
  assert (Hb : (i * (2 * half mm) + 2 * half mm <= 2 ^ L)%nat).
  { rewrite <- Hs. replace (i * (2 * half mm) + 2 * half mm)%nat with (S i * (2 * half mm))%nat by lia. apply Nat.mul_le_mono_r. lia. }
  destruct (HE (i * (2 * half mm) + j)%nat ltac:(lia)) as [e1 E1].
  destruct (HE (i * (2 * half mm) + half mm + j)%nat ltac:(lia)) as [e2 E2].
  destruct Hor as [-> | ->].
  - apply cancel2. exists (e1 + e2 + c1 + c2 - b1 - b2). lia.
  - destruct (Hunit mm i Hi Hm) as (w' & Hw).
    set (y := A (i * (2 * half mm) + half mm + j)%nat) in *. set (y1 := A1 (i * (2 * half mm) + half mm + j)%nat) in *.
    assert (E : eqm M (2 * (wt mm i * y)) (2 * (wt mm i * y1))) by (exists (e1 - e2 + c1 - c2 - b1 + b2); lia).
    assert (F : forall z, eqm M z (w' * (2 * (wt mm i * z)))).
    { intros z. apply eqm_sym. replace (w' * (2 * (wt mm i * z))) with (2 * w' * wt mm i * z) by ring.
      eapply eqm_trans; [apply eqm_mul; [exact Hw|apply eqm_refl]|]. apply eqm_eq. ring. }
    eapply eqm_trans; [apply F|]. eapply eqm_trans; [|apply eqm_sym, F]. apply eqm_mul; [apply eqm_refl|exact E].
Qed.

Lemma ref_inj : forall mm a b, (mm <= L)%nat -> zeq (ref mm a) (ref mm b) -> zeq a b.
Proof using Hodd Hunit.
  induction mm as [|mm IH]; intros a b Hm H; [exact H|]. cbn [ref] in H. apply IH; [lia|].
  eapply fwd_rel_inj; [|apply lay_rel|apply lay_rel|exact H]. lia.
Qed.

(** The layers mm, mm + 1, ..., mm + k - 1. *)
Fixpoint refs (mm k : nat) (A : nat -> Z) {struct k} : nat -> Z :=
  match k with O => A | S k => refs (S mm) k (lay mm A) end.

Lemma refs_ext : forall k mm A B, (mm + k <= L)%nat -> zeq A B -> zeq (refs mm k A) (refs mm k B).
Proof using.
  clear. induction k as [|k IH]; intros mm A B Hm H; [exact H|]. cbn [refs]. apply IH; [lia|].
  eapply fwd_rel_ext; [|exact H|apply lay_rel|apply lay_rel]. lia.
Qed.
Lemma refs_ref : forall k mm A, refs mm k (ref mm A) = ref (mm + k) A.
Proof using.
  clear. induction k as [|k IH]; intros mm A; cbn [refs]; [rewrite Nat.add_0_r; reflexivity|].
  change (lay mm (ref mm A)) with (ref (S mm) A). rewrite IH. f_equal. lia.
Qed.

Lemma refs_back : forall mm k v A A', (mm + S k = L)%nat -> zeq v (refs (S mm) k A) -> inv_rel mm A A' ->
  zeq v (refs mm (S k) A').
Proof using Hodd.
  clear Hunit.
  intros mm k v A A' Hm H H'. apply inv_fwd in H'. eapply zeq_trans; [exact H|]. cbn [refs]. apply refs_ext; [lia|].
  eapply fwd_rel_ext; [|apply zeq_refl|exact H'|apply lay_rel]. lia.
Qed.

(** * Evaluation *)
Hypothesis Hpsi : is_root M (2 ^ L) psi.

Lemma wt_exp : forall mm i, (mm < L)%nat -> (i < 2 ^ mm)%nat -> rev_bits L (2 ^ mm + i) = (half mm * (1 + 2 * rev_bits mm i))%nat.
Proof using.
  clear.
  intros mm i Hm Hi. unfold half. replace L with (S mm + (L - 1 - mm))%nat at 1 by lia. rewrite rev_more.
  - rewrite rev_top by exact Hi. reflexivity.
  - cbn [Nat.pow]. lia.
Qed.

Definition root_of (mm i : nat) : Z := psi ^ zn (2 ^ (L - mm) * (1 + 2 * rev_bits mm i)).

Lemma ref_eval : forall a mm i x, (mm <= L)%nat -> (i < 2 ^ mm)%nat -> eqm M (x ^ zn (2 ^ (L - mm))) (root_of mm i) ->
  eqm M (peval (2 ^ L) a x) (peval (2 ^ (L - mm)) (fun j => ref mm a (i * 2 ^ (L - mm) + j)%nat) x).
Proof using Hpsi.
  clear Hodd Hunit.
  intros a mm. induction mm as [|mm IH]; intros i x Hm Hi Hx.
  - cbn [Nat.pow] in Hi. assert (i = 0)%nat by lia. subst i. rewrite Nat.sub_0_r. apply eqm_refl.
  - assert (Hmm : (mm < L)%nat) by lia.
    assert (Eh : (2 ^ (L - S mm) = half mm)%nat) by (unfold half; f_equal; lia).
    assert (E2 : (2 ^ (L - mm) = 2 * half mm)%nat).
    { unfold half. rewrite <- Nat.pow_succ_r'. f_equal. lia. }
    rewrite Eh in *. set (h := half mm) in *.
    destruct (even_odd_split i) as [i0 Hor].
    assert (Hi0 : (i0 < 2 ^ mm)%nat) by (cbn [Nat.pow] in Hi; lia).
    assert (Hw : eqm M (x ^ zn h) (if Nat.even i then wt mm i0 else - wt mm i0)).
    { unfold root_of in Hx. rewrite Eh in Hx. fold h in Hx. unfold wt. rewrite wt_exp by assumption. fold h.
      destruct Hor as [-> | ->].
      - rewrite rev_double in Hx. rewrite Nat.even_mul. exact Hx.
      - rewrite rev_double_1 in Hx. replace (Nat.even (2 * i0 + 1)) with false by (rewrite Nat.even_add, Nat.even_mul; reflexivity).
        eapply eqm_trans; [exact Hx|].
        replace (h * (1 + 2 * (2 ^ mm + rev_bits mm i0)))%nat with (h * (1 + 2 * rev_bits mm i0) + 2 ^ L)%nat.
        2: { rewrite <- (half_split mm Hmm). fold h. ring. }
        rewrite zpow_add. replace (- psi ^ zn (h * (1 + 2 * rev_bits mm i0))) with (psi ^ zn (h * (1 + 2 * rev_bits mm i0)) * -1) by ring.
        apply eqm_mul; [apply eqm_refl|exact Hpsi]. }
    eapply eqm_trans; [apply (IH i0 x ltac:(lia) Hi0)|].
    { unfold root_of. rewrite E2. fold h. replace (2 * h)%nat with (h * 2)%nat by lia. rewrite zpow_mul.
      eapply eqm_trans; [apply eqm_pow, Hw|]. unfold wt. rewrite wt_exp by assumption. fold h.
      replace (h * 2 * (1 + 2 * rev_bits mm i0))%nat with (h * (1 + 2 * rev_bits mm i0) * 2)%nat by ring.
      rewrite (zpow_mul psi (h * (1 + 2 * rev_bits mm i0)) 2). apply eqm_eq. change (zn 2) with 2. rewrite !Z.pow_2_r. destruct (Nat.even i); ring. }
    rewrite E2. fold h. unfold peval. replace (2 * h)%nat with (h + h)%nat by lia. rewrite zsum_split, <- zsum_add.
    apply zsum_eqm. intros j Hj. rewrite zpow_add. cbn [ref].
    destruct (lay_rel mm (ref mm a) i0 j Hi0 Hj) as [R1 R2]. fold h in R1, R2.
    set (Y := ref mm a) in *. replace (h + h)%nat with (2 * h)%nat by lia.
    destruct Hor as [-> | ->].
    + rewrite Nat.even_mul in Hw. cbn [Nat.even orb] in Hw.
      replace (2 * i0 * h + j)%nat with (i0 * (2 * h) + j)%nat by lia.
      eapply eqm_trans; [|apply eqm_mul; [apply eqm_sym, R1|apply eqm_refl]].
      replace (Y (i0 * (2 * h) + j)%nat * x ^ zn j + Y (i0 * (2 * h) + (h + j))%nat * (x ^ zn h * x ^ zn j))
        with ((Y (i0 * (2 * h) + j)%nat + x ^ zn h * Y (i0 * (2 * h) + (h + j))%nat) * x ^ zn j) by ring.
      apply eqm_mul; [|apply eqm_refl]. apply eqm_add; [apply eqm_refl|].
      apply eqm_mul; [exact Hw|]. apply eqm_eq. f_equal. lia.
    + replace (Nat.even (2 * i0 + 1)) with false in Hw by (rewrite Nat.even_add, Nat.even_mul; reflexivity).
      replace ((2 * i0 + 1) * h + j)%nat with (i0 * (2 * h) + h + j)%nat by lia.
      eapply eqm_trans; [|apply eqm_mul; [apply eqm_sym, R2|apply eqm_refl]].
      replace (Y (i0 * (2 * h) + j)%nat * x ^ zn j + Y (i0 * (2 * h) + (h + j))%nat * (x ^ zn h * x ^ zn j))
        with ((Y (i0 * (2 * h) + j)%nat + x ^ zn h * Y (i0 * (2 * h) + (h + j))%nat) * x ^ zn j) by ring.
      apply eqm_mul; [|apply eqm_refl].
      replace (Y (i0 * (2 * h) + j)%nat - wt mm i0 * Y (i0 * (2 * h) + h + j)%nat)
        with (Y (i0 * (2 * h) + j)%nat + (- wt mm i0) * Y (i0 * (2 * h) + h + j)%nat) by ring.
      apply eqm_add; [apply eqm_refl|].
      apply eqm_mul; [exact Hw|]. apply eqm_eq. f_equal. lia.
Qed.

Lemma ref_point : forall a i, (i < 2 ^ L)%nat -> eqm M (ref L a i) (peval (2 ^ L) a (ntt_point psi L i)).
Proof using Hpsi.
  clear Hodd Hunit.
  intros a i Hi. apply eqm_sym. eapply eqm_trans; [apply (ref_eval a L i); [lia|exact Hi|]|].
  - unfold root_of, ntt_point. rewrite Nat.sub_diag, bit_reverse_rev. cbn [Nat.pow]. rewrite Z.pow_1_r.
    apply eqm_eq. do 2 f_equal. lia.
  - rewrite Nat.sub_diag. unfold peval, zsum. cbn [Nat.pow seq map fold_right]. apply eqm_eq. rewrite Nat.mul_1_r, Nat.add_0_r. cbn [Z.of_nat]. rewrite Z.pow_0_r. ring.
Qed.

(** Every point is a root of X^n + 1. *)
Lemma point_root : forall i, eqm M (ntt_point psi L i ^ zn (2 ^ L)) (-1).
Proof using Hpsi.
  clear Hodd Hunit.
  intros i. unfold ntt_point. rewrite <- zpow_mul, Nat.mul_comm, zpow_mul. eapply eqm_trans; [apply eqm_pow, Hpsi|].
  apply eqm_eq. set (e := bit_reverse L i). rewrite Nat2Z.inj_add, Nat2Z.inj_mul, Z.pow_add_r, Z.pow_mul_r by lia.
  change ((-1) ^ zn 2) with 1. change ((-1) ^ zn 1) with (-1). rewrite Z.pow_1_l by lia. reflexivity.
Qed.
End Layers.
