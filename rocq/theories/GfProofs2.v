(** GF(2^128) is a field; Pow and Inv. *)
From Coq Require Import List NArith Arith Bool Lia.
From Verif Require Import Base GfModel GfSpec GfProofs.
Import ListNotations.
Local Open Scope N_scope.

Local Notation "x ** y" := (gf_mul true x y) (at level 40, left associativity).
Local Notation R x := (x < 2 ^ 128).

Lemma mul_red : forall a b, R a -> R b -> R (a ** b).
Proof. intros a b A B. apply (gf_mul_correct true a b A B). Qed.
Lemma mul_cong : forall a b, R a -> R b -> cong (a ** b) (clmul a b).
Proof. intros a b A B. apply field_product_cong. apply gf_mul_correct; assumption. Qed.
Lemma mul_any : forall avx a b, R a -> R b -> gf_mul avx a b = a ** b.
Proof. intros avx a b A B. eapply field_product_unique; apply gf_mul_correct; assumption. Qed.

Lemma mul_comm : forall a b, R a -> R b -> a ** b = b ** a.
Proof.
  intros a b A B. apply cong_unique; try apply mul_red; auto.
  eapply cong_trans; [apply mul_cong; auto|]. rewrite clmul_comm. apply cong_sym, mul_cong; auto.
Qed.
Lemma mul_assoc : forall a b c, R a -> R b -> R c -> a ** b ** c = a ** (b ** c).
Proof.
  intros a b c A B C. pose proof (mul_red a b A B). pose proof (mul_red b c B C).
  apply cong_unique; try apply mul_red; auto.
  eapply cong_trans; [apply mul_cong; auto|].
  eapply cong_trans; [apply cong_mul; [apply mul_cong; auto|apply cong_refl]|].
  rewrite clmul_assoc. apply cong_sym.
  eapply cong_trans; [apply mul_cong; auto|]. apply cong_mul; [apply cong_refl|apply mul_cong; auto].
Qed.
Lemma mul_lxor_r : forall a b c, R a -> R b -> R c -> a ** N.lxor b c = N.lxor (a ** b) (a ** c).
Proof.
  intros a b c A B C. assert (BC : R (N.lxor b c)) by (apply lxor_below; assumption).
  apply cong_unique.
  - apply mul_red; assumption.
  - apply lxor_below; apply mul_red; assumption.
  - eapply cong_trans; [apply mul_cong; auto|]. rewrite clmul_lxor_r. apply cong_sym.
    apply cong_lxor; apply mul_cong; auto.
Qed.
Lemma mul_lxor_l : forall a b c, R a -> R b -> R c -> N.lxor a b ** c = N.lxor (a ** c) (b ** c).
Proof.
  intros a b c A B C. assert (AB : R (N.lxor a b)) by (apply lxor_below; assumption).
  rewrite mul_comm, mul_lxor_r by assumption. rewrite (mul_comm c a), (mul_comm c b) by assumption. reflexivity.
Qed.
Lemma red1 : R 1. Proof. reflexivity. Qed.
Lemma red0 : R 0. Proof. reflexivity. Qed.
Lemma mul_1_r : forall a, R a -> a ** 1 = a.
Proof.
  intros a A. apply cong_unique; auto using mul_red, red1.
  eapply cong_trans; [apply mul_cong; auto using red1|]. rewrite clmul_1_r. apply cong_refl.
Qed.
Lemma mul_1_l : forall a, R a -> 1 ** a = a.
Proof. intros a A. rewrite mul_comm by auto using red1. apply mul_1_r. exact A. Qed.
Lemma mul_0_l : forall a, R a -> 0 ** a = 0.
Proof.
  intros a A. apply cong_unique; auto using mul_red, red0.
  apply mul_cong; auto using red0.
Qed.

(** ** Powers *)
Definition gpow (a n : N) : N := N.iter n (fun c => a ** c) 1.

Lemma gpow_0 : forall a, gpow a 0 = 1. Proof. reflexivity. Qed.
Lemma gpow_succ : forall a n, gpow a (N.succ n) = a ** gpow a n.
Proof. intros a n. unfold gpow. apply N.iter_succ. Qed.
Lemma gpow_red : forall a n, R a -> R (gpow a n).
Proof.
  intros a n A. induction n as [|n IH] using N.peano_ind; [apply red1|].
  rewrite gpow_succ. apply mul_red; assumption.
Qed.
Lemma gpow_1 : forall a, R a -> gpow a 1 = a.
Proof. intros a A. change 1 with (N.succ 0). rewrite gpow_succ. apply mul_1_r. exact A. Qed.
Lemma gpow_add : forall a m n, R a -> gpow a (m + n) = gpow a m ** gpow a n.
Proof.
  intros a m n A. induction m as [|m IH] using N.peano_ind.
  - rewrite gpow_0, mul_1_l by (apply gpow_red; exact A). reflexivity.
  - rewrite N.add_succ_l, !gpow_succ, IH, mul_assoc; auto using gpow_red.
Qed.
Lemma gpow_double : forall a m, R a -> gpow a m ** gpow a m = gpow a (2 * m).
Proof. intros a m A. rewrite <- gpow_add by exact A. f_equal. lia. Qed.

Lemma gpow_field : forall a n, R a -> field_power a n (gpow a n).
Proof.
  intros a n A. induction n as [|n IH] using N.peano_ind; [apply fp_one|].
  rewrite gpow_succ. eapply fp_more; [exact IH|]. apply gf_mul_correct; auto using gpow_red.
Qed.

(** ** Galois128::Pow *)
Lemma pow_loop_correct : forall avx fuel a i s m, R a -> R s -> i < 2 ^ N.of_nat fuel ->
  pow_loop avx fuel i s (gpow a m) = s ** gpow a (m * i).
Proof.
  intros avx fuel. induction fuel as [|fuel IH]; intros a i s m A S I.
  - simpl in I. replace i with 0 by lia. rewrite N.mul_0_r, gpow_0, mul_1_r by exact S. reflexivity.
  - cbn [pow_loop]. destruct (N.eqb_spec i 0) as [->|NZ].
    + rewrite N.mul_0_r, gpow_0, mul_1_r by exact S. reflexivity.
    + assert (RM : R (gpow a m)) by (apply gpow_red; exact A).
      rewrite (mul_any avx s), (mul_any avx (gpow a m) (gpow a m)) by assumption. rewrite gpow_double by exact A. rewrite IH.
      * pose proof (N.div2_odd i) as E. destruct (N.odd i) eqn:O; simpl N.b2n in E.
        -- rewrite mul_assoc by auto using gpow_red. f_equal. rewrite <- gpow_add by exact A. f_equal.
           rewrite E at 2. lia.
        -- f_equal. f_equal. rewrite E at 2. lia.
      * exact A.
      * destruct (N.odd i); auto using mul_red.
      * rewrite Nat2N.inj_succ, N.pow_succ_r' in I. rewrite N.div2_div. apply N.div_lt_upper_bound; lia.
Qed.

Lemma gf_pow_correct : forall avx a i, R a -> i < 2 ^ 64 ->
  gf_pow avx a i = if a =? 0 then 0 else gpow a i.
Proof.
  intros avx a i A I. unfold gf_pow. destruct (N.eqb_spec a 0); [reflexivity|].
  rewrite <- (gpow_1 a A) at 1. rewrite pow_loop_correct by auto using red1.
  rewrite N.mul_1_l, mul_1_l; auto using gpow_red.
Qed.

(** ** Additive maps *)
Definition additive (f : N -> N) : Prop := forall a b, R a -> R b -> f (N.lxor a b) = N.lxor (f a) (f b).

Lemma additive_0 : forall f, additive f -> f 0 = 0.
Proof.
  intros f F. specialize (F 0 0 red0 red0). rewrite (N.lxor_nilpotent (f 0)) in F. exact F.
Qed.

Lemma additive_ext : forall f g, additive f -> additive g ->
  forallb (fun i => f (2 ^ i) =? g (2 ^ i)) (map N.of_nat (seq 0 128)) = true ->
  forall a, R a -> f a = g a.
Proof.
  intros f g F G B.
  assert (P : forall m a, (m <= 128)%nat -> a < 2 ^ N.of_nat m -> f a = g a).
  { induction m as [|m IH]; intros a M A.
    - simpl in A. replace a with 0 by lia. rewrite !additive_0 by assumption. reflexivity.
    - assert (LE : 2 ^ N.of_nat m <= 2 ^ 128) by (apply N.pow_le_mono_r; lia).
      assert (LT : 2 ^ N.of_nat m < 2 ^ 128) by (apply N.pow_lt_mono_r; lia).
      assert (AM : a mod 2 ^ N.of_nat m < 2 ^ N.of_nat m) by (apply N.mod_lt, N.pow_nonzero; lia).
      pose proof (mod_succ a (N.of_nat m)) as E. rewrite N.mod_small in E by (replace (N.of_nat m + 1) with (N.of_nat (S m)) by lia; exact A).
      assert (R2 : R (if N.testbit a (N.of_nat m) then 2 ^ N.of_nat m else 0)).
      { destruct (N.testbit a (N.of_nat m)); [exact LT|reflexivity]. }
      rewrite E, F, G by (auto; eapply N.lt_le_trans; eauto). f_equal.
      + apply IH; [lia|exact AM].
      + destruct (N.testbit a (N.of_nat m)).
        * rewrite forallb_forall in B. apply N.eqb_eq. apply B. apply in_map. apply in_seq. lia.
        * rewrite !additive_0 by assumption. reflexivity. }
  intros a A. apply (P 128%nat); [lia|exact A].
Qed.

Lemma square_additive : additive (fun a => a ** a).
Proof.
  intros a b A B. cbv beta. assert (AB : R (N.lxor a b)) by (apply lxor_below; assumption).
  rewrite mul_lxor_r, !mul_lxor_l by assumption. rewrite (mul_comm b a) by assumption. xsolve.
Qed.

Lemma squares_red : forall k a, R a -> R (squares true k a).
Proof. induction k as [|k IH]; intros a A; [exact A|]. apply IH. apply mul_red; assumption. Qed.

Lemma squares_additive : forall k, additive (squares true k).
Proof.
  induction k as [|k IH]; intros a b A B; [reflexivity|]. cbn [squares].
  rewrite (square_additive a b A B). apply IH; apply mul_red; assumption.
Qed.

Lemma squares_mul : forall k a b, R a -> R b -> squares true k (a ** b) = squares true k a ** squares true k b.
Proof.
  induction k as [|k IH]; intros a b A B; [reflexivity|]. cbn [squares].
  rewrite <- IH by (apply mul_red; assumption). f_equal.
  pose proof (mul_red a b A B). pose proof (mul_red a a A A). pose proof (mul_red b b B B). pose proof (mul_red b a B A).
  rewrite !mul_assoc by assumption. f_equal.
  rewrite <- !mul_assoc by assumption. rewrite (mul_comm b a) by assumption. reflexivity.
Qed.

Lemma squares_gpow : forall k a m, R a -> squares true k (gpow a m) = gpow a (2 ^ N.of_nat k * m).
Proof.
  induction k as [|k IH]; intros a m A.
  - simpl squares. change (2 ^ N.of_nat 0) with 1. f_equal. lia.
  - cbn [squares]. rewrite gpow_double, IH by exact A. f_equal. rewrite Nat2N.inj_succ, N.pow_succ_r'. lia.
Qed.

(** Squaring 128 times is the identity. *)
Lemma frobenius_x : squares true 128 2 = 2.
Proof. vm_compute. reflexivity. Qed.

Lemma frobenius_pow2 : forall i, (i < 128)%nat -> squares true 128 (2 ^ N.of_nat i) = 2 ^ N.of_nat i.
Proof.
  induction i as [|i IH]; intros L.
  - vm_compute. reflexivity.
  - assert (B : 2 ^ N.of_nat i < 2 ^ 127) by (apply N.pow_lt_mono_r; lia).
    assert (B' : R (2 ^ N.of_nat i)) by (eapply N.lt_trans; [exact B|reflexivity]).
    assert (E : 2 ** (2 ^ N.of_nat i) = 2 ^ N.of_nat (S i)).
    { apply cong_unique.
      - apply mul_red; [reflexivity|exact B'].
      - apply N.pow_lt_mono_r; lia.
      - eapply cong_trans; [apply mul_cong; [reflexivity|exact B']|].
        change 2 with (2 ^ 1) at 1. rewrite clmul_pow2, N.shiftl_mul_pow2, <- N.pow_add_r.
        replace (N.of_nat i + 1) with (N.of_nat (S i)) by lia. apply cong_refl. }
    rewrite <- E, squares_mul by (try reflexivity; exact B'). rewrite IH by lia. rewrite frobenius_x. reflexivity.
Qed.

Lemma frobenius : forall a, R a -> squares true 128 a = a.
Proof.
  apply (additive_ext (squares true 128) (fun a => a)).
  - apply squares_additive.
  - intros a b _ _. reflexivity.
  - apply forallb_forall. intros i H. apply in_map_iff in H. destruct H as [j [<- H]]. apply in_seq in H.
    apply N.eqb_eq. apply frobenius_pow2. lia.
Qed.

Lemma gpow_order : forall a, R a -> gpow a (2 ^ 128) = a.
Proof.
  intros a A. rewrite <- (frobenius a A) at 2. rewrite <- (gpow_1 a A) at 2.
  rewrite squares_gpow by exact A. f_equal.
Qed.

(** The only elements equal to their square are 0 and 1.  [gf_cert] lists the images
    of x^0 .. x^127 under a linear map undoing e |-> e^2 + e up to the constant term. *)
Definition gf_cert : list N := [
  0x295ac0b1f4731af9676aac9fa4b20b08;
  0xe5da5595ee970b89929959af766af404;
  0xe5da5595ee970b89929959af766af406;
  0x4e9826c74350bfe67783f7333404a20c;
  0xe5da5595ee970b89929959af766af402;
  0x2aaea79ad7da34b07dc714cb83074e6a;
  0x4e9826c74350bfe67783f7333404a204;
  0xcc8095241ae41171f5f3f531d2d9fe18;
  0xe5da5595ee970b89929959af766af412;
  0x4e983687d159ce9677cb862e8ac85b44;
  0x2aaea79ad7da34b07dc714cb83074e4a;
  0xaae2ab6aaf144aaff73fcb3c06aaff56;
  0x4e9826c74350bfe67783f7333404a244;
  0xe62f327ccd5792dd893fe9ca40603f62;
  0xcc8095241ae41171f5f3f531d2d9fe98;
  0xab52f0323f47c90be1336bc7d453b626;
  0xe5da5595ee970b89929959af766af512;
  0x2abe34bad75338b479a6a089abf4573a;
  0x4e983687d159ce9677cb862e8ac85944;
  0x1e8ccb9dcc72f2e1a9cbef8232562fc;
  0x2aaea79ad7da34b07dc714cb83074a4a;
  0x2442c3221f3dc1a0ce869b24a80e48c;
  0xaae2ab6aaf144aaff73fcb3c06aaf756;
  0xcf64612f39c4323deb3ff936dd9aa228;
  0x4e9826c74350bfe67783f7333404b244;
  0xcc911696880d4909f0d5382a57572458;
  0xe62f327ccd5792dd893fe9ca40601f62;
  0x4d7cd7cc29d28cf2697f6478e5db2834;
  0xcc8095241ae41171f5f3f531d2d9be98;
  0xccc99127569146a7fc0956ca1a5b86a4;
  0xab52f0323f47c90be1336bc7d4533626;
  0x65cece94dacd5b1c14f5986b001eeb82;
  0xe5da5595ee970b89929959af766bf512;
  0x2b0e7fa2d509ca746fe27169c7c3e73a;
  0x2abe34bad75338b479a6a089abf6573a;
  0x65df4d264824132411d3553885980142;
  0x4e983687d159ce9677cb862e8acc5944;
  0xcf74f70e70ef2af7ef6fd21d2af671a4;
  0x1e8ccb9dcc72f2e1a9cbef8232d62fc;
  0xcec4b9173b16cdf9f91a9d8499490f58;
  0x2aaea79ad7da34b07dc714cb83174a4a;
  0x83f16f99175f624799a6cf206b513bdc;
  0x2442c3221f3dc1a0ce869b24aa0e48c;
  0x3f562a96a2aa9081b9e27ebe84671c0;
  0xaae2ab6aaf144aaff73fcb3c06eaf756;
  0xccc9c07ae11bcce3fcd6d526cddeebd4;
  0xcf64612f39c4323deb3ff936dd1aa228;
  0xa95fc803c09556f7e461dfebe8467196;
  0x4e9826c74350bfe67783f7333504b244;
  0x4cdc1ab0f0ab5b2e7b20ee03c15c7384;
  0xcc911696880d4909f0d5382a55572458;
  0xaaba68961da11d79fb48c8c7fe68cf6a;
  0xe62f327ccd5792dd893fe9ca44601f62;
  0xe5db5416ee209847938b5c70638d3bee;
  0x4d7cd7cc29d28cf2697f6478eddb2834;
  0x6437818b95e2e76e0b49fa26a7e512ce;
  0xcc8095241ae41171f5f3f531c2d9be98;
  0x4cd9020746184ba27868a299022ddf34;
  0xccc99127569146a7fc0956ca3a5b86a4;
  0x824171dcefbe4a8b8f1d24e407e8e76c;
  0xab52f0323f47c90be1336bc794533626;
  0xe62e22af1f6bf32b88711e202cdc3b5e;
  0x65cece94dacd5b1c14f5986b801eeb82;
  0x83f4672b23a92e499aadb85427b54520;
  0xe5da5595ee970b89929959ae766bf512;
  0x1040920971720048711dbeccf94c;
  0x2b0e7fa2d509ca746fe2716bc7c3e73a;
  0x81edd40a7a7437cb99d6b267d0d7976c;
  0x2abe34bad75338b479a6a08dabf6573a;
  0xe46a1e8deccdf96d84dd884d1a5d4462;
  0x65df4d264824132411d3553085980142;
  0x804c1cb1eac70f698ab1aeeb3a605920;
  0x4e983687d159ce9677cb863e8acc5944;
  0xa94f4b3252499e01e04514377dbd55aa;
  0xcf74f70e70ef2af7ef6fd23d2af671a4;
  0xe7d77da5831189d3978a93f3f56f619e;
  0x1e8ccb9dcc72f2e1a9cbeb8232d62fc;
  0x4cdd0f362b68e52a7a5109eab0a16ef4;
  0xcec4b9173b16cdf9f91a9d0499490f58;
  0xe4329c3d7bf233698830781e88d05912;
  0x2aaea79ad7da34b07dc715cb83174a4a;
  0x82082082597387418618bcbfcff334e0;
  0x83f16f99175f624799a6cd206b513bdc;
  0x294b124ed1181a846297e291f4adcc3a;
  0x2442c3221f3dc1a0ce86db24aa0e48c;
  0xe78fff41144664939b696b666550119e;
  0x3f562a96a2aa9081b9e2febe84671c0;
  0xcd78dbfd54a1436beb568d9e63d55a14;
  0xaae2ab6aaf144aaff73fdb3c06eaf756;
  0xccdd4e7b1ce38d0ffacabbbeed722b64;
  0xccc9c07ae11bcce3fcd6f526cddeebd4;
  0x3e5e1ccb1bf89c61fb4754fa43bbf3c;
  0xcf64612f39c4323deb3fb936dd1aa228;
  0xe5da00893461b455926f68f4172caea2;
  0xa95fc803c09556f7e4615febe8467196;
  0xe78ae2a77b3e87b1981cf1dccb9d1fd2;
  0x4e9826c74350bfe67782f7333504b244;
  0x2912d4222a675b0a6fd777b6c15f72c6;
  0x4cdc1ab0f0ab5b2e7b22ee03c15c7384;
  0xe7d6682e58d237f196f8740f85956fd2;
  0xcc911696880d4909f0d1382a55572458;
  0xab4366b0764a0b4be46143c933474626;
  0xaaba68961da11d79fb40c8c7fe68cf6a;
  0xe7d77d718378aeb397849bb7f7de0d9e;
  0xe62f327ccd5792dd892fe9ca44601f62;
  0x64231d9efb5729d60d13f9bd382e380e;
  0xe5db5416ee20984793ab5c70638d3bee;
  0x81b51ab7a5fe1499959811bd9a557220;
  0x4d7cd7cc29d28cf2693f6478eddb2834;
  0x295ab4bb43072c12678a4ee975a08406;
  0x6437818b95e2e76e0bc9fa26a7e512ce;
  0xab0eead38eb165ebef9e1acd25989a26;
  0xcc8095241ae41171f4f3f531c2d9be98;
  0x3ba7996db230c0010185b9b29b00000;
  0x4cd9020746184ba27a68a299022ddf34;
  0x8210932010890d058261f45338765990;
  0xccc99127569146a7f80956ca3a5b86a4;
  0x2a88e0fbb92f0c2c7f14722e3db361fa;
  0x824171dcefbe4a8b871d24e407e8e76c;
  0x29b11e87b8989fd86fb067f47d17578a;
  0xab52f0323f47c90bf1336bc794533626;
  0x0;
  0xe62e22af1f6bf32ba8711e202cdc3b5e;
  0x862e22af1f6bf32ba8711e202cdc3b6c;
  0x65cece94dacd5b1c54f5986b801eeb82;
  0x8e8cbdc6770aef73b1ef36f7c270bdac;
  0x83f4672b23a92e491aadb85427b54520;
  0x38b21c09fae1613c0db7ed8c3891e6fa
].

Fixpoint lin (m : list N) (k : N) (v : N) : N :=
  match m with [] => 0 | c :: r => N.lxor (if N.testbit v k then c else 0) (lin r (k + 1) v) end.

Lemma lin_additive : forall m k a b, lin m k (N.lxor a b) = N.lxor (lin m k a) (lin m k b).
Proof.
  induction m as [|c m IH]; intros k a b; [reflexivity|]. cbn [lin]. rewrite IH, N.lxor_spec.
  destruct (N.testbit a k), (N.testbit b k); simpl xorb; cbn iota; xsolve.
Qed.

Definition clear0 (e : N) : N := N.lxor e (N.b2n (N.testbit e 0)).

Lemma clear0_additive : additive clear0.
Proof.
  intros a b _ _. unfold clear0. rewrite N.lxor_spec.
  destruct (N.testbit a 0), (N.testbit b 0); simpl xorb; simpl N.b2n; xsolve.
Qed.

Lemma cert_ok : forall e, R e -> lin gf_cert 0 (N.lxor (e ** e) e) = clear0 e.
Proof.
  apply (additive_ext (fun e => lin gf_cert 0 (N.lxor (e ** e) e)) clear0).
  - intros a b A B. cbv beta. rewrite (square_additive a b A B).
    replace (N.lxor (N.lxor (a ** a) (b ** b)) (N.lxor a b)) with (N.lxor (N.lxor (a ** a) a) (N.lxor (b ** b) b)) by xsolve.
    apply lin_additive.
  - apply clear0_additive.
  - vm_compute. reflexivity.
Qed.

Lemma lin_0 : forall m k, lin m k 0 = 0.
Proof. induction m as [|c m IH]; intros k; [reflexivity|]. cbn [lin]. rewrite N.bits_0, IH. reflexivity. Qed.

Lemma idempotent : forall e, R e -> e ** e = e -> e = 0 \/ e = 1.
Proof.
  intros e E I. pose proof (cert_ok e E) as C. rewrite I, N.lxor_nilpotent, lin_0 in C.
  unfold clear0 in C. symmetry in C. apply N.lxor_eq in C. rewrite C.
  destruct (N.testbit e 0); auto.
Qed.

Lemma order : forall a, R a -> a <> 0 -> gpow a (2 ^ 128 - 1) = 1.
Proof.
  intros a A NZ. set (e := gpow a (2 ^ 128 - 1)).
  assert (E : R e) by (apply gpow_red; exact A).
  assert (EA : e ** a = a).
  { unfold e. rewrite <- (gpow_1 a A) at 2. rewrite <- gpow_add by exact A.
    change (2 ^ 128 - 1 + 1) with (2 ^ 128). apply gpow_order. exact A. }
  destruct (idempotent e E) as [H|H].
  - unfold e. rewrite <- gpow_add by exact A.
    change (2 ^ 128 - 1 + (2 ^ 128 - 1)) with (2 ^ 128 + (2 ^ 128 - 2)).
    rewrite gpow_add, gpow_order by exact A. rewrite <- (gpow_1 a A) at 1.
    rewrite <- gpow_add by exact A. f_equal.
  - exfalso. apply NZ. rewrite <- EA, H. apply mul_0_l. exact A.
  - exact H.
Qed.

Lemma no_zero_divisors : forall a b, R a -> R b -> a ** b = 0 -> a = 0 \/ b = 0.
Proof.
  intros a b A B H. destruct (N.eq_dec a 0) as [E|E]; [left; exact E|right].
  rewrite <- (mul_1_l b B), <- (order a A E). change (2 ^ 128 - 1) with ((2 ^ 128 - 2) + 1).
  rewrite gpow_add, gpow_1 by exact A. rewrite mul_assoc, H by auto using gpow_red.
  rewrite mul_comm by auto using gpow_red, red0. apply mul_0_l. apply gpow_red. exact A.
Qed.

(** ** Galois128::Inv *)
Lemma squares_any : forall avx k a, R a -> squares avx k a = squares true k a.
Proof.
  intros avx k. induction k as [|k IH]; intros a A; [reflexivity|]. cbn [squares].
  rewrite mul_any by exact A. apply IH. apply mul_red; exact A.
Qed.

Lemma inv_step : forall avx i r a m rho, R a -> R rho ->
  inv_loop avx (i :: r) (gpow a m) rho =
  inv_loop avx r (gpow a (m + 2 ^ N.of_nat (2 ^ i) * m))
    (match i with O => gpow a (2 ^ N.of_nat (2 ^ i) * m) | _ => rho ** gpow a (2 ^ N.of_nat (2 ^ i) * m) end).
Proof.
  intros avx i r a m rho A RR. cbn [inv_loop].
  assert (RM : R (gpow a m)) by (apply gpow_red; exact A).
  rewrite squares_any by exact RM. rewrite squares_gpow by exact A.
  rewrite (mul_any avx (gpow a m)), (mul_any avx rho) by auto using gpow_red. rewrite <- gpow_add by exact A. reflexivity.
Qed.

Lemma inv_value : forall avx a, R a -> inv_loop avx [0; 1; 2; 3; 4; 5; 6]%nat a 0 = gpow a (2 ^ 128 - 2).
Proof.
  intros avx a A. rewrite <- (gpow_1 a A) at 1.
  rewrite inv_step by (auto using red0). cbv iota.
  do 6 (rewrite inv_step by auto using gpow_red; cbv iota; rewrite <- gpow_add by exact A).
  cbn [inv_loop]. f_equal.
Qed.

Lemma gf_inv_zero : forall avx, gf_inv avx 0 = Throw.
Proof.
  intros avx. unfold gf_inv. rewrite mul_any; [rewrite mul_0_l; [reflexivity|]|apply red0|];
    rewrite inv_value by apply red0; apply gpow_red, red0.
Qed.

Lemma gf_inv_correct : forall avx a, R a -> a <> 0 ->
  exists r, gf_inv avx a = Ok r /\ R r /\ field_product a r 1.
Proof.
  intros avx a A NZ. unfold gf_inv. rewrite inv_value by exact A.
  assert (RP : R (gpow a (2 ^ 128 - 2))) by (apply gpow_red; exact A).
  assert (E : a ** gpow a (2 ^ 128 - 2) = 1).
  { rewrite <- gpow_succ. change (N.succ (2 ^ 128 - 2)) with (2 ^ 128 - 1). apply order; assumption. }
  rewrite mul_any by assumption. rewrite E. exists (gpow a (2 ^ 128 - 2)). split; [reflexivity|split; [exact RP|]].
  rewrite <- E. apply gf_mul_correct; assumption.
Qed.
