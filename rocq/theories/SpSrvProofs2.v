(** The matrix operations of the server on words, and what they do to the polynomials. *)
From Coq Require Import List Arith NArith ZArith Bool Lia.
From Verif Require Import Base StoreModel StoreProofs PirPackModel PirPackProofs2 SpArithModel SpArithProofs SpLoopModel SpLoopProofs
  SpGadgetModel SpGadgetSpec SpGadgetProofs SpDecodeModel SpDecodeSpec SpDecodeProofs2 SpRingModel SpRingSpec SpRingProofs SpRingProofs2
  SpSelModel NttModel NttSpec NttProofs NttProofs2 NttProofs3 NttProofs4 NttProofs5 SpSrvModel SpSrvSpec SpSrvProofs1.
Import ListNotations.
Local Open Scope N_scope.
Local Notation zN := Z.of_N.

(** The transform's parameters and Params agree: two coprime moduli whose product is the modulus, the same
    length, and a correct InvertUintMod. *)
Definition srv_ok (L : nat) (psi : nat -> Z) (NP : ntt_params) (P : sel_params) (inv : N -> N -> N) : Prop :=
  params_ok L psi NP /\ sp_len P = (2 ^ L)%nat /\ length (np_moduli NP) = 2%nat
  /\ N.gcd (nth 0 (np_moduli NP) 0) (nth 1 (np_moduli NP) 0) = 1
  /\ (forall x m, N.gcd x m = 1 -> 1 < m -> inv x m < m /\ (x * inv x m) mod m = 1)
  /\ sp_q P = Z.of_N (nprod (np_moduli NP)).

Section Ops.
Variables (avx : bool) (L : nat) (psi : nat -> Z) (NP : ntt_params) (P : sel_params) (inv : N -> N -> N).
Hypothesis HW : srv_ok L psi NP P inv.
Set Default Proof Using "L psi NP P inv HW".
Local Notation n := (2 ^ L)%nat.
Local Notation q := (sp_q P).
Local Notation m0 := (nth 0 (np_moduli NP) 0).
Local Notation m1 := (nth 1 (np_moduli NP) 0).
Local Notation W := (length (np_moduli NP) * np_len NP)%nat.
Local Notation hasp := (has L psi NP).

Lemma HP : params_ok L psi NP. Proof. apply HW. Qed.
Lemma Hlen : sp_len P = n. Proof. apply HW. Qed.
Lemma Hcrt : length (np_moduli NP) = 2%nat. Proof. apply HW. Qed.
Lemma Hgcd : N.gcd m0 m1 = 1. Proof. apply HW. Qed.
Lemma Hinv : forall x m, N.gcd x m = 1 -> 1 < m -> inv x m < m /\ (x * inv x m) mod m = 1. Proof. apply HW. Qed.
Lemma Hq : sp_q P = zN (nprod (np_moduli NP)). Proof. apply HW. Qed.
Lemma len_n : np_len NP = n. Proof. apply (np_n L psi NP HP). Qed.
Lemma W_n : W = (2 * n)%nat. Proof. rewrite Hcrt, len_n. reflexivity. Qed.
Lemma n_pos' : (0 < n)%nat. Proof. apply (n_pos L). Qed.
Lemma mod_bounds : forall c, (c < 2)%nat -> 2 < nth c (np_moduli NP) 0 /\ nth c (np_moduli NP) 0 < 2 ^ 30.
Proof. intros c Hc. destruct HP as (_ & _ & _ & H). destruct (H c) as (A & B & _); [rewrite Hcrt; exact Hc|]. auto. Qed.
Lemma q_prod : q = (zN m0 * zN m1)%Z.
Proof.
  rewrite Hq. pose proof Hcrt as HC. destruct (np_moduli NP) as [|a [|b [|? ?]]]; try discriminate HC. cbn [nprod fold_right nth]. rewrite N.mul_1_r. apply N2Z.inj_mul.
Qed.
Lemma q_bounds : (0 < q < 2 ^ 60)%Z.
Proof.
  rewrite q_prod. pose proof (mod_bounds 0 ltac:(lia)) as [A1 A2]. pose proof (mod_bounds 1 ltac:(lia)) as [B1 B2].
  assert (C1 : (2 < zN m0 < 2 ^ 30)%Z) by lia. assert (C2 : (2 < zN m1 < 2 ^ 30)%Z) by lia. clear - C1 C2. nia.
Qed.
Lemma eqm_mod_c : forall c a b, (c < 2)%nat -> eqm q a b -> eqm (zN (nth c (np_moduli NP) 0)) a b.
Proof.
  intros c a b Hc [k Hk]. rewrite q_prod in Hk. destruct c as [|[|c]]; [| |lia].
  - exists (zN m1 * k)%Z. lia.
  - exists (zN m0 * k)%Z. lia.
Qed.

(** [m] holds the transforms of, or the coefficients of, the polynomials [a]. *)
Definition nttm (rows cols : nat) (m : raw_mat) (a : nat -> nat -> nat -> Z) : Prop :=
  sized W rows cols m /\ forall r c, (r < rows)%nat -> (c < cols)%nat -> hasp (poly_at W m r c) (a r c).
Definition rawm (rows cols : nat) (m : raw_mat) (a : nat -> nat -> nat -> Z) : Prop :=
  sized n rows cols m /\ forall r c z, (r < rows)%nat -> (c < cols)%nat -> (z < n)%nat -> zN (nth z (poly_at n m r c) 0) = a r c z.

Lemma has_peq : forall p a b, hasp p a -> peq n q a b -> hasp p b.
Proof.
  intros p a b H E c i Hc Hi. destruct (H c i Hc Hi) as [H1 H2]. split; [exact H1|].
  eapply eqm_trans; [exact H2|]. apply peval_eqm. intros j Hj. apply eqm_mod_c; [rewrite <- Hcrt; exact Hc|]. apply E, Hj.
Qed.
Lemma nttm_peq : forall rows cols m a b, nttm rows cols m a ->
  (forall r c, (r < rows)%nat -> (c < cols)%nat -> peq n q (a r c) (b r c)) -> nttm rows cols m b.
Proof. intros rows cols m a b [H1 H2] E. split; [exact H1|]. intros r c Hr Hc. eapply has_peq; auto. Qed.
Lemma rawm_ext : forall rows cols m a b, rawm rows cols m a ->
  (forall r c z, (r < rows)%nat -> (c < cols)%nat -> (z < n)%nat -> a r c z = b r c z) -> rawm rows cols m b.
Proof. intros rows cols m a b [H1 H2] E. split; [exact H1|]. intros. rewrite H2 by assumption. auto. Qed.

Lemma nttm_trans : forall rows cols m a, nttm rows cols m a <->
  rm_rows m = rows /\ rm_cols m = cols /\ is_transform L (np_moduli NP) psi (rm_rows m) (rm_cols m) (rm_data m) a.
Proof.
  intros rows cols m a. split.
  - intros [(S1 & S2 & S3) H]. split; [exact S1|]. split; [exact S2|]. apply (trans_of L psi NP).
    + rewrite S1, S2, S3, len_n. reflexivity.
    + rewrite S1, S2. intros r c Hr Hc. rewrite <- len_n. apply H; assumption.
  - intros (S1 & S2 & T). apply (trans_has L psi NP) in T as [T1 T2]. rewrite S1, S2 in *. rewrite <- len_n in *. split; [split; auto|].
    intros r c Hr Hc. apply T2; assumption.
Qed.

Lemma rawm_zc : forall rows cols m a r c z, rawm rows cols m a -> (r < rows)%nat -> (c < cols)%nat -> (z < n)%nat -> zc L m r c z = a r c z.
Proof.
  intros rows cols m a r c z [(S1 & S2 & S3) H] Hr Hc Hz. unfold zc, coeff. rewrite <- H by assumption. rewrite poly_at_nth by exact Hz. reflexivity.
Qed.
Lemma idx_split : forall k rows cols w, (k < rows * cols * w)%nat -> exists r c z, (r < rows)%nat /\ (c < cols)%nat /\ (z < w)%nat /\ k = ((r * cols + c) * w + z)%nat.
Proof.
  clear. intros k rows cols w H. assert (cols <> 0 /\ w <> 0)%nat by (split; intros ->; lia).
  exists (k / w / cols)%nat, ((k / w) mod cols)%nat, (k mod w)%nat.
  assert (Hk : (k / w < rows * cols)%nat) by (apply Nat.div_lt_upper_bound; [lia|]; rewrite Nat.mul_comm; exact H).
  split; [apply Nat.div_lt_upper_bound; [lia|]; lia|]. split; [apply Nat.mod_upper_bound; lia|]. split; [apply Nat.mod_upper_bound; lia|].
  pose proof (Nat.div_mod k w ltac:(lia)). pose proof (Nat.div_mod (k / w) cols ltac:(lia)). nia.
Qed.
Lemma rawm_words : forall rows cols m a (B : Z), rawm rows cols m a -> (0 < B)%Z ->
  (forall r c z, (r < rows)%nat -> (c < cols)%nat -> (z < n)%nat -> (a r c z < B)%Z) -> forall k, (zN (nth k (rm_data m) 0%N) < B)%Z.
Proof.
  intros rows cols m a B Hm HB Ha k. destruct Hm as [(S1 & S2 & S3) H].
  destruct (Nat.lt_ge_cases k (length (rm_data m))) as [Hk|Hk]; [|rewrite nth_overflow by exact Hk; exact HB].
  rewrite S3 in Hk. destruct (idx_split _ _ _ _ Hk) as (r & c & z & Hr & Hc & Hz & ->).
  rewrite <- S2. rewrite <- poly_at_nth by exact Hz. rewrite H by assumption. auto.
Qed.

Lemma to_ntt_r : forall rows cols m a, rawm rows cols m a ->
  (forall r c z, (r < rows)%nat -> (c < cols)%nat -> (z < n)%nat -> (a r c z < 2 ^ 64)%Z) ->
  exists m', to_ntt avx NP m = Ok m' /\ nttm rows cols m' a.
Proof.
  intros rows cols m a Hm Ha. pose proof Hm as [(S1 & S2 & S3) H].
  destruct (to_ntt_ok L psi NP HP avx m) as (m' & E & R1 & R2 & T).
  - unfold shaped. rewrite S1, S2. exact S3.
  - intros k. pose proof (rawm_words _ _ _ _ (2 ^ 64) Hm ltac:(lia) Ha k). lia.
  - exists m'. split; [exact E|]. rewrite S1 in R1. rewrite S2 in R2. apply (trans_has L psi NP) in T as [T1 T2]. rewrite R1, R2 in *. rewrite <- len_n in *.
    split; [split; auto|]. intros r c Hr Hc. destruct (T2 r c Hr Hc) as [_ T3].
    intros k i Hk Hi. destruct (T3 k i Hk Hi) as [T4 T5]. split; [exact T4|]. eapply eqm_trans; [exact T5|].
    apply peval_eqm. intros j Hj. rewrite (rawm_zc rows cols m a) by assumption. apply eqm_refl.
Qed.
Lemma to_ntt_no_reduce_r : forall rows cols m a, rawm rows cols m a ->
  (forall r c z k, (r < rows)%nat -> (c < cols)%nat -> (z < n)%nat -> (k < 2)%nat -> (a r c z < 4 * zN (nth k (np_moduli NP) 0%N))%Z) ->
  exists m', to_ntt_no_reduce avx NP m = Ok m' /\ nttm rows cols m' a.
Proof.
  intros rows cols m a Hm Ha. pose proof Hm as [(S1 & S2 & S3) H].
  destruct (to_ntt_no_reduce_ok L psi NP HP avx m Hcrt) as (m' & E & R1 & R2 & T).
  - unfold shaped. rewrite S1, S2. exact S3.
  - intros r c z k Hk. unfold coeff. rewrite Hcrt in Hk.
    pose proof (rawm_words _ _ _ _ (4 * zN (nth k (np_moduli NP) 0)) Hm ltac:(pose proof (mod_bounds k ltac:(lia)); lia)
      ltac:(intros; apply Ha; try assumption; lia) ((r * rm_cols m + c) * n + z)%nat). unfold qc. lia.
  - exists m'. split; [exact E|]. rewrite S1 in R1. rewrite S2 in R2. apply (trans_has L psi NP) in T as [T1 T2]. rewrite R1, R2 in *. rewrite <- len_n in *.
    split; [split; auto|]. intros r c Hr Hc. destruct (T2 r c Hr Hc) as [_ T3].
    intros k i Hk Hi. destruct (T3 k i Hk Hi) as [T4 T5]. split; [exact T4|]. eapply eqm_trans; [exact T5|].
    apply peval_eqm. intros j Hj. rewrite (rawm_zc rows cols m a) by assumption. apply eqm_refl.
Qed.
Lemma from_ntt_r : forall rows cols m a, nttm rows cols m a ->
  exists m', from_ntt avx NP inv m = Ok m' /\ rawm rows cols m' (fun r c z => (a r c z mod q)%Z).
Proof.
  intros rows cols m a Hm. apply nttm_trans in Hm as (S1 & S2 & T).
  destruct (from_ntt_ok L psi NP HP avx inv m a) as (m' & E & R1 & R2 & R3 & R4); [right; exact Hcrt|intros; exact Hgcd|exact Hinv|exact T|].
  exists m'. split; [exact E|]. rewrite S1 in R1. rewrite S2 in R2. unfold shaped in R3. rewrite R1, R2 in R3. split; [split; auto|].
  intros r c z Hr Hc Hz. rewrite poly_at_nth by exact Hz. rewrite Hq. rewrite <- R4 by (rewrite ?S1, ?S2; assumption). reflexivity.
Qed.
Lemma from_ntt_into_r : forall rows cols m a, nttm rows cols m a ->
  exists m', from_ntt_into avx NP inv rows cols m = Ok m' /\ rawm rows cols m' (fun r c z => (a r c z mod q)%Z).
Proof.
  intros rows cols m a Hm. unfold from_ntt_into, has_shape. destruct Hm as [(S1 & S2 & S3) H]. rewrite S1, S2, !Nat.eqb_refl. cbn [andb enforce].
  apply from_ntt_r. split; [split; auto|exact H].
Qed.
Lemma multiply_into_r : forall rows k cols A B a b, nttm rows k A a -> nttm k cols B b ->
  exists m', multiply_into avx NP rows cols A B = Ok m' /\ nttm rows cols m' (mat_product n k a b).
Proof.
  intros rows k cols A B a b HA HB. apply nttm_trans in HA as (A1 & A2 & A3). apply nttm_trans in HB as (B1 & B2 & B3).
  unfold multiply_into. rewrite A1, B2, !Nat.eqb_refl. cbn [andb enforce].
  destruct (multiply_ok L psi NP HP avx A B a b) as (m' & E & R1 & R2 & T); [congruence|exact A3|exact B3|].
  exists m'. split; [exact E|]. apply nttm_trans. rewrite A2 in T. split; [congruence|]. split; [congruence|exact T].
Qed.
Lemma add_ntt_r : forall rows cols A B a b, nttm rows cols A a -> nttm rows cols B b ->
  exists m', add_ntt NP A B = Ok m' /\ nttm rows cols m' (fun r c => padd (a r c) (b r c)).
Proof.
  intros rows cols A B a b HA HB. apply nttm_trans in HA as (A1 & A2 & A3). apply nttm_trans in HB as (B1 & B2 & B3).
  destruct (add_ok L psi NP HP A B a b) as (m' & E & R1 & R2 & T); [congruence|congruence|exact A3|exact B3|].
  exists m'. split; [exact E|]. apply nttm_trans. split; [congruence|]. split; [congruence|exact T].
Qed.

(** One polynomial. *)
Lemma has_add : forall p1 p2 a b, length p1 = W -> length p2 = W -> hasp p1 a -> hasp p2 b ->
  exists p, add_poly NP p1 p2 = Ok p /\ length p = W /\ hasp p (padd a b).
Proof.
  intros p1 p2 a b L1 L2 H1 H2. rewrite len_n in *. destruct (add_poly_ok L psi NP HP p1 p2 L1 L2) as (v & E & Lv & Hv).
  { intros c i Hc Hi. split; [apply H1|apply H2]; assumption. }
  exists v. split; [exact E|]. split; [exact Lv|]. intros c i Hc Hi.
  destruct (tables_get L psi NP HP c Hc) as (T & _ & _ & _ & Q1 & _).
  destruct (H1 c i Hc Hi) as [A1 A2]. destruct (H2 c i Hc Hi) as [B1 B2]. rewrite Hv by assumption. split.
  - apply N.lt_le_incl, N.mod_lt. lia.
  - unfold zslot. rewrite Hv by assumption. rewrite N2Z.inj_mod, N2Z.inj_add. eapply eqm_trans; [apply eqm_mod; lia|].
    unfold padd. rewrite peval_add. apply eqm_add; assumption.
Qed.
Lemma has_mul : forall p1 p2 a b, length p1 = W -> length p2 = W -> hasp p1 a -> hasp p2 b ->
  exists p, multiply_poly NP p1 p2 = Ok p /\ length p = W /\ hasp p (pmul n a b).
Proof.
  intros p1 p2 a b L1 L2 H1 H2. rewrite len_n in *. unfold multiply_poly. rewrite len_n.
  destruct (pointwise_ok L psi NP (fun p => do cr1 <- cr1_at NP (p / n); do m <- modulus_at NP (p / n);
                    do x <- get p p1; do y <- get p p2; Ok (multiply_modular x y cr1 m))
     (fun c i => (slot L p1 c i * slot L p2 c i) mod nth c (np_moduli NP) 0)) as (v & E & Lv & Hv).
  { intros c i Hc Hi. destruct (slot_index L psi NP c i Hc Hi) as (Hp & -> & _).
    destruct (modulus_get L psi NP HP c Hc) as (cr1 & E1 & E2 & E3). rewrite E2. cbn [bind]. rewrite E1. cbn [bind].
    rewrite !get_nth by lia. cbn [bind]. unfold multiply_modular. destruct (H1 c i Hc Hi) as [A1 _]. destruct (H2 c i Hc Hi) as [B1 _].
    assert (Hc2 : (c < 2)%nat) by (rewrite <- Hcrt; exact Hc). destruct (mod_bounds c Hc2) as [Q1 Q2]. unfold slot, qc in *.
    assert (K : nth (c * n + i) p1 0 * nth (c * n + i) p2 0 < 2 ^ 64).
    { eapply N.le_lt_trans; [apply N.mul_le_mono; eassumption|]. change (2 ^ 64) with (2 ^ 32 * 2 ^ 32).
      assert (nth c (np_moduli NP) 0 < 2 ^ 32) by (eapply N.lt_trans; [exact Q2|reflexivity]). apply N.mul_lt_mono; assumption. }
    rewrite u64_small by exact K. rewrite E3 by exact K. reflexivity. }
  exists v. split; [exact E|]. split; [exact Lv|]. intros c i Hc Hi.
  assert (Hc2 : (c < 2)%nat) by (rewrite <- Hcrt; exact Hc). destruct (mod_bounds c Hc2) as [Q1 Q2].
  destruct (tables_get L psi NP HP c Hc) as (T & _ & _ & _ & _ & _ & _ & HR).
  destruct (H1 c i Hc Hi) as [A1 A2]. destruct (H2 c i Hc Hi) as [B1 B2]. unfold zslot. rewrite Hv by assumption. split.
  - apply N.lt_le_incl, N.mod_lt. unfold qc. lia.
  - rewrite N2Z.inj_mod, N2Z.inj_mul by lia. eapply eqm_trans; [apply eqm_mod; lia|].
    eapply eqm_trans; [apply eqm_mul; eassumption|]. apply eqm_sym, peval_negacyclic. apply point_root. exact HR.
Qed.

Lemma nttm_fill : forall rows cols f a,
  (forall r c, (r < rows)%nat -> (c < cols)%nat -> exists p, f r c = Ok p /\ length p = W /\ hasp p (a r c)) ->
  exists m, fill_mat rows cols f = Ok m /\ nttm rows cols m a.
Proof.
  intros rows cols f a H. destruct (fill_ok rows cols W f (fun r c p => hasp p (a r c)) H) as (m & E & R1 & R2 & R3 & R4).
  exists m. split; [exact E|]. split; [split; auto|exact R4].
Qed.
Lemma rawm_fill : forall rows cols f a,
  (forall r c, (r < rows)%nat -> (c < cols)%nat -> exists p, f r c = Ok p /\ length p = n /\ forall z, (z < n)%nat -> zN (nth z p 0) = a r c z) ->
  exists m, fill_mat rows cols f = Ok m /\ rawm rows cols m a.
Proof.
  intros rows cols f a H. destruct (fill_ok rows cols n f (fun r c p => forall z, (z < n)%nat -> zN (nth z p 0) = a r c z) H) as (m & E & R1 & R2 & R3 & R4).
  exists m. split; [exact E|]. split; [split; auto|]. intros r c z Hr Hc Hz. apply R4; assumption.
Qed.
Lemma nttm_poly : forall rows cols m a r c, nttm rows cols m a -> (r < rows)%nat -> (c < cols)%nat ->
  length (poly_at W m r c) = W /\ hasp (poly_at W m r c) (a r c).
Proof. intros rows cols m a r c [H1 H2] Hr Hc. split; [apply (poly_at_len W rows cols); assumption|apply H2; assumption]. Qed.
Lemma rawm_poly : forall rows cols m a r c, rawm rows cols m a -> (r < rows)%nat -> (c < cols)%nat ->
  length (poly_at n m r c) = n /\ forall z, (z < n)%nat -> zN (nth z (poly_at n m r c) 0) = a r c z.
Proof. intros rows cols m a r c [H1 H2] Hr Hc. split; [apply (poly_at_len n rows cols); assumption|intros; apply H2; assumption]. Qed.

Lemma scalar_multiply_r : forall rows cols A B a b, nttm 1 1 A a -> nttm rows cols B b ->
  exists m, scalar_multiply NP A B = Ok m /\ nttm rows cols m (fun r c => pmul n (a 0%nat 0%nat) (b r c)).
Proof.
  intros rows cols A B a b HA HB. unfold scalar_multiply, has_shape. pose proof HA as [(A1 & A2 & _) _]. pose proof HB as [(B1 & B2 & _) _].
  rewrite A1, A2, B1, B2. cbn [Nat.eqb andb enforce]. apply nttm_fill. intros r c Hr Hc.
  destruct (nttm_poly _ _ _ _ 0 0 HA ltac:(lia) ltac:(lia)) as [X1 X2]. destruct (nttm_poly _ _ _ _ r c HB Hr Hc) as [Y1 Y2].
  apply has_mul; assumption.
Qed.
Lemma add_into_r : forall rows cols A B a b, nttm rows cols A a -> nttm rows cols B b ->
  exists m, add_into NP A B = Ok m /\ nttm rows cols m (fun r c => padd (a r c) (b r c)).
Proof.
  intros rows cols A B a b HA HB. unfold add_into. pose proof HA as [(A1 & A2 & _) _]. pose proof HB as [(B1 & B2 & _) _].
  rewrite A1, A2, B1, B2, !Nat.eqb_refl. cbn [andb enforce]. apply nttm_fill. intros r c Hr Hc.
  destruct (nttm_poly _ _ _ _ r c HA Hr Hc) as [X1 X2]. destruct (nttm_poly _ _ _ _ r c HB Hr Hc) as [Y1 Y2].
  destruct (has_add _ _ _ _ Y1 X1 Y2 X2) as (p & E & Lp & Hp). exists p. split; [exact E|]. split; [exact Lp|].
  eapply has_peq; [exact Hp|]. intros z Hz. unfold padd. rewrite Z.add_comm. apply eqm_refl.
Qed.
(** AddIntoAt of one polynomial. *)
Lemma add_into_at_r : forall rows cols A B a b t_row t_col, nttm rows cols A a -> nttm 1 1 B b -> (t_row < rows)%nat -> (t_col < cols)%nat ->
  exists m, add_into_at NP A B t_row t_col = Ok m /\ nttm rows cols m (fun r c =>
     if ((r =? t_row) && (c =? t_col))%nat then padd (a r c) (b 0%nat 0%nat) else a r c).
Proof.
  intros rows cols A B a b t_row t_col HA HB Ht1 Ht2. unfold add_into_at. pose proof HA as [(A1 & A2 & A3) _]. pose proof HB as [(B1 & B2 & _) _].
  rewrite B1, B2. cbn [loop]. rewrite A1, A2, !Nat.add_0_r.
  assert (HA' : nttm rows cols (RawMat rows cols (rm_data A)) a).
  { destruct A as [Ar Ac Ad]. cbn [rm_rows rm_cols rm_data] in *. subst. exact HA. }
  destruct (nttm_poly _ _ _ _ t_row t_col HA' Ht1 Ht2) as [X1 X2]. destruct (nttm_poly _ _ _ _ 0 0 HB ltac:(lia) ltac:(lia)) as [Y1 Y2].
  destruct (has_add _ _ _ _ Y1 X1 Y2 X2) as (p & -> & Lp & Hp). cbn [bind].
  destruct (store_at W rows cols _ t_row t_col p (proj1 HA') Ht1 Ht2 Lp) as (d & E & Sd & Hd). cbn [rm_data] in E. rewrite E. cbn [bind].
  eexists. split; [reflexivity|]. split; [exact Sd|]. intros r c Hr Hc. rewrite Hd by assumption.
  destruct ((r =? t_row) && (c =? t_col))%nat eqn:K.
  - apply andb_true_iff in K as [K1 K2]. apply Nat.eqb_eq in K1, K2. subst r c. eapply has_peq; [exact Hp|]. intros z Hz. unfold padd. rewrite Z.add_comm. apply eqm_refl.
  - apply HA'; assumption.
Qed.
Lemma copy_r : forall rows cols srows scols dst src row col a b, nttm rows cols dst a -> nttm srows scols src b ->
  (1 <= srows)%nat -> (1 <= scols)%nat -> (row + srows <= rows)%nat -> (col + scols <= cols)%nat ->
  exists m, copy_into W dst src row col = Ok m /\ nttm rows cols m (fun r c =>
    if ((row <=? r) && (r <? row + srows) && (col <=? c) && (c <? col + scols))%nat then b (r - row)%nat (c - col)%nat else a r c).
Proof.
  intros rows cols srows scols dst src row col a b HD HS H1 H2 H3 H4.
  destruct (copy_ok W rows cols srows scols dst src row col (proj1 HD) (proj1 HS) H1 H2 H3 H4) as (m & E & Sm & Hm).
  exists m. split; [exact E|]. split; [exact Sm|]. intros r c Hr Hc. rewrite Hm by assumption.
  destruct ((row <=? r) && (r <? row + srows) && (col <=? c) && (c <? col + scols))%nat eqn:K; [|apply HD; assumption].
  apply andb_true_iff in K as [K K4]. apply andb_true_iff in K as [K K3]. apply andb_true_iff in K as [K1 K2].
  apply Nat.leb_le in K1, K3. apply Nat.ltb_lt in K2, K4. apply HS; lia.
Qed.
Lemma ntt_zero_r : forall rows cols, nttm rows cols (ntt_zero NP rows cols) (fun _ _ => pzero).
Proof.
  intros rows cols. assert (Sz : sized W rows cols (ntt_zero NP rows cols)).
  { split; [reflexivity|]. split; [reflexivity|]. apply repeat_length. }
  split; [exact Sz|]. intros r c Hr Hc k i Hk Hi.
  assert (Hki : (k * n + i < W)%nat) by (rewrite len_n; nia).
  assert (E : slot L (poly_at W (ntt_zero NP rows cols) r c) k i = 0).
  { unfold slot. rewrite poly_at_nth by exact Hki. cbn [rm_data ntt_zero]. apply nth_repeat. }
  unfold zslot. rewrite E. split; [apply N.le_0_l|]. apply eqm_eq. unfold peval, pzero.
  rewrite (zsum_ext n _ (fun i => 0 * 0)%Z) by (intros; ring). rewrite zsum_scale. reflexivity.
Qed.

(** * Automorphism and negation *)
Lemma sub_q : forall v, (zN v <= q)%Z -> zN (sub_u64 (w_modulus P) v) = (q - zN v)%Z.
Proof.
  intros v Hv. pose proof q_bounds as HB. unfold sub_u64, w_modulus.
  assert (E : Z.to_N q + 2 ^ 64 - v = Z.to_N (q - zN v) + 1 * 2 ^ 64) by lia. rewrite E. unfold u64.
  rewrite N.mod_add by discriminate. rewrite N.mod_small by lia. lia.
Qed.
Lemma automorph_r : forall t p (a : poly), length p = n -> (forall z, (z < n)%nat -> zN (nth z p 0) = (a z mod q)%Z) ->
  exists p', automorph_poly NP P t p = Ok p' /\ length p' = n /\ forall z, (z < n)%nat -> zN (nth z p' 0) = praut n q t a z.
Proof.
  intros t p a Lp Hp. unfold automorph_poly, praut. rewrite len_n.
  match goal with |- context [fold_left ?g _ _] => set (f := g) end.
  destruct (loop_rule (list N) n 0 (fun i res => do v <- get i p;
      put ((i * t) mod n)%nat (if Nat.even ((i * t) / n) then v else sub_u64 (w_modulus P) v) res)
      (fun i s => length s = n /\ forall z, (z < n)%nat -> zN (nth z s 0) = fold_left f (seq 0 i) pzero z) (repeat 0 n)) as (s & E & Ls & Hs).
  - split; [apply repeat_length|]. intros z _. rewrite nth_repeat. reflexivity.
  - intros i s Hi [Ls Hs]. rewrite get_nth by lia. cbn [bind].
    pose proof n_pos' as Hn. destruct (put_lt N 0 ((i * t) mod n)%nat (if Nat.even (i * t / n) then nth i p 0 else sub_u64 (w_modulus P) (nth i p 0)) s) as (s' & E & Ls' & Hs').
    { rewrite Ls. apply Nat.mod_upper_bound. lia. }
    exists s'. split; [exact E|]. split; [lia|]. intros z Hz. rewrite Hs', Nat.add_1_r, seq_S, fold_left_app. cbn [fold_left Nat.add].
    unfold f at 1. destruct (Nat.eqb z ((i * t) mod n)); [|apply Hs, Hz].
    destruct (Nat.even (i * t / n)); [apply Hp; lia|]. pose proof q_bounds. pose proof (Z.mod_pos_bound (a i) q ltac:(lia)).
    rewrite sub_q by (rewrite Hp by lia; lia). rewrite Hp by lia. reflexivity.
  - exists s. split; [exact E|]. split; [exact Ls|exact Hs].
Qed.
Lemma automorphism_r : forall rows cols t m a, rawm rows cols m (fun r c z => (a r c z mod q)%Z) ->
  exists m', automorphism NP P t m = Ok m' /\ rawm rows cols m' (fun r c => praut n q t (a r c)).
Proof.
  intros rows cols t m a Hm. unfold automorphism. pose proof Hm as [(S1 & S2 & _) _]. rewrite S1, S2. apply rawm_fill.
  intros r c Hr Hc. rewrite len_n. destruct (rawm_poly _ _ _ _ r c Hm Hr Hc) as [X1 X2]. apply automorph_r; assumption.
Qed.
Lemma invert_r : forall rows cols m a, rawm rows cols m a -> (forall r c z, (r < rows)%nat -> (c < cols)%nat -> (z < n)%nat -> (a r c z <= q)%Z) ->
  exists m', invert_raw NP P m = Ok m' /\ rawm rows cols m' (fun r c z => q - a r c z)%Z.
Proof.
  intros rows cols m a Hm Ha. unfold invert_raw. pose proof Hm as [(S1 & S2 & _) _]. rewrite S1, S2. apply rawm_fill.
  intros r c Hr Hc. rewrite len_n. destruct (rawm_poly _ _ _ _ r c Hm Hr Hc) as [X1 X2].
  destruct (map_out_seq_nth N (fun i => do v <- get i (poly_at n m r c); Ok (sub_u64 (w_modulus P) v)) (fun i x => zN x = (q - a r c i)%Z) n 0) as (ys & E & Ly & Hy).
  - intros i Hi. rewrite get_nth by lia. cbn [bind]. eexists. split; [reflexivity|]. rewrite sub_q; rewrite X2 by exact Hi; [reflexivity|]. apply Ha; assumption.
  - exists ys. split; [exact E|]. split; [exact Ly|exact Hy].
Qed.

(** * Digits *)
Lemma piece_rdigit : forall bits v k a, (v < 2 ^ 64) -> zN v = a -> zN (piece bits v k) = (a / 2 ^ Z.of_nat (bits * k) mod 2 ^ Z.of_nat bits)%Z.
Proof.
  intros bits v k a Hv <-. rewrite piece_digit by exact Hv. unfold digit.
  rewrite N2Z.inj_mod, N2Z.inj_div, !N2Z.inj_pow, !nat_N_Z. reflexivity.
Qed.
Lemma bits_ok : forall d, (1 <= d)%nat -> (sp_ml P <= 62)%nat -> get_bits_per (sp_ml P) d = Ok (bits_for P d) /\ (bits_for P d < 64)%nat.
Proof.
  intros d Hd Hml. unfold bits_for, get_bits_per. destruct (Nat.eqb_spec d (sp_ml P)) as [->|Hne]; [split; [reflexivity|lia]|].
  destruct (Nat.eqb_spec d 0) as [->|_]; [lia|]. split; [reflexivity|].
  pose proof (Nat.div_le_upper_bound (sp_ml P) d (sp_ml P) ltac:(lia) ltac:(nia)). lia.
Qed.
(** GadgetInvert of a matrix with one column, [num] digits of [rdim] rows. *)
Lemma ginv_r : forall num rdim rows out inp a, (1 <= num)%nat -> (1 <= rdim <= rows)%nat -> (sp_ml P <= 62)%nat ->
  sized n (num * rdim) 1 out -> rawm rows 1 inp a -> (forall r z, (r < rows)%nat -> (z < n)%nat -> (a r 0%nat z < 2 ^ 64)%Z) ->
  exists m, gadget_invert_rdim n (sp_ml P) out inp rdim = Ok m
    /\ rawm (num * rdim) 1 m (fun x _ => rdigit (bits_for P num) (x / rdim) (a (x mod rdim)%nat 0%nat)).
Proof.
  intros num rdim rows out inp a Hnum Hrd Hml (O1 & O2 & O3) HI Ha. pose proof HI as [(I1 & I2 & I3) _].
  destruct (bits_ok num Hnum Hml) as [B1 B2].
  destruct (invert_fill n (sp_ml P) n_pos' rdim num (bits_for P num) out inp) as (d & E & Ld & Hd); [lia|lia|exact B1|exact B2|exact O1|congruence| | | |].
  { rewrite O3, I2. reflexivity. }
  { rewrite I1, I2. lia. }
  { rewrite I1, I2, I3. reflexivity. }
  rewrite I2 in *. exists (RawMat (num * rdim) 1 d). split; [exact E|].
  split; [split; [reflexivity|]; split; [reflexivity|exact Ld]|]. intros x c z Hx Hc Hz. assert (c = 0%nat) by lia. subst c.
  rewrite poly_at_nth by exact Hz. cbn [rm_cols rm_data].
  assert (Hm : (x mod rdim < rdim)%nat) by (apply Nat.mod_upper_bound; lia).
  assert (Hdv : (x / rdim < num)%nat) by (apply Nat.div_lt_upper_bound; lia).
  specialize (Hd (x mod rdim)%nat (x / rdim)%nat 0%nat z Hm Hdv ltac:(lia) Hz). unfold coeff in Hd.
  replace (x mod rdim + x / rdim * rdim)%nat with x in Hd by (pose proof (Nat.div_mod x rdim ltac:(lia)); lia).
  rewrite Hd. unfold rdigit. apply piece_rdigit.
  - assert (K : (zN (nth ((0 * 1 + x mod rdim) * n + z)%nat (rm_data inp) 0%N) < 2 ^ 64)%Z); [|lia].
    apply (rawm_words rows 1 inp a (2 ^ 64) HI ltac:(lia)). intros r c z' Hr Hc' Hz'. assert (c = 0%nat) by lia. subst c. apply Ha; assumption.
  - destruct HI as [_ HI]. rewrite <- HI by lia. rewrite poly_at_nth by exact Hz. rewrite I2. do 2 f_equal. lia.
Qed.
Lemma raw_zero_sized : forall rows cols, sized n rows cols (raw_zero n rows cols).
Proof. intros. split; [reflexivity|]. split; [reflexivity|]. cbn [raw_zero rm_data]. rewrite repeat_length. lia. Qed.
Lemma rdigit_range : forall bits k a z, (0 <= rdigit bits k a z < 2 ^ Z.of_nat bits)%Z.
Proof. intros. unfold rdigit. apply Z.mod_pos_bound. apply Z.pow_pos_nonneg; lia. Qed.
Lemma rdigit_64 : forall bits k a z, (bits < 64)%nat -> (rdigit bits k a z < 2 ^ 64)%Z.
Proof.
  intros bits k a z Hb. pose proof (rdigit_range bits k a z). pose proof (Z.pow_le_mono_r 2 (Z.of_nat bits) 64 ltac:(lia) ltac:(lia)). lia.
Qed.
End Ops.
