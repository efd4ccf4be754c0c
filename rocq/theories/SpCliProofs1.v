(** Samples and encryptions of the Spiral client on words. *)
From Coq Require Import List Arith NArith ZArith Bool Lia.
From Verif Require Import Base StoreModel StoreProofs PirPackModel PirPackProofs2 SpArithModel SpArithProofs SpArithProofs2 SpLoopModel SpLoopProofs
  SpGadgetModel SpGadgetSpec SpGadgetProofs SpDecodeModel SpDecodeSpec SpDecodeProofs2 SpRingModel SpRingSpec SpRingProofs SpRingProofs2
  SpSelModel NttModel NttSpec NttProofs NttProofs2 NttProofs3 NttProofs4 NttProofs5 SpSrvModel SpSrvSpec SpSrvProofs1 SpSrvProofs2 SpSrvProofs3 SpSrvProofs4 SpSrvProofs5
  SpSrvProofs6 SpSrvProofs7 SpSelProofs5 SpCliModel SpCliSpec.
Import ListNotations.
Local Open Scope N_scope.
Local Notation zN := Z.of_N.

(** * Sampling *)
(** A word that is a number at most B in absolute value, modulo q. *)
Definition near0 (q B : Z) (v : N) : Prop := (zN v <= B \/ q - B <= zN v < q)%Z.
Definition lift (q B : Z) (v : N) : Z := if (zN v <=? B)%Z then zN v else (zN v - q)%Z.
Lemma lift_small : forall q B v, (0 <= B)%Z -> near0 q B v -> (Z.abs (lift q B v) <= B)%Z.
Proof. intros q B v HB H. unfold lift, near0 in *. destruct (Z.leb_spec (zN v) B); lia. Qed.
Lemma lift_mod : forall q B v, (B < q)%Z -> near0 q B v -> (lift q B v mod q)%Z = zN v.
Proof.
  intros q B v Hq H. unfold lift, near0 in *. destruct (Z.leb_spec (zN v) B) as [C|C]; [apply Z.mod_small; lia|].
  replace (zN v - q)%Z with (zN v + (-1) * q)%Z by lia. rewrite Z_mod_plus_full. apply Z.mod_small. lia.
Qed.

(** The bound and the value of one sample: the first entry of the table that is not below the word. *)
Lemma sample_value : forall dg q w, length (dg_cdf dg) = (2 * dg_max dg + 1)%nat -> (Z.of_nat (dg_max dg) < zN q < 2 ^ 63)%Z ->
  exists v, sample dg q w = Ok v
    /\ ((forall i, (i < 2 * dg_max dg + 1)%nat -> nth i (dg_cdf dg) 0 < w) /\ v = 0
        \/ exists i, (i < 2 * dg_max dg + 1)%nat /\ w <= nth i (dg_cdf dg) 0 /\ (forall j, (j < i)%nat -> nth j (dg_cdf dg) 0 < w)
           /\ zN v = ((Z.of_nat i - Z.of_nat (dg_max dg)) mod zN q)%Z).
Proof.
  intros dg q w Hl Hq. unfold sample. cbv zeta. set (len := (2 * dg_max dg + 1)%nat) in *.
  match goal with |- exists v, loop _ _ ?f _ = _ /\ _ =>
    destruct (loop_rule N len 0 f (fun k v =>
      (forall i, (len - k <= i < len)%nat -> nth i (dg_cdf dg) 0 < w) /\ v = 0
      \/ exists i, (len - k <= i < len)%nat /\ w <= nth i (dg_cdf dg) 0 /\ (forall j, (len - k <= j < i)%nat -> nth j (dg_cdf dg) 0 < w)
           /\ zN v = ((Z.of_nat i - Z.of_nat (dg_max dg)) mod zN q)%Z) 0) as (v & E & H) end.
  - left. split; [intros; lia|reflexivity].
  - intros k out Hk H. rewrite (get_lt N 0) by lia. cbn [bind]. eexists. split; [reflexivity|].
    set (i := (len - 1 - k)%nat). destruct (N.leb_spec w (nth i (dg_cdf dg) 0)) as [C|C].
    + right. exists i. split; [lia|]. split; [exact C|]. split; [intros; lia|].
      assert (E2 : ((Z.of_nat i - Z.of_nat (dg_max dg)) mod zN q
                    = if (Z.of_nat i - Z.of_nat (dg_max dg) <? 0) then Z.of_nat i - Z.of_nat (dg_max dg) + zN q else Z.of_nat i - Z.of_nat (dg_max dg))%Z).
      { destruct (Z.ltb_spec (Z.of_nat i - Z.of_nat (dg_max dg)) 0).
        - rewrite <- (Z_mod_plus_full _ 1). rewrite Z.mul_1_l. apply Z.mod_small. lia.
        - apply Z.mod_small. lia. }
      rewrite <- E2. pose proof (Z.mod_pos_bound (Z.of_nat i - Z.of_nat (dg_max dg)) (zN q) ltac:(lia)).
      rewrite Z.mod_small by lia. rewrite Z2N.id by lia. reflexivity.
    + destruct H as [[H1 H2]|(j & J1 & J2 & J3 & J4)].
      * left. split; [|exact H2]. intros j Hj. destruct (Nat.eq_dec j i) as [->|]; [exact C|]. apply H1. lia.
      * right. exists j. split; [lia|]. split; [exact J2|]. split; [|exact J4]. intros x Hx. destruct (Nat.eq_dec x i) as [->|]; [exact C|]. apply J3. lia.
  - exists v. split; [exact E|]. rewrite Nat.add_0_l, Nat.sub_diag in H. destruct H as [[H1 H2]|(i & J1 & J2 & J3 & J4)].
    + left. split; [intros; apply H1; lia|exact H2].
    + right. exists i. split; [lia|]. split; [exact J2|]. split; [intros; apply J3; lia|exact J4].
Qed.

Lemma sample_near : forall dg q w, length (dg_cdf dg) = (2 * dg_max dg + 1)%nat -> (Z.of_nat (dg_max dg) < zN q < 2 ^ 63)%Z ->
  exists v, sample dg q w = Ok v /\ near0 (zN q) (Z.of_nat (dg_max dg)) v.
Proof.
  intros dg q w Hl Hq. destruct (sample_value dg q w Hl Hq) as (v & E & H). exists v. split; [exact E|].
  destruct H as [[_ ->]|(i & J1 & _ & _ & J4)]; [left; cbn; lia|]. unfold near0. rewrite J4.
  destruct (Z.le_gt_cases 0 (Z.of_nat i - Z.of_nat (dg_max dg))) as [C|C].
  - rewrite Z.mod_small by lia. left. lia.
  - right. rewrite <- (Z_mod_plus_full _ 1), Z.mul_1_l, Z.mod_small by lia. lia.
Qed.

Section Samples.
Variables (avx : bool) (L : nat) (psi : nat -> Z) (NP : ntt_params) (P : sel_params) (inv : N -> N -> N) (dg : gaussian).
Hypothesis HW : srv_ok L psi NP P inv.
Hypothesis Hml : (sp_ml P <= 62)%nat.
Hypothesis Hcdf : length (dg_cdf dg) = (2 * dg_max dg + 1)%nat.
Hypothesis Hdg : (Z.of_nat (dg_max dg) < sp_q P)%Z.
Set Default Proof Using "avx L psi NP P inv dg HW Hml Hcdf Hdg".
Local Notation n := (2 ^ L)%nat.
Local Notation q := (sp_q P).
Local Notation W := (length (np_moduli NP) * np_len NP)%nat.
Local Notation nttm := (nttm L psi NP).
Local Notation rawm := (rawm L).
Local Notation colsm := (colsm L psi NP).
Local Notation ctm := (ctm L psi NP).
Local Notation B := (Z.of_nat (dg_max dg)).

Lemma words64_shift : forall s k, words64 s -> words64 (fun i => s (k + i)%nat).
Proof. intros s k H i. apply H. Qed.

Lemma w_mod_z : zN (w_modulus P) = q.
Proof. pose proof (q_bounds _ _ _ _ _ HW). unfold w_modulus. apply Z2N.id. lia. Qed.
Lemma q_ge2 : (2 <= w_modulus P <= 2 ^ 63).
Proof.
  pose proof (q_bounds _ _ _ _ _ HW). pose proof w_mod_z. pose proof (mod_bounds _ _ _ _ _ HW 0 ltac:(lia)). pose proof (mod_bounds _ _ _ _ _ HW 1 ltac:(lia)).
  pose proof (q_prod _ _ _ _ _ HW). assert (2 <= q)%Z by nia. lia.
Qed.
Lemma crs_q : exists cr0 cr1, get_barrett_crs (w_modulus P) = Ok (cr0, cr1).
Proof.
  destruct (get_barrett_crs (w_modulus P)) as [[cr0 cr1]| | |] eqn:EG; [exists cr0, cr1; reflexivity|exfalso..];
    revert EG; unfold get_barrett_crs; (destruct (N.eqb_spec (w_modulus P) 0); [pose proof q_ge2; lia|]); discriminate.
Qed.

Lemma map_out_each : forall (A C : Type) (f : A -> outcome C) (R : C -> Prop) l, (forall x, exists y, f x = Ok y /\ R y) ->
  exists l', map_out f l = Ok l' /\ length l' = length l /\ Forall R l'.
Proof.
  intros A C f R l H. induction l as [|x l IH]; [exists []; split; [reflexivity|split; [reflexivity|constructor]]|].
  destruct (H x) as (y & E & Hy). destruct IH as (l' & E' & Ll & Hl). exists (y :: l'). cbn [map_out]. rewrite E. cbn [bind]. rewrite E'. cbn [bind].
  split; [reflexivity|]. split; [cbn; lia|constructor; assumption].
Qed.

Lemma nth_near : forall l, Forall (near0 q B) l -> forall k, near0 q B (nth k l 0).
Proof.
  intros l H k. destruct (Nat.lt_ge_cases k (length l)) as [C|C].
  - rewrite Forall_forall in H. apply H, nth_In, C.
  - rewrite nth_overflow by exact C. left. cbn. lia.
Qed.

(** Noise: polynomials with coefficients at most max_val. *)
Local Notation bounded := (bounded dg).
Lemma noise_r : forall rows cols rng, words64 rng -> exists m rng' e,
  noise NP P dg rows cols rng = Ok (m, rng') /\ words64 rng' /\ (forall r c, bounded (e r c))
  /\ rawm rows cols m (fun r c z => (e r c z mod q)%Z).
Proof.
  intros rows cols rng Hr. unfold noise, prg_fill. cbv zeta. rewrite (len_n _ _ _ _ _ HW). pose proof (q_bounds _ _ _ _ _ HW) as QB.
  destruct (map_out_each _ _ (sample dg (w_modulus P)) (near0 q B) (map rng (seq 0 (rows * cols * n)))) as (d & E & Ld & Hd).
  { intros w. rewrite <- w_mod_z. apply sample_near; [exact Hcdf|]. rewrite w_mod_z. lia. }
  rewrite E. cbn [bind]. rewrite map_length, seq_length in Ld.
  exists (RawMat rows cols d), (fun i => rng (rows * cols * n + i)%nat), (fun r c z => lift q B (nth ((r * cols + c) * n + z) d 0)).
  split; [reflexivity|]. split; [apply words64_shift, Hr|]. split.
  - intros r c z. apply lift_small; [lia|]. apply nth_near, Hd.
  - split; [split; [reflexivity|]; split; [reflexivity|exact Ld]|]. intros r c z _ _ Hz. rewrite poly_at_nth by exact Hz. cbn [rm_cols rm_data].
    symmetry. apply lift_mod; [exact Hdg|]. apply nth_near, Hd.
Qed.

Lemma random_r : forall rows cols pub, words64 pub ->
  exists m, random_prg NP P rows cols pub = Ok (m, fun i => pub (rows * cols * n + i)%nat)
    /\ rawm rows cols m (fun r c z => (zN (pub ((r * cols + c) * n + z)%nat) mod q)%Z).
Proof.
  intros rows cols pub Hp. unfold random_prg, prg_fill. cbv zeta. rewrite (len_n _ _ _ _ _ HW). destruct crs_q as (cr0 & cr1 & EG). rewrite EG. cbn [bind].
  eexists. split; [reflexivity|]. split; [split; [reflexivity|]; split; [reflexivity|]; cbn [rm_data]; rewrite !map_length, seq_length; reflexivity|].
  intros r c z Hr Hc Hz. rewrite poly_at_nth by exact Hz. cbn [rm_cols rm_data].
  assert (Hk : ((r * cols + c) * n + z < rows * cols * n)%nat) by (pose proof (idx_lt r c rows cols Hr Hc); nia).
  rewrite map_map, nth_seq_map by exact Hk.
  rewrite (barrett_u64_exact _ _ _ _ q_ge2 (Hp _) EG). rewrite N2Z.inj_mod, w_mod_z. reflexivity.
Qed.

Lemma multiply_r : forall rows k cols A C a c, nttm rows k A a -> nttm k cols C c ->
  exists m', multiply_ntt avx NP A C = Ok m' /\ nttm rows cols m' (mat_product n k a c).
Proof.
  intros rows k cols A C a c HA HC. destruct (multiply_into_r avx _ _ _ _ _ HW rows k cols A C a c HA HC) as (m & E & H). exists m. split; [|exact H].
  unfold multiply_into in E. destruct HA as [(H1 & _) _]. destruct HC as [(_ & H2 & _) _]. rewrite H1, H2, !Nat.eqb_refl in E. exact E.
Qed.

Lemma product1 : forall (a b : nat -> nat -> nat -> Z) r c, peq n q (mat_product n 1 a b r c) (pmul n (a r 0%nat) (b 0%nat c)).
Proof. intros a b r c z _. apply eqm_eq. unfold mat_product, pmul, zsum. cbn [seq map fold_right]. ring. Qed.

Lemma pad_top_r : forall rows cols m a, (1 <= rows)%nat -> (1 <= cols)%nat -> nttm rows cols m a ->
  exists m', pad_top NP m = Ok m' /\ nttm (rows + 1) cols m' (fun r c => match r with O => pzero | S r => a r c end).
Proof.
  intros rows cols m a H1 H2 Hm. unfold pad_top. pose proof Hm as [(R1 & R2 & _) _]. rewrite R1, R2.
  destruct (copy_r _ _ _ _ _ HW (rows + 1) cols rows cols _ m 1 0 _ _ (ntt_zero_r _ _ _ _ _ HW (rows + 1) cols) Hm) as (m' & E & H'); try lia.
  exists m'. split; [exact E|]. eapply (nttm_peq _ _ _ _ _ HW); [exact H'|]. intros r c Hr Hc. cbv beta.
  destruct r as [|r]; [intros z _; apply eqm_refl|].
  rewrite (proj2 (Nat.leb_le 1 (S r))), (proj2 (Nat.ltb_lt (S r) (1 + rows))), (proj2 (Nat.leb_le 0 c)), (proj2 (Nat.ltb_lt c (0 + cols))) by lia.
  cbn [andb]. replace (S r - 1)%nat with r by lia. rewrite Nat.sub_0_r. intros z _. apply eqm_refl.
Qed.

(** * Regev encryptions *)
Variable sk_reg : raw_mat.
Variable s : poly.
Hypothesis Hsk : rawm 1 1 sk_reg (fun _ _ z => (s z mod q)%Z).

Local Notation mask := (mask L P).

Definition advanced (pub : prg) (k : nat) (pub' : prg) : Prop := forall x, pub' x = pub (k * n + x)%nat.
Lemma advanced_words : forall pub k pub', words64 pub -> advanced pub k pub' -> words64 pub'.
Proof. intros pub k pub' H A i. rewrite A. apply H. Qed.
Lemma advanced_trans : forall pub k pub' j pub'', advanced pub k pub' -> advanced pub' j pub'' -> advanced pub (k + j) pub''.
Proof. intros pub k pub' j pub'' A1 A2 x. rewrite A2, A1. f_equal. lia. Qed.

Lemma mod_bound : forall x, (0 <= x mod q < q)%Z.
Proof. intros x. pose proof (q_bounds _ _ _ _ _ HW). apply Z.mod_pos_bound. lia. Qed.
Lemma mod_64 : forall x, (x mod q < 2 ^ 64)%Z.
Proof. intros x. pose proof (q_bounds _ _ _ _ _ HW). pose proof (mod_bound x). lia. Qed.
Lemma peq_mod : forall a : poly, peq n q (fun z => a z mod q)%Z a.
Proof. intros a z _. apply eqm_mod. pose proof (q_bounds _ _ _ _ _ HW). lia. Qed.

Lemma sk_ntt_r : exists m, to_ntt avx NP sk_reg = Ok m /\ nttm 1 1 m (fun _ _ => s).
Proof using avx L psi NP P inv dg HW Hml Hcdf Hdg Hsk.
  destruct (to_ntt_r avx _ _ _ _ _ HW _ _ _ _ Hsk) as (m & E & Hm); [intros; apply mod_64|]. exists m. split; [exact E|].
  eapply (nttm_peq _ _ _ _ _ HW); [exact Hm|]. intros r c _ _. apply peq_mod.
Qed.

Lemma regev_sample_r : forall rng pub, words64 rng -> words64 pub -> exists m rng' pub' e,
  get_regev_sample avx NP P dg sk_reg (rng, pub) = Ok (m, (rng', pub')) /\ words64 rng' /\ advanced pub 1 pub' /\ bounded e
  /\ ctm m (regev P s (mask pub 0) e pzero).
Proof using avx L psi NP P inv dg HW Hml Hcdf Hdg Hsk.
  intros rng pub Hr Hp. unfold get_regev_sample. pose proof (q_bounds _ _ _ _ _ HW) as QB.
  destruct (random_r 1 1 pub Hp) as (a & Ea & Ha). rewrite Ea. cbn [bind]. rewrite !Nat.mul_1_l.
  set (am := fun (r c z : nat) => (zN (pub ((r * 1 + c) * n + z)%nat) mod q)%Z) in Ha.
  destruct (to_ntt_r avx _ _ _ _ _ HW _ _ _ _ Ha) as (an & Ean & Han); [intros; apply mod_64|]. rewrite Ean. cbn [bind].
  destruct (invert_r _ _ _ _ _ HW _ _ a _ Ha) as (ai & Eai & Hai); [intros r c z _ _ _; unfold am; pose proof (mod_bound (zN (pub ((r * 1 + c) * n + z)%nat))); lia|].
  rewrite Eai. cbn [bind].
  destruct (to_ntt_r avx _ _ _ _ _ HW _ _ _ _ Hai) as (av & Eav & Hav); [intros r c z _ _ _; unfold am; pose proof (mod_bound (zN (pub ((r * 1 + c) * n + z)%nat))); lia|].
  rewrite Eav. cbn [bind].
  destruct (noise_r 1 1 rng Hr) as (e & rng' & ep & Ee & Hr' & Hb & He). rewrite Ee. cbn [bind].
  destruct (to_ntt_r avx _ _ _ _ _ HW _ _ _ _ He) as (en & Een & Hen); [intros; apply mod_64|]. rewrite Een. cbn [bind].
  destruct sk_ntt_r as (sn & Esn & Hsn). rewrite Esn. cbn [bind].
  destruct (multiply_r 1 1 1 _ _ _ _ Hsn Han) as (bp & Ebp & Hbp). rewrite Ebp. cbn [bind].
  destruct (add_ntt_r _ _ _ _ _ HW _ _ _ _ _ _ Hen Hbp) as (b & Eb & Hb'). rewrite Eb. cbn [bind].
  destruct (copy_r _ _ _ _ _ HW 2 1 1 1 _ av 0 0 _ _ (ntt_zero_r _ _ _ _ _ HW 2 1) Hav) as (p1 & E1 & H1); try lia. rewrite E1. cbn [bind].
  destruct (copy_r _ _ _ _ _ HW 2 1 1 1 p1 b 1 0 _ _ H1 Hb') as (p2 & E2 & H2); try lia. rewrite E2. cbn [bind].
  exists p2, rng', (fun i => pub (n + i)%nat), (ep 0%nat 0%nat). split; [reflexivity|]. split; [exact Hr'|]. split; [intros x; f_equal; lia|]. split; [apply Hb|].
  unfold SpSrvProofs3.ctm, SpSrvProofs3.colsm. eapply (nttm_peq _ _ _ _ _ HW); [exact H2|]. intros r c Hr2 Hc. assert (c = 0%nat) by lia. subst c.
  destruct r as [|[|r]]; [| |lia]; cbn [Nat.leb Nat.ltb Nat.add andb Nat.sub ct_row regev fst snd]; intros z Hz.
  - unfold popp, SpCliSpec.mask, am. cbn [Nat.mul Nat.add]. exists 1%Z. ring.
  - unfold padd, pzero. rewrite Z.add_0_r, (Hlen _ _ _ _ _ HW). apply eqm_add; [apply (peq_mod (ep 0%nat 0%nat) z Hz)|].
    exact (product1 (fun _ _ => s) am 0%nat 0%nat z Hz).
Qed.

Lemma fresh_regev_r : forall m rng pub, words64 rng -> words64 pub -> exists p rng' pub' e,
  get_fresh_regev avx NP P dg sk_reg m (rng, pub) = Ok (p, (rng', pub')) /\ words64 rng' /\ advanced pub m pub' /\ (forall k, bounded (e k))
  /\ colsm m p (fun i => regev P s (mask pub i) (e i) pzero).
Proof using avx L psi NP P inv dg HW Hml Hcdf Hdg Hsk.
  intros m rng pub Hr Hp. unfold get_fresh_regev.
  match goal with |- exists p rng' pub' e, loop _ _ ?f ?s0 = _ /\ _ =>
    destruct (loop_rule (raw_mat * prgs) m 0 f (fun k st => words64 (fst (snd st)) /\ advanced pub k (snd (snd st))
      /\ exists e : nat -> poly, (forall k, bounded (e k))
         /\ colsm m (fst st) (fun i => if (i <? k)%nat then regev P s (mask pub i) (e i) pzero else ct_zero)) s0)
      as ([p [rng' pub']] & E & H1 & H2 & e & H3 & H4) end.
  - cbn [fst snd]. split; [exact Hr|]. split; [intros x; reflexivity|]. exists (fun _ => pzero). split; [intros k z; unfold pzero; cbn; lia|].
    unfold SpSrvProofs3.colsm. eapply (nttm_peq _ _ _ _ _ HW); [apply (ntt_zero_r _ _ _ _ _ HW)|]. intros [|r] c _ _ z _; apply eqm_refl.
  - intros i [p [rng1 pub1]] Hi (H1 & H2 & e & H3 & H4). cbn [fst snd] in *.
    destruct (regev_sample_r rng1 pub1 H1 (advanced_words _ _ _ Hp H2)) as (c & rng2 & pub2 & ei & Ec & C1 & C2 & C3 & C4). rewrite Ec. cbn [bind].
    destruct (copy_r _ _ _ _ _ HW 2 m 2 1 p c 0 i _ _ H4 C4) as (p' & Ep & Hp'); try lia. rewrite Ep. cbn [bind].
    eexists. split; [reflexivity|]. cbn [fst snd]. split; [exact C1|]. split; [apply (advanced_trans _ _ _ _ _ H2 C2)|].
    exists (fun k => if (k =? i)%nat then ei else e k). split; [intros k; destruct (k =? i)%nat; [exact C3|apply H3]|].
    unfold SpSrvProofs3.colsm. eapply (nttm_peq _ _ _ _ _ HW); [exact Hp'|]. intros r k Hr' Hk. cbv beta.
    rewrite (proj2 (Nat.leb_le 0 r)), (proj2 (Nat.ltb_lt r (0 + 2))) by lia. cbn [andb]. rewrite Nat.sub_0_r.
    destruct (Nat.eq_dec k i) as [->|Hne].
    + rewrite (proj2 (Nat.leb_le i i)), (proj2 (Nat.ltb_lt i (i + 1))), Nat.eqb_refl by lia. cbn [andb]. intros z Hz. apply eqm_eq.
      assert (Em : forall x, mask pub1 0 x = mask pub i x) by (intros x; unfold SpCliSpec.mask; rewrite H2; do 3 f_equal; lia).
      destruct r as [|r]; cbn [ct_row regev fst snd]; [unfold popp; rewrite Em; reflexivity|].
      unfold padd. do 2 f_equal. unfold pmul, negacyclic. apply zsum_ext. intros y _. rewrite !Em. reflexivity.
    + replace ((i <=? k) && (k <? i + 1))%nat with false by (symmetry; apply andb_false_iff; rewrite Nat.leb_gt, Nat.ltb_ge; lia).
      rewrite (proj2 (Nat.eqb_neq k i) Hne). replace (k <? i + 1)%nat with (k <? i)%nat; [intros z _; apply eqm_refl|].
      destruct (Nat.ltb_spec k i), (Nat.ltb_spec k (i + 1)); try reflexivity; lia.
  - cbn [fst snd] in *. exists p, rng', pub', e. split; [exact E|]. split; [exact H1|]. split; [exact H2|]. split; [exact H3|].
    unfold SpSrvProofs3.colsm. eapply (nttm_peq _ _ _ _ _ HW); [exact H4|]. intros r k _ Hk. cbv beta. rewrite (proj2 (Nat.ltb_lt k (0 + m))) by lia.
    intros z _. apply eqm_refl.
Qed.

(** EncryptMatrixRegev: the messages [M] of the columns. *)
Lemma encrypt_regev_r : forall m A M rng pub, (1 <= m)%nat -> nttm 1 m A (fun _ k => M k) -> words64 rng -> words64 pub -> exists c rng' pub' e,
  encrypt_regev avx NP P dg sk_reg A (rng, pub) = Ok (c, (rng', pub')) /\ words64 rng' /\ advanced pub m pub' /\ (forall k, bounded (e k))
  /\ colsm m c (fun i => regev P s (mask pub i) (e i) (M i)).
Proof using avx L psi NP P inv dg HW Hml Hcdf Hdg Hsk.
  intros m A M rng pub Hm HA Hr Hp. unfold encrypt_regev. pose proof HA as [(_ & A2 & _) _]. rewrite A2.
  destruct (fresh_regev_r m rng pub Hr Hp) as (p & rng' & pub' & e & E & H1 & H2 & H3 & H4). rewrite E. cbn [bind].
  destruct (pad_top_r 1 m A _ ltac:(lia) Hm HA) as (pa & Epa & Hpa). rewrite Epa. cbn [bind].
  destruct (add_ntt_r _ _ _ _ _ HW _ _ _ _ _ _ H4 Hpa) as (c & Ec & Hc). rewrite Ec. cbn [bind].
  exists c, rng', pub', e. split; [reflexivity|]. split; [exact H1|]. split; [exact H2|]. split; [exact H3|].
  unfold SpSrvProofs3.colsm. eapply (nttm_peq _ _ _ _ _ HW); [exact Hc|]. intros [|[|r]] k Hr' Hk z _; apply eqm_eq; unfold padd, pzero; cbn [ct_row regev fst snd]; [| |lia].
  - unfold popp. ring.
  - unfold padd, pzero. ring.
Qed.
End Samples.
