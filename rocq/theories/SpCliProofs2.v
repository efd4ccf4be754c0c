(** Expansion and conversion keys of the Spiral client on words. *)
From Coq Require Import List Arith NArith ZArith Bool Lia.
From Verif Require Import Base StoreModel StoreProofs PirPackModel PirPackProofs2 SpArithModel SpArithProofs SpArithProofs2 SpLoopModel SpLoopProofs
  SpGadgetModel SpGadgetSpec SpGadgetProofs SpDecodeModel SpDecodeSpec SpDecodeProofs2 SpRingModel SpRingSpec SpRingProofs SpRingProofs2
  SpSelModel NttModel NttSpec NttProofs NttProofs2 NttProofs3 NttProofs4 NttProofs5 SpSrvModel SpSrvSpec SpSrvProofs1 SpSrvProofs2 SpSrvProofs3 SpSrvProofs4 SpSrvProofs5
  SpSrvProofs6 SpSrvProofs7 SpSelProofs5 SpCliModel SpCliSpec SpCliProofs1.
Import ListNotations.
Local Open Scope N_scope.
Local Notation zN := Z.of_N.

Section Keys.
Variables (avx : bool) (L : nat) (psi : nat -> Z) (NP : ntt_params) (P : sel_params) (inv : N -> N -> N) (dg : gaussian).
Hypothesis HW : srv_ok L psi NP P inv.
Hypothesis Hml : (sp_ml P <= 62)%nat.
Hypothesis Hcdf : length (dg_cdf dg) = (2 * dg_max dg + 1)%nat.
Hypothesis Hdg : (Z.of_nat (dg_max dg) < sp_q P)%Z.
Variable sk_reg : raw_mat.
Variable s : poly.
Local Notation n := (2 ^ L)%nat.
Local Notation q := (sp_q P).
Local Notation W := (length (np_moduli NP) * np_len NP)%nat.
Local Notation nttm := (nttm L psi NP).
Local Notation rawm := (rawm L).
Local Notation colsm := (colsm L psi NP).
Local Notation keysm := (keysm L psi NP).
Local Notation bounded := (bounded dg).
Local Notation advanced := (advanced L).
Local Notation mask := (mask L P).
Hypothesis Hsk : rawm 1 1 sk_reg (fun _ _ z => (s z mod q)%Z).
Set Default Proof Using "avx L psi NP P inv dg HW Hml Hcdf Hdg sk_reg s Hsk".

Definition gpoly (rows bits : nat) (r c z : nat) : Z := if ((z =? 0) && (c mod rows =? r))%nat then gad bits (c / rows) else 0%Z.

Lemma gad_64 : forall bits j, (0 <= gad bits j < 2 ^ 64)%Z.
Proof. intros bits j. unfold gad. destruct (Nat.leb_spec 64 (bits * j)); [lia|]. split; [lia|]. apply Z.pow_lt_mono_r; lia. Qed.
Lemma gpoly_64 : forall rows bits r c z, (0 <= gpoly rows bits r c z < 2 ^ 64)%Z.
Proof. intros. unfold gpoly. destruct (_ && _); [apply gad_64|lia]. Qed.

Lemma gadget_r : forall rows d, (1 <= rows)%nat -> (1 <= d)%nat ->
  exists g, build_gadget (np_len NP) (sp_ml P) rows (d * rows) = Ok g /\ rawm rows (d * rows) g (gpoly rows (bits_for P d)).
Proof.
  intros rows d Hr Hd. rewrite (len_n _ _ _ _ _ HW). destruct (bits_ok _ _ _ _ _ HW d Hd Hml) as [HB _]. pose proof (n_pos L) as N0.
  destruct (gadget_fill n (sp_ml P) ltac:(lia) rows d (bits_for P d) Hr Hd HB) as (dd & Ed & Ld & Hdd).
  eexists. split; [exact Ed|]. split; [split; [reflexivity|]; split; [reflexivity|exact Ld]|]. intros r c z Hr' Hc Hz.
  rewrite poly_at_nth by exact Hz. cbn [rm_cols rm_data]. specialize (Hdd r c z Hr' Hc Hz). unfold coeff in Hdd. rewrite Hdd.
  unfold gpoly. destruct ((z =? 0) && (c mod rows =? r))%nat; [|reflexivity]. unfold weight, gad. destruct (64 <=? _)%nat; [reflexivity|].
  rewrite N2Z.inj_pow, nat_N_Z. reflexivity.
Qed.

Lemma gpoly1 : forall bits c, peq n q (gpoly 1 bits 0 c) (pconst (gad bits c)).
Proof.
  intros bits c z _. apply eqm_eq. unfold gpoly. rewrite Nat.mod_1_r, Nat.div_1_r. destruct z; reflexivity.
Qed.

(** The masks of key i of a list with m columns each. *)
Definition key_mask (pub : prg) (m i k : nat) : poly := mask pub (i * m + k).

Lemma gen_expansion_r : forall num m rng pub, (1 <= m)%nat -> words64 rng -> words64 pub -> exists l rng' pub' e,
  gen_expansion avx NP P dg sk_reg num m (rng, pub) = Ok (l, (rng', pub')) /\ words64 rng' /\ advanced pub (num * m) pub'
  /\ (forall i k, bounded (e i k)) /\ keysm m l (expansion_keys P s num m (key_mask pub m) e).
Proof.
  intros num m rng pub Hm Hr Hp. unfold gen_expansion. pose proof (q_bounds _ _ _ _ _ HW) as QB.
  destruct (gadget_r 1 m ltac:(lia) Hm) as (g & Eg & Hg). rewrite Nat.mul_1_r in Eg, Hg. rewrite Eg. cbn [bind].
  destruct (to_ntt_r avx _ _ _ _ _ HW _ _ _ _ Hg) as (gn & Egn & Hgn); [intros; apply gpoly_64|]. rewrite Egn. cbn [bind].
  match goal with |- exists l rng' pub' e, loop _ _ ?f ?s0 = _ /\ _ =>
    destruct (loop_rule (list raw_mat * prgs) num 0 f (fun j st => words64 (fst (snd st)) /\ advanced pub (j * m) (snd (snd st))
      /\ length (fst st) = j /\ exists e : nat -> nat -> poly, (forall i k, bounded (e i k))
         /\ forall i, (i < j)%nat -> colsm m (nth i (fst st) no_mat) (fun k => regev P s (key_mask pub m i k) (e i k)
              (pmul n (paut n (round_t P i) s) (pconst (gad (bits_for P m) k))))) s0)
      as ([l [rng' pub']] & E & H1 & H2 & H3 & e & H4 & H5) end.
  - cbn [fst snd]. split; [exact Hr|]. split; [intros x; reflexivity|]. split; [reflexivity|]. exists (fun _ _ => pzero).
    split; [intros i k z; unfold pzero; cbn; lia|]. intros; lia.
  - intros i [l [rng1 pub1]] Hi (H1 & H2 & H3 & e & H4 & H5). cbn [fst snd] in *. rewrite (len_n _ _ _ _ _ HW).
    destruct (automorphism_r _ _ _ _ _ HW 1 1 (n / 2 ^ i + 1) sk_reg (fun _ _ => s) Hsk) as (t & Et & Ht). rewrite Et. cbn [bind].
    destruct (to_ntt_r avx _ _ _ _ _ HW _ _ _ _ Ht) as (tn & Etn & Htn).
    { intros r c z _ _ _. pose proof (praut_range n q ltac:(apply n_pos) (n / 2 ^ i + 1)%nat s z ltac:(lia)). lia. }
    rewrite Etn. cbn [bind].
    destruct (multiply_r avx L psi NP P inv dg HW Hml Hcdf Hdg 1 1 m _ _ _ _ Htn Hgn) as (pr & Epr & Hpr). rewrite Epr. cbn [bind].
    set (M := fun k => pmul n (paut n (round_t P i) s) (pconst (gad (bits_for P m) k))).
    assert (HM : nttm 1 m pr (fun _ k => M k)).
    { eapply (nttm_peq _ _ _ _ _ HW); [exact Hpr|]. intros r c Hr' Hc. assert (r = 0%nat) by lia. subst r.
      eapply peq_trans; [apply (product1 avx L psi NP P inv dg HW Hml Hcdf Hdg (fun _ _ => praut n q (n / 2 ^ i + 1)%nat s) (gpoly 1 (bits_for P m)))|]. unfold M, round_t. rewrite (Hlen _ _ _ _ _ HW).
      apply pmul_proper; [apply praut_paut; [apply n_pos|lia]|apply gpoly1]. }
    destruct (encrypt_regev_r avx L psi NP P inv dg HW Hml Hcdf Hdg sk_reg s Hsk m pr M rng1 pub1 Hm HM H1
      (advanced_words avx L psi NP P inv dg HW Hml Hcdf Hdg _ _ _ Hp H2)) as (c & rng2 & pub2 & ei & Ec & C1 & C2 & C3 & C4).
    rewrite Ec. cbn [bind]. eexists. split; [reflexivity|]. cbn [fst snd]. split; [exact C1|]. split.
    { replace ((i + 1) * m)%nat with (i * m + m)%nat by lia. exact (advanced_trans avx L psi NP P inv dg HW Hml Hcdf Hdg _ _ _ _ _ H2 C2). }
    split; [rewrite app_length, H3; reflexivity|]. exists (fun x k => if (x =? i)%nat then ei k else e x k).
    split; [intros x k; destruct (x =? i)%nat; [apply C3|apply H4]|]. intros x Hx.
    destruct (Nat.eq_dec x i) as [->|Hne].
    + rewrite app_nth2 by lia. rewrite H3, Nat.sub_diag. cbn [nth]. rewrite Nat.eqb_refl. unfold SpSrvProofs3.colsm. eapply (nttm_peq _ _ _ _ _ HW); [exact C4|].
      intros r k _ _ z _. apply eqm_eq.
      assert (Em : forall y, mask pub1 k y = key_mask pub m i k y) by (intros y; unfold key_mask, SpCliSpec.mask; rewrite H2; do 3 f_equal; lia).
      destruct r as [|r]; cbn [ct_row regev fst snd]; [unfold popp; rewrite Em; reflexivity|].
      unfold padd. do 2 f_equal. unfold pmul, negacyclic. apply zsum_ext. intros y _. rewrite !Em. reflexivity.
    + rewrite app_nth1 by lia. rewrite (proj2 (Nat.eqb_neq x i) Hne). apply H5. lia.
  - cbn [fst snd] in *. exists l, rng', pub', e. split; [exact E|]. split; [exact H1|]. split; [exact H2|]. split; [exact H4|].
    split; [unfold expansion_keys; rewrite map_length, seq_length; exact H3|]. intros i Hi. rewrite H3 in Hi. unfold expansion_keys.
    rewrite nth_seq_map by exact Hi. rewrite (Hlen _ _ _ _ _ HW). apply H5, Hi.
Qed.

Lemma single_r : forall v, exists m, single_value NP v = Ok m /\ rawm 1 1 m (fun _ _ => pconst (zN v)).
Proof.
  intros v. unfold single_value. rewrite (len_n _ _ _ _ _ HW). pose proof (n_pos L) as N0.
  destruct (put_lt N 0 0%nat v (repeat 0 n)) as (d & Ed & Ld & Nd); [rewrite repeat_length; lia|]. rewrite Ed. cbn [bind]. rewrite repeat_length in Ld.
  eexists. split; [reflexivity|]. split; [split; [reflexivity|]; split; [reflexivity|]; cbn [rm_data]; lia|]. intros r c z Hr Hc Hz.
  rewrite poly_at_nth by exact Hz. cbn [rm_cols rm_data]. assert (r = 0%nat) by lia. assert (c = 0%nat) by lia. subst. cbn [Nat.mul Nat.add].
  rewrite Nd, nth_repeat. destruct z; reflexivity.
Qed.

Lemma even_mod2 : forall i, Nat.even i = (i mod 2 =? 0)%nat.
Proof.
  intros i. destruct (Nat.even i) eqn:E; symmetry.
  - apply Nat.eqb_eq. apply Nat.even_spec in E as [y ->]. rewrite Nat.mul_comm. apply Nat.mod_mul. lia.
  - apply Nat.eqb_neq. assert (O : Nat.odd i = true) by (unfold Nat.odd; rewrite E; reflexivity). apply Nat.odd_spec in O as [y ->].
    rewrite Nat.add_comm, Nat.mul_comm, Nat.mod_add by lia. discriminate.
Qed.

Lemma gen_conversion_r : forall rng pub, (1 <= sp_conv P)%nat -> words64 rng -> words64 pub -> exists m rng' pub' e,
  gen_conversion avx NP P dg sk_reg (rng, pub) = Ok (m, (rng', pub')) /\ words64 rng' /\ advanced pub (2 * sp_conv P) pub'
  /\ (forall k, bounded (e k)) /\ colsm (2 * sp_conv P) m (conversion_key P s (mask pub) e).
Proof.
  intros rng pub Hc Hr Hp. unfold gen_conversion. pose proof (q_bounds _ _ _ _ _ HW) as QB. pose proof (n_pos L) as N0.
  destruct (sk_ntt_r avx L psi NP P inv dg HW Hml Hcdf Hdg sk_reg s Hsk) as (sn & Esn & Hsn). rewrite Esn. cbn [bind].
  destruct (gadget_r 2 (sp_conv P) ltac:(lia) Hc) as (g & Eg & Hg). rewrite (Nat.mul_comm (sp_conv P) 2) in Eg, Hg. rewrite Eg. cbn [bind].
  destruct (multiply_r avx L psi NP P inv dg HW Hml Hcdf Hdg 1 1 1 _ _ _ _ Hsn Hsn) as (sq & Esq & Hsq). rewrite Esq. cbn [bind].
  set (M := fun i => if Nat.even i then pmul n (pmul n s s) (pconst (gad (bits_for P (sp_conv P)) (i / 2)))
                     else pmul n s (pconst (gad (bits_for P (sp_conv P)) (i / 2)))).
  match goal with |- exists m rng' pub' e, loop _ _ ?f ?s0 = _ /\ _ =>
    destruct (loop_rule (raw_mat * prgs) (2 * sp_conv P) 0 f (fun k st => words64 (fst (snd st)) /\ advanced pub k (snd (snd st))
      /\ exists e : nat -> poly, (forall k, bounded (e k))
         /\ colsm (2 * sp_conv P) (fst st) (fun i => if (i <? k)%nat then regev P s (mask pub i) (e i) (M i) else ct_zero)) s0)
      as ([p [rng' pub']] & E & H1 & H2 & e & H3 & H4) end.
  - cbn [fst snd]. split; [exact Hr|]. split; [intros x; reflexivity|]. exists (fun _ => pzero). split; [intros k z; unfold pzero; cbn; lia|].
    unfold SpSrvProofs3.colsm. eapply (nttm_peq _ _ _ _ _ HW); [apply (ntt_zero_r _ _ _ _ _ HW)|]. intros [|r] c _ _ z _; apply eqm_refl.
  - intros i [p [rng1 pub1]] Hi (H1 & H2 & e & H3 & H4). cbn [fst snd] in *.
    pose proof Hg as [(G1 & G2 & G3) G4]. rewrite G2.
    replace ((i mod 2 * (2 * sp_conv P) + i) * np_len NP)%nat with ((i mod 2 * (2 * sp_conv P) + i) * n)%nat by (rewrite (len_n _ _ _ _ _ HW); reflexivity). pose proof (Nat.mod_upper_bound i 2 ltac:(lia)) as Hm2.
    assert (Hk : ((i mod 2 * (2 * sp_conv P) + i) * n < length (rm_data g))%nat) by (rewrite G3; pose proof (idx_lt (i mod 2) i 2 (2 * sp_conv P) Hm2 ltac:(lia)); nia).
    rewrite (get_lt N 0) by exact Hk. cbn [bind].
    pose proof (G4 (i mod 2) i 0 Hm2 ltac:(lia) N0)%nat as Gv. rewrite poly_at_nth in Gv by exact N0. rewrite G2, Nat.add_0_r in Gv.
    unfold gpoly in Gv. rewrite (Nat.eqb_refl (i mod 2)) in Gv. cbn [Nat.eqb andb] in Gv.
    destruct (single_r (nth ((i mod 2 * (2 * sp_conv P) + i) * n) (rm_data g) 0)) as (sv & Esv & Hsv). rewrite Esv. cbn [bind]. rewrite Gv in Hsv.
    destruct (to_ntt_r avx _ _ _ _ _ HW _ _ _ _ Hsv) as (vn & Evn & Hvn).
    { intros r c z _ _ _. pose proof (gad_64 (bits_for P (sp_conv P)) (i / 2)). unfold pconst; destruct z; cbn [Nat.eqb]; lia. }
    rewrite Evn. cbn [bind].
    assert (HM : exists sg, multiply_ntt avx NP (if (i mod 2 =? 0)%nat then sq else sn) vn = Ok sg /\ nttm 1 1 sg (fun _ _ => M i)).
    { unfold M. rewrite even_mod2. destruct (i mod 2 =? 0)%nat.
      - destruct (multiply_r avx L psi NP P inv dg HW Hml Hcdf Hdg 1 1 1 _ _ _ _ Hsq Hvn) as (sg & Es & Hs). exists sg. split; [exact Es|].
        eapply (nttm_peq _ _ _ _ _ HW); [exact Hs|]. intros r c _ _.
        eapply peq_trans; [apply (product1 avx L psi NP P inv dg HW Hml Hcdf Hdg)|]. apply pmul_proper; [apply (product1 avx L psi NP P inv dg HW Hml Hcdf Hdg (fun _ _ => s) (fun _ _ => s))|intros z _; apply eqm_refl].
      - destruct (multiply_r avx L psi NP P inv dg HW Hml Hcdf Hdg 1 1 1 _ _ _ _ Hsn Hvn) as (sg & Es & Hs). exists sg. split; [exact Es|].
        eapply (nttm_peq _ _ _ _ _ HW); [exact Hs|]. intros r c _ _. apply (product1 avx L psi NP P inv dg HW Hml Hcdf Hdg (fun _ _ => s) (fun _ _ => _)). }
    destruct HM as (sg & Esg & Hsg). rewrite Esg. cbn [bind].
    destruct (encrypt_regev_r avx L psi NP P inv dg HW Hml Hcdf Hdg sk_reg s Hsk 1 sg (fun _ => M i) rng1 pub1 ltac:(lia) Hsg H1
      (advanced_words avx L psi NP P inv dg HW Hml Hcdf Hdg _ _ _ Hp H2)) as (c & rng2 & pub2 & ei & Ec & C1 & C2 & C3 & C4).
    rewrite Ec. cbn [bind].
    destruct (copy_r _ _ _ _ _ HW 2 (2 * sp_conv P) 2 1 p c 0 i _ _ H4 C4) as (p' & Ep & Hp'); try lia. rewrite Ep. cbn [bind].
    eexists. split; [reflexivity|]. cbn [fst snd]. split; [exact C1|]. split; [apply (advanced_trans avx L psi NP P inv dg HW Hml Hcdf Hdg _ _ _ _ _ H2 C2)|].
    exists (fun k => if (k =? i)%nat then ei 0%nat else e k). split; [intros k; destruct (k =? i)%nat; [apply C3|apply H3]|].
    unfold SpSrvProofs3.colsm. eapply (nttm_peq _ _ _ _ _ HW); [exact Hp'|]. intros r k Hr' Hk'. cbv beta.
    rewrite (proj2 (Nat.leb_le 0 r)), (proj2 (Nat.ltb_lt r (0 + 2))) by lia. cbn [andb]. rewrite Nat.sub_0_r.
    destruct (Nat.eq_dec k i) as [->|Hne].
    + rewrite (proj2 (Nat.leb_le i i)), (proj2 (Nat.ltb_lt i (i + 1))), Nat.eqb_refl, Nat.sub_diag by lia. cbn [andb]. intros z Hz. apply eqm_eq.
      assert (Em : forall x, mask pub1 0 x = mask pub i x) by (intros x; unfold SpCliSpec.mask; rewrite H2; do 3 f_equal; lia).
      destruct r as [|r]; cbn [ct_row regev fst snd]; [unfold popp; rewrite Em; reflexivity|].
      unfold padd. do 2 f_equal. unfold pmul, negacyclic. apply zsum_ext. intros y _. rewrite !Em. reflexivity.
    + replace ((i <=? k) && (k <? i + 1))%nat with false by (symmetry; apply andb_false_iff; rewrite Nat.leb_gt, Nat.ltb_ge; lia).
      rewrite (proj2 (Nat.eqb_neq k i) Hne). replace (k <? i + 1)%nat with (k <? i)%nat; [intros z _; apply eqm_refl|].
      destruct (Nat.ltb_spec k i), (Nat.ltb_spec k (i + 1)); try reflexivity; lia.
  - cbn [fst snd] in *. exists p, rng', pub', e. split; [exact E|]. split; [exact H1|]. split; [exact H2|]. split; [exact H3|].
    unfold SpSrvProofs3.colsm. eapply (nttm_peq _ _ _ _ _ HW); [exact H4|]. intros r k _ Hk. cbv beta. rewrite (proj2 (Nat.ltb_lt k (0 + 2 * sp_conv P))) by lia.
    unfold conversion_key, M. rewrite (Hlen _ _ _ _ _ HW). intros z _. apply eqm_refl.
Qed.
End Keys.
