(** GSW encryptions and packing keys of the Spiral client on words. *)
From Coq Require Import List Arith NArith ZArith Bool Lia.
From Verif Require Import Base StoreModel StoreProofs PirPackModel PirPackProofs2 SpArithModel SpArithProofs SpArithProofs2 SpLoopModel SpLoopProofs
  SpGadgetModel SpGadgetSpec SpGadgetProofs SpDecodeModel SpDecodeSpec SpDecodeProofs2 SpRingModel SpRingSpec SpRingProofs SpRingProofs2
  SpSelModel NttModel NttSpec NttProofs NttProofs2 NttProofs3 NttProofs4 NttProofs5 SpSrvModel SpSrvSpec SpSrvProofs1 SpSrvProofs2 SpSrvProofs3 SpSrvProofs4 SpSrvProofs5
  SpSrvProofs6 SpSrvProofs7 SpSelProofs5 SpCliModel SpCliSpec SpCliProofs1 SpCliProofs2.
Import ListNotations.
Local Open Scope N_scope.
Local Notation zN := Z.of_N.

Section Gsw.
Variables (avx : bool) (L : nat) (psi : nat -> Z) (NP : ntt_params) (P : sel_params) (inv : N -> N -> N) (dg : gaussian).
Hypothesis HW : srv_ok L psi NP P inv.
Hypothesis Hml : (sp_ml P <= 62)%nat.
Hypothesis Hcdf : length (dg_cdf dg) = (2 * dg_max dg + 1)%nat.
Hypothesis Hdg : (Z.of_nat (dg_max dg) < sp_q P)%Z.
Variables sk_gsw sk_reg : raw_mat.
Variable s : poly.
Variable Sk : nat -> poly.
Local Notation n := (2 ^ L)%nat.
Local Notation q := (sp_q P).
Local Notation W := (length (np_moduli NP) * np_len NP)%nat.
Local Notation nttm := (nttm L psi NP).
Local Notation rawm := (rawm L).
Local Notation bounded := (bounded dg).
Local Notation advanced := (advanced L).
Local Notation mask := (mask L P).
Hypothesis Hsk : rawm 1 1 sk_reg (fun _ _ z => (s z mod q)%Z).
Hypothesis Hn1 : (1 <= sp_n P)%nat.
Hypothesis HSk : rawm (sp_n P) 1 sk_gsw (fun r _ z => (Sk r z mod q)%Z).
Set Default Proof Using "avx L psi NP P inv dg HW Hml Hcdf Hdg sk_gsw sk_reg s Sk Hsk Hn1 HSk".

Lemma stack_r : forall r1 r2 cols A B a b, (1 <= r1)%nat -> (1 <= r2)%nat -> (1 <= cols)%nat -> rawm r1 cols A a -> rawm r2 cols B b ->
  exists m, stack NP A B = Ok m /\ rawm (r1 + r2) cols m (fun r c => if (r <? r1)%nat then a r c else b (r - r1)%nat c).
Proof.
  intros r1 r2 cols A B a b H1 H2 H3 HA HB. unfold stack. pose proof HA as [(A1 & A2 & A3) A4]. pose proof HB as [(B1 & B2 & B3) B4].
  rewrite A1, A2, B1, B2, Nat.eqb_refl, (len_n _ _ _ _ _ HW). cbn [enforce].
  destruct (copy_ok n (r1 + r2) cols r1 cols _ A 0 0 (raw_zero_sized _ _ _ _ _ HW (r1 + r2) cols) (proj1 HA)) as (m1 & E1 & S1 & P1); try lia. rewrite E1. cbn [bind].
  destruct (copy_ok n (r1 + r2) cols r2 cols m1 B r1 0 S1 (proj1 HB)) as (m2 & E2 & S2 & P2); try lia. exists m2. split; [exact E2|]. split; [exact S2|].
  intros r c z Hr Hc Hz. rewrite P2, P1 by assumption.
  rewrite (proj2 (Nat.leb_le 0 c)), (proj2 (Nat.ltb_lt c (0 + cols))), !andb_true_r, !Nat.sub_0_r by lia.
  destruct (Nat.ltb_spec r r1) as [C|C].
  - rewrite (proj2 (Nat.leb_gt r1 r)) by lia. cbn [andb]. rewrite (proj2 (Nat.leb_le 0 r)) by lia. cbn [andb].
    rewrite (proj2 (Nat.ltb_lt r (0 + r1))) by lia. apply A4; assumption.
  - rewrite (proj2 (Nat.leb_le r1 r)), (proj2 (Nat.ltb_lt r (r1 + r2))) by lia. cbn [andb]. apply B4; try assumption; lia.
Qed.

(** The rows of column k: masks [a], noise [e], messages [M]. *)
Definition gsw_row (a : nat -> poly) (e M : nat -> nat -> poly) (row k : nat) : poly :=
  match row with
  | O => popp (a k)
  | Datatypes.S r => padd (padd (e r k) (pmul n (Sk r) (a k))) (M r k)
  end.

Lemma fresh_gsw_r : forall m rng pub, (1 <= m)%nat -> words64 rng -> words64 pub -> exists p rng' pub' e,
  get_fresh_gsw avx NP inv P dg sk_gsw m (rng, pub) = Ok (p, (rng', pub')) /\ words64 rng' /\ advanced pub m pub' /\ (forall r k, bounded (e r k))
  /\ exists b, rawm (sp_n P + 1) m p b /\ (forall r c z, (b r c z < 2 ^ 64)%Z)
     /\ forall r k, (r < sp_n P + 1)%nat -> peq n q (b r k) (gsw_row (mask pub) e (fun _ _ => pzero) r k).
Proof.
  intros m rng pub Hm Hr Hp. unfold get_fresh_gsw. pose proof (q_bounds _ _ _ _ _ HW) as QB.
  destruct (random_r avx L psi NP P inv dg HW Hml Hcdf Hdg 1 m pub Hp) as (a & Ea & Ha). rewrite Ea. cbn [bind]. rewrite Nat.mul_1_l.
  set (am := fun (r c z : nat) => (zN (pub ((r * m + c) * n + z)%nat) mod q)%Z) in Ha.
  destruct (to_ntt_r avx _ _ _ _ _ HW _ _ _ _ Ha) as (an & Ean & Han); [intros; apply (mod_64 avx L psi NP P inv dg HW Hml Hcdf Hdg)|]. rewrite Ean. cbn [bind].
  destruct (noise_r avx L psi NP P inv dg HW Hml Hcdf Hdg (sp_n P) m rng Hr) as (e & rng' & ep & Ee & Hr' & Hb & He). rewrite Ee. cbn [bind].
  destruct (to_ntt_r avx _ _ _ _ _ HW _ _ _ _ He) as (en & Een & Hen); [intros; apply (mod_64 avx L psi NP P inv dg HW Hml Hcdf Hdg)|]. rewrite Een. cbn [bind].
  assert (Bm : forall x, (0 <= x mod q < q)%Z) by (apply (mod_bound avx L psi NP P inv dg HW Hml Hcdf Hdg)).
  destruct (invert_r _ _ _ _ _ HW _ _ a _ Ha) as (ai & Eai & Hai); [intros r c z _ _ _; unfold am; pose proof (Bm (zN (pub ((r * m + c) * n + z)%nat))); lia|].
  rewrite Eai. cbn [bind].
  destruct (to_ntt_r avx _ _ _ _ _ HW _ _ _ _ HSk) as (sn & Esn & Hsn); [intros; apply (mod_64 avx L psi NP P inv dg HW Hml Hcdf Hdg)|]. rewrite Esn. cbn [bind].
  destruct (multiply_r avx L psi NP P inv dg HW Hml Hcdf Hdg (sp_n P) 1 m _ _ _ _ Hsn Han) as (bp & Ebp & Hbp). rewrite Ebp. cbn [bind].
  destruct (add_ntt_r _ _ _ _ _ HW _ _ _ _ _ _ Hen Hbp) as (b & Eb & Hb'). rewrite Eb. cbn [bind].
  destruct (from_ntt_r avx _ _ _ _ _ HW _ _ _ _ Hb') as (br & Ebr & Hbr). rewrite Ebr. cbn [bind].
  destruct (stack_r 1 (sp_n P) m ai br _ _ ltac:(lia) Hn1 Hm Hai Hbr) as (p & Es & Hst). rewrite Es. cbn [bind].
  exists p, rng', (fun i => pub (m * n + i)%nat), ep. split; [reflexivity|]. split; [exact Hr'|]. split; [intros x; reflexivity|]. split; [exact Hb|].
  eexists. split; [rewrite Nat.add_comm; exact Hst|]. cbv beta. split.
  - intros r c z. destruct (r <? 1)%nat; [unfold am; pose proof (Bm (zN (pub ((r * m + c) * n + z)%nat))); lia|].
    match goal with |- (?x mod q < _)%Z => pose proof (Bm x); lia end.
  - intros r k Hrk z Hz. destruct r as [|r]; cbn [Nat.ltb Nat.leb gsw_row].
    + unfold popp, am, SpCliSpec.mask. cbn [Nat.mul Nat.add]. exists 1%Z. ring.
    + replace (S r - 1)%nat with r by lia. eapply eqm_trans; [apply (peq_mod avx L psi NP P inv dg HW Hml Hcdf Hdg (fun z => _) z Hz)|]. cbv beta.
      unfold padd at 2. unfold pzero. rewrite Z.add_0_r. apply eqm_add; [apply (peq_mod avx L psi NP P inv dg HW Hml Hcdf Hdg (ep r k) z Hz)|].
      eapply eqm_trans; [apply (product1 avx L psi NP P inv dg HW Hml Hcdf Hdg (fun r0 _ z0 => (Sk r0 z0 mod q)%Z) am r k z Hz)|].
      apply (pmul_proper n q); [apply (peq_mod avx L psi NP P inv dg HW Hml Hcdf Hdg)|intros y _; apply eqm_refl|exact Hz].
Qed.

Lemma encrypt_gsw_r : forall m A M rng pub, (1 <= m)%nat -> nttm (sp_n P) m A M -> words64 rng -> words64 pub -> exists c rng' pub' e,
  encrypt_gsw avx NP inv P dg sk_gsw A (rng, pub) = Ok (c, (rng', pub')) /\ words64 rng' /\ advanced pub m pub' /\ (forall r k, bounded (e r k))
  /\ nttm (sp_n P + 1) m c (gsw_row (mask pub) e M).
Proof.
  intros m A M rng pub Hm HA Hr Hp. unfold encrypt_gsw. pose proof HA as [(_ & A2 & _) _]. rewrite A2.
  destruct (fresh_gsw_r m rng pub Hm Hr Hp) as (p & rng' & pub' & e & E & H1 & H2 & H3 & b & H4 & H5 & H6). rewrite E. cbn [bind].
  destruct (to_ntt_r avx _ _ _ _ _ HW _ _ _ _ H4) as (pn & Epn & Hpn); [intros; apply H5|]. rewrite Epn. cbn [bind].
  destruct (pad_top_r avx L psi NP P inv dg HW Hml Hcdf Hdg (sp_n P) m A _ Hn1 Hm HA) as (pa & Epa & Hpa). rewrite Epa. cbn [bind].
  destruct (add_ntt_r _ _ _ _ _ HW _ _ _ _ _ _ Hpn Hpa) as (c & Ec & Hc). rewrite Ec. cbn [bind].
  exists c, rng', pub', e. split; [reflexivity|]. split; [exact H1|]. split; [exact H2|]. split; [exact H3|].
  eapply (nttm_peq _ _ _ _ _ HW); [exact Hc|]. intros r k Hr' Hk z Hz. unfold padd at 1.
  eapply eqm_trans; [apply eqm_add; [apply (H6 r k Hr' z Hz)|apply eqm_refl]|]. apply eqm_eq.
  destruct r as [|r]; cbn [gsw_row]; unfold padd, popp, pzero; ring.
Qed.

Lemma gen_packing_r : forall rng pub, (1 <= sp_conv P)%nat -> words64 rng -> words64 pub -> exists l rng' pub' e,
  gen_packing avx NP inv P dg sk_gsw sk_reg (rng, pub) = Ok (l, (rng', pub')) /\ words64 rng' /\ advanced pub (sp_n P * sp_conv P) pub'
  /\ (forall i r k, bounded (e i r k)) /\ packm L psi NP P l (packing_keys P s Sk (key_mask L P pub (sp_conv P)) e).
Proof.
  intros rng pub Hm Hr Hp. unfold gen_packing. pose proof (q_bounds _ _ _ _ _ HW) as QB. set (m := sp_conv P) in *.
  destruct (sk_ntt_r avx L psi NP P inv dg HW Hml Hcdf Hdg sk_reg s Hsk) as (sn & Esn & Hsn). rewrite Esn. cbn [bind].
  destruct (gadget_r avx L psi NP P inv dg HW Hml Hcdf Hdg sk_reg s Hsk 1 m ltac:(lia) Hm) as (g & Eg & Hg). rewrite Nat.mul_1_r in Eg, Hg. rewrite Eg. cbn [bind].
  destruct (to_ntt_r avx _ _ _ _ _ HW _ _ _ _ Hg) as (gn & Egn & Hgn); [intros; apply (gpoly_64 avx L psi NP P inv dg HW Hml Hcdf Hdg sk_reg s Hsk)|]. rewrite Egn. cbn [bind].
  destruct (scalar_multiply_r _ _ _ _ _ HW 1 m _ _ _ _ Hsn Hgn) as (sc & Esc & Hsc). rewrite Esc. cbn [bind].
  match goal with |- exists l rng' pub' e, loop _ _ ?f ?s0 = _ /\ _ =>
    destruct (loop_rule (list raw_mat * prgs) (sp_n P) 0 f (fun j st => words64 (fst (snd st)) /\ advanced pub (j * m) (snd (snd st))
      /\ length (fst st) = j /\ exists e : nat -> nat -> nat -> poly, (forall i r k, bounded (e i r k))
         /\ forall i, (i < j)%nat -> nttm (sp_n P + 1) m (nth i (fst st) no_mat) (gsw_row (key_mask L P pub m i) (e i)
              (fun r k => if Nat.eqb r i then pmul n s (pconst (gad (bits_for P m) k)) else pzero))) s0)
      as ([l [rng' pub']] & E & H1 & H2 & H3 & e & H4 & H5) end.
  - cbn [fst snd]. split; [exact Hr|]. split; [intros x; reflexivity|]. split; [reflexivity|]. exists (fun _ _ _ => pzero).
    split; [intros i r k z; unfold pzero; cbn; lia|]. intros; lia.
  - intros i [l [rng1 pub1]] Hi (H1 & H2 & H3 & e & H4 & H5). cbn [fst snd] in *.
    destruct (copy_r _ _ _ _ _ HW (sp_n P) m 1 m _ sc i 0 _ _ (ntt_zero_r _ _ _ _ _ HW (sp_n P) m) Hsc) as (ag & Eag & Hag); try lia. rewrite Eag. cbn [bind].
    set (M := fun r k => if Nat.eqb r i then pmul n s (pconst (gad (bits_for P m) k)) else pzero).
    assert (HM : nttm (sp_n P) m ag M).
    { eapply (nttm_peq _ _ _ _ _ HW); [exact Hag|]. intros r k Hr' Hk. cbv beta. unfold M.
      rewrite (proj2 (Nat.leb_le 0 k)), (proj2 (Nat.ltb_lt k (0 + m))), !andb_true_r, Nat.sub_0_r by lia.
      destruct (Nat.eqb_spec r i) as [->|Hne].
      - rewrite (proj2 (Nat.leb_le i i)), (proj2 (Nat.ltb_lt i (i + 1))), Nat.sub_diag by lia. cbn [andb].
        apply pmul_proper; [intros z _; apply eqm_refl|apply (gpoly1 avx L psi NP P inv dg HW Hml Hcdf Hdg sk_reg s Hsk)].
      - replace ((i <=? r) && (r <? i + 1))%nat with false by (symmetry; apply andb_false_iff; rewrite Nat.leb_gt, Nat.ltb_ge; lia). intros z _; apply eqm_refl. }
    destruct (encrypt_gsw_r m ag M rng1 pub1 Hm HM H1 (advanced_words avx L psi NP P inv dg HW Hml Hcdf Hdg _ _ _ Hp H2)) as (c & rng2 & pub2 & ei & Ec & C1 & C2 & C3 & C4).
    rewrite Ec. cbn [bind]. eexists. split; [reflexivity|]. cbn [fst snd]. split; [exact C1|]. split.
    { replace ((i + 1) * m)%nat with (i * m + m)%nat by lia. exact (advanced_trans avx L psi NP P inv dg HW Hml Hcdf Hdg _ _ _ _ _ H2 C2). }
    split; [rewrite app_length, H3; reflexivity|]. exists (fun x r k => if (x =? i)%nat then ei r k else e x r k).
    split; [intros x r k; destruct (x =? i)%nat; [apply C3|apply H4]|]. intros x Hx.
    destruct (Nat.eq_dec x i) as [->|Hne].
    + rewrite app_nth2 by lia. rewrite H3, Nat.sub_diag. cbn [nth]. rewrite Nat.eqb_refl. eapply (nttm_peq _ _ _ _ _ HW); [exact C4|].
      intros r k _ _ z _. apply eqm_eq.
      assert (Em : forall y, mask pub1 k y = key_mask L P pub m i k y) by (intros y; unfold key_mask, SpCliSpec.mask; rewrite H2; do 3 f_equal; lia).
      destruct r as [|r]; cbn [gsw_row]; [unfold popp; rewrite Em; reflexivity|].
      unfold M, padd. do 2 f_equal. unfold pmul, negacyclic. apply zsum_ext. intros y _. rewrite !Em. reflexivity.
    + rewrite app_nth1 by lia. rewrite (proj2 (Nat.eqb_neq x i) Hne). apply H5. lia.
  - cbn [fst snd] in *. exists l, rng', pub', e. split; [exact E|]. split; [exact H1|]. split; [exact H2|]. split; [exact H4|].
    split; [exact H3|]. intros i Hi. unfold packing_keys. rewrite nth_seq_map by exact Hi. rewrite (Hlen _ _ _ _ _ HW). apply H5, Hi.
Qed.
End Gsw.
