(** Rounds of expansion and the folding ciphertexts, on words. *)
From Coq Require Import List Arith NArith ZArith Bool Lia.
From Verif Require Import Base StoreModel StoreProofs PirPackModel PirPackProofs2 SpArithModel SpArithProofs SpLoopModel SpLoopProofs
  SpGadgetModel SpGadgetSpec SpGadgetProofs SpDecodeModel SpDecodeSpec SpDecodeProofs2 SpRingModel SpRingSpec SpRingProofs SpRingProofs2
  SpSelModel NttModel NttSpec NttProofs NttProofs2 NttProofs3 NttProofs4 NttProofs5 SpSrvModel SpSrvSpec SpSrvProofs1 SpSrvProofs2 SpSrvProofs3.
Import ListNotations.
Local Open Scope N_scope.
Local Notation zN := Z.of_N.

Section Rounds.
Variables (avx : bool) (L : nat) (psi : nat -> Z) (NP : ntt_params) (P : sel_params) (inv : N -> N -> N).
Hypothesis HW : srv_ok L psi NP P inv.
Hypothesis Hml : (sp_ml P <= 62)%nat.
Set Default Proof Using "L psi NP P inv HW Hml".
Local Notation n := (2 ^ L)%nat.
Local Notation q := (sp_q P).
Local Notation W := (length (np_moduli NP) * np_len NP)%nat.
Local Notation hasp := (has L psi NP).
Local Notation nttm := (nttm L psi NP).
Local Notation rawm := (rawm L).
Local Notation colsm := (colsm L psi NP).
Local Notation ctm := (ctm L psi NP).
Local Notation rctm := (rctm L P).
Local Notation keysm := (keysm L psi NP).
Local Notation small_digits := (small_digits NP P).

Definition vecm (K : nat) (v : list raw_mat) (vr : nat -> ct) : Prop :=
  length v = K /\ forall x, (x < K)%nat -> ctm (nth x v no_mat) (vr x).
Definition negm (l : list raw_mat) : Prop :=
  forall i, (i < length l)%nat -> nttm 1 1 (nth i l no_mat) (fun _ _ => neg1 P i).

Lemma ctm_scale : forall m mj (p : poly) c, nttm 1 1 m (fun _ _ => p) -> ctm mj c ->
  exists x, scalar_multiply NP m mj = Ok x /\ ctm x (ct_scale P p c).
Proof.
  intros m mj p c Hm Hc. destruct (scalar_multiply_r _ _ _ _ _ HW 2 1 m mj _ _ Hm Hc) as (x & E & Hx).
  exists x. split; [exact E|]. eapply (nttm_peq _ _ _ _ _ HW); [exact Hx|]. intros r c' Hr _ z Hz. apply eqm_eq.
  unfold ct_scale. rewrite (Hlen _ _ _ _ _ HW). destruct r as [|[|r]]; [reflexivity|reflexivity|lia].
Qed.

Lemma round_r : forall K stop maxr lw rw lr rr i ng v vr, small_digits (sp_left P) -> small_digits (sp_right P) ->
  keysm (sp_left P) lw lr -> keysm (sp_right P) rw rr -> (i < length lw)%nat -> (i < length rw \/ (0 < stop < i))%nat ->
  negm ng -> (i < length ng)%nat -> (2 ^ (i + 1) <= K)%nat -> vecm K v vr ->
  exists v', w_round avx NP inv P stop maxr lw rw ng i v = Ok v' /\ vecm K v' (expand_round P stop maxr lr rr i vr).
Proof.
  intros K stop maxr lw rw lr rr i ng v vr D1 D2 K1 K2 Hi1 Hi2 Hng Hi3 HK [Lv Hv]. unfold w_round.
  rewrite (get_lt _ no_mat i ng Hi3). cbn [bind].
  assert (E2 : (2 ^ (i + 1) = 2 ^ i + 2 ^ i)%nat) by (rewrite Nat.add_1_r; cbn [Nat.pow]; lia).
  set (A := fun j f => action_expand P stop maxr lr rr i j f).
  match goal with |- context [loop _ 0 ?f v] =>
    destruct (loop_rule (list raw_mat) (2 ^ i) 0 f (fun j s => vecm K s (fun x =>
      if (x <? 2 ^ i)%nat then if (x <? j)%nat then A x (vr x) else vr x
      else if (x <? 2 ^ (i + 1))%nat then if (x - 2 ^ i <? j)%nat then A (x - 2 ^ i)%nat (ct_scale P (neg1 P i) (vr (x - 2 ^ i)%nat)) else vr x
      else vr x)) v) as (s & E & Ls & Hs) end.
  - split; [exact Lv|]. intros x Hx. destruct (x <? 2 ^ i)%nat; [apply Hv, Hx|]. destruct (x <? 2 ^ (i + 1))%nat; apply Hv, Hx.
  - intros j s Hj [Ls Hs]. rewrite (get_lt _ no_mat j s) by lia. cbn [bind].
    pose proof (Hs j ltac:(lia)) as Hc. cbv beta in Hc. rewrite (proj2 (Nat.ltb_lt j (2 ^ i))), (Nat.ltb_irrefl j) in Hc by lia.
    destruct (ctm_scale _ _ _ _ (Hng i Hi3) Hc) as (x & Ex & Hx). rewrite Ex. cbn [bind].
    destruct (put_lt _ no_mat (j + 2 ^ i) x s) as (s1 & E1 & L1 & N1); [lia|]. rewrite E1. cbn [bind].
    destruct (action_r avx _ _ _ _ _ HW Hml stop maxr lw rw lr rr i j _ _ D1 D2 K1 K2 Hi1 Hi2 Hc) as (y & Ey & Hy). rewrite Ey. cbn [bind].
    destruct (put_lt _ no_mat j y s1) as (s2 & E3 & L2 & N2); [lia|]. rewrite E3. cbn [bind].
    destruct (action_r avx _ _ _ _ _ HW Hml stop maxr lw rw lr rr i j _ _ D1 D2 K1 K2 Hi1 Hi2 Hx) as (x' & Ex' & Hx'). rewrite Ex'. cbn [bind].
    destruct (put_lt _ no_mat (j + 2 ^ i) x' s2) as (s3 & E4 & L3 & N3); [lia|]. rewrite E4.
    exists s3. split; [reflexivity|]. split; [lia|]. intros k Hk. rewrite N3, N2, N1. specialize (Hs k Hk). cbv beta in Hs.
    destruct (Nat.eqb_spec k (j + 2 ^ i)) as [->|Hne].
    + rewrite (proj2 (Nat.ltb_ge (j + 2 ^ i) (2 ^ i))), (proj2 (Nat.ltb_lt (j + 2 ^ i) (2 ^ (i + 1)))) by lia.
      replace (j + 2 ^ i - 2 ^ i)%nat with j by lia. rewrite (proj2 (Nat.ltb_lt j (j + 1))) by lia. exact Hx'.
    + destruct (Nat.eqb_spec k j) as [->|Hne'].
      * rewrite (proj2 (Nat.ltb_lt j (2 ^ i))), (proj2 (Nat.ltb_lt j (j + 1))) by lia. exact Hy.
      * destruct (Nat.ltb_spec k (2 ^ i)) as [H1|H1].
        -- replace (k <? j + 1)%nat with (k <? j)%nat; [exact Hs|].
           destruct (Nat.ltb_spec k j), (Nat.ltb_spec k (j + 1)); try reflexivity; lia.
        -- destruct (Nat.ltb_spec k (2 ^ (i + 1))) as [H2|H2]; [|exact Hs].
           replace (k - 2 ^ i <? j + 1)%nat with (k - 2 ^ i <? j)%nat; [exact Hs|].
           destruct (Nat.ltb_spec (k - 2 ^ i) j), (Nat.ltb_spec (k - 2 ^ i) (j + 1)); try reflexivity; lia.
  - exists s. split; [exact E|]. split; [exact Ls|]. intros x Hx. specialize (Hs x Hx). cbv beta in Hs. rewrite Nat.add_0_l in Hs.
    unfold expand_round. destruct (Nat.ltb_spec x (2 ^ i)); [exact Hs|].
    destruct (Nat.ltb_spec x (2 ^ (i + 1))); [|exact Hs]. rewrite (proj2 (Nat.ltb_lt (x - 2 ^ i) (2 ^ i))) in Hs by lia. exact Hs.
Qed.

Lemma expansion_r : forall K g stop maxr lw rw lr rr ng v vr, small_digits (sp_left P) -> small_digits (sp_right P) ->
  keysm (sp_left P) lw lr -> keysm (sp_right P) rw rr -> (g <= length lw)%nat -> (0 < stop < length rw \/ g <= length rw)%nat ->
  negm ng -> (g <= length ng)%nat -> (2 ^ g <= K)%nat -> vecm K v vr ->
  exists v', w_expansion avx NP inv P g stop maxr lw rw ng v = Ok v' /\ vecm K v' (coefficient_expansion P g stop maxr lr rr vr).
Proof.
  intros K g stop maxr lw rw lr rr ng v vr D1 D2 K1 K2 Hg1 Hg2 Hng Hg3 HK Hv. unfold w_expansion.
  apply (loop_rule (list raw_mat) g 0 _ (fun i s => vecm K s (coefficient_expansion P i stop maxr lr rr vr)) v Hv).
  intros i s Hi Hs. rewrite Nat.add_1_r. cbn [coefficient_expansion]. apply round_r; try assumption; try lia.
  eapply Nat.le_trans; [|exact HK]. apply Nat.pow_le_mono_r; lia.
Qed.

Lemma vneg1_r : exists l, get_vneg1 avx NP P = Ok l /\ length l = L /\ negm l.
Proof.
  unfold get_vneg1. rewrite (len_n _ _ _ _ _ HW). rewrite Nat.log2_pow2 by lia. pose proof (q_bounds _ _ _ _ _ HW) as QB.
  match goal with |- context [map_out ?f (seq 0 L)] =>
    destruct (map_out_seq_nth raw_mat f (fun j m => nttm 1 1 m (fun _ _ => neg1 P j)) L no_mat) as (l & E & Ll & Hl) end.
  - intros j Hj. pose proof (Nat.pow_lt_mono_r 2 j L ltac:(lia) Hj) as Hp. pose proof (n_pos j) as Hj0.
    destruct (put_lt N 0 (n - 2 ^ j)%nat 1 (repeat 0 n)) as (d & Ed & Ld & Nd); [rewrite repeat_length; lia|]. rewrite Ed. cbn [bind].
    rewrite repeat_length in Ld.
    destruct (invert_r _ _ _ _ _ HW 1 1 (RawMat 1 1 d) (fun _ _ => pmono (n - 2 ^ j))) as (m & Em & Hm).
    { split; [split; [reflexivity|]; split; [reflexivity|]; cbn [rm_data]; lia|]. intros r c z Hr Hc Hz.
      rewrite poly_at_nth by exact Hz. cbn [rm_cols rm_data]. assert (r = 0%nat) by lia. assert (c = 0%nat) by lia. subst. cbn [Nat.mul Nat.add].
      rewrite Nd, nth_repeat. unfold pmono. destruct (Nat.eqb z (n - 2 ^ j)); reflexivity. }
    { intros r c z _ _ _. unfold pmono. destruct (Nat.eqb z (n - 2 ^ j)); lia. }
    rewrite Em. cbn [bind]. destruct (to_ntt_r avx _ _ _ _ _ HW 1 1 m _ Hm) as (m' & Em' & Hm').
    { intros r c z _ _ _. unfold pmono. destruct (Nat.eqb z (n - 2 ^ j)); lia. }
    exists m'. split; [exact Em'|]. eapply (nttm_peq _ _ _ _ _ HW); [exact Hm'|]. intros r c _ _ z _. unfold neg1, popp. rewrite (Hlen _ _ _ _ _ HW).
    exists 1%Z. ring.
  - exists l. split; [exact E|]. split; [exact Ll|]. intros i Hi. apply Hl. lia.
Qed.

(** Digits of a ciphertext. *)
Lemma ginv2_r : forall d out raw c, (1 <= d)%nat -> sized n (2 * d) 1 out -> rctm raw c ->
  exists g gn, gadget_invert n (sp_ml P) out raw = Ok g /\ sized n (2 * d) 1 g /\ to_ntt avx NP g = Ok gn
    /\ nttm (2 * d) 1 gn (fun x _ => ginv2 P (bits_for P d) c x).
Proof.
  intros d out raw c Hd Ho Hr. pose proof (q_bounds _ _ _ _ _ HW) as QB. pose proof Hr as [(R1 & _) _].
  unfold gadget_invert. rewrite R1. rewrite Nat.mul_comm in Ho.
  destruct (ginv_r _ _ _ _ _ HW d 2 2 out raw (fun r _ z => (crow c r z mod q)%Z) Hd ltac:(lia) Hml Ho Hr) as (g & E & Hg).
  { intros r z _ _. pose proof (Z.mod_pos_bound (crow c r z) q ltac:(lia)). lia. }
  rewrite Nat.mul_comm in Hg. exists g. destruct (bits_ok _ _ _ _ _ HW d Hd Hml) as [_ HB].
  destruct (to_ntt_r avx _ _ _ _ _ HW (2 * d) 1 g _ Hg) as (gn & En & Hn).
  { intros r k z _ _ _. apply (rdigit_64 _ _ _ _ _ HW). exact HB. }
  exists gn. split; [exact E|]. split; [exact (proj1 Hg)|]. split; [exact En|].
  eapply (nttm_peq _ _ _ _ _ HW); [exact Hn|]. intros x k Hx _ z Hz. apply eqm_eq. unfold ginv2, pdigit, rdigit.
  destruct (Nat.even x) eqn:Ev.
  - apply Nat.even_spec in Ev as [y ->]. replace ((2 * y) mod 2)%nat with 0%nat; [reflexivity|].
    rewrite Nat.mul_comm, Nat.mod_mul by lia. reflexivity.
  - assert (Od : Nat.odd x = true) by (unfold Nat.odd; rewrite Ev; reflexivity). apply Nat.odd_spec in Od as [y ->].
    replace ((2 * y + 1) mod 2)%nat with 1%nat; [reflexivity|]. rewrite Nat.add_comm, Nat.mul_comm, Nat.mod_add by lia. reflexivity.
Qed.

(** RegevToGsw. *)
Lemma regev_to_gsw_r : forall K count v_inp inp v conv, (1 <= sp_conv P)%nat -> vecm K v_inp inp -> colsm (2 * sp_conv P) v conv ->
  (count * sp_gsw P <= K)%nat ->
  exists l, w_regev_to_gsw avx NP inv P count v_inp v = Ok l /\ length l = count
    /\ forall i, (i < count)%nat -> colsm (2 * sp_gsw P) (nth i l no_mat) (regev_to_gsw P conv (fun j => inp (i * sp_gsw P + j)%nat)).
Proof.
  intros K count v_inp inp v conv Hc [Li Hi] Hv HK. unfold w_regev_to_gsw, has_shape. pose proof Hv as [(V1 & V2 & _) _].
  rewrite V1, V2, !Nat.eqb_refl. cbn [andb enforce]. pose proof (len_n _ _ _ _ _ HW) as En.
  apply (map_out_seq_nth raw_mat _ (fun i m => colsm (2 * sp_gsw P) m (regev_to_gsw P conv (fun j => inp (i * sp_gsw P + j)%nat))) count no_mat).
  intros i Hic. set (inp' := fun j => inp (i * sp_gsw P + j)%nat).
  match goal with |- context [loop (sp_gsw P) 0 ?f ?s0] =>
    destruct (loop_rule raw_mat (sp_gsw P) 0 f (fun j m => nttm 2 (2 * sp_gsw P) m (fun r c =>
      if (c / 2 <? j)%nat then crow (regev_to_gsw P conv inp' c) r else pzero)) s0) as (m & E & Hm) end.
  - eapply (nttm_peq _ _ _ _ _ HW); [apply (ntt_zero_r _ _ _ _ _ HW)|]. intros r c _ _ z _. apply eqm_refl.
  - intros j m Hj Hm. assert (Hij : (i * sp_gsw P + j < K)%nat) by nia.
    rewrite (proj2 (Nat.ltb_lt _ (length v_inp))) by lia. cbn [enforce]. rewrite (get_lt _ no_mat _ v_inp) by lia. cbn [bind].
    pose proof (Hi _ Hij) as Hct. change (inp (i * sp_gsw P + j)%nat) with (inp' j) in Hct.
    set (mi := nth (i * sp_gsw P + j) v_inp no_mat) in *.
    destruct (copy_r _ _ _ _ _ HW 2 (2 * sp_gsw P) 2 1 m mi 0 (2 * j + 1) _ _ Hm Hct) as (m1 & E1 & H1); try lia. rewrite E1. cbn [bind].
    destruct (from_ntt_into_r avx _ _ _ _ _ HW 2 1 mi _ Hct) as (raw & E2 & H2). rewrite E2. cbn [bind]. rewrite En.
    destruct (ginv2_r (sp_conv P) (raw_zero n (2 * sp_conv P) 1) raw (inp' j) Hc) as (g & gn & E3 & _ & E4 & H4).
    { apply (raw_zero_sized _ _ _ _ _ HW). } { exact H2. }
    rewrite E3. cbn [bind]. rewrite E4. cbn [bind].
    destruct (multiply_into_r avx _ _ _ _ _ HW 2 (2 * sp_conv P) 1 v gn _ _ Hv H4) as (tmp & E5 & H5). rewrite E5. cbn [bind].
    pose proof (ctm_lincomb _ _ _ _ _ HW Hml _ v conv gn _ tmp Hv H4 H5) as H6.
    destruct (copy_r _ _ _ _ _ HW 2 (2 * sp_gsw P) 2 1 m1 tmp 0 (2 * j) _ _ H1 H6) as (m2 & E6 & H7); try lia. rewrite En in E6. rewrite E6.
    exists m2. split; [reflexivity|]. eapply (nttm_peq _ _ _ _ _ HW); [exact H7|]. intros r c Hr Hcc z Hz. apply eqm_eq.
    cbn [Nat.leb andb Nat.add]. rewrite (proj2 (Nat.ltb_lt r 2) Hr). cbn [andb].
    destruct (Nat.eq_dec c (2 * j)) as [->|N1].
    + rewrite (proj2 (Nat.leb_le (2 * j) (2 * j))), (proj2 (Nat.ltb_lt (2 * j) (2 * j + 1))) by lia. cbn [andb].
      replace (2 * j / 2)%nat with j by (rewrite Nat.mul_comm, Nat.div_mul; lia). rewrite (proj2 (Nat.ltb_lt j (j + 1))) by lia.
      unfold regev_to_gsw. replace (2 * j / 2)%nat with j by (rewrite Nat.mul_comm, Nat.div_mul; lia).
      rewrite Nat.even_mul. cbn [Nat.even orb]. rewrite Nat.sub_0_r. reflexivity.
    + replace ((2 * j <=? c) && (c <? 2 * j + 1))%nat%bool with false.
      2:{ symmetry. apply andb_false_iff. destruct (Nat.leb_spec (2 * j) c); [right; apply Nat.ltb_ge; lia|left; reflexivity]. }
      destruct (Nat.eq_dec c (2 * j + 1)) as [->|N2].
      * rewrite (proj2 (Nat.leb_le (2 * j + 1) (2 * j + 1))), (proj2 (Nat.ltb_lt (2 * j + 1) (2 * j + 1 + 1))) by lia. cbn [andb].
        assert (Ed : ((2 * j + 1) / 2 = j)%nat) by (rewrite Nat.mul_comm, Nat.add_comm, Nat.div_add by lia; reflexivity).
        rewrite Ed. rewrite (proj2 (Nat.ltb_lt j (j + 1))) by lia. unfold regev_to_gsw. rewrite Ed.
        rewrite Nat.even_add, Nat.even_mul. cbn [Nat.even orb Bool.eqb]. rewrite Nat.sub_0_r. reflexivity.
      * replace ((2 * j + 1 <=? c) && (c <? 2 * j + 1 + 1))%nat%bool with false.
        2:{ symmetry. apply andb_false_iff. destruct (Nat.leb_spec (2 * j + 1) c); [right; apply Nat.ltb_ge; lia|left; reflexivity]. }
        replace (c / 2 <? j + 1)%nat with (c / 2 <? j)%nat; [reflexivity|].
        pose proof (Nat.div_mod c 2 ltac:(lia)). pose proof (Nat.mod_upper_bound c 2 ltac:(lia)).
        destruct (Nat.ltb_spec (c / 2) j), (Nat.ltb_spec (c / 2) (j + 1)); try reflexivity; lia.
  - exists m. split; [exact E|]. eapply (nttm_peq _ _ _ _ _ HW); [exact Hm|]. intros r c Hr Hcc z Hz. apply eqm_eq. rewrite Nat.add_0_l.
    rewrite (proj2 (Nat.ltb_lt (c / 2) (sp_gsw P))); [reflexivity|]. apply Nat.div_lt_upper_bound; lia.
Qed.
End Rounds.
