(** ExpandQuery, folding, packing and the answer, on words. *)
From Coq Require Import List Arith NArith ZArith Bool Lia.
From Verif Require Import Base StoreModel StoreProofs PirPackModel PirPackProofs2 SpArithModel SpArithProofs SpArithProofs2 SpLoopModel SpLoopProofs
  SpGadgetModel SpGadgetSpec SpGadgetProofs SpDecodeModel SpDecodeSpec SpDecodeProofs2 SpRingModel SpRingSpec SpRingProofs SpRingProofs2
  SpSelModel NttModel NttSpec NttProofs NttProofs2 NttProofs3 NttProofs4 NttProofs5 SpSrvModel SpSrvSpec SpSrvProofs1 SpSrvProofs2 SpSrvProofs3 SpSrvProofs4 SpSrvProofs5.
Import ListNotations.
Local Open Scope N_scope.
Local Notation zN := Z.of_N.

Lemma forall2_nth : forall (A B : Type) (R : A -> B -> Prop) l l' d d', Forall2 R l l' -> forall x, (x < length l)%nat -> R (nth x l d) (nth x l' d').
Proof. intros A B R l l' d d' H. induction H as [|a b l l' H1 H2 IH]; intros [|x] Hx; cbn [length] in Hx; [lia|lia|exact H1|apply IH; lia]. Qed.

Lemma forall2_len : forall (A B : Type) (R : A -> B -> Prop) l l', Forall2 R l l' -> length l = length l'.
Proof. intros A B R l l' H. induction H; cbn [length]; congruence. Qed.

Section Answer.
Variables (avx : bool) (L : nat) (psi : nat -> Z) (NP : ntt_params) (P : sel_params) (inv : N -> N -> N).
Hypothesis HW : srv_ok L psi NP P inv.
Hypothesis Hml : (sp_ml P <= 62)%nat.
Set Default Proof Using "L psi NP P inv HW Hml".
Local Notation n := (2 ^ L)%nat.
Local Notation q := (sp_q P).
Local Notation W := (length (np_moduli NP) * np_len NP)%nat.
Local Notation hasp := (has L psi NP).
Local Notation nttm := (nttm L psi NP).
Local Notation rawm := (rawm L).
Local Notation colsm := (colsm L psi NP).
Local Notation ctm := (ctm L psi NP).
Local Notation rctm := (rctm L P).
Local Notation vecm := (vecm L psi NP).
Local Notation keysm := (keysm L psi NP).
Local Notation small_digits := (small_digits NP P).
Local Notation firstm := (firstm L psi NP P).
Local Notation dbm := (dbm L psi NP P).
Local Notation dim0 := (2 ^ sp_v1 P)%nat.
Local Notation num_per := (2 ^ sp_v2 P)%nat.

Definition gswm (fw : list raw_mat) (f : nat -> nat -> ct) : Prop :=
  length fw = sp_v2 P /\ forall l, (l < sp_v2 P)%nat -> colsm (2 * sp_gsw P) (nth l fw no_mat) (f l).
Definition packm (pw : list raw_mat) (keys : list (nat -> nat -> poly)) : Prop :=
  length pw = sp_n P /\ forall i, (i < sp_n P)%nat ->
    nttm (sp_n P + 1) (sp_conv P) (nth i pw no_mat) (fun r k => nth i keys (fun _ _ => pzero) k r).

Lemma expand_query_r : forall pks query a c lr rr conv cw rf,
  (0 < sp_v2 P)%nat -> (1 <= sp_conv P)%nat -> small_digits (sp_left P) -> small_digits (sp_right P) ->
  keysm (sp_left P) (pk_left pks) lr -> keysm (sp_right P) (pk_right pks) rr ->
  (sp_g P <= length (pk_left pks))%nat -> (0 < sp_stop P < length (pk_right pks) \/ sp_g P <= length (pk_right pks))%nat -> (sp_g P <= L)%nat ->
  hd_error (pk_conv pks) = Some cw -> colsm (2 * sp_conv P) cw conv ->
  rawm 2 1 query a -> (forall r z, (r < 2)%nat -> (z < n)%nat -> (a r 0%nat z < 2 ^ 64)%Z) -> (forall r, (r < 2)%nat -> peq n q (a r 0%nat) (crow c r)) ->
  expand_query P lr rr conv c = Ok rf ->
  exists first folding, w_expand_query avx NP inv P pks query = Ok (first, folding) /\ firstm first (fst rf) /\ gswm folding (snd rf).
Proof.
  intros pks query a c lr rr conv cw rf Hv2 Hc D1 D2 K1 K2 G1 G2 G3 Ecw Hcw Hq Hq64 Hqc Erf.
  unfold expand_query in Erf. fold (sp_g P) in Erf.
  destruct ((2 ^ sp_g P / 2 <? dim0) || (2 ^ sp_g P / 2 <? sp_gsw P * sp_v2 P))%nat%bool eqn:EB; [discriminate|].
  apply orb_false_iff in EB as [EB1 EB2]. apply Nat.ltb_ge in EB1, EB2. injection Erf as <-. cbn [fst snd].
  unfold w_expand_query. fold (sp_g P). fold (sp_stop P). rewrite repeat_length.
  rewrite (proj2 (Nat.leb_le _ _) EB1). cbn [enforce]. rewrite (proj2 (Nat.leb_le _ _) EB2). cbn [enforce].
  destruct (to_ntt_r avx _ _ _ _ _ HW 2 1 query a Hq) as (qn & Eq & Hqn).
  { intros r k z Hr Hk Hz. assert (k = 0%nat) by lia. subst k. apply Hq64; assumption. }
  rewrite Eq. cbn [bind]. assert (Hqc' : ctm qn c).
  { eapply (nttm_peq _ _ _ _ _ HW); [exact Hqn|]. intros r k Hr Hk. assert (k = 0%nat) by lia. subst k. apply Hqc, Hr. }
  pose proof (n_pos (sp_g P)) as GP. rewrite (get_lt _ no_mat 0) by (rewrite repeat_length; exact GP). cbn [bind].
  rewrite (nth_indep _ no_mat (ntt_zero NP 2 1)) by (rewrite repeat_length; exact GP). rewrite nth_repeat.
  destruct (copy_r _ _ _ _ _ HW 2 1 2 1 _ _ 0 0 _ _ (ntt_zero_r _ _ _ _ _ HW 2 1) Hqc') as (v0 & E0 & Hv0); try lia. rewrite E0. cbn [bind].
  destruct (put_lt _ no_mat 0 v0 (repeat (ntt_zero NP 2 1) (2 ^ sp_g P))) as (v & Ev & Lv & Nv); [rewrite repeat_length; exact GP|]. rewrite Ev. cbn [bind].
  rewrite repeat_length in Lv.
  assert (Ecw' : get 0 (pk_conv pks) = Ok cw) by (destruct (pk_conv pks); [discriminate|injection Ecw as ->; reflexivity]). rewrite Ecw'. cbn [bind].
  assert (Hv : vecm (2 ^ sp_g P) v (fun x => if (x =? 0)%nat then c else ct_zero)).
  { split; [exact Lv|]. intros x Hx. rewrite Nv. destruct (Nat.eqb_spec x 0) as [->|Hne].
    - eapply (nttm_peq _ _ _ _ _ HW); [exact Hv0|]. intros r k Hr Hk z Hz. apply eqm_eq. assert (k = 0%nat) by lia. subst k.
      destruct r as [|[|r]]; [reflexivity|reflexivity|lia].
    - rewrite (nth_indep _ no_mat (ntt_zero NP 2 1)) by (rewrite repeat_length; exact Hx). rewrite nth_repeat.
      eapply (nttm_peq _ _ _ _ _ HW); [apply (ntt_zero_r _ _ _ _ _ HW)|]. intros r k Hr Hk z Hz. destruct r as [|[|r]]; apply eqm_refl. }
  destruct (vneg1_r avx _ _ _ _ _ HW Hml) as (ng & Eng & Lng & Hng). rewrite Eng. cbn [bind].
  rewrite (proj2 (Nat.ltb_lt 0 (sp_v2 P)) Hv2).
  destruct (expansion_r avx _ _ _ _ _ HW Hml (2 ^ sp_g P) (sp_g P) (sp_stop P) (sp_gsw P * sp_v2 P) _ _ _ _ ng v _ D1 D2 K1 K2 G1 G2 Hng ltac:(lia) ltac:(lia) Hv) as (v' & Ev' & Lv' & Hv').
  rewrite Ev'. cbn [bind]. set (vr := coefficient_expansion P (sp_g P) (sp_stop P) (sp_gsw P * sp_v2 P) lr rr (fun x => if (x =? 0)%nat then c else ct_zero)) in *.
  assert (E2 : (2 * (2 ^ sp_g P / 2) <= 2 ^ sp_g P)%nat) by (apply Nat.mul_div_le; lia).
  destruct (map_out_seq_nth raw_mat (fun i => get (2 * i) v') (fun i m => ctm m (vr (2 * i)%nat)) dim0 no_mat) as (vreg & Ereg & Lreg & Hreg).
  { intros i Hi. rewrite (get_lt _ no_mat) by lia. eexists. split; [reflexivity|]. apply Hv'. lia. }
  destruct (map_out_seq_nth raw_mat (fun i => enforce (2 * i + 1 <? length v')%nat (get (2 * i + 1) v')) (fun i m => ctm m (vr (2 * i + 1)%nat)) (sp_gsw P * sp_v2 P) no_mat) as (vgsw & Egsw & Lgsw & Hgsw).
  { intros i Hi. rewrite (proj2 (Nat.ltb_lt _ _)) by lia. cbn [enforce]. rewrite (get_lt _ no_mat) by lia. eexists. split; [reflexivity|]. apply Hv'. lia. }
  rewrite Ereg. cbn [bind]. rewrite Egsw. cbn [bind].
  destruct (reorient_reg_r _ _ _ _ _ HW Hml vreg (fun i => vr (2 * i)%nat)) as (first & Ef & Hf); [split; assumption|]. rewrite Ef. cbn [bind].
  destruct (regev_to_gsw_r avx _ _ _ _ _ HW Hml (sp_gsw P * sp_v2 P) (sp_v2 P) vgsw (fun i => vr (2 * i + 1)%nat) cw conv Hc) as (fo & Efo & Lfo & Hfo); [split; assumption|assumption|lia|].
  rewrite Efo. cbn [bind]. exists first, fo. split; [reflexivity|]. split; [exact Hf|]. split; [exact Lfo|exact Hfo].
Qed.

Lemma vfolding_neg_r : forall fw f, (1 <= sp_gsw P)%nat -> gswm fw f ->
  exists l, get_vfolding_neg avx NP inv P fw = Ok l /\ gswm l (fun i => folding_neg P (f i)).
Proof.
  intros fw f Hg [Lf Hf]. unfold get_vfolding_neg. rewrite (len_n _ _ _ _ _ HW). pose proof (q_bounds _ _ _ _ _ HW) as QB.
  destruct (bits_ok _ _ _ _ _ HW (sp_gsw P) Hg Hml) as [HB HB64]. pose proof (n_pos L) as N0.
  destruct (gadget_fill n (sp_ml P) ltac:(lia) 2 (sp_gsw P) (bits_for P (sp_gsw P)) ltac:(lia) Hg HB) as (d & Ed & Ld & Hd).
  rewrite (Nat.mul_comm 2 (sp_gsw P)). rewrite Ed. cbn [bind]. rewrite (Nat.mul_comm (sp_gsw P) 2) in *.
  assert (HG : rawm 2 (2 * sp_gsw P) (RawMat 2 (2 * sp_gsw P) d) (fun r c => crow (gadget2 (bits_for P (sp_gsw P)) c) r)).
  { split; [split; [reflexivity|]; split; [reflexivity|exact Ld]|]. intros r c z Hr Hc Hz.
    rewrite poly_at_nth by exact Hz. cbn [rm_cols rm_data]. specialize (Hd r c z Hr Hc Hz). unfold coeff in Hd. rewrite Hd. clear Hd.
    unfold gadget2, weight. assert (EG : forall j, zN (if (64 <=? bits_for P (sp_gsw P) * j)%nat then 0 else 2 ^ N.of_nat (bits_for P (sp_gsw P) * j)) = gad (bits_for P (sp_gsw P)) j).
    { intros j. unfold gad. destruct (64 <=? _)%nat; [reflexivity|]. rewrite N2Z.inj_pow, nat_N_Z. reflexivity. }
    destruct (Nat.even c) eqn:Ev.
    - assert (E : (c mod 2 = 0)%nat). { apply Nat.even_spec in Ev as [y ->]. rewrite Nat.mul_comm. apply Nat.mod_mul. lia. }
      rewrite E. destruct r as [|[|r]]; [| |lia]; cbn [Nat.eqb fst snd crow]; destruct z; cbn [Nat.eqb andb]; unfold pconst, pzero; try reflexivity. apply EG.
    - assert (E : (c mod 2 = 1)%nat). { assert (O : Nat.odd c = true) by (unfold Nat.odd; rewrite Ev; reflexivity). apply Nat.odd_spec in O as [y ->].
        rewrite Nat.add_comm, Nat.mul_comm. apply Nat.mod_add. lia. }
      rewrite E. destruct r as [|[|r]]; [| |lia]; cbn [Nat.eqb fst snd crow]; destruct z; cbn [Nat.eqb andb]; unfold pconst, pzero; try reflexivity. apply EG. }
  assert (GL : forall j, (gad (bits_for P (sp_gsw P)) j < 2 ^ 64)%Z).
  { intros j. unfold gad. destruct (Nat.leb_spec 64 (bits_for P (sp_gsw P) * j)); [lia|]. apply Z.pow_lt_mono_r; lia. }
  destruct (to_ntt_r avx _ _ _ _ _ HW _ _ _ _ HG) as (gn & Egn & Hgn).
  { intros r c z _ _ _. specialize (GL (c / 2)%nat). unfold gadget2, crow. destruct (Nat.even c), r, z; cbn [fst snd]; unfold pconst, pzero; cbn [Nat.eqb]; try exact GL; lia. }
  rewrite Egn. cbn [bind].
  apply (map_out_seq_nth raw_mat _ (fun i m => colsm (2 * sp_gsw P) m (folding_neg P (f i))) (sp_v2 P) no_mat).
  intros i Hi. rewrite (get_lt _ no_mat i fw) by lia. cbn [bind].
  destruct (from_ntt_r avx _ _ _ _ _ HW _ _ _ _ (Hf i Hi)) as (raw & Er & Hr). rewrite Er. cbn [bind].
  pose proof Hr as [(R1 & R2 & _) _]. unfold has_shape. rewrite R1, R2, !Nat.eqb_refl. cbn [andb enforce].
  assert (MB : forall x, (0 <= x mod q < q)%Z) by (intros x; apply Z.mod_pos_bound; lia).
  destruct (invert_r _ _ _ _ _ HW _ _ raw _ Hr) as (ni & Ei & Hni). { intros r c z _ _ _. specialize (MB (crow (f i c) r z)). lia. }
  rewrite Ei. cbn [bind]. destruct (to_ntt_r avx _ _ _ _ _ HW _ _ _ _ Hni) as (nn & En & Hnn). { intros r c z _ _ _. specialize (MB (crow (f i c) r z)). lia. }
  rewrite En. cbn [bind]. destruct (add_ntt_r _ _ _ _ _ HW _ _ _ _ _ _ Hgn Hnn) as (m & Em & Hm). exists m. split; [exact Em|].
  eapply (nttm_peq _ _ _ _ _ HW); [exact Hm|]. intros r c Hrr Hcc z Hz. unfold padd.
  assert (EE : crow (folding_neg P (f i) c) r z = (crow (gadget2 (bits_for P (sp_gsw P)) c) r z + - crow (f i c) r z)%Z).
  { unfold folding_neg, ct_add, ct_opp, padd, popp. destruct r; reflexivity. }
  rewrite EE. apply eqm_add; [apply eqm_refl|]. pose proof (Z.div_mod (crow (f i c) r z) q ltac:(lia)) as DM.
  exists (1 + crow (f i c) r z / q)%Z. lia.
Qed.

(** Folding. *)
Definition fold_step (folding : nat -> nat -> ct) (l : nat) (v : nat -> ct) (i : nat) : ct :=
  let bits := bits_for P (sp_gsw P) in
  ct_add (lincomb P (2 * sp_gsw P) (folding l) (ginv2 P bits (v (2 ^ l + i)%nat)))
         (lincomb P (2 * sp_gsw P) (folding_neg P (folding l)) (ginv2 P bits (v i))).

Lemma fold_one_r : forall (folding : nat -> nat -> ct) (l : nat) f fneg a b ca cb, (1 <= sp_gsw P)%nat ->
  colsm (2 * sp_gsw P) f (folding l) -> colsm (2 * sp_gsw P) fneg (folding_neg P (folding l)) -> rctm a ca -> rctm b cb ->
  exists m, w_fold_one avx NP inv P (sp_gsw P) f fneg a b = Ok m
    /\ rctm m (ct_add (lincomb P (2 * sp_gsw P) (folding l) (ginv2 P (bits_for P (sp_gsw P)) cb))
                      (lincomb P (2 * sp_gsw P) (folding_neg P (folding l)) (ginv2 P (bits_for P (sp_gsw P)) ca))).
Proof.
  intros folding l f fneg a b ca cb Hg Hf Hn Ha Hb. unfold w_fold_one. rewrite (len_n _ _ _ _ _ HW).
  destruct (ginv2_r avx _ _ _ _ _ HW Hml (sp_gsw P) (raw_zero n (2 * sp_gsw P) 1) a ca Hg (raw_zero_sized _ _ _ _ _ HW _ _) Ha) as (g & gn & E1 & S1 & E2 & H2).
  rewrite E1. cbn [bind]. rewrite E2. cbn [bind].
  destruct (multiply_into_r avx _ _ _ _ _ HW 2 (2 * sp_gsw P) 1 fneg gn _ _ Hn H2) as (pr & E3 & H3). rewrite E3. cbn [bind].
  destruct (ginv2_r avx _ _ _ _ _ HW Hml (sp_gsw P) g b cb Hg S1 Hb) as (g' & gn' & E4 & _ & E5 & H5). rewrite E4. cbn [bind]. rewrite E5. cbn [bind].
  destruct (multiply_into_r avx _ _ _ _ _ HW 2 (2 * sp_gsw P) 1 f gn' _ _ Hf H5) as (su & E6 & H6). rewrite E6. cbn [bind].
  pose proof (ctm_lincomb _ _ _ _ _ HW Hml _ _ _ _ _ _ Hn H2 H3) as C3. pose proof (ctm_lincomb _ _ _ _ _ HW Hml _ _ _ _ _ _ Hf H5 H6) as C6.
  destruct (add_into_r _ _ _ _ _ HW 2 1 su pr _ _ C6 C3) as (s & E7 & H7). rewrite E7. cbn [bind].
  destruct (from_ntt_into_r avx _ _ _ _ _ HW 2 1 s _ H7) as (m & E8 & H8). exists m. split; [exact E8|].
  eapply (rawm_ext _ _ _ _ _ HW); [exact H8|]. intros r c z Hr Hc Hz. destruct r as [|[|r]]; [reflexivity|reflexivity|lia].
Qed.

Lemma fold_r : forall fw fn folding v vr, (1 <= sp_gsw P)%nat -> (0 < sp_v2 P)%nat -> gswm fw folding -> gswm fn (fun i => folding_neg P (folding i)) ->
  length v = num_per -> (forall x, (x < num_per)%nat -> rctm (nth x v no_mat) (vr x)) ->
  exists l m, w_fold avx NP inv P v fw fn = Ok l /\ get 0 l = Ok m /\ rctm m (fold_cts P (sp_v2 P) folding vr 0%nat).
Proof.
  intros fw fn folding v vr Hg Hv2 [Lf Hf] [Ln Hn] Lv Hv. unfold w_fold. rewrite Lv.
  assert (H2 : (2 <= num_per)%nat) by (apply (Nat.pow_le_mono_r 2 1 (sp_v2 P)); lia).
  rewrite (proj2 (Nat.eqb_neq num_per 1)) by lia. rewrite Nat.log2_pow2 by lia. rewrite (get_lt _ no_mat 0 fw) by lia. cbn [bind].
  pose proof (Hf 0%nat ltac:(lia)) as [(_ & F2 & _) _]. rewrite F2. rewrite (Nat.mul_comm 2 (sp_gsw P)), Nat.div_mul by lia.
  match goal with |- context [loop (sp_v2 P) 0 ?f (v, num_per)] =>
    destruct (loop_rule (list raw_mat * nat) (sp_v2 P) 0 f (fun cur st => length (fst st) = num_per /\ snd st = (2 ^ (sp_v2 P - cur))%nat
       /\ exists vr', (forall x, (x < 2 ^ (sp_v2 P - cur))%nat -> rctm (nth x (fst st) no_mat) (vr' x))
          /\ fold_cts P (sp_v2 P - cur) folding vr' = fold_cts P (sp_v2 P) folding vr) (v, num_per)) as ([v' np'] & E & L' & _ & vr' & Hvr' & Ef) end.
  - cbn [fst snd]. rewrite Nat.sub_0_r. split; [exact Lv|]. split; [reflexivity|]. exists vr. split; [exact Hv|reflexivity].
  - intros cur [w np] Hcur (Lw & Enp & wr & Hwr & Ew). cbn [fst snd] in *. rewrite Nat.add_0_l in Hcur.
    set (l := (sp_v2 P - 1 - cur)%nat). assert (El : (sp_v2 P - cur = S l)%nat) by lia. assert (El' : (sp_v2 P - (cur + 1) = l)%nat) by lia.
    rewrite El in *. rewrite El'. rewrite Enp. replace (2 ^ S l / 2)%nat with (2 ^ l)%nat by (cbn [Nat.pow]; rewrite Nat.mul_comm, Nat.div_mul; lia).
    assert (Hl : (l < sp_v2 P)%nat) by lia. assert (P2 : (2 ^ S l <= num_per)%nat) by (apply Nat.pow_le_mono_r; lia). cbn [Nat.pow] in P2, Hwr.
    match goal with |- context [loop (2 ^ l) 0 ?f w] =>
      destruct (loop_rule (list raw_mat) (2 ^ l) 0 f (fun i s => length s = num_per /\ forall x, (x < 2 * 2 ^ l)%nat ->
        rctm (nth x s no_mat) (if (x <? i)%nat then fold_step folding l wr x else wr x)) w) as (s & Es & Ls & Hs) end.
    + split; [exact Lw|]. intros x Hx. apply Hwr. lia.
    + intros i s Hi [Ls Hs]. rewrite Nat.add_0_l in Hi. rewrite (get_lt _ no_mat i s) by lia. cbn [bind]. rewrite (get_lt _ no_mat l fn) by lia. cbn [bind].
      rewrite (get_lt _ no_mat (2 ^ l + i) s) by lia. cbn [bind]. rewrite (get_lt _ no_mat l fw) by lia. cbn [bind].
      pose proof (Hs i ltac:(lia)) as Ha. pose proof (Hs (2 ^ l + i)%nat ltac:(lia)) as Hb.
      rewrite Nat.ltb_irrefl in Ha. rewrite (proj2 (Nat.ltb_ge (2 ^ l + i) i)) in Hb by lia.
      destruct (fold_one_r folding l _ _ _ _ _ _ Hg (Hf l Hl) (Hn l Hl) Ha Hb) as (m & Em & Hm). rewrite Em. cbn [bind].
      destruct (put_lt _ no_mat i m s) as (s' & Es' & Ls' & Ns'); [lia|]. exists s'. split; [exact Es'|]. split; [lia|].
      intros x Hx. rewrite Ns'. destruct (Nat.eqb_spec x i) as [->|Hne].
      * rewrite (proj2 (Nat.ltb_lt i (i + 1))) by lia. exact Hm.
      * replace (x <? i + 1)%nat with (x <? i)%nat; [apply Hs, Hx|]. destruct (Nat.ltb_spec x i), (Nat.ltb_spec x (i + 1)); try reflexivity; lia.
    + rewrite Es. cbn [bind]. eexists. split; [reflexivity|]. cbn [fst snd]. split; [exact Ls|]. split; [reflexivity|].
      exists (fun i => if (i <? 2 ^ l)%nat then fold_step folding l wr i else wr i). split; [|exact Ew].
      intros x Hx. specialize (Hs x ltac:(lia)). rewrite Nat.add_0_l in Hs. exact Hs.
  - rewrite E. cbn [bind]. rewrite Nat.add_0_l, Nat.sub_diag in *. cbn [fst snd] in *. cbn [Nat.pow] in Hvr'.
    exists v', (nth 0 v' no_mat). split; [reflexivity|]. split; [apply get_lt; lia|]. rewrite <- Ef. apply Hvr'. lia.
Qed.

(** Packing. *)
Lemma pack_r : forall vw vr pw keys, (1 <= sp_n P)%nat -> (1 <= sp_conv P)%nat -> packm pw keys ->
  length vw = (sp_n P * sp_n P)%nat -> (forall x, (x < sp_n P * sp_n P)%nat -> rctm (nth x vw no_mat) (vr x)) ->
  exists m, w_pack avx NP P vw pw = Ok m /\ nttm (sp_n P + 1) (sp_n P) m (pack_cts P vr keys).
Proof.
  intros vw vr pw keys Hn Hc [Lp Hp] Lv Hv. unfold w_pack. set (np := sp_n P) in *. pose proof (len_n _ _ _ _ _ HW) as En. pose proof (q_bounds _ _ _ _ _ HW) as QB.
  rewrite Lv, (proj2 (Nat.leb_le _ _) (Nat.le_refl _)). cbn [enforce]. rewrite Lp, Nat.eqb_refl. cbn [enforce].
  assert (NN : (0 < np * np)%nat) by (clear - Hn; nia).
  rewrite (get_lt _ no_mat 0 vw) by lia. cbn [bind]. pose proof (Hv 0%nat NN) as [(S1 & S2 & _) _]. unfold has_shape. rewrite S1, S2. cbn [Nat.eqb andb enforce].
  rewrite (get_lt _ no_mat 0 pw) by lia. cbn [bind]. pose proof (Hp 0%nat ltac:(lia)) as [(T1 & T2 & _) _]. rewrite T1, T2, !Nat.eqb_refl. cbn [andb enforce].
  set (term := fun j i row => padd (if Nat.eqb row (i + 1) then snd (vr (i * np + j)%nat) else pzero)
         (psum (sp_conv P) (fun k => pmul n (nth i keys (fun _ _ => pzero) k row) (ginv1 P (bits_for P (sp_conv P)) (fst (vr (i * np + j)%nat)) k)))).
  assert (ET : forall row j, pack_cts P vr keys row j = psum np (fun i => term j i row)) by (intros; unfold pack_cts, term; rewrite (Hlen _ _ _ _ _ HW); reflexivity).
  match goal with |- context [loop np 0 ?f ?s0] =>
    destruct (loop_rule raw_mat np 0 f (fun j m => nttm (np + 1) np m (fun row c => if (c <? j)%nat then pack_cts P vr keys row c else pzero)) s0) as (m & E & Hm) end.
  - eapply (nttm_peq _ _ _ _ _ HW); [apply (ntt_zero_r _ _ _ _ _ HW)|]. intros r c _ _ z _. apply eqm_refl.
  - intros j m Hj Hm. rewrite Nat.add_0_l in Hj.
    match goal with |- context [loop np 0 ?f ?s0] =>
      destruct (loop_rule raw_mat np 0 f (fun i vi => nttm (np + 1) 1 vi (fun row _ => psum i (fun i => term j i row))) s0) as (vi & Ei & Hi) end.
    + eapply (nttm_peq _ _ _ _ _ HW); [apply (ntt_zero_r _ _ _ _ _ HW)|]. intros r c _ _ z _. apply eqm_refl.
    + intros i vi Hi Hvi. rewrite Nat.add_0_l in Hi. assert (Hij : (i * np + j < np * np)%nat) by (clear - Hi Hj; nia).
      rewrite (get_lt _ no_mat i pw) by lia. cbn [bind]. rewrite (get_lt _ no_mat (i * np + j) vw) by lia. cbn [bind].
      pose proof (Hv _ Hij) as Hct. set (mc := nth (i * np + j) vw no_mat) in *. set (c := vr (i * np + j)%nat) in *.
      pose proof Hct as [SZ _]. rewrite En. rewrite (read_ok n 2 1 mc 0 0 SZ) by lia. cbn [bind]. rewrite (read_ok n 2 1 mc 1 0 SZ) by lia. cbn [bind].
      assert (MB : forall x, (0 <= x mod q < q)%Z) by (intros x; apply Z.mod_pos_bound; lia).
      assert (RP : forall r, (r < 2)%nat -> rawm 1 1 (RawMat 1 1 (poly_at n mc r 0)) (fun _ _ z => (crow c r z mod q)%Z)).
      { intros r Hr. destruct (rawm_poly _ _ _ _ _ HW 2 1 mc _ r 0 Hct Hr ltac:(lia)) as [X1 X2].
        split; [split; [reflexivity|]; split; [reflexivity|]; cbn [rm_data]; lia|]. intros r' c' z Hr' Hc' Hz.
        rewrite poly_at_nth by exact Hz. cbn [rm_cols rm_data]. replace ((r' * 1 + c') * n + z)%nat with z by nia. apply X2, Hz. }
      destruct (to_ntt_r avx _ _ _ _ _ HW 1 1 _ _ (RP 1%nat ltac:(lia))) as (c2 & E2 & H2). { intros r k z _ _ _. specialize (MB (crow c 1 z)). lia. }
      rewrite E2. cbn [bind]. destruct (bits_ok _ _ _ _ _ HW (sp_conv P) Hc Hml) as [_ HB].
      unfold gadget_invert. cbn [rm_rows].
      assert (SO : sized n (sp_conv P * 1) 1 (raw_zero n (sp_conv P) 1)) by (rewrite Nat.mul_1_r; apply (raw_zero_sized _ _ _ _ _ HW)).
      destruct (ginv_r _ _ _ _ _ HW (sp_conv P) 1 1 (raw_zero n (sp_conv P) 1) _ _ Hc ltac:(lia) Hml SO (RP 0%nat ltac:(lia))) as (g & Eg & Hgv).
      { intros r z _ _. specialize (MB (crow c 0 z)). lia. }
      rewrite Eg. cbn [bind]. rewrite Nat.mul_1_r in Hgv.
      destruct (to_ntt_r avx _ _ _ _ _ HW _ _ _ _ Hgv) as (gn & Egn & Hgn). { intros r k z _ _ _. apply (rdigit_64 _ _ _ _ _ HW). exact HB. }
      rewrite Egn. cbn [bind].
      destruct (multiply_into_r avx _ _ _ _ _ HW (np + 1) (sp_conv P) 1 _ gn _ _ (Hp i (proj2 Hi)) Hgn) as (pr & Epr & Hpr). rewrite Epr. cbn [bind].
      destruct (add_into_at_r _ _ _ _ _ HW (np + 1) 1 vi c2 _ _ (i + 1) 0 Hvi H2 ltac:(lia) ltac:(lia)) as (v1 & E3 & H3). rewrite E3. cbn [bind].
      destruct (add_into_r _ _ _ _ _ HW (np + 1) 1 v1 pr _ _ H3 Hpr) as (v2 & E4 & H4). exists v2. split; [exact E4|].
      eapply (nttm_peq _ _ _ _ _ HW); [exact H4|]. intros row k Hrow Hk z Hz. assert (k = 0%nat) by lia. subst k.
      assert (ES : psum (i + 1) (fun i0 => term j i0 row) z = (psum i (fun i0 => term j i0 row) z + ((if Nat.eqb row (i + 1) then snd c else pzero) z
         + zsum (sp_conv P) (fun k => pmul n (nth i keys (fun _ _ => pzero) k row) (ginv1 P (bits_for P (sp_conv P)) (fst c) k) z)))%Z).
      { replace (psum (i + 1) (fun i0 => term j i0 row) z) with (psum (S i) (fun i0 => term j i0 row) z) by (rewrite Nat.add_1_r; reflexivity).
        cbn [psum]. f_equal. unfold term. fold c. unfold padd. rewrite psum_zsum. reflexivity. }
      rewrite ES. unfold padd.
      assert (EM : mat_product n (sp_conv P) (fun r k => nth i keys (fun _ _ => pzero) k r) (fun x _ => rdigit (bits_for P (sp_conv P)) (x / 1) (fun z0 => (crow c 0 z0 mod q)%Z)) row 0%nat z
        = zsum (sp_conv P) (fun k => pmul n (nth i keys (fun _ _ => pzero) k row) (ginv1 P (bits_for P (sp_conv P)) (fst c) k) z)).
      { unfold mat_product. apply zsum_ext. intros k Hk'. rewrite Nat.div_1_r. reflexivity. }
      rewrite EM. rewrite Nat.eqb_refl, andb_true_r. destruct (Nat.eqb row (i + 1)).
      * rewrite <- Z.add_assoc. apply eqm_add; [apply eqm_refl|]. apply eqm_add; [|apply eqm_refl]. apply eqm_mod. lia.
      * unfold pzero. rewrite Z.add_0_l. apply eqm_refl.
    + rewrite Ei. cbn [bind]. rewrite Nat.add_0_l in Hi.
      destruct (copy_r _ _ _ _ _ HW (np + 1) np (np + 1) 1 m vi 0 j _ _ Hm Hi) as (m' & E' & H'); try lia. exists m'. split; [exact E'|].
      eapply (nttm_peq _ _ _ _ _ HW); [exact H'|]. intros row c Hrow Hcc z Hz. apply eqm_eq.
      cbn [Nat.leb andb Nat.add]. rewrite (proj2 (Nat.ltb_lt row _) Hrow). cbn [andb]. rewrite Nat.sub_0_r.
      destruct (Nat.eq_dec c j) as [->|Hne].
      * rewrite Nat.leb_refl, (proj2 (Nat.ltb_lt j (j + 1))) by lia. cbn [andb]. rewrite ET. reflexivity.
      * replace ((j <=? c) && (c <? j + 1))%nat%bool with false.
        2:{ symmetry. apply andb_false_iff. destruct (Nat.leb_spec j c); [right; apply Nat.ltb_ge; lia|left; reflexivity]. }
        replace (c <? j + 1)%nat with (c <? j)%nat; [reflexivity|]. destruct (Nat.ltb_spec c j), (Nat.ltb_spec c (j + 1)); try reflexivity; lia.
  - exists m. split; [exact E|]. eapply (nttm_peq _ _ _ _ _ HW); [exact Hm|]. intros row c Hrow Hcc z Hz. apply eqm_eq. rewrite Nat.add_0_l.
    rewrite (proj2 (Nat.ltb_lt c np) Hcc). reflexivity.
Qed.

Lemma response_r : forall m out, rawm (sp_n P + 1) (sp_n P) m (fun r c z => (out r c z mod q)%Z) -> m = response_mat P out.
Proof.
  intros m out [(S1 & S2 & S3) H]. destruct m as [rows cols d]. cbn [rm_rows rm_cols rm_data] in *. subst rows cols. unfold response_mat. f_equal.
  rewrite (Hlen _ _ _ _ _ HW). apply list_ext; [rewrite map_length, seq_length; exact S3|]. intros k Hk. rewrite S3 in Hk.
  destruct (idx_split _ _ _ _ _ HW k (sp_n P + 1) (sp_n P) n Hk) as (r & c & z & Hr & Hc & Hz & ->).
  set (g := fun p => Z.to_N (out (p / n / sp_n P)%nat ((p / n) mod sp_n P)%nat (p mod n)%nat mod q)).
  rewrite (nth_indep (map g _) 0 (g 0%nat)) by (rewrite map_length, seq_length; exact Hk). rewrite map_nth, seq_nth by exact Hk. rewrite Nat.add_0_l. unfold g.
  destruct (div_mod_unique2 (r * sp_n P + c) n z Hz) as [X Y]. destruct (div_mod_unique2 r (sp_n P) c Hc) as [X' Y']. rewrite X, Y, X', Y'.
  specialize (H r c z Hr Hc Hz). rewrite poly_at_nth in H by exact Hz. cbn [rm_cols rm_data] in H. rewrite <- H. rewrite N2Z.id. reflexivity.
Qed.

Lemma answer_r : forall db single pidx first reg fw fn folding pw keys pol,
  (1 <= sp_n P)%nat -> (1 <= sp_conv P)%nat -> (1 <= sp_gsw P)%nat -> (0 < sp_v2 P)%nat -> (sp_v1 P <= 64)%nat ->
  firstm first reg -> gswm fw folding -> gswm fn (fun i => folding_neg P (folding i)) -> packm pw keys ->
  (forall trial, (trial < sp_n P * sp_n P)%nat -> dbm db (pidx * single + trial * (dim0 * num_per * n)) (pol trial)) ->
  answer_partition avx NP inv P db single pidx first fw fn pw
    = Ok (response_mat P (pack_cts P (fun trial => fold_cts P (sp_v2 P) folding (first_dim P (pol trial) reg) 0%nat) keys)).
Proof.
  intros db single pidx first reg fw fn folding pw keys pol Hn Hc Hg Hv2 Hv1 Hf Hfw Hfn Hp Hdb. unfold answer_partition. rewrite (len_n _ _ _ _ _ HW).
  match goal with |- context [map_out ?f (seq 0 (sp_n P * sp_n P))] =>
    destruct (map_out_seq_nth raw_mat f (fun trial m => rctm m (fold_cts P (sp_v2 P) folding (first_dim P (pol trial) reg) 0%nat)) (sp_n P * sp_n P) no_mat) as (vc & Ec & Lc & Hvc) end.
  - intros trial Ht. destruct (first_dim_r _ _ _ _ _ HW Hml db first _ _ _ Hv1 Hf (Hdb trial Ht)) as (inter & E1 & L1 & H1). rewrite E1. cbn [bind].
    assert (EM : exists raws, map_out (fun m => from_ntt_into avx NP inv 2 1 m) inter = Ok raws /\ length raws = num_per
       /\ forall x, (x < num_per)%nat -> rctm (nth x raws no_mat) (first_dim P (pol trial) reg x)).
    { destruct (map_out_forall _ _ (fun m => from_ntt_into avx NP inv 2 1 m) (fun m m' => forall c, ctm m c -> rctm m' c) inter) as (ys & Ey & Fy).
      - intros m Hin. apply (In_nth _ _ no_mat) in Hin as (x & Hx & <-). rewrite L1 in Hx.
        destruct (from_ntt_into_r avx _ _ _ _ _ HW 2 1 _ _ (H1 x Hx)) as (m' & E' & H'). exists m'. split; [exact E'|]. intros c Hcm.
        destruct (from_ntt_into_r avx _ _ _ _ _ HW 2 1 _ _ Hcm) as (m'' & E'' & H''). rewrite E' in E''. injection E'' as <-. exact H''.
      - exists ys. split; [exact Ey|]. pose proof (forall2_len _ _ _ _ _ Fy) as LL. split; [lia|]. intros x Hx.
        apply (forall2_nth _ _ _ _ _ no_mat no_mat Fy x); [lia|apply H1, Hx]. }
    destruct EM as (raws & E2 & L2 & H2). rewrite E2. cbn [bind].
    destruct (fold_r fw fn folding raws _ Hg Hv2 Hfw Hfn L2 H2) as (l & m & E3 & E4 & H4). rewrite E3. cbn [bind]. exists m. split; [exact E4|exact H4].
  - rewrite Ec. cbn [bind]. destruct (pack_r vc _ pw keys Hn Hc Hp Lc Hvc) as (pk & Ep & Hpk). rewrite Ep. cbn [bind].
    destruct (from_ntt_r avx _ _ _ _ _ HW _ _ _ _ Hpk) as (m & Em & Hm). rewrite Em. f_equal. apply response_r. exact Hm.
Qed.

Lemma process_query_r : forall q2 db single parts pks query a c lr rr conv cw keys pol,
  (1 <= sp_n P)%nat -> (1 <= sp_conv P)%nat -> (1 <= sp_gsw P)%nat -> (0 < sp_v2 P)%nat -> (sp_v1 P <= 64)%nat ->
  small_digits (sp_left P) -> small_digits (sp_right P) ->
  keysm (sp_left P) (pk_left pks) lr -> keysm (sp_right P) (pk_right pks) rr ->
  (sp_g P <= length (pk_left pks))%nat -> (0 < sp_stop P < length (pk_right pks) \/ sp_g P <= length (pk_right pks))%nat -> (sp_g P <= L)%nat ->
  hd_error (pk_conv pks) = Some cw -> colsm (2 * sp_conv P) cw conv -> packm (pk_packing pks) keys ->
  rawm 2 1 query a -> (forall r z, (r < 2)%nat -> (z < n)%nat -> (a r 0%nat z < 2 ^ 64)%Z) -> (forall r, (r < 2)%nat -> peq n q (a r 0%nat) (crow c r)) ->
  (forall pidx trial, (pidx < parts)%nat -> (trial < sp_n P * sp_n P)%nat -> dbm db (pidx * single + trial * (dim0 * num_per * n)) (pol pidx trial)) ->
  forall outs, (forall pidx, (pidx < parts)%nat -> process_query P lr rr conv keys (pol pidx) c = Ok (outs pidx)) -> (0 < parts)%nat ->
  w_process_query avx NP inv P q2 db single parts pks query
    = map_out (fun pidx => mod_switch n (response_mat P (outs pidx)) (w_modulus P) (Z.to_N (sp_p P)) q2) (seq 0 parts).
Proof.
  intros q2 db single parts pks query a c lr rr conv cw keys pol Hn Hc Hg Hv2 Hv1 D1 D2 K1 K2 G1 G2 G3 Ecw Hcw Hp Hq Hq64 Hqc Hdb outs Houts Hparts.
  destruct (expand_query P lr rr conv c) as [rf| | |] eqn:ER; try (specialize (Houts 0%nat Hparts); unfold process_query in Houts; rewrite ER in Houts; discriminate).
  destruct (expand_query_r pks query a c lr rr conv cw rf Hv2 Hc D1 D2 K1 K2 G1 G2 G3 Ecw Hcw Hq Hq64 Hqc ER) as (first & fo & E1 & Hf & Hfo).
  unfold w_process_query. rewrite E1. cbn [bind]. destruct (vfolding_neg_r fo _ Hg Hfo) as (fn & E2 & Hfn). rewrite E2. cbn [bind].
  rewrite (map_out_ok _ _ _ (fun pidx => response_mat P (outs pidx)) (seq 0 parts)).
  - cbn [bind]. rewrite (len_n _ _ _ _ _ HW). generalize (seq 0 parts). clear. induction l as [|x l IH]; [reflexivity|]. cbn [map map_out].
    destruct (mod_switch _ _ _ _ _); try reflexivity. cbn [bind]. rewrite IH. reflexivity.
  - intros pidx Hin. apply in_seq in Hin. specialize (Houts pidx ltac:(lia)). unfold process_query in Houts. rewrite ER in Houts. cbn [bind] in Houts. injection Houts as <-.
    apply answer_r; try assumption. intros trial Ht. apply Hdb; [lia|exact Ht].
Qed.
End Answer.
