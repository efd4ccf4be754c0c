(** The ternary secret keys and all public keys together. *)
From Coq Require Import List Arith NArith ZArith Bool Lia Permutation.
From Verif Require Import Base StoreModel StoreProofs PirPackModel PirPackProofs2 SpArithModel SpArithProofs SpArithProofs2 SpLoopModel SpLoopProofs
  SpGadgetModel SpGadgetSpec SpGadgetProofs SpDecodeModel SpDecodeSpec SpDecodeProofs2 SpRingModel SpRingSpec SpRingProofs SpRingProofs2
  SpSelModel NttModel NttSpec NttProofs NttProofs2 NttProofs3 NttProofs4 NttProofs5 SpSrvModel SpSrvSpec SpSrvProofs1 SpSrvProofs2 SpSrvProofs3 SpSrvProofs4 SpSrvProofs5
  SpSrvProofs6 SpSrvProofs7 SpSelProofs5 SpCliModel SpCliSpec SpCliProofs1 SpCliProofs2 SpCliProofs3 SpCliProofs4.
Import ListNotations.
Local Open Scope N_scope.
Local Notation zN := Z.of_N.

Lemma sum_perm : forall (f : N -> Z) l l', Permutation l l' -> fold_right Z.add 0%Z (map f l) = fold_right Z.add 0%Z (map f l').
Proof. intros f l l' H. induction H; cbn [map fold_right]; lia. Qed.
Lemma zsum_list : forall (f : N -> Z) l, zsum (length l) (fun z => f (nth z l 0)) = fold_right Z.add 0%Z (map f l).
Proof.
  intros f l. unfold zsum. f_equal. induction l as [|x l IH]; [reflexivity|]. cbn [length seq map nth]. f_equal.
  rewrite <- seq_shift, map_map. exact IH.
Qed.
Lemma zsum_step : forall n k, (k <= n)%nat -> zsum n (fun z => if (z <? k)%nat then 1%Z else 0%Z) = Z.of_nat k.
Proof.
  intros n k Hk. unfold zsum. assert (G : forall m s, fold_right Z.add 0%Z (map (fun z => if (z <? k)%nat then 1%Z else 0%Z) (seq s m)) = Z.of_nat (Nat.min (s + m) k - s)).
  { induction m as [|m IH]; intros s; cbn [seq map fold_right]; [lia|]. rewrite IH. destruct (Nat.ltb_spec s k); lia. }
  rewrite G. lia.
Qed.

Section Ternary.
Variables (L : nat) (psi : nat -> Z) (NP : ntt_params) (P : sel_params) (inv : N -> N -> N).
Hypothesis HW : srv_ok L psi NP P inv.
Local Notation n := (2 ^ L)%nat.
Local Notation q := (sp_q P).
Local Notation rawm := (rawm L).
Set Default Proof Using "L psi NP P inv HW".

Definition tern (h z : nat) : N := if (z <? h)%nat then 1 else if (z <? 2 * h)%nat then w_modulus P - 1 else 0.
Definition trit (w : N) : Z := if w =? 0 then 0%Z else if w =? 1 then 1%Z else (-1)%Z.

Lemma q_big : 9 <= w_modulus P /\ w_modulus P < 2 ^ 60 /\ zN (w_modulus P) = q.
Proof.
  pose proof (q_bounds _ _ _ _ _ HW). pose proof (mod_bounds _ _ _ _ _ HW 0 ltac:(lia)). pose proof (mod_bounds _ _ _ _ _ HW 1 ltac:(lia)).
  pose proof (q_prod _ _ _ _ _ HW). assert (9 <= q)%Z by nia. unfold w_modulus. rewrite Z2N.id by lia. lia.
Qed.

Lemma ternary_ok : forall h, (2 * h <= n)%nat -> exists l, ternary_poly NP P h = Ok l /\ lst n (tern h) l.
Proof.
  intros h Hh. unfold ternary_poly. rewrite (len_n _ _ _ _ _ HW). destruct q_big as (Q1 & Q2 & Q3).
  set (F := fun j z => if (z <? j)%nat then 1 else if ((h <=? z) && (z <? h + j))%nat then w_modulus P - 1 else 0).
  match goal with |- exists x, loop _ _ ?f ?s0 = _ /\ _ => destruct (loop_rule (list N) h 0 f (fun j l => lst n (F j) l) s0) as (l & E & H) end.
  - eapply lst_ext; [apply lst_zero|]. intros z _. unfold F. rewrite Nat.add_0_r.
    destruct (Nat.ltb_spec z 0), (Nat.leb_spec h z), (Nat.ltb_spec z h); cbn [andb]; try reflexivity; lia.
  - intros k l Hk Hl. destruct (lst_put n (F k) l k 1 (fun z => if (z =? k)%nat then 1 else F k z) Hl ltac:(lia) ltac:(reflexivity)) as (l' & E' & H').
    rewrite E'. cbn [bind]. eapply lst_put; [exact H'|lia|]. intros z Hz. unfold F.
    rewrite sub_u64_small by lia.
    destruct (Nat.eqb_spec z (k + h)), (Nat.eqb_spec z k), (Nat.ltb_spec z (k + 1)), (Nat.ltb_spec z k), (Nat.leb_spec h z), (Nat.ltb_spec z (h + (k + 1))), (Nat.ltb_spec z (h + k)); cbn [andb]; try reflexivity; lia.
  - exists l. split; [exact E|]. eapply lst_ext; [exact H|]. intros z _. unfold F, tern.
    destruct (Nat.ltb_spec z (0 + h)), (Nat.ltb_spec z h), (Nat.leb_spec h z), (Nat.ltb_spec z (h + (0 + h))), (Nat.ltb_spec z (2 * h)); cbn [andb]; try reflexivity; lia.
Qed.

(** Every coefficient is -1, 0 or 1, and 2 h of them are not 0. *)
Lemma gen_ternary_r : forall shuffle rows h, (forall i l, Permutation (shuffle i l) l) -> (2 * h <= n)%nat ->
  exists m S, gen_ternary NP P shuffle rows h = Ok m /\ rawm rows 1 m (fun r _ z => (S r z mod q)%Z)
    /\ (forall r z, (-1 <= S r z <= 1)%Z) /\ forall r, (r < rows)%nat -> zsum n (fun z => Z.abs (S r z)) = Z.of_nat (2 * h).
Proof.
  intros shuffle rows h Hsh Hh. destruct q_big as (Q1 & Q2 & Q3). destruct (ternary_ok h Hh) as (l & El & [Ll Hl]). unfold gen_ternary.
  assert (Ei : forall i, In i l -> i = 0 \/ i = 1 \/ i = w_modulus P - 1).
  { intros i Hi. apply (In_nth _ _ 0) in Hi as (z & Hz & <-). rewrite Hl by lia. unfold tern. destruct (z <? h)%nat; [auto|]. destruct (z <? 2 * h)%nat; auto. }
  destruct (rawm_fill _ _ _ _ _ HW rows 1 (fun i _ => do p <- ternary_poly NP P h; Ok (shuffle i p)) (fun r _ z => (trit (nth z (shuffle r l) 0%N) mod q)%Z)) as (m & E & Hm).
  - intros r c _ _. rewrite El. cbn [bind]. exists (shuffle r l). pose proof (Permutation_length (Hsh r l)) as Lr. split; [reflexivity|]. split; [lia|]. intros z Hz.
    assert (Hi : In (nth z (shuffle r l) 0) l) by (eapply Permutation_in; [apply Hsh|apply nth_In; lia]).
    destruct (Ei _ Hi) as [->|[->| ->]]; unfold trit.
    + cbn [N.eqb]. rewrite Z.mod_0_l by lia. reflexivity.
    + cbn [N.eqb Pos.eqb]. rewrite Z.mod_small by lia. reflexivity.
    + rewrite (proj2 (N.eqb_neq _ 0)), (proj2 (N.eqb_neq _ 1)) by lia. rewrite <- (Z_mod_plus_full (-1) 1), Z.mod_small by lia. lia.
  - exists m, (fun r z => trit (nth z (shuffle r l) 0)). split; [exact E|]. split; [exact Hm|]. split.
    + intros r z. unfold trit. repeat match goal with |- context [if ?b then _ else _] => destruct b end; lia.
    + intros r _. pose proof (Permutation_length (Hsh r l)) as Lr. rewrite <- (zsum_step n (2 * h) Hh).
      replace n with (length (shuffle r l)) by lia. rewrite (zsum_list (fun w => Z.abs (trit w))).
      rewrite (sum_perm _ _ _ (Hsh r l)), <- zsum_list, Lr. apply zsum_ext. intros z Hz. rewrite Hl by lia. unfold tern, trit.
      destruct (Nat.ltb_spec z h), (Nat.ltb_spec z (2 * h)); try lia; try reflexivity.
      rewrite (proj2 (N.eqb_neq _ 0)), (proj2 (N.eqb_neq _ 1)) by lia. reflexivity.
Qed.
End Ternary.

Section Public.
Variables (avx : bool) (L : nat) (psi : nat -> Z) (NP : ntt_params) (P : sel_params) (inv : N -> N -> N) (dg : gaussian).
Hypothesis HW : srv_ok L psi NP P inv.
Hypothesis Hml : (sp_ml P <= 62)%nat.
Hypothesis Hcdf : length (dg_cdf dg) = (2 * dg_max dg + 1)%nat.
Hypothesis Hdg : (Z.of_nat (dg_max dg) < sp_q P)%Z.
Variables sk_gsw sk_reg : raw_mat.
Variable s : poly.
Variable Sk : nat -> poly.
Local Notation q := (sp_q P).
Local Notation rawm := (rawm L).
Local Notation mask := (mask L P).
Hypothesis Hsk : rawm 1 1 sk_reg (fun _ _ z => (s z mod q)%Z).
Hypothesis Hn1 : (1 <= sp_n P)%nat.
Hypothesis HSk : rawm (sp_n P) 1 sk_gsw (fun r _ z => (Sk r z mod q)%Z).
Set Default Proof Using "avx L psi NP P inv dg HW Hml Hcdf Hdg sk_gsw sk_reg s Sk Hsk Hn1 HSk".

Lemma gen_public_keys_r : forall rng pub, (1 <= sp_conv P)%nat -> (1 <= sp_left P)%nat -> (1 <= sp_right P)%nat -> words64 rng -> words64 pub ->
  let p1 := (sp_n P * sp_conv P)%nat in let p2 := (p1 + sp_g P * sp_left P)%nat in let p3 := (p2 + (sp_stop P + 1) * sp_right P)%nat in
  exists pks el er ec ep, gen_public_keys avx NP inv P dg sk_gsw sk_reg (rng, pub) = Ok pks
    /\ (forall i k, bounded dg (el i k)) /\ (forall i k, bounded dg (er i k)) /\ (forall k, bounded dg (ec k)) /\ (forall i r k, bounded dg (ep i r k))
    /\ length (pk_conv pks) = 1%nat
    /\ keys_stand L (np_moduli NP) psi P pks
         (expansion_keys P s (sp_g P) (sp_left P) (fun i k => mask pub (p1 + i * sp_left P + k)) el)
         (expansion_keys P s (sp_stop P + 1) (sp_right P) (fun i k => mask pub (p2 + i * sp_right P + k)) er)
         (conversion_key P s (fun k => mask pub (p3 + k)) ec)
         (packing_keys P s Sk (fun i k => mask pub (i * sp_conv P + k)) ep).
Proof.
  intros rng pub Hc Hl Hr Wr Wp p1 p2 p3. unfold gen_public_keys.
  destruct (gen_packing_r avx L psi NP P inv dg HW Hml Hcdf Hdg sk_gsw sk_reg s Sk Hsk Hn1 HSk rng pub Hc Wr Wp) as (pk & rng1 & pub1 & ep & E1 & A1 & A2 & A3 & A4).
  rewrite E1. cbn [bind]. pose proof (advanced_words avx L psi NP P inv dg HW Hml Hcdf Hdg _ _ _ Wp A2) as W1.
  destruct (gen_expansion_r avx L psi NP P inv dg HW Hml Hcdf Hdg sk_reg s Hsk (sp_g P) (sp_left P) rng1 pub1 Hl A1 W1) as (kl & rng2 & pub2 & el & E2 & B1 & B2 & B3 & B4).
  rewrite E2. cbn [bind]. pose proof (advanced_trans avx L psi NP P inv dg HW Hml Hcdf Hdg _ _ _ _ _ A2 B2) as A2'. pose proof (advanced_words avx L psi NP P inv dg HW Hml Hcdf Hdg _ _ _ Wp A2') as W2.
  destruct (gen_expansion_r avx L psi NP P inv dg HW Hml Hcdf Hdg sk_reg s Hsk (sp_stop P + 1) (sp_right P) rng2 pub2 Hr B1 W2) as (kr & rng3 & pub3 & er & E3 & C1 & C2 & C3 & C4).
  rewrite E3. cbn [bind]. pose proof (advanced_trans avx L psi NP P inv dg HW Hml Hcdf Hdg _ _ _ _ _ A2' C2) as A3'. pose proof (advanced_words avx L psi NP P inv dg HW Hml Hcdf Hdg _ _ _ Wp A3') as W3.
  destruct (gen_conversion_r avx L psi NP P inv dg HW Hml Hcdf Hdg sk_reg s Hsk rng3 pub3 Hc C1 W3) as (kc & rng4 & pub4 & ec & E4 & D1 & D2 & D3 & D4).
  rewrite E4. cbn [bind]. fold p1 in A2, A2', A3'. fold p2 in A2', A3'. fold p3 in A3'.
  assert (M1 : forall k z, mask pub1 k z = mask pub (p1 + k) z) by (intros k z; unfold SpCliSpec.mask; rewrite A2; do 3 f_equal; lia).
  assert (M2 : forall k z, mask pub2 k z = mask pub (p2 + k) z) by (intros k z; unfold SpCliSpec.mask; rewrite A2'; do 3 f_equal; lia).
  assert (M3 : forall k z, mask pub3 k z = mask pub (p3 + k) z) by (intros k z; unfold SpCliSpec.mask; rewrite A3'; do 3 f_equal; lia).
  assert (RG : forall a b e m r, (forall z, a z = b z) -> peq (2 ^ L) q (ct_row (regev P s a e m) r) (ct_row (regev P s b e m) r)).
  { intros a b e m r Hab z _. apply eqm_eq. destruct r as [|r]; cbn [ct_row regev fst snd]; [unfold popp; rewrite Hab; reflexivity|].
    unfold padd. do 2 f_equal. unfold pmul, negacyclic. apply zsum_ext. intros y _. rewrite !Hab. reflexivity. }
  exists (PublicKeys pk kl kr [kc]), el, er, ec, ep. split; [reflexivity|]. split; [exact B3|]. split; [exact C3|]. split; [exact D3|]. split; [exact A3|]. split; [reflexivity|].
  unfold keys_stand. cbn [pk_left pk_right pk_conv pk_packing]. destruct B4 as [B4 B5]. destruct C4 as [C4 C5]. destruct A4 as [A4 A5].
  split; [split|split; [split|split; [|split]]].
  - rewrite B4. unfold expansion_keys. rewrite !map_length. reflexivity.
  - intros i Hi. unfold expansion_keys in Hi. rewrite map_length, seq_length in Hi. apply (stands_nttm L psi NP P inv HW Hml). assert (Hi' : (i < length kl)%nat) by (rewrite B4; unfold expansion_keys; rewrite map_length, seq_length; exact Hi).
    eapply (nttm_peq _ _ _ _ _ HW); [apply (B5 i Hi')|]. intros r k _ _. unfold expansion_keys. rewrite !nth_seq_map by exact Hi.
    apply RG. intros z. unfold key_mask. rewrite M1. f_equal. lia.
  - rewrite C4. unfold expansion_keys. rewrite !map_length. reflexivity.
  - intros i Hi. unfold expansion_keys in Hi. rewrite map_length, seq_length in Hi. apply (stands_nttm L psi NP P inv HW Hml). assert (Hi' : (i < length kr)%nat) by (rewrite C4; unfold expansion_keys; rewrite map_length, seq_length; exact Hi).
    eapply (nttm_peq _ _ _ _ _ HW); [apply (C5 i Hi')|]. intros r k _ _. unfold expansion_keys. rewrite !nth_seq_map by exact Hi.
    apply RG. intros z. unfold key_mask. rewrite M2. f_equal. lia.
  - exists kc. split; [reflexivity|]. apply (stands_nttm L psi NP P inv HW Hml). eapply (nttm_peq _ _ _ _ _ HW); [exact D4|]. intros r k _ _. unfold conversion_key. apply RG. intros z. apply M3.
  - exact A4.
  - intros i Hi. apply (stands_nttm L psi NP P inv HW Hml). apply A5, Hi.
Qed.
End Public.
