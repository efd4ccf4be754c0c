(** Expansion of the query on words. *)
From Coq Require Import List Arith NArith ZArith Bool Lia.
From Verif Require Import Base StoreModel StoreProofs PirPackModel PirPackProofs2 SpArithModel SpArithProofs SpLoopModel SpLoopProofs
  SpGadgetModel SpGadgetSpec SpGadgetProofs SpDecodeModel SpDecodeSpec SpDecodeProofs2 SpRingModel SpRingSpec SpRingProofs SpRingProofs2
  SpSelModel NttModel NttSpec NttProofs NttProofs2 NttProofs3 NttProofs4 NttProofs5 SpSrvModel SpSrvSpec SpSrvProofs1 SpSrvProofs2.
Import ListNotations.
Local Open Scope N_scope.
Local Notation zN := Z.of_N.

Notation crow := ct_row (only parsing).
Definition no_mat : raw_mat := RawMat 0 0 [].

Lemma psum_zsum : forall k f z, psum k f z = zsum k (fun i => f i z).
Proof. induction k as [|k IH]; intros f z; [reflexivity|]. cbn [psum]. rewrite zsum_S, IH. reflexivity. Qed.

Section Expand.
Variables (avx : bool) (L : nat) (psi : nat -> Z) (NP : ntt_params) (P : sel_params) (inv : N -> N -> N).
Hypothesis HW : srv_ok L psi NP P inv.
Set Default Proof Using "L psi NP P inv HW Hml".
Local Notation n := (2 ^ L)%nat.
Local Notation q := (sp_q P).
Local Notation W := (length (np_moduli NP) * np_len NP)%nat.
Local Notation hasp := (has L psi NP).
Local Notation nttm := (nttm L psi NP).
Local Notation rawm := (rawm L).
Hypothesis Hml : (sp_ml P <= 62)%nat.

(** A ciphertext, and a matrix with two rows given by its columns. *)
Definition colsm (k : nat) (m : raw_mat) (w : nat -> ct) : Prop := nttm 2 k m (fun r j => crow (w j) r).
Definition ctm (m : raw_mat) (c : ct) : Prop := colsm 1 m (fun _ => c).
Definition rctm (m : raw_mat) (c : ct) : Prop := rawm 2 1 m (fun r _ z => (crow c r z mod q)%Z).

Lemma ctm_lincomb : forall k A w B d m, colsm k A w -> nttm k 1 B (fun x _ => d x) ->
  nttm 2 1 m (mat_product n k (fun r j => crow (w j) r) (fun x _ => d x)) -> ctm m (lincomb P k w d).
Proof.
  intros k A w B d m HA HB Hm. eapply (nttm_peq _ _ _ _ _ HW _ _ _ _ _ Hm). intros r c Hr Hc z Hz. apply eqm_eq.
  destruct r as [|[|r]]; [| |lia]; cbn [crow lincomb fst snd]; rewrite psum_zsum; unfold mat_product, pmul, crow; rewrite (Hlen _ _ _ _ _ HW); reflexivity.
Qed.


Lemma word_index : forall r c i, (c < 2)%nat -> (i < n)%nat ->
  ((r * W + (c * n + i)) / W = r /\ (r * W + (c * n + i)) mod W = c * n + i /\ (c * n + i) / n = c /\ (r * W + (c * n + i)) mod n = i)%nat.
Proof.
  intros r c i Hc Hi. rewrite (W_n _ _ _ _ _ HW).
  assert (H1 : (c * n + i < 2 * n)%nat) by nia.
  destruct (div_mod_unique2 r (2 * n) (c * n + i) H1) as [A B]. destruct (div_mod_unique2 c n i Hi) as [C D].
  split; [exact A|]. split; [exact B|]. split; [exact C|].
  replace (r * (2 * n) + (c * n + i))%nat with ((2 * r + c) * n + i)%nat by lia.
  apply (div_mod_unique2 (2 * r + c) n i Hi).
Qed.

(** A 2 by 1 matrix computed word by word. *)
Lemma words_r : forall (f : nat -> outcome N) (a : nat -> poly),
  (forall r c i, (r < 2)%nat -> (c < 2)%nat -> (i < n)%nat -> exists v, f (r * W + (c * n + i))%nat = Ok v
     /\ v <= nth c (np_moduli NP) 0 /\ eqm (zN (nth c (np_moduli NP) 0%N)) (zN v) (peval n (a r) (ntt_point (psi c) L i))) ->
  exists d, map_out f (seq 0 (2 * W)) = Ok d /\ nttm 2 1 (RawMat 2 1 d) (fun r _ => a r).
Proof.
  intros f a H. pose proof (W_n _ _ _ _ _ HW) as EW. pose proof (Hcrt _ _ _ _ _ HW) as EC.
  destruct (map_out_seq_nth N f (fun k v => forall r c i, (r < 2)%nat -> (c < 2)%nat -> (i < n)%nat -> k = (r * W + (c * n + i))%nat ->
     v <= nth c (np_moduli NP) 0 /\ eqm (zN (nth c (np_moduli NP) 0%N)) (zN v) (peval n (a r) (ntt_point (psi c) L i))) (2 * W) 0) as (d & E & Ld & Hd).
  - intros k Hk. rewrite EW in Hk.
    assert (n <> 0)%nat by (pose proof (n_pos L); lia).
    set (r := (k / (2 * n))%nat). set (c := ((k mod (2 * n)) / n)%nat). set (i := (k mod (2 * n) mod n)%nat).
    assert (Hr : (r < 2)%nat) by (apply Nat.div_lt_upper_bound; lia).
    pose proof (Nat.mod_upper_bound k (2 * n) ltac:(lia)) as Hb.
    assert (Hc : (c < 2)%nat) by (apply Nat.div_lt_upper_bound; lia).
    assert (Hi : (i < n)%nat) by (apply Nat.mod_upper_bound; assumption).
    assert (Ek : k = (r * W + (c * n + i))%nat).
    { rewrite EW. pose proof (Nat.div_mod k (2 * n) ltac:(lia)). pose proof (Nat.div_mod (k mod (2 * n)) n ltac:(lia)). fold r in H1. fold c i in H2. lia. }
    destruct (H r c i Hr Hc Hi) as (v & Ev & V1 & V2). exists v. split; [rewrite Ek; exact Ev|].
    intros r' c' i' Hr' Hc' Hi' Ek'. destruct (word_index r c i Hc Hi) as (I1 & I2 & I3 & I4). destruct (word_index r' c' i' Hc' Hi') as (J1 & J2 & J3 & J4).
    rewrite <- Ek in I1, I2, I4. rewrite <- Ek' in J1, J2, J4. assert (E1 : r' = r) by congruence. assert (E2 : i' = i) by congruence.
    assert (E3 : c' = c) by (rewrite I2 in J2; rewrite J2 in I3; congruence). rewrite E1, E2, E3. split; [exact V1|exact V2].
  - exists d. split; [exact E|]. split.
    + split; [reflexivity|]. split; [reflexivity|]. cbn [rm_data]. lia.
    + intros r c Hr Hc k i Hk Hi. assert (c = 0%nat) by lia. subst c. rewrite EC in Hk.
      assert (Hki : (k * n + i < W)%nat) by (rewrite EW; nia).
      assert (ES : slot L (poly_at W (RawMat 2 1 d) r 0) k i = nth (r * W + (k * n + i))%nat d 0).
      { unfold slot. rewrite poly_at_nth by exact Hki. cbn [rm_cols rm_data]. f_equal. lia. }
      unfold zslot. rewrite ES. apply (Hd (r * W + (k * n + i))%nat); [nia|assumption|assumption|assumption|reflexivity].
Qed.
Lemma word_of : forall m c r k i, ctm m c -> (r < 2)%nat -> (k < 2)%nat -> (i < n)%nat ->
  get (r * W + (k * n + i)) (rm_data m) = Ok (nth (r * W + (k * n + i))%nat (rm_data m) 0)
  /\ nth (r * W + (k * n + i))%nat (rm_data m) 0 <= nth k (np_moduli NP) 0
  /\ eqm (zN (nth k (np_moduli NP) 0)) (zN (nth (r * W + (k * n + i))%nat (rm_data m) 0)) (peval n (crow c r) (ntt_point (psi k) L i)).
Proof.
  intros m c r k i [(S1 & S2 & S3) H] Hr Hk Hi. pose proof (W_n _ _ _ _ _ HW) as EW. pose proof (Hcrt _ _ _ _ _ HW) as EC.
  assert (Hki : (k * n + i < W)%nat) by (rewrite EW; nia).
  split; [apply get_nth; rewrite S3; nia|].
  assert (ES : slot L (poly_at W m r 0) k i = nth (r * W + (k * n + i))%nat (rm_data m) 0).
  { unfold slot. rewrite poly_at_nth by exact Hki. rewrite S2. f_equal. lia. }
  destruct (H r 0%nat Hr ltac:(lia) k i ltac:(lia) Hi) as [H1 H2]. unfold zslot in H2. rewrite ES in H1, H2. split; assumption.
Qed.

Definition keysm (d : nat) (lw : list raw_mat) (lr : list (nat -> ct)) : Prop :=
  length lw = length lr /\ forall i, (i < length lw)%nat -> colsm d (nth i lw no_mat) (nth i lr (fun _ => ct_zero)).
Local Notation small_digits := (small_digits NP P).

(** action_expand past the early returns. *)
Lemma action_body_r : forall i digits w wr fj f, small_digits digits -> colsm digits w wr -> ctm fj f ->
  exists m,
    (do ct <- from_ntt_into avx NP inv 2 1 fj;
     do ct_auto <- automorphism NP P (np_len NP / 2 ^ i + 1) ct;
     do gi_ct <- gadget_invert_rdim (np_len NP) (sp_ml P) (raw_zero (np_len NP) digits 1) ct_auto 1;
     do gi_ct_ntt <- to_ntt_no_reduce avx NP gi_ct;
     do ct_auto1 <- read_poly (np_len NP) ct_auto 1 0;
     do ct_auto1_ntt <- to_ntt avx NP (RawMat 1 1 ct_auto1);
     do wg <- multiply_into avx NP 2 1 w gi_ct_ntt;
     do d <- map_out (fun idx =>
              let row_idx := N.of_nat (idx / W) in
              let c := ((idx mod W) / np_len NP)%nat in
              let z := (idx mod np_len NP)%nat in
              do x <- get idx (rm_data fj);
              do y <- get idx (rm_data wg);
              do u <- get (c * np_len NP + z) (rm_data ct_auto1_ntt);
              let sum := u64 (u64 (x + y) + u64 (row_idx * u)) in
              do cr1 <- cr1_at NP c;
              do m <- modulus_at NP c;
              Ok (barrett_raw_u64 sum cr1 m)) (seq 0 (2 * W));
     Ok (RawMat 2 1 d)) = Ok m
    /\ ctm m (expand_one P i digits wr f).
Proof.
  intros i digits w wr fj f [Hd1 Hd2] Hw Hf. pose proof (q_bounds _ _ _ _ _ HW) as QB. pose proof (len_n _ _ _ _ _ HW) as En. rewrite En.
  destruct (from_ntt_into_r avx _ _ _ _ _ HW 2 1 fj _ Hf) as (ct & -> & R1). cbn [bind].
  destruct (automorphism_r _ _ _ _ _ HW 2 1 (n / 2 ^ i + 1)%nat ct _ R1) as (ca & -> & R2). cbn [bind].
  assert (B : forall r z, (r < 2)%nat -> (z < n)%nat -> (praut n q (n / 2 ^ i + 1)%nat (crow f r) z < 2 ^ 64)%Z).
  { intros r z Hr Hz. pose proof (praut_range n q (n_pos L) (n / 2 ^ i + 1)%nat (crow f r) z ltac:(lia)). lia. }
  destruct (ginv_r _ _ _ _ _ HW digits 1 2 (raw_zero n digits 1) ca (fun r _ => praut n q (n / 2 ^ i + 1)%nat (crow f r)) Hd1 ltac:(lia) Hml) as (gi & E3 & R3); [|exact R2|exact B|].
  { rewrite Nat.mul_1_r. apply (raw_zero_sized _ _ _ _ _ HW). }
  rewrite E3. cbn [bind]. rewrite Nat.mul_1_r in R3.
  assert (R3' : rawm digits 1 gi (fun x _ => rdigit (bits_for P digits) x (praut n q (n / 2 ^ i + 1)%nat (fst f)))).
  { eapply (rawm_ext _ _ _ _ _ HW); [exact R3|]. intros r c z Hr Hc Hz. cbv beta. rewrite Nat.div_1_r. reflexivity. }
  destruct (to_ntt_no_reduce_r avx _ _ _ _ _ HW digits 1 gi _ R3') as (gn & -> & R4).
  { intros r c z k Hr Hc Hz Hk. eapply Z.lt_le_trans; [apply (rdigit_range _ _ _ _ _ HW)|]. apply Hd2, Hk. }
  cbn [bind]. rewrite (read_ok n 2 1 ca 1 0 (proj1 R2)) by lia. cbn [bind].
  destruct (rawm_poly _ _ _ _ _ HW _ _ _ _ 1%nat 0%nat R2 ltac:(lia) ltac:(lia)) as [P1 P2].
  destruct (to_ntt_r avx _ _ _ _ _ HW 1 1 (RawMat 1 1 (poly_at n ca 1 0)) (fun _ _ => praut n q (n / 2 ^ i + 1)%nat (snd f))) as (c1 & -> & R5).
  { split; [split; [reflexivity|]; split; [reflexivity|]; cbn [rm_data]; lia|]. intros r c z Hr Hc Hz. assert (r = 0%nat) by lia. assert (c = 0%nat) by lia. subst.
    rewrite poly_at_nth by exact Hz. cbn [rm_data rm_cols Nat.mul Nat.add]. apply P2, Hz. }
  { intros r c z Hr Hc Hz. apply (B 1%nat); [lia|exact Hz]. }
  cbn [bind]. destruct (multiply_into_r avx _ _ _ _ _ HW 2 digits 1 w gn _ _ Hw R4) as (wg & -> & R6). cbn [bind].
  apply ctm_lincomb with (A := w) (B := gn) in R6; [|exact Hw|exact R4].
  match goal with |- context [map_out ?g (seq 0 ?K)] => destruct (words_r g (crow (expand_one P i digits wr f))) as (d & Ed & Rd) end.
  - intros r c z Hr Hc Hz. destruct (word_index r c z Hc Hz) as (I1 & I2 & I3 & I4). rewrite En in I1, I2, I4 |- *. cbv zeta.
    rewrite I1, I2, I3, I4.
    destruct (word_of fj f r c z Hf Hr Hc Hz) as (X0 & X1 & X2). rewrite En in X0, X1, X2. rewrite X0. cbn [bind].
    destruct (word_of wg _ r c z R6 Hr Hc Hz) as (Y0 & Y1 & Y2). rewrite En in Y0, Y1, Y2. rewrite Y0. cbn [bind].
    destruct R5 as [(Z1 & Z2 & Z3) Z4]. pose proof (W_n _ _ _ _ _ HW) as EW. pose proof (Hcrt _ _ _ _ _ HW) as EC.
    assert (Hki : (c * n + z < W)%nat) by (rewrite EW; nia). rewrite En in Z3, EW, Hki.
    rewrite get_nth by (rewrite Z3; lia). cbn [bind].
    destruct (Z4 0%nat 0%nat ltac:(lia) ltac:(lia) c z ltac:(lia) Hz) as [U1 U2].
    rewrite En in U1, U2.
    assert (ES : slot L (poly_at (length (np_moduli NP) * n) c1 0 0) c z = nth (c * n + z)%nat (rm_data c1) 0).
    { unfold slot. rewrite poly_at_nth by exact Hki. f_equal. }
    unfold zslot in U2. rewrite ES in U1, U2. clear Z4 ES.
    set (x := nth (r * (length (np_moduli NP) * n) + (c * n + z))%nat (rm_data fj) 0) in *. set (y := nth (r * (length (np_moduli NP) * n) + (c * n + z))%nat (rm_data wg) 0) in *.
    set (u := nth (c * n + z)%nat (rm_data c1) 0) in *.
    destruct (modulus_get L psi NP (HP _ _ _ _ _ HW) c ltac:(lia)) as (cr1 & M1 & M2 & M3). rewrite M2. cbn [bind]. rewrite M1. cbn [bind].
    eexists. split; [reflexivity|]. destruct (mod_bounds _ _ _ _ _ HW c Hc) as [Q1 Q2]. unfold qc in *. set (m := nth c (np_moduli NP) 0) in *.
    change (2 ^ 30) with 1073741824 in Q2.
    assert (Hru : N.of_nat r * u <= m) by (assert (N.of_nat r <= 1) by lia; nia).
    rewrite (u64_small (x + y)) by (change (2 ^ 64) with 18446744073709551616; lia).
    rewrite (u64_small (N.of_nat r * u)) by (change (2 ^ 64) with 18446744073709551616; lia).
    rewrite u64_small by (change (2 ^ 64) with 18446744073709551616; lia). rewrite M3 by (change (2 ^ 64) with 18446744073709551616; lia).
    split; [apply N.lt_le_incl, N.mod_lt; lia|].
    rewrite N2Z.inj_mod, !N2Z.inj_add, N2Z.inj_mul by lia. eapply eqm_trans; [apply eqm_mod; lia|].
    eapply eqm_trans; [apply eqm_add; [apply eqm_add; [exact X2|exact Y2]|apply eqm_mul; [apply eqm_refl|exact U2]]|]. apply eqm_eq.
    unfold expand_one, ct_add, round_t. cbv zeta. rewrite (Hlen _ _ _ _ _ HW).
    destruct r as [|[|r]]; [| |lia]; cbn [crow fst snd lincomb]; unfold padd; rewrite !peval_add.
    + change (Z.of_N (N.of_nat 0)) with 0%Z. replace (peval n pzero (ntt_point (psi c) L z)) with 0%Z; [ring|].
      unfold peval, pzero. rewrite (zsum_ext n _ (fun i => 0 * 0)%Z) by (intros; ring). rewrite zsum_scale. reflexivity.
    + change (Z.of_N (N.of_nat 1)) with 1%Z. ring.
  - rewrite En in Ed. rewrite Ed. cbn [bind]. eexists. split; [reflexivity|exact Rd].
Qed.

Lemma action_r : forall stop maxr lw rw lr rr i j fj f, small_digits (sp_left P) -> small_digits (sp_right P) ->
  keysm (sp_left P) lw lr -> keysm (sp_right P) rw rr -> (i < length lw)%nat -> (i < length rw \/ (0 < stop < i))%nat -> ctm fj f ->
  exists m, w_action avx NP inv P stop maxr lw rw i j fj = Ok m /\ ctm m (action_expand P stop maxr lr rr i j f).
Proof.
  intros stop maxr lw rw lr rr i j fj f D1 D2 [K1 K2] [K3 K4] Hi1 Hi2 Hf. unfold w_action, action_expand. cbv zeta.
  destruct ((0 <? stop) && (stop <? i) && (j mod 2 =? 1) || (0 <? stop) && (i =? stop) && (j mod 2 =? 1) && (maxr <=? j / 2))%nat%bool eqn:C; [exists fj; auto|].
  destruct (negb (i =? 0) && (j mod 2 =? 0))%nat%bool eqn:U.
  - rewrite (proj2 (Nat.ltb_lt i (length lw)) Hi1). cbn [enforce]. rewrite (get_lt _ no_mat i lw Hi1). cbn [bind].
    apply (action_body_r i (sp_left P) _ _ fj f D1 (K2 i Hi1) Hf).
  - assert (Hi3 : (i < length rw)%nat).
    { destruct Hi2 as [H|H]; [exact H|]. exfalso. rewrite (proj2 (Nat.ltb_lt 0 stop)), (proj2 (Nat.ltb_lt stop i)) in C by lia. cbn [andb] in C.
      apply orb_false_iff in C as [C _]. rewrite (proj2 (Nat.eqb_neq i 0)) in U by lia. cbn [negb andb] in U.
      apply Nat.eqb_neq in C, U. pose proof (Nat.mod_upper_bound j 2 ltac:(lia)). lia. }
    rewrite (proj2 (Nat.ltb_lt i (length rw)) Hi3). cbn [enforce]. rewrite (get_lt _ no_mat i rw Hi3). cbn [bind].
    apply (action_body_r i (sp_right P) _ _ fj f D2 (K4 i Hi3) Hf).
Qed.
End Expand.
