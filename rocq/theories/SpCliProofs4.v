(** The query and the secret keys of the Spiral client on words. *)
From Coq Require Import List Arith NArith ZArith Bool Lia Permutation.
From Verif Require Import Base StoreModel StoreProofs PirPackModel PirPackProofs2 SpArithModel SpArithProofs SpArithProofs2 SpLoopModel SpLoopProofs
  SpGadgetModel SpGadgetSpec SpGadgetProofs SpDecodeModel SpDecodeSpec SpDecodeProofs2 SpRingModel SpRingSpec SpRingProofs SpRingProofs2
  SpSelModel NttModel NttSpec NttProofs NttProofs2 NttProofs3 NttProofs4 NttProofs5 SpSrvModel SpSrvSpec SpSrvProofs1 SpSrvProofs2 SpSrvProofs3 SpSrvProofs4 SpSrvProofs5
  SpSrvProofs6 SpSrvProofs7 SpSelProofs5 SpCliModel SpCliSpec SpCliProofs1 SpCliProofs2 SpCliProofs3.
Import ListNotations.
Local Open Scope N_scope.
Local Notation zN := Z.of_N.

(** A list of length n with the entries f. *)
Definition lst (n : nat) (f : nat -> N) (l : list N) : Prop := length l = n /\ forall z, (z < n)%nat -> nth z l 0 = f z.
Lemma lst_put : forall n f l p x g, lst n f l -> (p < n)%nat -> (forall z, (z < n)%nat -> g z = if (z =? p)%nat then x else f z) ->
  exists l', put p x l = Ok l' /\ lst n g l'.
Proof.
  intros n f l p x g [H1 H2] Hp Hg. destruct (put_lt N 0 p x l) as (l' & E & L' & N'); [lia|]. exists l'. split; [exact E|]. split; [lia|].
  intros z Hz. rewrite N', Hg by exact Hz. destruct (z =? p)%nat; [reflexivity|apply H2, Hz].
Qed.
Lemma lst_get : forall n f l p, lst n f l -> (p < n)%nat -> get p l = Ok (f p).
Proof. intros n f l p [H1 H2] Hp. rewrite (get_lt N 0) by lia. rewrite H2 by exact Hp. reflexivity. Qed.
Lemma lst_ext : forall n f g l, lst n f l -> (forall z, (z < n)%nat -> f z = g z) -> lst n g l.
Proof. intros n f g l [H1 H2] E. split; [exact H1|]. intros z Hz. rewrite H2 by exact Hz. apply E, Hz. Qed.
Lemma lst_zero : forall n, lst n (fun _ => 0) (repeat 0 n).
Proof. intros n. split; [apply repeat_length|]. intros. apply nth_repeat. Qed.

Lemma even_mod : forall z, Nat.even z = (z mod 2 =? 0)%nat.
Proof.
  intros z. destruct (Nat.even z) eqn:E; symmetry.
  - apply Nat.eqb_eq. apply Nat.even_spec in E as [y ->]. rewrite Nat.mul_comm. apply Nat.mod_mul. lia.
  - apply Nat.eqb_neq. assert (O : Nat.odd z = true) by (unfold Nat.odd; rewrite E; reflexivity). apply Nat.odd_spec in O as [y ->].
    rewrite Nat.add_comm, Nat.mul_comm, Nat.mod_add by lia. discriminate.
Qed.
Lemma half_even : forall z i, (z =? 2 * i)%nat = (Nat.even z && (z / 2 =? i)%nat)%bool.
Proof.
  intros z i. rewrite even_mod. pose proof (Nat.div_mod z 2 ltac:(lia)). pose proof (Nat.mod_upper_bound z 2 ltac:(lia)).
  destruct (Nat.eqb_spec z (2 * i)), (Nat.eqb_spec (z mod 2) 0), (Nat.eqb_spec (z / 2) i); try reflexivity; lia.
Qed.
Lemma half_odd : forall z i, (z =? 2 * i + 1)%nat = (negb (Nat.even z) && (z / 2 =? i)%nat)%bool.
Proof.
  intros z i. rewrite even_mod. pose proof (Nat.div_mod z 2 ltac:(lia)). pose proof (Nat.mod_upper_bound z 2 ltac:(lia)).
  destruct (Nat.eqb_spec z (2 * i + 1)), (Nat.eqb_spec (z mod 2) 0), (Nat.eqb_spec (z / 2) i); try reflexivity; lia.
Qed.
Lemma even_2 : forall i, Nat.even (2 * i) = true.
Proof. intros i. apply Nat.even_spec. exists i. reflexivity. Qed.
Lemma even_21 : forall i, Nat.even (2 * i + 1) = false.
Proof. intros i. rewrite even_mod. rewrite Nat.add_comm, Nat.mul_comm, Nat.mod_add by lia. reflexivity. Qed.
Lemma div_2 : forall i, (2 * i / 2 = i)%nat.
Proof. intros i. rewrite Nat.mul_comm. apply Nat.div_mul. lia. Qed.
Lemma div_21 : forall i, ((2 * i + 1) / 2 = i)%nat.
Proof. intros i. rewrite Nat.add_comm, Nat.mul_comm, Nat.div_add by lia. reflexivity. Qed.

Lemma gcd_two : forall m, N.odd m = true -> N.gcd 2 m = 1.
Proof.
  intros m O. pose proof (N.gcd_divide_l 2 m) as D. pose proof (N.gcd_divide_r 2 m) as D'. set (g := N.gcd 2 m) in *.
  pose proof (N.divide_pos_le g 2 ltac:(lia) D). assert (C : g = 0 \/ g = 1 \/ g = 2) by lia.
  destruct C as [C|[C|C]]; [rewrite C in D; destruct D as [x Hx]; lia|exact C|].
  rewrite C in D'. destruct D' as [x Hx]. rewrite Hx, N.odd_mul in O. cbn in O. rewrite andb_false_r in O. discriminate.
Qed.
Lemma gcd_pow2 : forall m k, N.odd m = true -> N.gcd (2 ^ N.of_nat k) m = 1.
Proof.
  intros m k O. pose proof (gcd_two m O) as G. induction k as [|k IH]; [apply N.gcd_1_l|]. rewrite Nat2N.inj_succ, N.pow_succ_r'.
  set (x := 2 ^ N.of_nat k) in *. pose proof (N.gcd_divide_l (2 * x) m) as D. pose proof (N.gcd_divide_r (2 * x) m) as D'. set (d := N.gcd (2 * x) m) in *.
  assert (Gd : N.gcd d 2 = 1).
  { apply N.divide_1_r. rewrite <- G. apply N.gcd_greatest; [apply N.gcd_divide_r|]. eapply N.divide_trans; [apply N.gcd_divide_l|exact D']. }
  apply N.divide_1_r. rewrite <- IH. apply N.gcd_greatest; [|exact D']. eapply N.gauss; [exact D|exact Gd].
Qed.

Section Query.
Variables (avx : bool) (L : nat) (psi : nat -> Z) (NP : ntt_params) (P : sel_params) (inv : N -> N -> N) (dg : gaussian).
Hypothesis HW : srv_ok L psi NP P inv.
Hypothesis Hml : (sp_ml P <= 62)%nat.
Hypothesis Hcdf : length (dg_cdf dg) = (2 * dg_max dg + 1)%nat.
Hypothesis Hdg : (Z.of_nat (dg_max dg) < sp_q P)%Z.
Local Notation n := (2 ^ L)%nat.
Local Notation q := (sp_q P).
Local Notation W := (length (np_moduli NP) * np_len NP)%nat.
Local Notation nttm := (nttm L psi NP).
Local Notation rawm := (rawm L).
Local Notation bounded := (bounded dg).
Local Notation advanced := (advanced L).
Local Notation mask := (mask L P).
Set Default Proof Using "avx L psi NP P inv dg HW Hml Hcdf Hdg".

Variable idx : nat.
Hypothesis Hv2 : (0 < sp_v2 P)%nat.
Hypothesis Hgsw : (1 <= sp_gsw P)%nat.
Hypothesis Hg : (sp_g P <= L)%nat.
Hypothesis Hhalf : (sp_gsw P * sp_v2 P <= 2 ^ sp_g P / 2)%nat.
Hypothesis Hp : (0 < sp_p P <= q)%Z.
Hypothesis Hbits : forall k, (k < sp_gsw P)%nat -> (bits_for P (sp_gsw P) * k < 64)%nat.
Set Default Proof Using "avx L psi NP P inv dg HW Hml Hcdf Hdg idx Hv2 Hgsw Hg Hhalf Hp Hbits".

Lemma dims : (2 * 2 ^ sp_v1 P <= n)%nat /\ (2 * (sp_v2 P * sp_gsw P) <= n)%nat.
Proof.
  pose proof (Nat.pow_le_mono_r 2 (sp_g P) L ltac:(lia) Hg) as HL. split.
  - unfold sp_g in HL. pose proof (Nat.log2_up_spec (sp_gsw P * sp_v2 P + 2 ^ sp_v1 P)) as U.
    pose proof (Nat.pow_nonzero 2 (sp_v1 P) ltac:(lia)). assert (1 <= sp_gsw P * sp_v2 P)%nat by nia. specialize (U ltac:(lia)).
    assert (sp_v1 P < Nat.log2_up (sp_gsw P * sp_v2 P + 2 ^ sp_v1 P))%nat by (apply (Nat.pow_lt_mono_r_iff 2); lia).
    change (2 * 2 ^ sp_v1 P)%nat with (2 ^ S (sp_v1 P))%nat. etransitivity; [|exact HL]. apply Nat.pow_le_mono_r; lia.
  - pose proof (Nat.div_mod (2 ^ sp_g P) 2 ltac:(lia)). nia.
Qed.

Lemma inv_pow : forall k, inv (2 ^ N.of_nat k) (w_modulus P) < w_modulus P /\ eqm q (2 ^ Z.of_nat k * zN (inv (2 ^ N.of_nat k) (w_modulus P))) 1.
Proof.
  intros k. pose proof (q_ge2 avx L psi NP P inv dg HW Hml Hcdf Hdg) as Q2. pose proof (w_mod_z avx L psi NP P inv dg HW Hml Hcdf Hdg) as WZ.
  assert (O : N.odd (w_modulus P) = true).
  { destruct HW as ((_ & _ & _ & M) & _ & H2 & _ & _ & Eq). unfold w_modulus. rewrite Eq, N2Z.id.
    pose proof (M 0%nat ltac:(lia)) as (_ & _ & O0 & _). pose proof (M 1%nat ltac:(lia)) as (_ & _ & O1 & _).
    destruct (np_moduli NP) as [|a [|b [|]]]; try discriminate. cbn [nth] in O0, O1. unfold nprod. cbn [fold_right]. rewrite N.mul_1_r, N.odd_mul, O0, O1. reflexivity. }
  assert (G : N.gcd (2 ^ N.of_nat k) (w_modulus P) = 1) by (apply gcd_pow2, O).
  destruct HW as (_ & _ & _ & _ & Hi & _). destruct (Hi _ (w_modulus P) G ltac:(lia)) as [I1 I2]. split; [exact I1|].
  rewrite <- WZ at 1. apply (f_equal Z.of_N) in I2. rewrite N2Z.inj_mod, N2Z.inj_mul, N2Z.inj_pow, nat_N_Z in I2.
  assert (E : eqm (zN (w_modulus P)) (2 ^ Z.of_nat k * zN (inv (2 ^ N.of_nat k) (w_modulus P))) ((2 ^ Z.of_nat k * zN (inv (2 ^ N.of_nat k) (w_modulus P))) mod zN (w_modulus P)))
    by (apply eqm_sym, eqm_mod; lia).
  change (zN 2) with 2%Z in I2. rewrite I2 in E. exact E.
Qed.

Definition first_of (z : nat) : N := if (Nat.even z && (z / 2 =? idx / 2 ^ sp_v2 P)%nat)%bool then w_modulus P / Z.to_N (sp_p P) else 0.
Definition bit_of (i : nat) : N := if Nat.testbit (idx mod 2 ^ sp_v2 P) (i / sp_gsw P) then 2 ^ N.of_nat (bits_for P (sp_gsw P) * (i mod sp_gsw P)) else 0.
Definition raw_of (k z : nat) : N := if Nat.even z then first_of z else if (z / 2 <? k)%nat then bit_of (z / 2) else 0.

Lemma gen_sigma_r : (idx < 2 ^ (sp_v1 P + sp_v2 P))%nat ->
  exists w sigma, gen_sigma NP inv P idx = Ok w
    /\ query_sigma P idx (zN (inv (2 ^ N.of_nat (sp_g P)) (w_modulus P))) (zN (inv (2 ^ N.of_nat (sp_stop P + 1)) (w_modulus P))) = Ok sigma
    /\ length w = n /\ forall z, (z < n)%nat -> zN (nth z w 0) = sigma z.
Proof.
  intros Hidx. destruct dims as [D1 D2]. pose proof (q_ge2 avx L psi NP P inv dg HW Hml Hcdf Hdg) as Q2. pose proof (w_mod_z avx L psi NP P inv dg HW Hml Hcdf Hdg) as WZ.
  destruct (bits_ok _ _ _ _ _ HW (sp_gsw P) Hgsw Hml) as [HB _]. destruct (crs_q avx L psi NP P inv dg HW Hml Hcdf Hdg) as (cr0 & cr1 & EC).
  unfold gen_sigma. rewrite HB, EC. cbn [bind]. rewrite (proj2 (Nat.eqb_neq (sp_v2 P) 0)) by lia. rewrite (len_n _ _ _ _ _ HW).
  destruct (inv_pow (sp_g P)) as [I1 _]. destruct (inv_pow (sp_stop P + 1)) as [I2 _].
  set (i1 := inv (2 ^ N.of_nat (sp_g P)) (w_modulus P)) in *. set (i2 := inv (2 ^ N.of_nat (sp_stop P + 1)) (w_modulus P)) in *.
  assert (Hi0 : (idx / 2 ^ sp_v2 P < 2 ^ sp_v1 P)%nat).
  { apply Nat.div_lt_upper_bound; [apply Nat.pow_nonzero; lia|]. rewrite Nat.pow_add_r in Hidx. lia. }
  match goal with |- context [loop (2 ^ sp_v1 P) 0 ?f _] =>
    destruct (loop_rule (list N) (2 ^ sp_v1 P) 0 f (fun j l => lst n (fun z => if (z / 2 <? j)%nat then first_of z else 0) l) (repeat 0 n)) as (s1 & E1 & H1) end.
  { eapply lst_ext; [apply lst_zero|]. reflexivity. }
  { intros i l Hi Hl. destruct (Nat.eqb_spec i (idx / 2 ^ sp_v2 P)) as [Ei|Ei].
    - eapply lst_put; [exact Hl|lia|]. intros z Hz. cbv beta. unfold first_of. rewrite half_even, <- Ei.
      destruct (Nat.even z); cbn [andb]; [|destruct (_ <? _)%nat, (_ <? _)%nat; reflexivity].
      destruct (Nat.eqb_spec (z / 2) i) as [->|Hne]; [rewrite (proj2 (Nat.ltb_lt i (i + 1))) by lia; reflexivity|].
      destruct (_ <? _)%nat, (_ <? _)%nat; reflexivity.
    - exists l. split; [reflexivity|]. eapply lst_ext; [exact Hl|]. intros z Hz. cbv beta. unfold first_of.
      destruct (Nat.ltb_spec (z / 2) i), (Nat.ltb_spec (z / 2) (i + 1)); try reflexivity; try lia.
      rewrite (proj2 (Nat.eqb_neq (z / 2) (idx / 2 ^ sp_v2 P))) by lia. rewrite andb_false_r. reflexivity. }
  rewrite E1. cbn [bind].
  assert (H1' : lst n (raw_of 0) s1).
  { eapply lst_ext; [exact H1|]. intros z Hz. cbv beta. unfold raw_of, first_of. destruct (Nat.even z); cbn [andb]; [|destruct (_ <? _)%nat; reflexivity].
    destruct (Nat.ltb_spec (z / 2) (0 + 2 ^ sp_v1 P)); [reflexivity|]. rewrite (proj2 (Nat.eqb_neq (z / 2) (idx / 2 ^ sp_v2 P))) by lia. reflexivity. }
  match goal with |- context [loop (sp_v2 P) 0 ?f _] =>
    destruct (loop_rule (list N) (sp_v2 P) 0 f (fun l s => lst n (raw_of (l * sp_gsw P)) s) s1) as (s2 & E2 & H2) end.
  { exact H1'. }
  { intros l s Hl Hs. match goal with |- exists x, loop _ _ ?f _ = _ /\ _ =>
      destruct (loop_rule (list N) (sp_gsw P) 0 f (fun k s => lst n (raw_of (l * sp_gsw P + k)) s) s) as (s' & E' & H') end.
    - rewrite Nat.add_0_r. exact Hs.
    - intros k s' Hk Hs'. pose proof (Hbits k ltac:(lia)) as Hbk. rewrite (proj2 (Nat.leb_gt 64 _)) by lia.
      assert (Hlk : (l * sp_gsw P + k < sp_v2 P * sp_gsw P)%nat) by nia.
      assert (Bk : bit_of (l * sp_gsw P + k) = if Nat.testbit (idx mod 2 ^ sp_v2 P) l then 2 ^ N.of_nat (bits_for P (sp_gsw P) * k) else 0).
      { unfold bit_of. rewrite (Nat.add_comm (l * sp_gsw P) k), (Nat.div_add k l (sp_gsw P)), (Nat.mod_add k l (sp_gsw P)), (Nat.div_small k (sp_gsw P)), (Nat.mod_small k (sp_gsw P)) by lia. reflexivity. }
      replace (if Nat.testbit (idx mod 2 ^ sp_v2 P) l then Ok (2 ^ N.of_nat (bits_for P (sp_gsw P) * k)) else Ok 0) with (Ok (bit_of (l * sp_gsw P + k)))
        by (rewrite Bk; destruct (Nat.testbit _ l); reflexivity).
      cbn [bind]. eapply lst_put; [exact Hs'|lia|]. intros z Hz. unfold raw_of. rewrite half_odd. destruct (Nat.even z); cbn [negb andb]; [reflexivity|].
      destruct (Nat.eqb_spec (z / 2) (l * sp_gsw P + k)) as [->|Hne]; [rewrite (proj2 (Nat.ltb_lt _ _)) by lia; reflexivity|].
      destruct (Nat.ltb_spec (z / 2) (l * sp_gsw P + k)), (Nat.ltb_spec (z / 2) (l * sp_gsw P + (k + 1))); try reflexivity; lia.
    - exists s'. split; [exact E'|]. replace ((l + 1) * sp_gsw P)%nat with (l * sp_gsw P + (0 + sp_gsw P))%nat by lia. exact H'. }
  rewrite E2. cbn [bind]. cbn [Nat.add] in H2. set (R := raw_of (sp_v2 P * sp_gsw P)) in *.
  assert (En : (n = 2 * (n / 2))%nat).
  { destruct HW as ((_ & HL2 & _) & _). destruct L as [|L']; [lia|]. rewrite Nat.pow_succ_r', div_2. reflexivity. }
  assert (R64 : forall z, R z < 2 ^ 64).
  { intros z. unfold R, raw_of, first_of, bit_of. destruct (Nat.even z); [destruct (_ && _)%bool; [|lia]|destruct (_ <? _)%nat; [|lia]; destruct (Nat.testbit _ _); [|lia]].
    - assert (P1 : 1 <= Z.to_N (sp_p P)) by lia. pose proof (N.div_le_upper_bound (w_modulus P) (Z.to_N (sp_p P)) (w_modulus P) ltac:(lia) ltac:(nia)). lia.
    - apply N.pow_lt_mono_r; [lia|]. pose proof (Hbits ((z / 2) mod sp_gsw P) ltac:(apply Nat.mod_upper_bound; lia)). lia. }
  set (F := fun z => if Nat.even z then (R z * i1) mod w_modulus P else (R z * i2) mod w_modulus P).
  match goal with |- context [loop (n / 2) 0 ?f _] =>
    destruct (loop_rule (list N) (n / 2) 0 f (fun j s => lst n (fun z => if (z / 2 <? j)%nat then F z else R z) s) s2) as (s3 & E3 & H3) end.
  { eapply lst_ext; [exact H2|]. reflexivity. }
  { intros i s Hi Hs. rewrite (lst_get _ _ _ (2 * i) Hs) by lia. cbn [bind]. rewrite div_2, Nat.ltb_irrefl.
    destruct (lst_put n _ s (2 * i) (multiply_uint_mod (R (2 * i)) i1 (w_modulus P) cr0 cr1)%nat
      (fun z => if (z =? 2 * i)%nat then F z else if (z / 2 <? i)%nat then F z else R z) Hs ltac:(lia)) as (s' & E' & H').
    { intros z Hz. destruct (Nat.eqb_spec z (2 * i)) as [->|_]; [|reflexivity]. unfold F. rewrite even_2. symmetry. apply multiply_mod_exact; [lia|apply R64|lia|exact EC]. }
    rewrite E'. cbn [bind]. rewrite (lst_get _ _ _ (2 * i + 1) H') by lia. cbn [bind]. rewrite (proj2 (Nat.eqb_neq (2 * i + 1) (2 * i))), div_21, Nat.ltb_irrefl by lia.
    eapply lst_put; [exact H'|lia|]. intros z Hz. cbv beta. rewrite half_odd, half_even.
    destruct (Nat.even z) eqn:Ez; cbn [negb andb].
    - destruct (Nat.eqb_spec (z / 2) i) as [->|Hne]; [rewrite (proj2 (Nat.ltb_lt i (i + 1))) by lia; reflexivity|].
      destruct (Nat.ltb_spec (z / 2) i), (Nat.ltb_spec (z / 2) (i + 1)); try reflexivity; lia.
    - destruct (Nat.eqb_spec (z / 2) i) as [Hzi|Hne].
      + rewrite Hzi, (proj2 (Nat.ltb_lt i (i + 1))) by lia. assert (z = 2 * i + 1)%nat as ->.
        { assert (X : (z =? 2 * i + 1)%nat = true) by (rewrite half_odd, Ez, Hzi, Nat.eqb_refl; reflexivity). apply Nat.eqb_eq, X. }
        unfold F. rewrite even_21. symmetry. apply multiply_mod_exact; [lia|apply R64|lia|exact EC].
      + destruct (Nat.ltb_spec (z / 2) i), (Nat.ltb_spec (z / 2) (i + 1)); try reflexivity; lia. }
  rewrite E3. exists s3. unfold query_sigma.
  match goal with |- exists s, _ /\ (if ?b then _ else _) = _ /\ _ => replace b with false end.
  2: { symmetry. apply andb_false_iff. right. apply not_true_is_false. intros C. apply existsb_exists in C as (k & Hk & C). apply in_seq in Hk.
       apply Nat.leb_le in C. pose proof (Hbits k ltac:(lia)). lia. }
  eexists. split; [reflexivity|]. split; [reflexivity|]. split; [apply H3|]. intros z Hz. destruct H3 as [_ H3]. rewrite H3 by exact Hz.
  rewrite (proj2 (Nat.ltb_lt _ _)) by (apply Nat.div_lt_upper_bound; lia). unfold F, R, raw_of, first_of, bit_of.
  destruct (Nat.even z); cbn [andb].
  - rewrite N2Z.inj_mod, N2Z.inj_mul, WZ. do 2 f_equal. destruct (Nat.eqb_spec (z / 2) (idx / 2 ^ sp_v2 P)) as [Ez|]; [|reflexivity]. cbn [andb].
    rewrite Ez, (proj2 (Nat.ltb_lt _ _)) by exact Hi0. rewrite N2Z.inj_div, WZ, Z2N.id by lia. reflexivity.
  - rewrite N2Z.inj_mod, N2Z.inj_mul, WZ. do 2 f_equal. destruct (_ <? _)%nat; [|reflexivity]. destruct (Nat.testbit _ _); [|reflexivity].
    rewrite N2Z.inj_pow, nat_N_Z. reflexivity.
Qed.

Variable sk_reg : raw_mat.
Variable s : poly.
Hypothesis Hsk : rawm 1 1 sk_reg (fun _ _ z => (s z mod q)%Z).

Lemma gen_query_r : forall rng pub, (idx < 2 ^ (sp_v1 P + sp_v2 P))%nat -> words64 rng -> words64 pub ->
  exists m e sigma, gen_query avx NP inv P dg sk_reg idx (rng, pub) = Ok m /\ bounded e
    /\ query_sigma P idx (zN (inv (2 ^ N.of_nat (sp_g P)) (w_modulus P))) (zN (inv (2 ^ N.of_nat (sp_stop P + 1)) (w_modulus P))) = Ok sigma
    /\ rawm 2 1 m (fun r _ z => (ct_row (regev P s (mask pub 0) e sigma) r z mod q)%Z).
Proof using avx L psi NP P inv dg HW Hml Hcdf Hdg idx Hv2 Hgsw Hg Hhalf Hp Hbits Hsk.
  intros rng pub Hidx Hr Hpub. destruct (gen_sigma_r Hidx) as (w & sigma & E1 & E2 & Lw & Hw). unfold gen_query. rewrite E1. cbn [bind].
  assert (Hs : rawm 1 1 (RawMat 1 1 w) (fun _ _ => sigma)).
  { split; [split; [reflexivity|]; split; [reflexivity|]; cbn [rm_data]; lia|]. intros r c z Hr' Hc Hz. rewrite poly_at_nth by exact Hz. cbn [rm_cols rm_data].
    assert (r = 0%nat) by lia. assert (c = 0%nat) by lia. subst. apply Hw, Hz. }
  pose proof (q_bounds _ _ _ _ _ HW) as QB.
  destruct (to_ntt_r avx _ _ _ _ _ HW _ _ _ _ Hs) as (wn & En & Hn).
  { intros r c z _ _ _. revert E2. unfold query_sigma. destruct (_ && _); [discriminate|]. intros E2. injection E2 as <-. destruct (Nat.even z);
      match goal with |- (?x mod q < _)%Z => pose proof (Z.mod_pos_bound x q ltac:(lia)); lia end. }
  rewrite En. cbn [bind].
  destruct (encrypt_regev_r avx L psi NP P inv dg HW Hml Hcdf Hdg sk_reg s Hsk 1 wn (fun _ => sigma) rng pub ltac:(lia) Hn Hr Hpub)
    as (c & rng' & pub' & e & Ec & _ & _ & C3 & C4). rewrite Ec. cbn [bind].
  destruct (from_ntt_r avx _ _ _ _ _ HW _ _ _ _ C4) as (m & Em & Hm). exists m, (e 0%nat), sigma. split; [exact Em|]. split; [apply C3|]. split; [exact E2|].
  eapply (rawm_ext _ _ _ _ _ HW); [exact Hm|]. intros r k z _ Hk _. assert (k = 0%nat) by lia. subst k. reflexivity.
Qed.
End Query.
